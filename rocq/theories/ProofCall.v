(** Proofs of C16, C18, C21, C46, C51: calls. *)
From Verif Require Export ProofEval ProofArgs.
From stdpp Require Import list.
From Verif Require Import Data.
Local Open Scope string_scope.
Local Open Scope list_scope.
Local Open Scope Z_scope.

Lemma bind_ok_assoc {A B C} (p : prog (res A)) (f : A -> prog (res B)) (g : B -> prog (res C)) s o s' :
  runs denote (bind_ok (bind_ok p f) g) s o s' <-> runs denote (bind_ok p (fun x => bind_ok (f x) g)) s o s'.
Proof.
  unfold bind_ok. rewrite assoc_iff, !bind_iff. split; intros (o1 & s1 & R & H); exists o1, s1; (split; [exact R|]);
    destruct o1 as [[a|m]|w]; exact H.
Qed.
Lemma bind_ok_ext {A B} (p : prog (res A)) (f g : A -> prog (res B)) s o s' : (forall x s o s', runs denote (f x) s o s' <-> runs denote (g x) s o s') ->
  runs denote (bind_ok p f) s o s' <-> runs denote (bind_ok p g) s o s'.
Proof.
  intros E. unfold bind_ok. rewrite !bind_iff. split; intros (o1 & s1 & R & H); exists o1, s1; (split; [exact R|]);
    destruct o1 as [[a|m]|w]; try exact H; apply E, H.
Qed.
Lemma bind_ok_ok {A B} (a : A) (f : A -> prog (res B)) s o s' : runs denote (bind_ok (ok a) f) s o s' <-> runs denote (f a) s o s'.
Proof. reflexivity. Qed.
Lemma then_ok_iff {A B} (p : prog (res A)) (f : A -> prog (res B)) s x s1 o s' : runs denote p s (Done (Ok x)) s1 ->
  runs denote (bind_ok p f) s o s' <-> runs denote (f x) s1 o s'.
Proof. intros R. unfold bind_ok. rewrite (then_iff _ _ _ _ _ _ _ R). reflexivity. Qed.
Lemma then_fail_iff {A B} (p : prog (res A)) (f : A -> prog (res B)) s m s1 o s' : runs denote p s (Done (Err m)) s1 ->
  runs denote (bind_ok p f) s o s' <-> o = Done (Err m) /\ s' = s1.
Proof. intros R. unfold bind_ok. rewrite (then_iff _ _ _ _ _ _ _ R). apply ret_iff. Qed.

(** *** Parameters *)
Definition finish (le : loc) (st : mlb_state) : prog (res unit) :=
  let '(_, accp, acc) := st in
  match accp with
  | None => ok tt
  | Some p => l <- array_to_list (rev acc) ;; _ <-? bind_locally le p l ;; ok tt
  end.
Definition argument_of (ev : bool) (env : loc) : val -> state -> behaviour := if ev then evaluated env else as_it_is.
Lemma argument_of_run ev env : argument_run (argument_of ev env) (fun x => if ev then call (REval x env false) else ok x).
Proof. destruct ev; [apply evaluated_run|apply as_it_is_run]. Qed.
Section Passing.
  Context (ev : bool) (argEnv le : loc) (K : prog (res val)).
  Notation argument := (argument_of ev argEnv).
  Notation step := (mlb_step ev argEnv le).
  Notation rest_done := (fun ps vs s1 => let '(l, s2) := new_list vs s1 in then_bind le ps l s2 (fun s3 => runs denote K s3)).
  Definition whole (args : val) (st : mlb_state) : prog (res val) :=
    bind_ok (for_cells step (fun st => ok st) args st) (fun st => bind_ok (finish le st) (fun _ => K)).
  Lemma finish_rest ps q acc s o s' : runs denote (bind_ok (finish le (ps, Some q, acc)) (fun _ => K)) s o s' <-> rest_done q (rev acc) s o s'.
  Proof.
    cbn [finish]. unfold bind_ok at 1. rewrite assoc_iff. rewrite (then_iff _ _ _ _ _ _ _ (new_list_run _ _)).
    destruct (new_list (rev acc) s) as [l s2]. cbn [fst snd].
    change (runs denote (bind_ok (bind_ok (bind_locally le q l) (fun _ => ok tt)) (fun _ => K)) s2 o s' <-> then_bind le q l s2 (fun s3 => runs denote K s3) o s').
    rewrite bind_ok_assoc. exact (then_bind_iff le q l (fun _ => K) s2 o s').
  Qed.
  Definition post (o1 : outcome (res mlb_state)) (s1 : state) (o : outcome (res val)) (s' : state) : Prop :=
    match o1 with
    | Done r => runs denote (match r with Ok st => bind_ok (finish le st) (fun _ => K) | Err m => Ret (Err m) end) s1 o s'
    | Panicked w => o = Panicked w /\ s' = s1
    end.
  Definition meets (st : mlb_state) (args : val) (s : state) (o : outcome (res val)) (s' : state) : Prop :=
    let '(ps, accp, acc) := st in
    match accp with
    | None => acc = [] -> symbolp ps = false -> passes argument le (fun s1 => runs denote K s1) ps args s o s'
    | Some q => q = ps -> symbolp ps = true -> collects argument (rest_done ps) (rev acc) args s o s'
    end.
  Lemma passing_forward args st s o s' : runs denote (whole args st) s o s' -> meets st args s o s'.
  Proof.
    intros H. unfold whole, bind_ok in H. apply bind_iff in H. destruct H as (o1 & s1 & R & H).
    change (post o1 s1 o s') in H. revert o s' H.
    refine (for_cells_ind _ _ (fun args st s o1 s1 => forall o s', post o1 s1 o s' -> meets st args s o s') _ _ _ _ args st s o1 s1 R); clear args st s o1 s1 R.
    - intros c st s o s' N R o2 s2 H. apply ret_iff in R. destruct R as [-> ->]. cbn [post] in H. apply at_end_nilb in N.
      destruct st as [[ps [q|]] acc]; cbn [meets].
      + intros -> _. apply collect_end; [exact N|]. apply finish_rest in H. exact H.
      + intros -> S. apply pass_end; [exact N|exact S|]. exact H.
    - intros c st s r s1 N R o2 s2 H. apply not_at_end in N. destruct st as [[ps accp] acc]. cbn [mlb_step] in R. rewrite car_iff in R.
      apply bind_iff in R. destruct R as (oe & se & Re & R). apply argument_of_run in Re. destruct oe as [[v|m]|w].
      + destruct accp as [q|]; [apply ret_iff in R; destruct R; discriminate|].
        rewrite car_iff in R. rewrite (then_iff _ _ _ _ _ _ _ (bind_locally_run _ _ _ _)) in R.
        destruct (bind_here le (head_of se ps) v se) as [s3|] eqn:B; [rewrite cdr_iff in R; apply ret_iff in R; destruct R; discriminate|].
        apply ret_iff in R. destruct R as [[= ->] ->]. cbn [post] in H. apply ret_iff in H. destruct H as [-> ->].
        cbn [meets]. intros _ S. eapply pass_refused; eassumption.
      + apply ret_iff in R. destruct R as [[= ->] ->]. cbn [post] in H. apply ret_iff in H. destruct H as [-> ->].
        destruct accp as [q|]; cbn [meets].
        * intros _ _. apply collect_err; assumption.
        * intros _ S. apply pass_err; assumption.
      + destruct R; discriminate.
    - intros c st s w s1 N R o2 s2 H. apply not_at_end in N. destruct st as [[ps accp] acc]. cbn [mlb_step] in R. rewrite car_iff in R.
      apply bind_iff in R. destruct R as (oe & se & Re & R). apply argument_of_run in Re. destruct oe as [[v|m]|w'].
      + destruct accp as [q|]; [apply ret_iff in R; destruct R; discriminate|].
        rewrite car_iff in R. rewrite (then_iff _ _ _ _ _ _ _ (bind_locally_run _ _ _ _)) in R.
        destruct (bind_here le (head_of se ps) v se) as [s3|] eqn:B; [rewrite cdr_iff in R|]; apply ret_iff in R; destruct R; discriminate.
      + apply ret_iff in R. destruct R; discriminate.
      + destruct R as [[= ->] ->], H as [-> ->]. destruct accp as [q|]; cbn [meets].
        * intros _ _. apply collect_crash; assumption.
        * intros _ S. apply pass_crash; assumption.
    - intros c st s st1 s1 o s2 N R IH o2 s3 H. apply not_at_end in N. destruct st as [[ps accp] acc]. cbn [mlb_step] in R. rewrite car_iff in R.
      apply bind_iff in R. destruct R as (oe & se & Re & R). apply argument_of_run in Re. destruct oe as [[v|m]|w'].
      + destruct accp as [q|].
        * apply ret_iff in R. destruct R as [[= ->] ->]. specialize (IH _ _ H). cbn [meets] in IH |- *.
          intros -> S. rewrite S in IH. eapply collect_next; [exact N|exact Re|]. apply IH; reflexivity.
        * rewrite car_iff in R. rewrite (then_iff _ _ _ _ _ _ _ (bind_locally_run _ _ _ _)) in R.
          destruct (bind_here le (head_of se ps) v se) as [s4|] eqn:B.
          -- rewrite cdr_iff in R. apply ret_iff in R. destruct R as [[= ->] ->]. specialize (IH _ _ H). cbn [meets] in IH |- *.
             intros -> S. eapply pass_next; [exact N|exact S|exact Re|exact B|].
             destruct (symbolp (rest_of s4 ps)) eqn:S2.
             ++ apply pass_rest; [exact S2|]. apply IH; reflexivity.
             ++ apply IH; reflexivity.
          -- apply ret_iff in R. destruct R; discriminate.
      + apply ret_iff in R. destruct R; discriminate.
      + destruct R; discriminate.
  Qed.
  Lemma collecting_back ps vs args s o s' : symbolp ps = true -> collects argument (rest_done ps) vs args s o s' ->
    runs denote (whole args (ps, Some ps, rev vs)) s o s'.
  Proof.
    intros S H. unfold whole, bind_ok. apply bind_iff. change (exists o1 s1, runs denote (for_cells step (fun st => ok st) args (ps, Some ps, rev vs)) s o1 s1 /\ post o1 s1 o s').
    induction H as [vs c s o s' N H|vs c s m s1 N H|vs c s w s1 N H|vs c s v s1 o s' N H H2 IH].
    - exists (Done (Ok (ps, Some ps, rev vs))), s. split; [apply for_cells_end; [apply at_end_nilb, N|apply runs_ret]|].
      apply finish_rest. rewrite rev_involutive. exact H.
    - apply not_at_end in N. exists (Done (Err m)), s1. split; [|apply runs_ret]. apply for_cells_stop; [exact N|]. cbn [mlb_step]. apply car_iff.
      eapply runs_bind; [apply argument_of_run, H|apply runs_ret].
    - apply not_at_end in N. exists (Panicked w), s1. split; [|split; reflexivity]. apply for_cells_crash; [exact N|]. cbn [mlb_step]. apply car_iff.
      apply runs_bind_panic. apply argument_of_run, H.
    - apply not_at_end in N. destruct IH as (o1 & s2 & R & P). exists o1, s2. split; [|exact P]. eapply for_cells_next; [exact N| |].
      + cbn [mlb_step]. apply car_iff. eapply runs_bind; [apply argument_of_run, H|]. apply runs_ret.
      + rewrite rev_app_distr in R. rewrite S. exact R.
  Qed.
  Lemma passing_back ps args s o s' : passes argument le (fun s1 => runs denote K s1) ps args s o s' ->
    runs denote (whole args (ps, (if symbolp ps then Some ps else None), [])) s o s'.
  Proof.
    intros H. unfold whole, bind_ok. apply bind_iff. change (exists o1 s1, runs denote (for_cells step (fun st => ok st) args (ps, (if symbolp ps then Some ps else None), [])) s o1 s1 /\ post o1 s1 o s').
    induction H as [ps c s o s' N S H|ps c s m s1 N S H|ps c s w s1 N S H|ps c s v s1 N S H B|ps c s v s1 s2 o s' N S H B H2 IH|ps c s o s' S H].
    - rewrite S. exists (Done (Ok (ps, None, []))), s. split; [apply for_cells_end; [apply at_end_nilb, N|apply runs_ret]|]. exact H.
    - rewrite S. apply not_at_end in N. exists (Done (Err m)), s1. split; [|apply runs_ret]. apply for_cells_stop; [exact N|]. cbn [mlb_step]. apply car_iff.
      eapply runs_bind; [apply argument_of_run, H|apply runs_ret].
    - rewrite S. apply not_at_end in N. exists (Panicked w), s1. split; [|split; reflexivity]. apply for_cells_crash; [exact N|]. cbn [mlb_step]. apply car_iff.
      apply runs_bind_panic. apply argument_of_run, H.
    - rewrite S. apply not_at_end in N. eexists (Done (Err _)), s1. split; [|apply runs_ret]. apply for_cells_stop; [exact N|]. cbn [mlb_step]. apply car_iff.
      eapply runs_bind; [apply argument_of_run, H|]. apply car_iff. eapply (then_iff _ _ _ _ _ _ _ (bind_locally_run _ _ _ _)).
      rewrite B. apply runs_ret.
    - rewrite S. apply not_at_end in N. destruct IH as (o1 & s3 & R & P). exists o1, s3. split; [|exact P]. eapply for_cells_next; [exact N| |exact R].
      cbn [mlb_step]. apply car_iff.
      eapply runs_bind; [apply argument_of_run, H|]. apply car_iff. eapply (then_iff _ _ _ _ _ _ _ (bind_locally_run _ _ _ _)).
      rewrite B. apply cdr_iff. apply runs_ret.
    - apply (collecting_back ps [] _ _ _ _ S) in H. unfold whole, bind_ok in H. apply bind_iff in H. rewrite S. exact H.
  Qed.
  Lemma passing_iff ps args s o s' : symbolp ps = false ->
    runs denote (whole args (ps, None, [])) s o s' <-> passes argument le (fun s1 => runs denote K s1) ps args s o s'.
  Proof.
    intros S. split.
    - intros H. exact (passing_forward _ _ _ _ _ H eq_refl S).
    - intros H. apply passing_back in H. rewrite S in H. exact H.
  Qed.
End Passing.
Lemma local_bindings_iff name ps va n args es argEnv le ev (K : prog (res val)) s o s' : is_list s args es -> symbolp ps = false ->
  runs denote (bind_ok (make_local_bindings name ps va n args argEnv le ev) (fun _ => K)) s o s' <->
  (if enough va n (length es) then passes (argument_of ev argEnv) le (fun s1 => runs denote K s1) ps args s
   else fails (arity_msg name va n (Z.of_nat (length es))) s) o s'.
Proof.
  intros L S. unfold make_local_bindings, bind_ok at 1. rewrite assoc_iff. rewrite (then_iff _ _ _ _ _ _ _ (runs_length _ _ _ L)).
  assert (E : (if va then Z.of_nat (length es) <? n else negb (Z.of_nat (length es) =? n)) = negb (enough va n (length es))).
  { unfold enough. destruct va; [|reflexivity]. apply Z.ltb_antisym. }
  rewrite E. destruct (enough va n (length es)); cbn [negb].
  - rewrite <- (passing_iff ev argEnv le K ps args s o s' S). unfold whole. 
    match goal with |- runs denote (bind (bind_ok ?p ?f) ?g) _ _ _ <-> _ => change (runs denote (bind_ok (bind_ok p f) (fun _ => K)) s o s' <-> runs denote (bind_ok p (fun st => bind_ok (finish le st) (fun _ => K))) s o s') end.
    rewrite bind_ok_assoc. apply bind_ok_ext. intros [[p accp] acc] s1 o1 s1'. destruct accp; reflexivity.
  - cbn [bind fail]. apply ret_iff.
Qed.

Lemma collects_mono argument (k1 k2 : list val -> state -> behaviour) : (forall vs s o s', k1 vs s o s' -> k2 vs s o s') ->
  forall vs args s o s', collects argument k1 vs args s o s' -> collects argument k2 vs args s o s'.
Proof. intros H vs args s o s' C. induction C; [apply collect_end|apply collect_err|apply collect_crash|eapply collect_next]; eauto. Qed.
Lemma then_bind_mono env sym v s (k1 k2 : state -> behaviour) o s' : (forall s o s', k1 s o s' -> k2 s o s') ->
  then_bind env sym v s k1 o s' -> then_bind env sym v s k2 o s'.
Proof. intros H. unfold then_bind. destruct (bind_here env sym v s); auto. Qed.
Lemma passes_mono argument le (k1 k2 : state -> behaviour) : (forall s o s', k1 s o s' -> k2 s o s') ->
  forall ps args s o s', passes argument le k1 ps args s o s' -> passes argument le k2 ps args s o s'.
Proof.
  intros H ps args s o s' C. induction C; [apply pass_end|apply pass_err|apply pass_crash|eapply pass_refused|eapply pass_next|apply pass_rest]; eauto.
  eapply collects_mono; [|eassumption]. intros vs s1 o1 s1'. cbv beta. destruct (new_list vs s1) as [l s2]. apply then_bind_mono, H.
Qed.

(** *** Functions *)
Lemma body_forms_iff name body le s o s' : runs denote (eval_body_forms name body le) s o s' <->
  exists o1, eval_cells le body VNil s o1 s' /\ o = map_err (in_wrap name) o1.
Proof. apply (cells_iff (in_wrap name)). Qed.
Lemma is_list_cells s s' v xs : s_cells s' = s_cells s -> is_list s v xs -> is_list s' v xs.
Proof.
  intros E H. induction H as [| |l H|l a d xs H N _ IH]; [constructor|constructor|apply il_empty; rewrite E; exact H|].
  eapply il_cons; [rewrite E; exact H|exact N|exact IH].
Qed.
Lemma open_env_cells name p f s : s_cells (open_env name p f s) = s_cells s.
Proof. unfold open_env. destruct (Pos.eqb p (s_global s)); reflexivity. Qed.
Lemma bind_here_cells env sym v s s1 : bind_here env sym v s = Some s1 -> s_cells s1 = s_cells s.
Proof.
  unfold bind_here. destruct (local_binding s env (name_of s sym)); [destruct (b_prot _); [discriminate|]|]; intros [= <-]; reflexivity.
Qed.
Lemma open_env_funs name p f s : s_funs (open_env name p f s) = s_funs s.
Proof. unfold open_env. destruct (Pos.eqb p (s_global s)); reflexivity. Qed.
Lemma bind_here_funs env sym v s s1 : bind_here env sym v s = Some s1 -> s_funs s1 = s_funs s.
Proof.
  unfold bind_here. destruct (local_binding s env (name_of s sym)); [destruct (b_prot _); [discriminate|]|]; intros [= <-]; reflexivity.
Qed.
Lemma bind_if_any_iff le n v (k : unit -> prog (res val)) (p : prog (res val)) s (K : state -> behaviour) o s' :
  runs denote p s (Done (match v with Some v => match bind_here le (VSym n) v s with Some _ => Ok v | None => Err (is_protected n) end | None => Ok VNil end))
    (match v with Some v => match bind_here le (VSym n) v s with Some s1 => s1 | None => s end | None => s end) ->
  (forall s1, (v = None /\ s1 = s \/ exists x, v = Some x /\ bind_here le (VSym n) x s = Some s1) -> runs denote (k tt) s1 o s' <-> K s1 o s') ->
  runs denote (bind_ok p (fun _ => k tt)) s o s' <-> bind_if_any le n v s K o s'.
Proof.
  intros R H. unfold bind_ok. rewrite (then_iff _ _ _ _ _ _ _ R). unfold bind_if_any, then_bind. destruct v as [v|].
  - destruct (bind_here le (VSym n) v s) as [s1|] eqn:E; [apply H; eauto|]. apply fail_iff.
  - apply H. auto.
Qed.
Lemma bind_sym_run env n v s : runs denote (bind_locally env (VSym n) v) s
  (Done (match bind_here env (VSym n) v s with Some _ => Ok v | None => Err (is_protected n) end))
  (match bind_here env (VSym n) v s with Some s1 => s1 | None => s end).
Proof. exact (bind_locally_run env (VSym n) v s). Qed.
Lemma fun_apply_iff fl args es env receiver ev s o s' : is_list s args es -> symbolp (f_params (fn_code (fun_at s fl))) = false ->
  runs denote (fun_apply fl args env receiver ev) s o s' <->
  calls_function fl receiver (argument_of ev env) args (length es) env s o s'.
Proof.
  intros L S. unfold fun_apply, calls_function. op1. set (f := fn_code (fun_at s fl)) in *.
  etransitivity; [apply (then_iff _ _ _ _ _ _ _ (new_env_run _ _ _ _))|]. cbv beta.
  set (s1 := open_env (f_name f) (f_env f) (match receiver with Some x => Some x | None => e_frame (env_at s (f_env f)) end) s).
  set (le := s_next s).
  assert (F1 : s_funs s1 = s_funs s) by apply open_env_funs.
  assert (C1 : s_cells s1 = s_cells s) by apply open_env_cells.
  apply (bind_if_any_iff le "self" _ (fun _ => _)).
  { destruct receiver as [fr|]; [apply bind_sym_run|]. op1.
    replace (fun_at s1 fl) with (fun_at s fl) by (unfold fun_at; rewrite F1; reflexivity).
    destruct (fn_slot (fun_at s fl)); [|apply runs_ret]. unfold find_local. cbn [string_value bind]. op1.
    fold (local_binding s1 env "self"). destruct (local_binding s1 env "self") as [b|]; cbn [option_map]; [|apply runs_ret].
    op1. apply bind_sym_run. }
  intros s2 E2.
  assert (F2 : s_funs s2 = s_funs s). { rewrite <- F1. destruct E2 as [[_ ->]|(x & _ & B)]; [reflexivity|exact (bind_here_funs _ _ _ _ _ B)]. }
  assert (C2 : s_cells s2 = s_cells s). { rewrite <- C1. destruct E2 as [[_ ->]|(x & _ & B)]; [reflexivity|exact (bind_here_cells _ _ _ _ _ B)]. }
  op1. apply (bind_if_any_iff le "parentProcess" _ (fun _ => _)).
  { destruct (fn_proc (fun_at s2 fl)); [apply bind_sym_run|apply runs_ret]. }
  intros s3 E3.
  assert (C3 : s_cells s3 = s_cells s). { rewrite <- C2. destruct E3 as [[_ ->]|(x & _ & B)]; [reflexivity|exact (bind_here_cells _ _ _ _ _ B)]. }
  etransitivity; [apply local_bindings_iff; [exact (is_list_cells _ _ _ _ C3 L)|exact S]|].
  destruct (enough (f_varargs f) (f_req f) (length es)); [|reflexivity].
  assert (B : forall s1 o s', runs denote (eval_body_forms (f_name f) (f_body f) le) s1 o s' <-> runs_body f le s1 o s') by (intros; apply body_forms_iff).
  split; apply passes_mono; intros; apply B; assumption.
Qed.

(** *** Apply *)
Definition receiver_of (s : state) (fl env : loc) : option loc := if fn_slot (fun_at s fl) then e_frame (env_at s env) else None.
Lemma call_iff {A} (r : req A) s o s' : runs denote (call r) s o s' <-> runs denote (denote _ r) s o s'.
Proof. symmetry. apply runs_do_call_gen. Qed.
Lemma apply_fun_iff ev fl args es env s o s' : is_list s args es -> symbolp (f_params (fn_code (fun_at s fl))) = false ->
  runs denote (call (RApply ev (VFun fl) args env)) s o s' <->
  calls_function fl (receiver_of s fl env) (argument_of ev env) args (length es) env s o s'.
Proof.
  intros L S. rewrite call_iff. cbn [denote]. unfold apply_body.
  assert (R : runs denote (if ev then nilp (VFun fl) else Ret (is_nil (VFun fl))) s (Done false) s) by (destruct ev; apply runs_ret).
  rewrite (then_iff _ _ _ _ _ _ _ R). cbv iota. op1.
  assert (R2 : runs denote (if fn_slot (fun_at s fl) then do_op (OEnvFrame env) else Ret None) s (Done (receiver_of s fl env)) s).
  { unfold receiver_of. destruct (fn_slot (fun_at s fl)); [eapply runs_op; reflexivity|apply runs_ret]. }
  rewrite (then_iff _ _ _ _ _ _ _ R2). apply fun_apply_iff; assumption.
Qed.
Lemma open_env_local name p f s env n : env <> s_next s -> local_binding (open_env name p f s) env n = local_binding s env n.
Proof.
  intros N. unfold open_env, local_binding, env_at. destruct (Pos.eqb p (s_global s)); cbn [s_envs set_envs set_tops]; rewrite lookup_insert_ne by congruence; reflexivity.
Qed.
(** The plain case in one piece. *)
Lemma calls_plain fl argument args got env s o s' : plain_call s fl env -> env <> s_next s ->
  let f := fn_code (fun_at s fl) in
  calls_function fl (receiver_of s fl env) argument args got env s o s' <->
  (if enough (f_varargs f) (f_req f) got
   then passes argument (s_next s) (runs_body f (s_next s)) (f_params f) args
     (open_env (f_name f) (f_env f) (e_frame (env_at s (f_env f))) s)
   else fails (arity_msg (f_name f) (f_varargs f) (f_req f) (Z.of_nat got)) (open_env (f_name f) (f_env f) (e_frame (env_at s (f_env f))) s)) o s'.
Proof.
  intros [P Q] N f. unfold calls_function. fold f.
  assert (E : receiver_of s fl env = None) by (unfold receiver_of; destruct (fn_slot (fun_at s fl)); [|reflexivity]; destruct P as [P|[P _]]; [discriminate|exact P]).
  rewrite E. cbv zeta.
  set (s1 := open_env (f_name f) (f_env f) (e_frame (env_at s (f_env f))) s).
  assert (E2 : (if fn_slot (fun_at s fl) then option_map (value_in s1) (local_binding s1 env "self") else None) = None).
  { destruct (fn_slot (fun_at s fl)); [|reflexivity]. destruct P as [P|[_ P]]; [discriminate|]. unfold s1. rewrite open_env_local by exact N. rewrite P. reflexivity. }
  rewrite E2. unfold bind_if_any at 1.
  assert (E3 : fun_at s1 fl = fun_at s fl) by (unfold fun_at, s1; rewrite open_env_funs; reflexivity).
  rewrite E3, Q. reflexivity.
Qed.
Lemma apply_macro_iff ev ml args es env s o s' : is_list s args es -> symbolp (m_params (mac_at s ml)) = false ->
  runs denote (call (RApply ev (VMacro ml) args env)) s o s' <-> calls_macro ml args (length es) env s o s'.
Proof.
  intros L S. rewrite call_iff. cbn [denote]. unfold apply_body.
  assert (R : runs denote (if ev then nilp (VMacro ml) else Ret (is_nil (VMacro ml))) s (Done false) s) by (destruct ev; apply runs_ret).
  rewrite (then_iff _ _ _ _ _ _ _ R). cbv iota. unfold macro_apply, macro_expand, calls_macro.
  unfold bind_ok at 1. rewrite assoc_iff. op1. rewrite assoc_iff. rewrite (then_iff _ _ _ _ _ _ _ (new_env_below_run _ _ _)). cbv zeta.
  set (m := mac_at s ml). set (s1 := open_env (m_name m) (m_env m) (e_frame (env_at s (m_env m))) s).
  match goal with |- runs denote (bind (bind_ok ?p ?f) ?g) _ _ _ <-> _ => change (runs denote (bind_ok (bind_ok p f) (fun x => call (REval x env false))) s1 o s' <-> (if enough (m_varargs m) (m_req m) (length es)
  then passes as_it_is (s_next s) (fun s2 => after (evals (m_body m) (s_next s) s2) (fun x s3 => evals x env s3)) (m_params m) args s1
  else fails (arity_msg (m_name m) (m_varargs m) (m_req m) (Z.of_nat (length es))) s1) o s') end.
  rewrite bind_ok_assoc.
  assert (L1 : is_list s1 args es) by (eapply is_list_cells; [apply open_env_cells|exact L]).
  etransitivity; [apply (local_bindings_iff _ _ _ _ _ es _ _ _ (bind_ok (call (REval (m_body m) (s_next s) false)) (fun x => call (REval x env false)))); [exact L1|exact S]|].
  destruct (enough _ _ _); [|reflexivity]. split; apply passes_mono; intros s2 o2 s2' H; apply eval_iff in H || apply eval_iff; exact H.
Qed.
Lemma norm_args_run vs : forall s, runs denote (norm_args vs) s (Done (fst (all_stored vs s))) (snd (all_stored vs s)).
Proof.
  induction vs as [|v vs IH]; intros s; cbn [norm_args all_stored]; [apply runs_ret|].
  assert (R : runs denote (if is_nil v then empty_cons else Ret v) s (Done (fst (stored v s))) (snd (stored v s))).
  { destruct v; try apply runs_ret. apply runs_cons. }
  apply (then_iff _ _ _ _ _ _ _ R). destruct (stored v s) as [v' s1]. cbn [fst snd].
  apply (then_iff _ _ _ _ _ _ _ (IH s1)). destruct (all_stored vs s1) as [r s2]. apply runs_ret.
Qed.
Lemma table_of name p : In p all_prims -> p_name p = name -> table name = Some p.
Proof.
  intros I E. destruct (table name) as [q|] eqn:T.
  - destruct (table_in _ _ T) as [I2 E2]. f_equal. apply (table_unique all_prims table_distinct); [exact I2|exact I|congruence].
  - exfalso. revert T. unfold table. rewrite <- E. revert I. generalize all_prims. intros l. induction l as [|q l IH]; intros I T; [destruct I|].
    cbn [find_prim] in T. destruct (str_eqb (p_name p) (p_name q)) eqn:Q; [discriminate|]. destruct I as [->|I]; [rewrite str_eqb_refl in Q; discriminate|auto].
Qed.
Lemma prim_apply_iff p ts args es env s o s' : In p all_prims -> declared p ts -> is_list s args es ->
  (p_restricted p = false \/ e_restricted (env_at s env) = false) -> accepts ts (length es) ->
  runs denote (prim_apply p args env) s o s' <->
  collects (if p_special p then as_it_is else evaluated env) (enters (p_name p) env) [] args s o s'.
Proof.
  intros I [E1 E2] L Rr A. unfold prim_apply.
  assert (R : runs denote (if p_restricted p then do_op (OEnvRestricted env) else Ret false) s (Done false) s).
  { destruct (p_restricted p); [|apply runs_ret]. eapply runs_op. cbn. destruct Rr as [H|H]; [discriminate|]. rewrite H. reflexivity. }
  rewrite (then_iff _ _ _ _ _ _ _ R). cbv iota. rewrite (then_iff _ _ _ _ _ _ _ (runs_length _ _ _ L)).
  apply (counts_iff ts _ E2) in A. rewrite <- E1 in A. rewrite A. cbn [negb].
  assert (K : forall vs s o s', runs denote (vs <- norm_args vs ;; do_op (OEvent (EPrim (p_name p) env)) ;;; p_body p vs env) s o s' <-> enters (p_name p) env vs s o s').
  { intros vs s1 o1 s1'. rewrite (then_iff _ _ _ _ _ _ _ (norm_args_run _ _)). unfold enters. destruct (all_stored vs s1) as [xs s2]. cbn [fst snd].
    op1. symmetry. apply applies_iff. apply table_of; [exact I|reflexivity]. }
  unfold collect_args.
  etransitivity; [exact (collect_iff (if p_special p then as_it_is else evaluated env) (fun x => if p_special p then ok x else call (REval x env false)) (fun vs => vs <- norm_args vs ;; do_op (OEvent (EPrim (p_name p) env)) ;;; p_body p vs env) ltac:(destruct (p_special p); [apply as_it_is_run|apply evaluated_run]) args [] s o s')|].
  split; apply collects_mono; intros vs s1 o1 s1'; apply K.
Qed.
Lemma prim_apply_count p ts args es env s o s' : declared p ts -> is_list s args es ->
  (p_restricted p = false \/ e_restricted (env_at s env) = false) -> ~ accepts ts (length es) ->
  runs denote (prim_apply p args env) s o s' <-> fails (wrong_args_msg p (Z.of_nat (length es))) s o s'.
Proof.
  intros [E1 E2] L Rr A. unfold prim_apply.
  assert (R : runs denote (if p_restricted p then do_op (OEnvRestricted env) else Ret false) s (Done false) s).
  { destruct (p_restricted p); [|apply runs_ret]. eapply runs_op. cbn. destruct Rr as [H|H]; [discriminate|]. rewrite H. reflexivity. }
  rewrite (then_iff _ _ _ _ _ _ _ R). cbv iota. rewrite (then_iff _ _ _ _ _ _ _ (runs_length _ _ _ L)).
  rewrite <- (counts_iff ts _ E2), <- E1 in A. destruct (check_count _ _); [destruct A; reflexivity|]. cbn [negb].
  rewrite (then_iff _ _ _ _ _ _ _ (runs_length _ _ _ L)). apply fail_iff.
Qed.
Lemma prim_apply_restricted p args env s o s' : p_restricted p = true -> e_restricted (env_at s env) = true ->
  runs denote (prim_apply p args env) s o s' <-> fails (restricted_msg (p_name p)) s o s'.
Proof. intros H1 H2. unfold prim_apply. rewrite H1. op1. rewrite H2. apply fail_iff. Qed.
Lemma apply_prim_iff p args env s o s' : In p all_prims ->
  runs denote (call (RApply true (VPrim (p_name p)) args env)) s o s' <-> runs denote (prim_apply p args env) s o s'.
Proof.
  intros I. rewrite call_iff. cbn [denote]. unfold apply_body. cbn [nilp bind]. cbv iota. rewrite (table_of _ p I eq_refl). reflexivity.
Qed.
Definition known_counts : list (list count_term) :=
  [[Exactly 2; Exactly 3]; [AnyCount]; [AtLeast 3]; [AtLeast 1]; [Exactly 3]; [Exactly 0]; [Exactly 1; Exactly 2; Exactly 3]; [Exactly 1; Exactly 2];
   [AtLeast 2]; [Exactly 0; Exactly 1]; [Exactly 2]; [Exactly 1]].
Lemma all_declared p : In p all_prims -> exists ts, declared p ts.
Proof.
  assert (C : forallb (fun p => existsb (fun ts => str_eqb (p_spec p) (counts_text ts)) known_counts) all_prims = true) by (vm_compute; reflexivity).
  assert (K : Forall (fun ts => Forall sane ts) known_counts).
  { apply List.Forall_forall. intros ts H. apply List.Forall_forall. intros x Hx. unfold known_counts in H. cbn in H.
    repeat (destruct H as [<-|H]; [cbn in Hx; repeat (destruct Hx as [<-|Hx]; [unfold sane, int64_max, two63; try lia; exact I|]); destruct Hx|]). destruct H. }
  intros H. rewrite forallb_forall in C. apply C in H. apply existsb_exists in H. destruct H as (ts & H1 & H2). exists ts.
  apply str_eqb_eq in H2. rewrite List.Forall_forall in K. split; [exact H2|apply K, H1].
Qed.

(** *** Call expressions *)
Lemma shortcuts_plain l s : plain_head (fst (cell_at s l)) -> runs denote (post_process_shortcuts (VCell TCons l)) s (Done (VCell TCons l)) s.
Proof.
  intros P. unfold post_process_shortcuts. apply car_iff. cbn [head_of]. destruct (fst (cell_at s l)); try apply runs_ret.
  destruct P as (H1 & H2 & H3 & H4 & H5 & H6 & H7). rewrite H1, H2, H3, H4, H5, H6, H7. apply runs_ret.
Qed.
Lemma call_form_iff l env s o s' : ~ at_end s (VCell TCons l) -> plain_head (fst (cell_at s l)) ->
  evals (VCell TCons l) env s o s' <->
  after (runs denote (call (REval (fst (cell_at s l)) env true)) s)
    (fun f s1 => if nilb s1 f then fails "Nil when function or macro expected." s1 else applied f (snd (cell_at s1 l)) env s1) o s'.
Proof.
  intros N P. unfold evals. rewrite call_iff. cbn [denote eval_body]. rewrite (then_iff _ _ _ _ _ _ _ (shortcuts_plain l s P)).
  rewrite (then_iff _ _ _ _ _ _ _ (runs_nilp _ _)). apply not_at_end in N. rewrite N. cbv iota. rewrite car_iff. cbn [head_of].
  unfold bind_ok. rewrite bind_iff. unfold after. split; intros (o1 & s1 & R & H); exists o1, s1; (split; [exact R|]).
  - destruct o1 as [[f|m]|w]; [|apply ret_iff, H|exact H]. rewrite (then_iff _ _ _ _ _ _ _ (runs_nilp _ _)) in H. destruct (nilb s1 f); [apply ret_iff, H|].
    rewrite cdr_iff in H. exact H.
  - destruct o1 as [[f|m]|w]; [|apply ret_iff, H|exact H]. rewrite (then_iff _ _ _ _ _ _ _ (runs_nilp _ _)). destruct (nilb s1 f); [apply ret_iff, H|].
    rewrite cdr_iff. exact H.
Qed.
