(** Proofs of C68. *)
From Verif Require Export SpecSuper ProofFrame.
From Verif Require Import StrFacts ProofForm.
From stdpp Require Import list.
From Verif Require Import Data.
Local Open Scope string_scope.
Local Open Scope list_scope.
Local Open Scope Z_scope.

Lemma bind_ok_iff {A} (p : prog (res A)) (k : A -> prog (res val)) s x s1 o s' : runs denote p s (Done (Ok x)) s1 ->
  (runs denote (bind_ok p k) s o s' <-> runs denote (k x) s1 o s').
Proof. intros R. unfold bind_ok. rewrite (then_iff _ _ _ _ _ _ _ R). reflexivity. Qed.
Lemma bind_ok_err {A} (p : prog (res A)) (k : A -> prog (res val)) s m s1 : runs denote p s (Done (Err m)) s1 ->
  runs denote (bind_ok p k) s (Done (Err m)) s1.
Proof. intros R. unfold bind_ok. eapply runs_bind; [exact R|apply runs_ret]. Qed.
Lemma bind_ok_panic {A} (p : prog (res A)) (k : A -> prog (res val)) s w s1 : runs denote p s (Panicked w) s1 ->
  runs denote (bind_ok p k) s (Panicked w) s1.
Proof. intros R. unfold bind_ok. apply runs_bind_panic, R. Qed.
Lemma eval_all_run env es s vs s1 : evals_all env es s vs s1 -> runs denote (eval_all es env) s (Done (Ok vs)) s1.
Proof.
  induction 1 as [s|e es s v s1 vs s2 E _ IH]; cbn [eval_all]; [apply runs_ret|].
  unfold bind_ok. eapply runs_bind; [exact E|]. cbv iota. eapply runs_bind; [exact IH|apply runs_ret].
Qed.
Definition cut_off (o : outcome (res val)) (o' : outcome (res (list val))) : Prop :=
  match o, o' with Done (Err m), Done (Err m') => m = m' | Panicked w, Panicked w' => w = w' | _, _ => False end.
Lemma eval_all_stop env es e es2 s vs s1 o s2 : evals_all env es s vs s1 -> evals e env s1 o s2 ->
  (forall v, o <> Done (Ok v)) -> exists o', runs denote (eval_all (es ++ e :: es2) env) s o' s2 /\ cut_off o o'.
Proof.
  intros H E N. revert o s2 E N. induction H as [s|e' es s v s1 vs s2 E' _ IH]; intros o s3 E N; cbn [eval_all app].
  - destruct o as [[v|m]|w]; [destruct (N v eq_refl)| |].
    + exists (Done (Err m)). split; [|reflexivity]. unfold bind_ok. eapply runs_bind; [exact E|apply runs_ret].
    + exists (Panicked w). split; [|reflexivity]. unfold bind_ok. apply runs_bind_panic, E.
  - destruct (IH o s3 E N) as (o' & R & C). exists o'. split; [|exact C]. unfold bind_ok. eapply runs_bind; [exact E'|]. cbv iota.
    destruct o as [[v'|m]|w], o' as [[v''|m']|w']; try destruct C.
    + eapply runs_bind; [exact R|apply runs_ret].
    + apply runs_bind_panic, R.
Qed.
Lemma wf_evals_all env es s vs s1 : evals_all env es s vs s1 -> wf_state s -> wf_state s1.
Proof. induction 1 as [s|e es s v s1 vs s2 E _ IH]; intros W; [exact W|]. apply IH. eapply wf_runs; [exact W|exact E]. Qed.
Lemma spread_run vs lst xs s : is_list s lst xs ->
  runs denote (spread_args (vs ++ [lst])) s (Done (Ok (fst (new_tail vs lst s)))) (snd (new_tail vs lst s)).
Proof.
  intros L. unfold spread_args. rewrite rev_app_distr. cbn [rev app]. assert (E : listp lst = true) by (clear -L; inversion L; reflexivity). rewrite E.
  destruct vs as [|v vs]; [apply runs_ret|].
  destruct (rev (v :: vs)) eqn:Q; [apply (f_equal (@rev val)) in Q; rewrite rev_involutive in Q; discriminate|]. rewrite <- Q, rev_involutive.
  eapply runs_bind; [apply new_tail_run|apply runs_ret].
Qed.
Lemma spread_bad vs x s : listp x = false -> runs denote (spread_args (vs ++ [x])) s (Done (Err last_not_list)) s.
Proof. intros E. unfold spread_args. rewrite rev_app_distr. cbn [rev app]. rewrite E. apply runs_ret. Qed.
Lemma new_tail_funs vs tl s : s_funs (snd (new_tail vs tl s)) = s_funs s /\ s_envs (snd (new_tail vs tl s)) = s_envs s /\ s_global (snd (new_tail vs tl s)) = s_global s.
Proof.
  induction vs as [|v vs IH]; [repeat split; reflexivity|]. cbn [new_tail]. destruct (new_tail vs tl s) as [t s1]. cbn [snd] in *.
  destruct v; exact IH.
Qed.

(** *** apply-slot *)
Section apply_slot.
  Context (fe ke : val) (f : loc) (k : string) (env : loc) (s s1 s2 : state).
  Context (Ef : evals fe env (entering "apply-slot" env s) (Done (Ok (VFrame f))) s1) (Ek : evals ke env s1 (Done (Ok (VSym k))) s2) (K : naked k).
  Lemma apply_slot_found es : proper_parents s2 f -> (exists g, reaches s2 f g /\ slot s2 g k <> None) ->
    exists g v s3, inherits s2 k f g v /\ only_choices s2 s3 /\
    (wf_state s2 -> wf_state s3) /\ forall o s', applies "apply-slot" (fe :: ke :: es) env s o s' <->
      runs denote (match v with
                   | VFun fl => vs <-? eval_all es env ;; l <-? spread_args vs ;; fun_apply fl l env (Some f) false
                   | _ => not_function_slot "apply-slot" v end) s3 o s'.
  Proof.
    intros P X. destruct (finds_slot f k s2 s2 (fun _ => eq_refl) P X) as (g & v & s3 & s4 & A & R & C & I).
    exists g, v, s4. split; [exact I|]. split; [exact C|]. split.
    { intros W. eapply wf_runs; [eapply wf_runs; [exact W|exact A]|exact R]. }
    intros o s'. body_of. unfold apply_slot_impl. cbn [arg nth skipn]. etransitivity; [apply (bind_ok_iff _ _ _ _ _ _ _ Ef)|]. cbn [need_frame].
    etransitivity; [apply (bind_ok_iff _ _ _ _ _ _ _ Ek)|]. cbn [need_naked]. rewrite (naked_true k K).
    refine (iff_trans (asks_iff _ _ _ _ _ _ _ _ A) _). cbn [negb]. exact (reads_iff _ _ _ _ _ _ _ _ R).
  Qed.
  Lemma apply_slot_call es : wf_state s -> proper_parents s2 f -> (exists g, reaches s2 f g /\ slot s2 g k <> None) ->
    exists g v s3, inherits s2 k f g v /\ only_choices s2 s3 /\
    match v with
    | VFun fl =>
        (forall vs lst xs s4, evals_all env es s3 (vs ++ [lst]) s4 -> no_nils vs -> is_list s4 lst xs -> symbolp (f_params (fn_code (fun_at s4 fl))) = false ->
          exists l s5, grows s4 s5 /\ is_list s5 l (vs ++ xs) /\
          forall o s', applies "apply-slot" (fe :: ke :: es) env s o s' <-> calls_function fl (Some f) as_it_is l (length (vs ++ xs)) env s5 o s') /\
        (forall vs x s4, evals_all env es s3 (vs ++ [x]) s4 -> listp x = false -> applies "apply-slot" (fe :: ke :: es) env s (Done (Err last_not_list)) s4) /\
        (forall es1 e es2 vs s4 o s5, es = es1 ++ e :: es2 -> evals_all env es1 s3 vs s4 -> evals e env s4 o s5 -> (forall v, o <> Done (Ok v)) ->
          applies "apply-slot" (fe :: ke :: es) env s o s5)
    | _ => forall o s', applies "apply-slot" (fe :: ke :: es) env s o s' <->
        fails ("apply-slot requires a function slot, but was given a slot containing a " +++ type_name v +++ ".") s3 o s'
    end.
  Proof.
    intros W P X. destruct (apply_slot_found es P X) as (g & v & s3 & I & C & W3 & B). exists g, v, s3. split; [exact I|]. split; [exact C|].
    assert (W2 : wf_state s3) by (apply W3; eapply wf_runs; [eapply wf_runs; [apply wf_entering, W|exact Ef]|exact Ek]). clear W3.
    destruct v as [|t l| |z|x|b|l|x|fl|l|x|l|l|l|l|h|l|l]; try (intros o s'; rewrite B; apply fail_iff). split; [|split].
    - intros vs lst xs s4 E N L Sy. pose proof (wf_evals_all _ _ _ _ _ E W2) as W4.
      exists (fst (new_tail vs lst s4)), (snd (new_tail vs lst s4)). destruct (new_tail_grows vs lst s4 W4) as [G _]. split; [exact G|].
      pose proof (new_tail_list vs lst xs s4 W4 N L) as L5. split; [exact L5|]. intros o s'. rewrite B.
      rewrite (bind_ok_iff _ _ _ _ _ _ _ (eval_all_run _ _ _ _ _ E)). rewrite (bind_ok_iff _ _ _ _ _ _ _ (spread_run vs lst xs s4 L)).
      apply fun_apply_iff; [exact L5|]. unfold fun_at. rewrite (proj1 (new_tail_funs vs lst s4)). exact Sy.
    - intros vs x s4 E Ls. apply B. rewrite (bind_ok_iff _ _ _ _ _ _ _ (eval_all_run _ _ _ _ _ E)). apply bind_ok_err, spread_bad, Ls.
    - intros es1 e es2 vs s4 o s5 -> E1 E2 N. apply B. destruct (eval_all_stop env es1 e es2 s3 vs s4 o s5 E1 E2 N) as (o' & R & Q).
      destruct o as [[v'|m]|w], o' as [[v''|m']|w']; try destruct Q; [apply bind_ok_err, R|apply bind_ok_panic, R].
  Qed.
  Lemma apply_slot_missing es : proper_parents s2 f -> (forall g, reaches s2 f g -> slot s2 g k = None) ->
    exists s', applies "apply-slot" (fe :: ke :: es) env s (Done (Err ("apply-slot requires an existing slot, but was given " +++ k +++ "."))) s' /\ only_choices s2 s'.
  Proof.
    intros P X. destruct (finds_no_slot f k s2 s2 (fun _ => eq_refl) P) as (s3 & A & C).
    { intros (g & G & N). destruct (N (X g G)). }
    exists s3. split; [|exact C]. applies. unfold apply_slot_impl. cbn [arg nth skipn]. apply (bind_ok_iff _ _ _ _ _ _ _ Ef). cbn [need_frame].
    apply (bind_ok_iff _ _ _ _ _ _ _ Ek). cbn [need_naked]. rewrite (naked_true k K).
    apply (asks_iff _ _ _ _ _ _ _ _ A). cbn [negb]. unfold fail_got. eapply runs_bind; [apply call_iff; cbn [denote string_body]; apply runs_ret|apply runs_ret].
  Qed.
End apply_slot.

(** *** The prototypes only *)
Lemma super_run k ps : forall s s0, (forall l, frame_at s0 l = frame_at s l) ->
  (forall v, In v ps -> exists p, v = VFrame p /\ proper_parents s p) ->
  exists v s', runs denote (super_parents k ps) s0 (Done v) s' /\ only_choices s0 s' /\
    ((v <> VNil /\ exists p g, In (VFrame p) ps /\ inherits s k p g v) \/ (v = VNil /\ forall p g w, In (VFrame p) ps -> inherits s k p g w -> w = VNil)).
Proof.
  induction ps as [|x ps IH]; intros s s0 E H.
  - exists VNil, s0. split; [apply runs_ret|]. split; [apply oc_refl|]. right. split; [reflexivity|]. intros p g w [].
  - destruct (H x (or_introl eq_refl)) as (p & -> & P). cbn [super_parents].
    destruct (reads_from p k s s0 E) as (o & s1 & R & C & Q). destruct o as [v|w]; [|destruct (Q P)]. destruct Q as [[N (g & G)]|[-> Z]].
    + exists v, s1. split; [|split; [exact C|left; split; [exact N|exists p, g; split; [left; reflexivity|exact G]]]].
      apply (reads_iff _ _ _ _ _ _ _ _ R). destruct v; try congruence; apply runs_ret.
    + destruct (IH s s1) as (v & s2 & R2 & C2 & Q2); [intros l; rewrite (oc_frame _ _ _ C); apply E|intros v I; apply H; right; exact I|].
      exists v, s2. split; [apply (reads_iff _ _ _ _ _ _ _ _ R); exact R2|]. split; [exact (oc_trans _ _ _ C C2)|]. destruct Q2 as [[N (p' & g & I & G)]|[-> Z2]].
      * left. split; [exact N|]. exists p', g. split; [right; exact I|exact G].
      * right. split; [reflexivity|]. intros p' g w [[= ->]|I] G; [exact (Z g w G)|exact (Z2 p' g w I G)].
Qed.
Lemma super_finds k f env s s0 : (forall l, frame_at s0 l = frame_at s l) -> e_frame (env_at s0 env) = Some f -> proper_above s f ->
  exists v s', runs denote (super_function k env) s0 (Done v) s' /\ only_choices s0 s' /\
    ((v <> VNil /\ inherits_above s k f v) \/ (v = VNil /\ forall w, inherits_above s k f w -> w = VNil)).
Proof.
  intros E F [H P]. unfold super_function. destruct (parents_run f s0) as (ps & s1 & R & C & I). unfold parent_value in I. rewrite E in I.
  destruct (super_run k ps s s1) as (v & s2 & R2 & C2 & Q).
  { intros l. rewrite (oc_frame _ _ _ C). apply E. }
  { intros v J. apply I in J. destruct J as (N & key & J & K). destruct (H key v J K) as [->|(h & ->)]; [congruence|]. exists h. split; [reflexivity|].
    apply P. exists key. auto. }
  assert (In_parent : forall p, In (VFrame p) ps <-> parent s f p).
  { intros p. rewrite I. unfold parent. split; [intros (_ & key & J); exists key; exact J|intros (key & J); split; [discriminate|exists key; exact J]]. }
  exists v, s2. split; [|split; [exact (oc_trans _ _ _ C C2)|]].
  - op1. rewrite F. eapply runs_bind; [exact R|exact R2].
  - destruct Q as [[N (p & g & J & G)]|[-> Z]]; [left|right]; (split; [assumption || reflexivity|]).
    + exists p, g. split; [apply In_parent, J|exact G].
    + intros w (p & g & J & G). exact (Z p g w (proj2 (In_parent p) J) G).
Qed.
Lemma super_env_run env f s (kk : loc -> prog (res val)) o s' :
  runs denote (n <- do_op (OEnvName env) ;; fe <- new_env_below_with_frame env (Some f) (n +++ "'") ;; _ <-? bind_locally fe (VSym "self") (VFrame f) ;; kk fe) s o s' <->
  runs denote (kk (s_next s)) (super_env env f s) o s'.
Proof.
  op1. etransitivity; [apply (then_iff _ _ _ _ _ _ _ (new_env_run _ _ _ _))|]. rewrite then_bind_iff. unfold then_bind, bind_here.
  set (s1 := open_env _ _ _ _). assert (L : local_binding s1 (s_next s) (name_of s1 (VSym "self")) = None).
  { unfold s1, open_env, local_binding, env_at. destruct (Pos.eqb env (s_global s)); cbn [s_envs set_envs set_tops]; rewrite lookup_insert; reflexivity. }
  rewrite L. reflexivity.
Qed.
Lemma super_env_funs env f s : s_funs (super_env env f s) = s_funs s.
Proof. unfold super_env, add_binding, open_env. destruct (Pos.eqb env (s_global s)); reflexivity. Qed.
Lemma super_apply_iff fl l xs env f s o s' : is_list s l xs -> symbolp (f_params (fn_code (fun_at s fl))) = false ->
  runs denote (super_apply fl l env f) s o s' <-> calls_function fl None as_it_is l (length xs) (s_next s) (super_env env f s) o s'.
Proof.
  intros L Sy. unfold super_apply. rewrite (super_env_run env f s (fun fe => fun_apply fl l fe None false) o s').
  apply fun_apply_iff.
  - revert L. apply is_list_cells. unfold super_env, add_binding, open_env. destruct (Pos.eqb env (s_global s)); reflexivity.
  - unfold fun_at. rewrite super_env_funs. exact Sy.
Qed.

(** *** send-super *)
Lemma send_super_found k vs env f s : wf_state s -> naked k -> no_nils vs -> e_frame (env_at s env) = Some f -> proper_above s f ->
  exists v s1, only_choices (entering "send-super" env s) s1 /\
  ((v <> VNil /\ inherits_above s k f v) \/ (v = VNil /\ forall w, inherits_above s k f w -> w = VNil)) /\
  match v with
  | VFun fl => symbolp (f_params (fn_code (fun_at s fl))) = false ->
      exists l s2, grows s1 s2 /\ is_list s2 l vs /\
      forall o s', applies "send-super" (VSym k :: vs) env s o s' <-> calls_function fl None as_it_is l (length vs) (s_next s2) (super_env env f s2) o s'
  | _ => forall o s', applies "send-super" (VSym k :: vs) env s o s' <-> fails (not_message v) s1 o s'
  end.
Proof.
  intros W K N F P. set (s0 := entering "send-super" env s). assert (W0 : wf_state s0) by apply wf_entering, W.
  destruct (super_finds k f env s s0 (fun _ => eq_refl) F P) as (v & s1 & R & C & I). exists v, s1. split; [exact C|]. split; [exact I|].
  assert (B : forall o s', applies "send-super" (VSym k :: vs) env s o s' <->
    runs denote (match v with VFun fl => params <- tail_list 1 (VSym k :: vs) ;; super_apply fl params env f | _ => fail (not_message v) end) s1 o s').
  { intros o s'. body_of. unfold send_super_impl. op1. change (env_at (entering "send-super" env s) env) with (env_at s env). rewrite F. cbn [arg nth]. unfold super_select.
    rewrite (naked_true k K). etransitivity; [apply (then_iff _ _ _ _ _ _ _ R)|]. destruct v; reflexivity. }
  destruct v as [|t l| |z|x|b|l|x|fl|l|x|l|l|l|l|h|l|l]; try (intros o s'; rewrite B; apply fail_iff).
  intros Sy. assert (W2 : wf_state s1) by (eapply wf_runs; [exact W0|exact R]).
  pose proof (new_tail_list vs VNil [] s1 W2 N (il_nil _)) as L. rewrite app_nil_r in L. destruct (new_tail_grows vs VNil s1 W2) as [G _].
  exists (fst (new_tail vs VNil s1)), (snd (new_tail vs VNil s1)). split; [exact G|]. split; [exact L|]. intros o s'. rewrite B.
  unfold tail_list. change (skipn 1 (VSym k :: vs)) with vs. rewrite (then_iff _ _ _ _ _ _ _ (new_tail_run _ _ _)).
  apply super_apply_iff; [exact L|]. unfold fun_at. rewrite (proj1 (new_tail_funs vs VNil s1)).
  assert (H2 : s_funs s1 = s_funs s) by (rewrite C; reflexivity). rewrite H2. exact Sy.
Qed.
Lemma send_super_selector x vs env f s : (forall k, naked k -> x <> VSym k) -> e_frame (env_at s env) = Some f ->
  applies "send-super" (x :: vs) env s (Done (Err (not_selector x))) (entering "send-super" env s).
Proof.
  intros X F. applies. unfold send_super_impl. op1. change (env_at (entering "send-super" env s) env) with (env_at s env). rewrite F. cbn [arg nth]. unfold super_select.
  destruct x as [|t l| |z|n|b|l|n|fl|l|n|l|l|l|l|h|l|l]; try apply runs_ret; (destruct (naked_name n) eqn:E; [|apply runs_ret]; apply has_suffix_spec in E; destruct (X n E eq_refl)).
Qed.
Lemma super_outside vs env s : e_frame (env_at s env) = None ->
  applies "send-super" vs env s (Done (Err "send-super can only be used within the context of a frame.")) (entering "send-super" env s) /\
  applies "apply-slot-super" vs env s (Done (Err "apply-slot-super can only be used within the context of a frame.")) (entering "apply-slot-super" env s).
Proof.
  intros F. split; applies; [unfold send_super_impl|unfold apply_slot_super_impl]; op1.
  - change (env_at (entering "send-super" env s) env) with (env_at s env). rewrite F. apply runs_ret.
  - change (env_at (entering "apply-slot-super" env s) env) with (env_at s env). rewrite F. apply runs_ret.
Qed.

(** *** apply-slot-super.  The frame is that of the environment when the call starts. *)
Lemma apply_super_call ke k es env f s s1 : e_frame (env_at s env) = Some f ->
  evals ke env (entering "apply-slot-super" env s) (Done (Ok (VSym k))) s1 -> naked k -> wf_state s -> e_frame (env_at s1 env) = Some f -> proper_above s1 f ->
  exists v s2, only_choices s1 s2 /\
  ((v <> VNil /\ inherits_above s1 k f v) \/ (v = VNil /\ forall w, inherits_above s1 k f w -> w = VNil)) /\
  match v with
  | VFun fl =>
      (forall vs lst xs s3, evals_all env es s2 (vs ++ [lst]) s3 -> no_nils vs -> is_list s3 lst xs -> symbolp (f_params (fn_code (fun_at s3 fl))) = false ->
        exists l s4, grows s3 s4 /\ is_list s4 l (vs ++ xs) /\
        forall o s', applies "apply-slot-super" (ke :: es) env s o s' <-> calls_function fl None as_it_is l (length (vs ++ xs)) (s_next s4) (super_env env f s4) o s') /\
      (forall vs x s3, evals_all env es s2 (vs ++ [x]) s3 -> listp x = false -> applies "apply-slot-super" (ke :: es) env s (Done (Err last_not_list)) s3) /\
      (forall es1 e es2 vs s3 o s4, es = es1 ++ e :: es2 -> evals_all env es1 s2 vs s3 -> evals e env s3 o s4 -> (forall v, o <> Done (Ok v)) ->
        applies "apply-slot-super" (ke :: es) env s o s4)
  | _ => forall o s', applies "apply-slot-super" (ke :: es) env s o s' <-> fails (not_message v) s2 o s'
  end.
Proof.
  intros F0 Ek K W F P. destruct (super_finds k f env s1 s1 (fun _ => eq_refl) F P) as (v & s2 & R & C & I). exists v, s2. split; [exact C|]. split; [exact I|].
  assert (B : forall o s', applies "apply-slot-super" (ke :: es) env s o s' <->
    runs denote (match v with VFun fl => vs <-? eval_all es env ;; l <-? spread_args vs ;; super_apply fl l env f | _ => fail (not_message v) end) s2 o s').
  { intros o s'. body_of. unfold apply_slot_super_impl. op1. change (env_at (entering "apply-slot-super" env s) env) with (env_at s env). rewrite F0. cbn [arg nth tl].
    etransitivity; [apply (bind_ok_iff _ _ _ _ _ _ _ Ek)|]. unfold super_select.
    rewrite (naked_true k K). etransitivity; [apply (then_iff _ _ _ _ _ _ _ R)|]. destruct v; reflexivity. }
  assert (W2 : wf_state s2) by (eapply wf_runs; [eapply wf_runs; [apply wf_entering, W|exact Ek]|exact R]).
  destruct v as [|t l| |z|x|b|l|x|fl|l|x|l|l|l|l|h|l|l]; try (intros o s'; rewrite B; apply fail_iff). split; [|split].
  - intros vs lst xs s4 E N L Sy. pose proof (wf_evals_all _ _ _ _ _ E W2) as W4.
    exists (fst (new_tail vs lst s4)), (snd (new_tail vs lst s4)). destruct (new_tail_grows vs lst s4 W4) as [G _]. split; [exact G|].
    pose proof (new_tail_list vs lst xs s4 W4 N L) as L5. split; [exact L5|]. intros o s'. rewrite B.
    rewrite (bind_ok_iff _ _ _ _ _ _ _ (eval_all_run _ _ _ _ _ E)). rewrite (bind_ok_iff _ _ _ _ _ _ _ (spread_run vs lst xs s4 L)).
    apply super_apply_iff; [exact L5|]. unfold fun_at. rewrite (proj1 (new_tail_funs vs lst s4)). exact Sy.
  - intros vs x s4 E Ls. apply B. rewrite (bind_ok_iff _ _ _ _ _ _ _ (eval_all_run _ _ _ _ _ E)). apply bind_ok_err, spread_bad, Ls.
  - intros es1 e es2 vs s4 o s5 -> E1 E2 N. apply B. destruct (eval_all_stop env es1 e es2 s2 vs s4 o s5 E1 E2 N) as (o' & R' & Q).
    destruct o as [[v'|m]|w], o' as [[v''|m']|w']; try destruct Q; [apply bind_ok_err, R'|apply bind_ok_panic, R'].
Qed.

(** *** self in a method of a prototype *)
Lemma super_self fl env f argument args got s : wf_state s -> 
  let s0 := super_env env f s in
  let f0 := fn_code (fun_at s fl) in
  let s1 := open_env (f_name f0) (f_env f0) (e_frame (env_at s0 (f_env f0))) s0 in
  let s2 := if fn_slot (fun_at s fl) then add_binding (s_next s0) (VSym "self") (VFrame f) s1 else s1 in
  forall o s', calls_function fl None argument args got (s_next s) s0 o s' <->
    bind_if_any (s_next s0) "parentProcess" (option_map VProc (fn_proc (fun_at s fl))) s2 (fun s3 =>
      if enough (f_varargs f0) (f_req f0) got then passes argument (s_next s0) (runs_body f0 (s_next s0)) (f_params f0) args s3
      else fails (arity_msg (f_name f0) (f_varargs f0) (f_req f0) (Z.of_nat got)) s3) o s'.
Proof.
  intros W s0 f0 s1 s2 o s'.
  assert (Fs : forall l, fun_at s0 l = fun_at s l).
  { intros l. unfold s0, fun_at. rewrite super_env_funs. reflexivity. }
  assert (F1 : forall l, fun_at s1 l = fun_at s l). { intros l. unfold s1, fun_at. rewrite open_env_funs. apply Fs. }
  unfold calls_function. rewrite Fs. fold f0. fold s1.
  assert (N : s_next s0 <> s_next s).
  { unfold s0, super_env, add_binding. cbn [s_next set_envs set_binds bump]. unfold open_env. destruct (Pos.eqb env (s_global s)); cbn; lia. }
  set (sa := open_env (e_name (env_at s env) +++ "'") env (Some f) s) in *.
  assert (Na : s_next sa = Pos.succ (s_next s)) by (unfold sa, open_env; destruct (Pos.eqb env (s_global s)); reflexivity).
  assert (E0 : s_envs s0 !! (s_next s : loc) = Some (Env (e_name (env_at s env) +++ "'") (Some env) (Some f) [("self", s_next sa)] (e_restricted (env_at s env)))).
  { assert (E1 : s_envs sa !! (s_next s : loc) = Some (Env (e_name (env_at s env) +++ "'") (Some env) (Some f) [] (e_restricted (env_at s env)))).
    { unfold sa, open_env. destruct (Pos.eqb env (s_global s)); cbn [s_envs set_envs set_tops]; apply lookup_insert. }
    unfold s0, super_env. fold sa. unfold add_binding, put. cbn [s_envs set_envs set_binds bump]. rewrite E1. cbn [s_envs set_envs]. rewrite lookup_insert.
    unfold env_at. rewrite E1. reflexivity. }
  assert (L : local_binding s1 (s_next s) "self" = Some (s_next sa)).
  { unfold s1. rewrite open_env_local by congruence. unfold local_binding, env_at. rewrite E0. reflexivity. }
  assert (V : value_in s1 (s_next sa) = VFrame f).
  { assert (B : s_binds s1 = s_binds s0) by (unfold s1, open_env; destruct (Pos.eqb _ _); reflexivity).
    unfold value_in, bind_at. rewrite B. unfold s0, super_env. fold sa. unfold add_binding. cbn [s_binds set_envs set_binds bump]. rewrite lookup_insert. reflexivity. }
  assert (L1 : local_binding s1 (s_next s0) "self" = None).
  { unfold s1, open_env, local_binding, env_at. destruct (Pos.eqb _ _); cbn [s_envs set_envs set_tops]; rewrite lookup_insert; reflexivity. }
  rewrite L. cbn [option_map]. rewrite V. unfold s2. destruct (fn_slot (fun_at s fl)).
  - cbn [bind_if_any]. unfold then_bind at 1, bind_here. cbn [name_of]. rewrite L1. change (fun_at (add_binding (s_next s0) (VSym "self") (VFrame f) s1) fl) with (fun_at s1 fl). rewrite F1. reflexivity.
  - cbn [bind_if_any]. rewrite F1. reflexivity.
Qed.
(** An environment of a frame whose prototype has a method. *)
Definition with_super (s : state) : state :=
  set_frames (<[1000%positive := [("m:", VInt 9); ("p*:", VFrame 1001%positive)]]> (<[1001%positive := [("m:", VFun 1003%positive)]]> (s_frames s)))
    (set_envs (<[1002%positive := Env "m" (Some (s_global s)) (Some 1000%positive) [] false]> (s_envs s)) s).
Lemma with_super_case s : let s' := with_super s in
  e_frame (env_at s' 1002%positive) = Some 1000%positive /\ proper_above s' 1000%positive /\ proper_parents s' 1000%positive /\
  inherits_above s' "m:" 1000%positive (VFun 1003%positive) /\ inherits s' "m:" 1000%positive 1000%positive (VInt 9) /\
  evals_all 1002%positive [VInt 5; VFrame 1000%positive] s' [VInt 5; VFrame 1000%positive] s'.
Proof.
  intros s'. assert (E : s_envs s' !! (1002%positive : loc) = Some (Env "m" (Some (s_global s)) (Some 1000%positive) [] false)) by apply lookup_insert.
  assert (F1 : frame_at s' 1000%positive = [("m:", VInt 9); ("p*:", VFrame 1001%positive)]) by (unfold frame_at, s', with_super; cbn [s_frames set_frames]; rewrite lookup_insert; reflexivity).
  assert (F2 : frame_at s' 1001%positive = [("m:", VFun 1003%positive)]).
  { unfold frame_at, s', with_super; cbn [s_frames set_frames]; rewrite lookup_insert_ne by discriminate; rewrite lookup_insert; reflexivity. }
  assert (R1 : forall g, reaches s' 1001%positive g -> g = 1001%positive).
  { intros g G. inversion G as [|? p ? (k & I & _) _]; subst; [reflexivity|]. rewrite F2 in I. destruct I as [I|[]]; inversion I. }
  assert (Pa : forall p, parent s' 1000%positive p -> p = 1001%positive).
  { intros p (k & I & _). rewrite F1 in I. destruct I as [I|[I|[]]]; inversion I. reflexivity. }
  assert (P1 : proper_parents s' 1001%positive).
  { intros g G k v I K. rewrite (R1 g G), F2 in I. apply parent_key in K. destruct I as [I|[]]; injection I as <- <-; discriminate. }
  assert (P0 : forall k v, In (k, v) (frame_at s' 1000%positive) -> names_parent k -> v = VNil \/ exists h, v = VFrame h).
  { intros k v I K. rewrite F1 in I. apply parent_key in K. destruct I as [I|[I|[]]]; injection I as <- <-; [discriminate|right; eauto]. }
  assert (Q : parent s' 1000%positive 1001%positive) by (exists "p*:"; rewrite F1; split; [right; left; reflexivity|exists "p"; reflexivity]).
  repeat apply conj.
  - unfold env_at. rewrite E. reflexivity.
  - exact P0.
  - intros p Hp. rewrite (Pa p Hp). exact P1.
  - intros g G. inversion G as [|? p ? Hp G']; subst; [exact P0|]. rewrite (Pa p Hp) in G'. exact (P1 g G').
  - exists 1001%positive, 1001%positive. split; [exact Q|]. constructor. unfold slot. rewrite F2. reflexivity.
  - constructor. unfold slot. rewrite F1. reflexivity.
  - eapply evals_next; [apply eval_self; [exact Logic.I|split; reflexivity]|]. eapply evals_next; [apply eval_self; [exact Logic.I|split; reflexivity]|constructor].
Qed.
