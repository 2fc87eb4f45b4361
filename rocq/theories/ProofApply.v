(** Proofs of C46: apply. *)
From Verif Require Export ProofForm.
From stdpp Require Import list.
From Verif Require Import Data.
Local Open Scope string_scope.
Local Open Scope list_scope.
Local Open Scope Z_scope.

Lemma nil_ended_list s v xs : nil_ended s v xs -> is_list s v xs.
Proof. induction 1; econstructor; eauto. Qed.
Lemma nil_ended_kept s s' v xs : kept (s_cells s) (s_cells s') -> nil_ended s v xs -> nil_ended s' v xs.
Proof. intros K. induction 1; econstructor; eauto. Qed.
Lemma new_tail_nil_ended vs tl : forall xs s, wf_state s -> no_nils vs -> nil_ended s tl xs -> nil_ended (snd (new_tail vs tl s)) (fst (new_tail vs tl s)) (vs ++ xs).
Proof.
  induction vs as [|v vs IH]; intros xs s W N L; cbn [new_tail]; [exact L|].
  specialize (IH xs s W (Forall_inv_tail N) L). destruct (new_tail_grows vs tl s W) as [_ W1]. destruct (new_tail vs tl s) as [t s1]. cbn [fst snd] in *.
  assert (Nv : v <> VNil) by (exact (Forall_inv N)).
  assert (E : stored v s1 = (v, s1)) by (destruct v; try reflexivity; congruence). rewrite E. unfold fresh_cell. cbn [fst snd].
  eapply ne_cons; [cbn; apply lookup_insert|left; exact Nv|]. eapply nil_ended_kept; [|exact IH]. apply g_cells, (grows_new_cell s1 v t W1).
Qed.
Lemma new_tail_list vs tl : forall xs s, wf_state s -> no_nils vs -> is_list s tl xs -> is_list (snd (new_tail vs tl s)) (fst (new_tail vs tl s)) (vs ++ xs).
Proof.
  induction vs as [|v vs IH]; intros xs s W N L; cbn [new_tail]; [exact L|].
  specialize (IH xs s W (Forall_inv_tail N) L). destruct (new_tail_grows vs tl s W) as [_ W1]. destruct (new_tail vs tl s) as [t s1]. cbn [fst snd] in *.
  assert (Nv : v <> VNil) by (exact (Forall_inv N)).
  assert (E : stored v s1 = (v, s1)) by (destruct v; try reflexivity; congruence). rewrite E. unfold fresh_cell. cbn [fst snd].
  eapply il_cons; [cbn; apply lookup_insert|left; exact Nv|]. eapply is_list_kept; [|exact IH]. apply g_cells, (grows_new_cell s1 v t W1).
Qed.
(** The list of all arguments *)
Definition args_built (vs : list val) (lst : val) (s : state) : val * state := new_tail vs lst s.
Lemma apply_impl_iff f vs lst env s o s' : function_or_primp f = true -> listp lst = true ->
  applies "apply" (f :: vs ++ [lst]) env s o s' <->
  (let '(al, s1) := new_tail vs lst (entering "apply" env s) in applied_values f al env s1) o s'.
Proof.
  intros F L. body_of. unfold apply_impl. cbn [arg nth tl]. rewrite F. cbn [negb]. rewrite rev_app_distr. cbn [rev app]. rewrite L.
  destruct vs as [|v vs].
  - cbn [rev new_tail]. rewrite (then_iff _ _ _ _ _ _ _ (runs_ret _ _ _ _)). reflexivity.
  - destruct (rev (v :: vs)) eqn:E; [apply (f_equal (@rev val)) in E; rewrite rev_involutive in E; discriminate|]. rewrite <- E, rev_involutive.
    assert (R : runs denote (array_to_list_with_tail (v :: vs) lst) (entering "apply" env s) (Done (fst (new_tail (v :: vs) lst (entering "apply" env s)))) (snd (new_tail (v :: vs) lst (entering "apply" env s)))) by apply new_tail_run.
    rewrite (then_iff _ _ _ _ _ _ _ R). destruct (new_tail (v :: vs) lst (entering "apply" env s)) as [al s1]. reflexivity.
Qed.
Lemma apply_user fl vs lst xs env s : wf_state s -> no_nils vs -> is_list s lst xs -> symbolp (f_params (fn_code (fun_at s fl))) = false ->
  exists al s1, grows s s1 /\ is_list s1 al (vs ++ xs) /\ forall o s',
    applies "apply" (VFun fl :: vs ++ [lst]) env s o s' <->
    calls_function fl (if fn_slot (fun_at s fl) then e_frame (env_at s env) else None) as_it_is al (length (vs ++ xs)) env s1 o s'.
Proof.
  intros W N L S. set (s0 := entering "apply" env s). assert (W0 : wf_state s0) by apply wf_entering, W.
  assert (L0 : is_list s0 lst xs) by exact (is_list_cells s s0 _ _ eq_refl L).
  pose proof (new_tail_list vs lst xs s0 W0 N L0) as L1. destruct (new_tail_grows vs lst s0 W0) as [G _].
  exists (fst (new_tail vs lst s0)), (snd (new_tail vs lst s0)).
  assert (E : fun_at (snd (new_tail vs lst s0)) fl = fun_at s fl /\ s_envs (snd (new_tail vs lst s0)) = s_envs s).
  { clear -vs. revert s0. intros s0. assert (H : s_funs (snd (new_tail vs lst s0)) = s_funs s0 /\ s_envs (snd (new_tail vs lst s0)) = s_envs s0).
    { clear. induction vs as [|v vs IH]; [split; reflexivity|]. cbn [new_tail]. destruct (new_tail vs lst s0) as [t s1]. cbn [snd] in *.
      destruct v; exact IH. }
    destruct H as [H1 H2]. split; [unfold fun_at; rewrite H1; reflexivity|exact H2]. }
  destruct E as [E1 E2].
  split; [eapply grows_trans; [apply grows_entering|exact G]|]. split; [exact L1|]. intros o s'.
  rewrite (apply_impl_iff (VFun fl) vs lst env s o s' eq_refl).
  - fold s0. destruct (new_tail vs lst s0) as [al s1]. cbn [fst snd] in *. unfold applied_values.
    rewrite (apply_fun_iff false fl al (vs ++ xs) env s1 o s' L1); [|rewrite E1; exact S]. unfold receiver_of. rewrite E1. unfold env_at. rewrite E2. reflexivity.
  - clear -L. inversion L; reflexivity.
Qed.

(** *** Quoted arguments *)
Inductive quoted_list (s : state) : val -> list val -> Prop :=
| ql_nil : quoted_list s VNil []
| ql_cons l q a d x xs : s_cells s !! (l : loc) = Some (VCell TCons q, d) -> s_cells s !! (q : loc) = Some (VSym "quote", VCell TCons a) ->
    s_cells s !! (a : loc) = Some (x, VNil) -> x <> VNil -> quoted_list s d xs -> quoted_list s (VCell TCons l) (x :: xs).
Lemma quoted_list_kept s s' v xs : kept (s_cells s) (s_cells s') -> quoted_list s v xs -> quoted_list s' v xs.
Proof. intros K. induction 1; econstructor; eauto. Qed.
Lemma quoted_is_list s v xs : quoted_list s v xs -> exists ys, is_list s v ys /\ length ys = length xs.
Proof.
  induction 1 as [|l q a d x xs E1 E2 E3 N _ (ys & L & Q)]; [exists []; split; [constructor|reflexivity]|].
  exists (VCell TCons q :: ys). split; [eapply il_cons; [exact E1|left; discriminate|exact L]|cbn [length]; congruence].
Qed.
Lemma same_builtin env n s s1 : s_envs s1 = s_envs s -> s_binds s1 = s_binds s -> means_builtin env n s -> means_builtin env n s1.
Proof.
  intros E1 E2 (b & V & Vb & F). exists b. split; [apply (visible_same s); assumption|].
  unfold value_in, bind_at, local_binding, env_at in *. rewrite E1, E2. auto.
Qed.
Lemma quote_form_run env s q a x : means_builtin env "quote" s -> s_cells s !! (q : loc) = Some (VSym "quote", VCell TCons a) ->
  s_cells s !! (a : loc) = Some (x, VNil) -> x <> VNil ->
  evals (VCell TCons q) env s (Done (Ok x)) (entering "quote" env s).
Proof.
  intros (b & V & Vb & F) E1 E2 N.
  assert (O : finds true env "quote" s (Done (Ok (VPrim "quote"))) s).
  { unfold finds. destruct (local_binding s env "quote") as [b'|] eqn:Lb.
    - assert (b' = b) as -> by (pose proof (visible_det _ _ _ _ V _ (visible_here _ _ _ _ Lb)); congruence). rewrite Vb. split; reflexivity.
    - destruct F as [F|F]; [|congruence]. rewrite F. exists (Some b). split; [exact V|]. rewrite Vb. split; reflexivity. }
  assert (C : cell_at s q = (VSym "quote", VCell TCons a)) by (apply cell_some, E1).
  apply (call_form_iff q env s).
  - cbn [at_end]. rewrite C. discriminate.
  - rewrite C. cbn [fst]. repeat apply conj; reflexivity.
  - rewrite C. cbn [fst]. exists (Done (Ok (VPrim "quote"))), s. split; [apply symbol_iff; exact O|]. cbn [nilb]. rewrite C. cbn [snd].
    unfold applied.
    assert (I : exists p, In p all_prims /\ p_name p = "quote" /\ p_special p = true /\ declared p [Exactly 1] /\ p_restricted p = false).
    { assert (T : exists p, table "quote" = Some p /\ (p_special p = true /\ p_spec p = "1" /\ p_restricted p = false)) by (eexists; split; [reflexivity|repeat apply conj; reflexivity]).
      destruct T as (p & T & H1 & H2 & H3). exists p. destruct (table_in _ _ T) as [I1 I2]. repeat apply conj; auto. constructor; [unfold sane, int64_max, two63; lia|constructor]. }
    destruct I as (p & I & Ep & Sp & D & Rp). rewrite <- Ep. apply (apply_prim_iff p _ env s _ _ I).
    assert (La : is_list s (VCell TCons a) [x]) by (eapply il_cons; [exact E2|left; exact N|constructor]).
    assert (Ca : cell_at s a = (x, VNil)) by (apply cell_some, E2).
    apply (prim_apply_iff p [Exactly 1] _ [x] env s _ _ I D La (or_introl Rp)).
    + exists (Exactly 1). split; [left; reflexivity|reflexivity].
    + rewrite Sp. eapply collect_next with (v := x) (s1 := s).
      * cbn [at_end]. rewrite Ca. congruence.
      * cbn [head_of]. rewrite Ca. split; reflexivity.
      * cbn [rest_of]. rewrite Ca. apply collect_end; [exact Logic.I|]. cbn [app]. rewrite Ep. unfold enters. cbn [all_stored].
        assert (Es : stored x s = (x, s)) by (destruct x; try reflexivity; congruence). rewrite Es. applies. unfold quote_impl. cbn [arg nth]. destruct x; try apply runs_ret. congruence.
Qed.
Lemma quoted_collect env (k : list val -> state -> behaviour) xs : forall vs args s o s', means_builtin env "quote" s -> quoted_list s args xs ->
  collects (evaluated env) k vs args s o s' <-> k (vs ++ xs) (Nat.iter (length xs) (entering "quote" env) s) o s'.
Proof.
  induction xs as [|x xs IH]; intros vs args s o s' M Q.
  - inversion Q; subst. rewrite app_nil_r. cbn [length Nat.iter nat_rect]. split; [|intros H; apply collect_end; [exact I|exact H]].
    intros H. inversion H; subst; [assumption| | |]; match goal with H : ~ at_end _ _ |- _ => destruct H; exact I end.
  - inversion Q as [|l q a d x' xs' E1 E2 E3 N Q']; subst.
    assert (R := quote_form_run env s q a x M E2 E3 N). assert (C : cell_at s l = (VCell TCons q, d)) by (apply cell_some, E1).
    assert (Ne : ~ at_end s (VCell TCons l)) by (cbn [at_end]; rewrite C; discriminate).
    assert (Hd : head_of s (VCell TCons l) = VCell TCons q) by (cbn [head_of]; rewrite C; reflexivity).
    set (s1 := entering "quote" env s) in *.
    assert (M1 : means_builtin env "quote" s1) by exact (same_builtin env "quote" s s1 eq_refl eq_refl M).
    assert (Q1 : quoted_list s1 d xs) by exact (quoted_list_kept s s1 _ _ (kept_refl _) Q').
    assert (It : Nat.iter (length (x :: xs)) (entering "quote" env) s = Nat.iter (length xs) (entering "quote" env) s1).
    { cbn [length]. rewrite Nat.iter_succ_r. reflexivity. }
    rewrite It. replace (vs ++ x :: xs) with ((vs ++ [x]) ++ xs) by (rewrite <- app_assoc; reflexivity). rewrite <- (IH (vs ++ [x]) d s1 o s' M1 Q1).
    split.
    + intros H. inversion H as [? ? ? ? ? A|? ? ? m s2 _ A|? ? ? w s2 _ A|? ? ? v s2 ? ? _ A B]; subst; [contradiction| | |]; unfold evaluated in A; rewrite Hd in A; destruct (runs_det _ _ _ _ _ _ _ _ A R) as [E3' E4]; try discriminate.
      injection E3' as ->. subst s2. assert (Rs : rest_of s1 (VCell TCons l) = d) by (change (rest_of s1 (VCell TCons l)) with (rest_of s (VCell TCons l)); cbn [rest_of]; rewrite C; reflexivity). rewrite Rs in B. exact B.
    + assert (Rs : rest_of s1 (VCell TCons l) = d) by (change (rest_of s1 (VCell TCons l)) with (rest_of s (VCell TCons l)); cbn [rest_of]; rewrite C; reflexivity). intros H. eapply collect_next; [exact Ne|unfold evaluated; rewrite Hd; exact R|rewrite Rs; exact H].
Qed.
(** QuoteAll of a nil-ended list *)
Lemma quote_it_run x s : wf_state s -> x <> VNil -> exists q a s1, runs denote (quote_it x) s (Done (VCell TCons q)) s1 /\ grows s s1 /\ wf_state s1 /\
  s_cells s1 !! (q : loc) = Some (VSym "quote", VCell TCons a) /\ s_cells s1 !! (a : loc) = Some (x, VNil) /\ s_envs s1 = s_envs s /\ s_binds s1 = s_binds s.
Proof.
  intros W N. pose proof (new_list_run [VSym "quote"; x] s) as R. destruct (new_list_grows [VSym "quote"; x] s W) as [G W1].
  assert (Es : stored x s = (x, s)) by (destruct x; try reflexivity; congruence).
  unfold new_list in *. cbn [new_tail stored] in *. rewrite Es in *. unfold fresh_cell in *. cbn [fst snd stored] in *.
  assert (Eq : quote_it x = array_to_list [VSym "quote"; x]) by (destruct x; try reflexivity; congruence). rewrite Eq.
  eexists _, _, _. split; [exact R|]. split; [exact G|]. split; [exact W1|].
  split; [cbn; apply lookup_insert|]. split; [|split; reflexivity]. cbn. rewrite lookup_insert_ne by lia. apply lookup_insert.
Qed.
Definition quoted_elem (s : state) (y x : val) : Prop := exists q a, y = VCell TCons q /\
  s_cells s !! (q : loc) = Some (VSym "quote", VCell TCons a) /\ s_cells s !! (a : loc) = Some (x, VNil) /\ x <> VNil.
Lemma quoted_elem_kept s s' y x : kept (s_cells s) (s_cells s') -> quoted_elem s y x -> quoted_elem s' y x.
Proof. intros K (q & a & -> & E1 & E2 & N). exists q, a. auto. Qed.
Lemma quoting_run xs : forall v acc s, wf_state s -> nil_ended s v xs -> no_nils xs -> exists ys s1,
  runs denote (for_ptrs (fun acc c => a <- car c ;; q <- quote_it a ;; Ret (q :: acc)) v acc) s (Done (rev ys ++ acc)) s1 /\
  grows s s1 /\ wf_state s1 /\ Forall2 (quoted_elem s1) ys xs /\ s_envs s1 = s_envs s /\ s_binds s1 = s_binds s.
Proof.
  induction xs as [|x xs IH]; intros v acc s W L N.
  - inversion L; subst. exists [], s. split; [apply runs_loop_stop, runs_ret|]. split; [apply grows_refl|]. split; [exact W|]. split; [constructor|]. split; reflexivity.
  - inversion L as [|l a d xs' E Na T]; subst. assert (Nx : x <> VNil) by exact (Forall_inv N).
    destruct (quote_it_run x s W Nx) as (q & a & s1 & R & G & W1 & Q1 & Q2 & E1 & E2).
    assert (L1 : nil_ended s1 d xs) by (eapply nil_ended_kept; [apply g_cells, G|exact T]).
    destruct (IH d (VCell TCons q :: acc) s1 W1 L1 (Forall_inv_tail N)) as (ys & s2 & R2 & G2 & W2 & F2 & E3 & E4).
    exists (VCell TCons q :: ys), s2. split.
    + eapply runs_loop_step; [|cbn [rev]; rewrite <- app_assoc; exact R2]. cbn [is_nil]. eapply runs_bind.
      * apply car_iff. cbn [head_of]. rewrite (cell_some _ _ _ E). cbn [fst]. apply (then_iff _ _ _ _ _ _ _ R). apply runs_ret.
      * apply cdr_iff. cbn [rest_of]. rewrite (cell_some _ _ _ (g_cells _ _ G _ _ E)). apply runs_ret.
    + split; [eapply grows_trans; eassumption|]. split; [exact W2|]. split.
      * constructor; [|exact F2]. apply (quoted_elem_kept s1); [apply g_cells, G2|]. exists q, a. auto.
      * split; congruence.
Qed.
Lemma quoted_from_list s v ys : nil_ended s v ys -> forall xs, Forall2 (quoted_elem s) ys xs -> quoted_list s v xs.
Proof.
  induction 1 as [|l a d ys E N _ IH]; intros xs F; inversion F as [|? x ? xs' (q & b & -> & E1 & E2 & Nx) F']; subst; [constructor|].
  eapply ql_cons; eauto.
Qed.
Lemma quote_all_run xs v s : wf_state s -> nil_ended s v xs -> no_nils xs -> xs <> [] -> exists q s1,
  runs denote (quote_all v) s (Done q) s1 /\ grows s s1 /\ wf_state s1 /\ quoted_list s1 q xs /\ s_envs s1 = s_envs s /\ s_binds s1 = s_binds s.
Proof.
  intros W L N Ne. destruct (quoting_run xs v [] s W L N) as (ys & s1 & R & G & W1 & F & E1 & E2).
  assert (Ny : no_nils ys) by (clear -F; induction F as [|? ? ? ? (q & a & -> & _)]; constructor; [discriminate|assumption]).
  assert (Yn : ys <> []) by (intros ->; inversion F; subst; congruence).
  pose proof (new_list_run ys s1) as R2. destruct (new_list_grows ys s1 W1) as [G2 W2].
  pose proof (new_tail_nil_ended ys VNil [] s1 W1 Ny (ne_nil _)) as L2. rewrite app_nil_r in L2.
  assert (Env : s_envs (snd (new_tail ys VNil s1)) = s_envs s1 /\ s_binds (snd (new_tail ys VNil s1)) = s_binds s1).
  { clear. induction ys as [|v vs IH]; [split; reflexivity|]. cbn [new_tail]. destruct (new_tail vs VNil s1) as [t s2]. cbn [snd] in *. destruct v; exact IH. }
  assert (En : new_list ys s1 = new_tail ys VNil s1) by (destruct ys; [congruence|reflexivity]). rewrite En in *.
  exists (fst (new_tail ys VNil s1)), (snd (new_tail ys VNil s1)). split.
  - unfold quote_all. assert (H : runs denote (l <- for_ptrs (fun acc c => a <- car c ;; q <- quote_it a ;; Ret (q :: acc)) v [] ;; array_to_list (rev l)) s (Done (fst (new_tail ys VNil s1))) (snd (new_tail ys VNil s1))).
    { eapply runs_bind; [exact R|]. rewrite app_nil_r, rev_involutive. exact R2. }
    destruct v; try exact H. inversion L; subst; congruence.
  - split; [eapply grows_trans; eassumption|]. split; [exact W2|]. split; [|destruct Env; split; congruence].
    eapply quoted_from_list; [exact L2|]. eapply Forall2_impl; [exact F|]. intros y x. apply quoted_elem_kept, g_cells, G2.
Qed.
(** A built-in given a list of values *)
Lemma values_prim p ts v xs env s : In p all_prims -> declared p ts -> p_special p = false -> wf_state s -> nil_ended s v xs -> no_nils xs -> xs <> [] ->
  means_builtin env "quote" s -> (p_restricted p = false \/ e_restricted (env_at s env) = false) ->
  exists s1, grows s s1 /\ forall o s', applied_values (VPrim (p_name p)) v env s o s' <->
    (exists n, accepts ts (length xs) /\ applies (p_name p) xs env (Nat.iter n (entering "quote" env) s1) o s' /\ n = length xs) \/
    (~ accepts ts (length xs) /\ fails (wrong_args_msg p (Z.of_nat (length xs))) s1 o s').
Proof.
  intros I D Sp W L N Ne M Rr. destruct (quote_all_run xs v s W L N Ne) as (q & s1 & R & G & W1 & Q & E1 & E2).
  exists s1. split; [exact G|]. intros o s'. unfold applied_values. rewrite call_iff. cbn [denote]. unfold apply_body. cbn [is_nil].
  rewrite (then_iff _ _ _ _ _ _ _ (runs_ret _ _ _ _)). cbv iota. rewrite (table_of _ p I eq_refl). unfold prim_apply_noeval. rewrite Sp.
  rewrite (then_iff _ _ _ _ _ _ _ R). destruct (quoted_is_list _ _ _ Q) as (ys & Ly & Hy).
  assert (Rr1 : p_restricted p = false \/ e_restricted (env_at s1 env) = false) by (unfold env_at in *; rewrite E1; exact Rr).
  assert (M1 : means_builtin env "quote" s1) by (eapply same_builtin; eassumption).
  assert (Dec : {accepts ts (length xs)} + {~ accepts ts (length xs)}).
  { destruct D as [_ D]. destruct (check_count (parse_num_args (counts_text ts)) (Z.of_nat (length xs))) eqn:C; [left; apply counts_iff; assumption|right].
    intros A. apply counts_iff in A; [congruence|exact D]. }
  destruct Dec as [A|A].
  - assert (A' := A). rewrite <- Hy in A'. rewrite (prim_apply_iff p ts q ys env s1 o s' I D Ly Rr1 A'). rewrite Sp.
    rewrite (quoted_collect env _ xs [] q s1 o s' M1 Q). cbn [app]. unfold enters.
    assert (St : forall s, all_stored xs s = (xs, s)).
    { clear -N. induction N as [|x xs Nx _ IH]; intros s; [reflexivity|]. cbn [all_stored]. assert (Es : stored x s = (x, s)) by (destruct x; try reflexivity; congruence). rewrite Es, IH. reflexivity. }
    rewrite St. split; [intros H; left; exists (length xs); auto|]. intros [(n & _ & H & ->)|[H _]]; [exact H|contradiction].
  - assert (A' := A). rewrite <- Hy in A'. rewrite (prim_apply_count p ts q ys env s1 o s' D Ly Rr1 A'). rewrite Hy.
    split; [intros H; right; auto|]. intros [(n & H & _)|[_ H]]; [contradiction|exact H].
Qed.
Lemma iter_grows env n s : grows s (Nat.iter n (entering "quote" env) s).
Proof. induction n as [|n IH]; [apply grows_refl|]. cbn [Nat.iter nat_rect]. eapply grows_trans; [exact IH|apply grows_entering]. Qed.
Lemma apply_builtin p ts vs lst xs env s : In p all_prims -> declared p ts -> p_special p = false -> wf_state s -> no_nils vs ->
  nil_ended s lst xs -> no_nils xs -> vs ++ xs <> [] -> means_builtin env "quote" s ->
  (p_restricted p = false \/ e_restricted (env_at s env) = false) ->
  exists s1, grows s s1 /\
    (accepts ts (length (vs ++ xs)) -> forall o s', applies "apply" (VPrim (p_name p) :: vs ++ [lst]) env s o s' <-> applies (p_name p) (vs ++ xs) env s1 o s') /\
    (~ accepts ts (length (vs ++ xs)) -> exists s2, grows s s2 /\
       applies "apply" (VPrim (p_name p) :: vs ++ [lst]) env s (Done (Err (wrong_args_msg p (Z.of_nat (length (vs ++ xs)))))) s2).
Proof.
  intros I D Sp W Nv L Nx Ne M Rr. set (s0 := entering "apply" env s). assert (W0 : wf_state s0) by apply wf_entering, W.
  assert (L0 : nil_ended s0 lst xs) by exact (nil_ended_kept s s0 _ _ (kept_refl _) L).
  pose proof (new_tail_nil_ended vs lst xs s0 W0 Nv L0) as L1. destruct (new_tail_grows vs lst s0 W0) as [G1 W1].
  assert (E : s_envs (snd (new_tail vs lst s0)) = s_envs s0 /\ s_binds (snd (new_tail vs lst s0)) = s_binds s0).
  { clear. induction vs as [|v vs IH]; [split; reflexivity|]. cbn [new_tail]. destruct (new_tail vs lst s0) as [t s1]. cbn [snd] in *. destruct v; exact IH. }
  assert (F : forall o s', applies "apply" (VPrim (p_name p) :: vs ++ [lst]) env s o s' <-> applied_values (VPrim (p_name p)) (fst (new_tail vs lst s0)) env (snd (new_tail vs lst s0)) o s').
  { intros o s'. rewrite (apply_impl_iff (VPrim (p_name p)) vs lst env s o s' eq_refl); [|clear -L; inversion L; reflexivity]. fold s0. destruct (new_tail vs lst s0); reflexivity. }
  destruct (new_tail vs lst s0) as [al s1]. cbn [fst snd] in *. destruct E as [E1 E2].
  assert (M1 : means_builtin env "quote" s1) by (apply (same_builtin env "quote" s); [exact E1|exact E2|exact M]).
  assert (Rr1 : p_restricted p = false \/ e_restricted (env_at s1 env) = false) by (unfold env_at in *; rewrite E1; exact Rr).
  assert (N : no_nils (vs ++ xs)) by (apply Forall_app; split; assumption).
  destruct (values_prim p ts al (vs ++ xs) env s1 I D Sp W1 L1 N Ne M1 Rr1) as (s2 & G2 & H).
  assert (G : grows s s2) by (eapply grows_trans; [apply (grows_entering "apply" env)|]; eapply grows_trans; eassumption).
  exists (Nat.iter (length (vs ++ xs)) (entering "quote" env) s2). split; [eapply grows_trans; [exact G|apply iter_grows]|]. split.
  - intros A o s'. rewrite F, H. split; [intros [(n & _ & R & ->)|[NA _]]; [exact R|contradiction]|]. intros R. left. exists (length (vs ++ xs)). auto.
  - intros A. exists s2. split; [exact G|]. apply F, H. right. split; [exact A|split; reflexivity].
Qed.

(** *** C16: an environment keeps its parent *)
Lemma parents_refl s : parents_fixed s s.
Proof. intros l e H. eauto. Qed.
Lemma parents_trans a b c : parents_fixed a b -> parents_fixed b c -> parents_fixed a c.
Proof. intros H1 H2 l e H. destruct (H1 _ _ H) as (e1 & E1 & P1). destruct (H2 _ _ E1) as (e2 & E2 & P2). exists e2. split; congruence. Qed.
Lemma parents_same s s' : s_envs s' = s_envs s -> parents_fixed s s'.
Proof. intros E l e H. rewrite E. eauto. Qed.
Lemma parents_put s s' l x : s_envs s' = put l x (s_envs s) -> e_parent x = e_parent (env_at s l) -> parents_fixed s s'.
Proof.
  intros E P k e H. rewrite E. unfold put. destruct (s_envs s !! l) as [y|] eqn:El; [|eauto].
  destruct (Pos.eqb_spec l k) as [->|N]; [rewrite lookup_insert|rewrite lookup_insert_ne by exact N; eauto].
  exists x. split; [reflexivity|]. rewrite P. unfold env_at. rewrite H. reflexivity.
Qed.
Lemma parents_step X (o : op X) s x s' : wf_state s -> step_op o s = Some (x, s') -> parents_fixed s s'.
Proof.
  assert (Hch : forall z s1, next_choice s = (z, s1) -> s_envs s1 = s_envs s).
  { intros z s1. unfold next_choice. destruct (s_oracle s); intros [= <- <-]; reflexivity. }
  intros W Hs. destruct o; cbn [step_op] in Hs; try (injection Hs as <- <-); try (apply parents_same; reflexivity).
  - intros k e H. cbn. rewrite lookup_insert_ne; [eauto|]. intros Ek. destruct (wf_envs _ W _ _ H). lia.
  - eapply parents_put; reflexivity.
  - eapply parents_put; reflexivity.
  - eapply parents_put; reflexivity.
  - destruct (alookup _ _); injection Hs as <- <-; apply parents_same; reflexivity.
  - destruct (chan_send _ _ _ _); injection Hs as <- <-; apply parents_same; reflexivity.
  - destruct (plookup _ _); [|discriminate]; injection Hs as <- <-; apply parents_same; reflexivity.
  - destruct (chan_recv _ _ _); injection Hs as <- <-; apply parents_same; reflexivity.
  - destruct (plookup _ _); [|discriminate]; injection Hs as <- <-; apply parents_same; reflexivity.
  - destruct (chan_close _); injection Hs as <- <-; apply parents_same; reflexivity.
  - destruct (next_choice s) as [z s1] eqn:E. specialize (Hch _ _ eq_refl). destruct (_ && _); injection Hs as <- <-; apply parents_same; exact Hch.
  - destruct (next_choice s) as [z s1] eqn:E. specialize (Hch _ _ eq_refl). injection Hs as <- <-. apply parents_same.
    destruct (_ =? 0)%Z; [exact Hch|destruct (_ =? 1)%Z; exact Hch].
  - destruct (pr_ret _); [|discriminate]. injection Hs as <- <-; apply parents_same; reflexivity.
  - destruct (_ =? _)%Z; injection Hs as <- <-; apply parents_same; reflexivity.
  - destruct (next_choice s) as [z s1] eqn:E. injection Hs as <- <-. apply parents_same. exact (Hch _ _ eq_refl).
Qed.
Lemma parents_psteps c c' : wf_state (snd c) -> psteps c c' -> parents_fixed (snd c) (snd c').
Proof.
  intros H Hs. refine (proj2 (psteps_rel wf_state parents_fixed _ _ _ _ _ _ c c' H Hs)).
  - apply parents_refl.
  - apply parents_trans.
  - intros X o s x s' Hi Ho. split; [exact (wf_step _ _ _ _ _ Ho Hi)|exact (parents_step _ _ _ _ _ Hi Ho)].
  - intros l v s s' Hi Ho. split; [exact (wf_put_ret _ _ _ _ Ho Hi)|].
    unfold put_ret in Ho. destruct (pr_ret _); [discriminate|]. injection Ho as <-. apply parents_same; reflexivity.
  - intros s Hi. split; [apply wf_pending, Hi|apply parents_same; reflexivity].
  - intros w s Hi. split; [apply wf_out, Hi|apply parents_same; reflexivity].
Qed.
Lemma parents_runs A (p : prog A) s o s' : wf_state s -> runs denote p s o s' -> parents_fixed s s'.
Proof.
  intros H [n Hs]. refine (proj2 (run_rel wf_state parents_fixed _ _ _ n A p s o s' H Hs)).
  - apply parents_refl.
  - apply parents_trans.
  - intros X o1 s1 x s2 Hi Ho. split; [exact (wf_step _ _ _ _ _ Ho Hi)|exact (parents_step _ _ _ _ _ Hi Ho)].
Qed.
(** *** Statements assembled from the above *)
Lemma builtin_called p ts args es env s o s' : In p all_prims -> declared p ts -> is_list s args es ->
  (p_restricted p = false \/ e_restricted (env_at s env) = false) -> accepts ts (length es) ->
  applied (VPrim (p_name p)) args env s o s' <->
  collects (if p_special p then as_it_is else evaluated env) (enters (p_name p) env) [] args s o s'.
Proof. intros I D L R A. unfold applied. rewrite (apply_prim_iff p _ _ _ _ _ I). exact (prim_apply_iff p ts args es env s o s' I D L R A). Qed.
Lemma builtin_refused p ts args es env s o s' : In p all_prims -> declared p ts -> is_list s args es ->
  (p_restricted p = false \/ e_restricted (env_at s env) = false) -> ~ accepts ts (length es) ->
  applied (VPrim (p_name p)) args env s o s' <-> fails (wrong_args_msg p (Z.of_nat (length es))) s o s'.
Proof. intros I D L R A. unfold applied. rewrite (apply_prim_iff p _ _ _ _ _ I). exact (prim_apply_count p ts args es env s o s' D L R A). Qed.
Lemma builtin_restricted p args env s o s' : In p all_prims -> p_restricted p = true -> e_restricted (env_at s env) = true ->
  applied (VPrim (p_name p)) args env s o s' <-> fails (restricted_msg (p_name p)) s o s'.
Proof. intros I R E. unfold applied. rewrite (apply_prim_iff p _ _ _ _ _ I). exact (prim_apply_restricted p args env s o s' R E). Qed.
Lemma call_expression l env s o s' : ~ at_end s (VCell TCons l) -> plain_head (head_of s (VCell TCons l)) ->
  evals (VCell TCons l) env s o s' <->
  after (operator (head_of s (VCell TCons l)) env s)
    (fun f s1 => if nilb s1 f then fails "Nil when function or macro expected." s1 else applied f (rest_of s1 (VCell TCons l)) env s1) o s'.
Proof.
  intros N P. rewrite (call_form_iff l env s o s' N P). cbn [head_of rest_of]. unfold after.
  split; intros (o1 & s1 & R & H); exists o1, s1; (split; [apply operator_iff, R|exact H]).
Qed.
Lemma function_called fl args es env s o s' : is_list s args es -> symbolp (f_params (fn_code (fun_at s fl))) = false ->
  plain_call s fl env -> env <> s_next s ->
  let f := fn_code (fun_at s fl) in
  let le := s_next s in
  let s1 := open_env (f_name f) (f_env f) (e_frame (env_at s (f_env f))) s in
  applied (VFun fl) args env s o s' <->
  (if enough (f_varargs f) (f_req f) (length es) then passes (evaluated env) le (runs_body f le) (f_params f) args s1
   else fails (arity_msg (f_name f) (f_varargs f) (f_req f) (Z.of_nat (length es))) s1) o s'.
Proof.
  intros L S P N. cbv zeta. unfold applied. rewrite (apply_fun_iff true fl args es env s o s' L S).
  apply (calls_plain fl (evaluated env) args (length es) env s o s' P N).
Qed.
Lemma function_called_any fl args es env s o s' : is_list s args es -> symbolp (f_params (fn_code (fun_at s fl))) = false ->
  applied (VFun fl) args env s o s' <->
  calls_function fl (if fn_slot (fun_at s fl) then e_frame (env_at s env) else None) (evaluated env) args (length es) env s o s'.
Proof. intros L S. exact (apply_fun_iff true fl args es env s o s' L S). Qed.
Lemma macro_called ml args es env s o s' : is_list s args es -> symbolp (m_params (mac_at s ml)) = false ->
  applied (VMacro ml) args env s o s' <-> calls_macro ml args (length es) env s o s'.
Proof. exact (apply_macro_iff true ml args es env s o s'). Qed.
Lemma free_names s le p n r : e_parent (env_at s le) = Some p -> local_binding s le n = None -> visible s n le r <-> visible s n p r.
Proof.
  intros P L. split; intros H.
  - inversion H; subst; congruence.
  - eapply visible_above; eassumption.
Qed.
Lemma assign_only b v s : handed_out s b -> s_binds s !! b <> None -> only_binding b s (assign b v s) /\ value_in (assign b v s) b = v.
Proof.
  intros _ E. destruct (s_binds s !! b) as [x|] eqn:Eb; [|congruence]. split; [split|].
  - reflexivity.
  - intros k N. unfold bind_at, assign, put. rewrite Eb. cbn. rewrite lookup_insert_ne by congruence. reflexivity.
  - unfold value_in, bind_at, assign, put. rewrite Eb. cbn. rewrite lookup_insert. reflexivity.
Qed.
Lemma alookup_aset_other {A} (l : list (string * A)) n k x : n <> k -> alookup n (aset k x l) = alookup n l.
Proof.
  intros N. induction l as [|[m y] l IH]; cbn [aset alookup].
  - destruct (str_eqb n k) eqn:E; [apply str_eqb_eq in E; congruence|reflexivity].
  - destruct (str_eqb k m) eqn:E; cbn [alookup].
    + apply str_eqb_eq in E. subst m. destruct (str_eqb n k) eqn:E2; [apply str_eqb_eq in E2; congruence|reflexivity].
    + destruct (str_eqb n m); [reflexivity|exact IH].
Qed.
Lemma alookup_aset_same {A} (l : list (string * A)) k x : alookup k (aset k x l) = Some x.
Proof.
  induction l as [|[m y] l IH]; cbn [aset alookup]; [rewrite str_eqb_refl; reflexivity|].
  destruct (str_eqb k m) eqn:E; cbn [alookup]; [rewrite str_eqb_refl; reflexivity|rewrite E; exact IH].
Qed.
Lemma add_only env n v s : wf_state s -> s_envs s !! env <> None -> local_binding s env n = None ->
  let s' := add_binding env (VSym n) v s in
  local_binding s' env n = Some (s_next s) /\ value_in s' (s_next s) = v /\
  (forall e k, (e, k) <> (env, n) -> local_binding s' e k = local_binding s e k) /\
  (forall b : loc, s_binds s !! b <> None -> bind_at s' b = bind_at s b) /\
  (forall e, e_parent (env_at s' e) = e_parent (env_at s e) /\ e_frame (env_at s' e) = e_frame (env_at s e)).
Proof.
  intros W E L. destruct (s_envs s !! env) as [x|] eqn:Ee; [|congruence]. cbv zeta. unfold add_binding, local_binding, value_in, env_at, bind_at, put. cbn [name_of].
  cbn. rewrite Ee. cbn. repeat apply conj.
  - rewrite lookup_insert. cbn. apply alookup_aset_same.
  - rewrite lookup_insert. reflexivity.
  - intros e k N. destruct (Pos.eqb_spec env e) as [<-|Ne]; [|rewrite lookup_insert_ne by exact Ne; reflexivity].
    rewrite lookup_insert, Ee. cbn. apply alookup_aset_other. congruence.
  - intros b Hb. rewrite lookup_insert_ne; [reflexivity|]. intros <-. destruct (s_binds s !! s_next s) eqn:Hn; [|exact (Hb Hn)].
    destruct (wf_binds _ W _ _ Hn). lia.
  - intros e. destruct (Pos.eqb_spec env e) as [<-|Ne]; [rewrite lookup_insert, Ee; split; reflexivity|rewrite lookup_insert_ne by exact Ne; split; reflexivity].
Qed.
Lemma define_err n e env s m s1 : evals e env (entering "define" env s) (Done (Err m)) s1 -> applies "define" [VSym n; e] env s (Done (Err m)) s1.
Proof. intros H. apply define_iff. exists (Done (Err m)), s1. split; [exact H|split; reflexivity]. Qed.
(** Hypotheses that hold in the initial state *)
Definition builtin_hereb (env : loc) (n : string) (s : state) : bool :=
  match local_binding s env n with Some b => match value_in s b with VPrim m => str_eqb m n | _ => false end | None => false end.
Lemma builtin_hereb_means env n s : builtin_hereb env n s = true -> means_builtin env n s.
Proof.
  unfold builtin_hereb. destruct (local_binding s env n) as [b|] eqn:E; [|discriminate]. destruct (value_in s b) eqn:V; try discriminate. intros H. apply str_eqb_eq in H. subst.
  exists b. split; [apply visible_here, E|]. split; [exact V|right; exact E].
Qed.
Lemma start_quote s : grows start s -> s_envs s = s_envs start -> s_binds s = s_binds start -> means_builtin (s_global start) "quote" s.
Proof. intros _ E1 E2. apply (same_builtin _ _ start s E1 E2). apply builtin_hereb_means. vm_compute. reflexivity. Qed.
