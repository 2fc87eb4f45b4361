(** Proofs of C76: definitions made again. *)
From Verif Require Export ProofSession SpecRedefine.
From stdpp Require Import list.
From Verif Require Import Base Data SpecCore SpecFail SpecEval SpecSession SpecRedefine.
Local Open Scope string_scope.
Local Open Scope list_scope.
Local Open Scope Z_scope.

(** The binding of a global function is its own: it carries its name. *)
Definition own_binding (s : state) (x : string) : Prop :=
  exists b l, local_binding s (s_global s) x = Some b /\ s_binds s !! b = Some (Binding (VSym x) (VFun l) false).
Definition named (G : globals) (s : state) : Prop := forall x, In x (map fst G) -> own_binding s x.
Lemma named_kept G G' s s' : ready G' s -> keeps [] s s' -> named G s -> named G s'.
Proof.
  intros R K N x I. destruct (N x I) as (b & l & B & E). exists b, l. split; [rewrite (kept_local G' s s' R K); exact B|apply (k_binds _ _ _ K), E].
Qed.
Lemma wf_noted b v s : wf_state s -> wf_state (noted b v s).
Proof.
  intros W. destruct v; try exact W. cbn [noted]. destruct (s_funs s !! l) as [f|] eqn:E; [|exact W]. destruct W. constructor; try assumption.
  intros y z H. cbn in H. destruct (decide (l = y)) as [<-|N]; [exact (wf_funs _ _ E)|]. rewrite lookup_insert_ne in H by exact N. exact (wf_funs _ _ H).
Qed.
(** A definition of a name that has one. *)
Lemma redefine_step G s c x xs body : wf_state s -> ready G s -> named G s -> own_binding s x -> plain_name x -> Forall plain_name xs -> List.NoDup xs -> proper body ->
  holds s c (definition (x, (xs, body))) ->
  exists w s', evals c (s_global s) s (Done (Ok w)) s' /\ wf_state s' /\ ready ((x, (xs, body)) :: G) s' /\ named ((x, (xs, body)) :: G) s' /\ s_global s' = s_global s /\ s_uni s' = s_uni s /\
    (forall y, local_binding s' (s_global s') y = local_binding s (s_global s) y).
Proof.
  intros W R Nm (b & l & Bx & Eb) Px Pxs Nd Pb H. unfold definition in H. cbn [fst snd map] in H. set (env := s_global s) in *.
  assert (S : seesX [] s env []) by constructor.
  destruct (form_call G [] s env [] "define" [AtLeast 1] c _ special_define ltac:(cbn; tauto) W R S H ltac:(eexists; split; [left; reflexivity|cbn; lia])) as (us & s1 & W1 & K & F & N & C).
  apply Forall2_cons_inv_r in F. destruct F as (hd & us1 & Hhd & F & ->). apply Forall2_cons_inv_r in F. destruct F as (c' & us2 & Hb & F & ->). apply Forall2_nil_inv_r in F. subst us2.
  apply (proj1 (List.Forall_cons_iff _ _ _)) in N. destruct N as [N1 N2].
  destruct (holds_list_inv _ _ _ Hhd) as (hcs & Lh & Fh). apply Forall2_cons_inv_r in Fh. destruct Fh as (hx & pcs & Hx & Fp & ->). apply holds_sym_inv in Hx. subst hx.
  destruct (list_head _ _ _ _ Lh) as (lh & ps & -> & Eh & Nh & Lp). assert (R1 := ready_still _ _ _ K R).
  pose proof R1 as [(ge & He & H1 & H2 & H3 & H4) _]. rewrite (k_global _ _ _ K) in He. fold env in He.
  assert (L0 := kept_local G s s1 R K). rewrite (k_global _ _ _ K) in L0. fold env in L0.
  assert (B1 : local_binding s1 env x = Some b) by (rewrite L0; exact Bx). assert (E1 := k_binds _ _ _ K _ _ Eb).
  assert (Vb : value_in s1 b = VFun l) by (unfold value_in, bind_at; rewrite E1; reflexivity).
  assert (A := fun o s' => define_fun_iff (VCell TCons lh) x ps [c'] env (Some b) s1 (length pcs) false o s' W1 ltac:(rewrite (env_is _ _ _ He); exact H2) eq_refl
    ltac:(cbn [head_of]; rewrite (cell_some _ _ _ Eh); reflexivity) ltac:(cbn [rest_of]; rewrite (cell_some _ _ _ Eh); reflexivity) (list_parameters _ _ _ Lp) (visible_here _ _ _ _ B1)).
  cbv zeta in A. cbn [is_builtin] in A. rewrite Vb in A. set (s2 := entering "define" env s1) in *. assert (W2 : wf_state s2) by apply wf_entering, W1.
  assert (K3 : keeps [] s2 (after_lookup s2 env x (Some b))) by apply keeps_noted. assert (W3 : wf_state (after_lookup s2 env x (Some b))) by apply wf_noted, W2.
  set (s3 := after_lookup s2 env x (Some b)) in *. clearbody s3.
  assert (Lb := new_tail_is [c'] s3 W3 N2). destruct (new_tail_grows [c'] VNil s3 W3) as [Gr W4].
  destruct (new_tail [c'] VNil s3) as [bd s4]. unfold fresh_function in A. cbn [fst snd] in *.
  set (f := Fn x ps false (Z.of_nat (length pcs)) bd env) in *. set (s5 := set_funs _ _) in *.
  assert (G5 : grows s4 s5).
  { unfold s5. constructor; try reflexivity; try (intros ? y Hy; exact Hy).
    - cbn. lia.
    - intros l' g Hg. cbn. rewrite lookup_insert_ne; [exact Hg|]. intros <-. destruct (wf_funs _ W4 _ _ Hg). lia.
    - exists []. split; [reflexivity|constructor]. }
  assert (K13 : keeps [] s1 s3) by exact (keeps_trans _ _ _ _ (keeps_entering "define" env s1) K3).
  assert (K15 : keeps [] s1 s5) by exact (keeps_trans _ _ _ _ K13 (grows_keeps _ _ (grows_trans _ _ _ Gr G5))).
  assert (K05 := keeps_trans _ _ _ _ K K15). assert (R5 := ready_still _ _ _ K05 R).
  assert (He5 := k_envs _ _ _ K15 _ _ ltac:(intros []) He). assert (Eg : s_global s5 = env) by exact (k_global _ _ _ K05).
  assert (L5 := kept_local G s s5 R K05). rewrite Eg in L5. fold env in L5. assert (Nm5 := named_kept G G s s5 R K05 Nm).
  assert (B5 : local_binding s5 env x = Some b) by (rewrite L5; exact Bx). assert (E5 := k_binds _ _ _ K15 _ _ E1).
  assert (W5 : wf_state s5).
  { pose proof (make_function_run x ps (length pcs) false bd env s4) as Q. unfold fresh_function in Q. fold f in Q. fold s5 in Q.
    refine (wf_runs _ _ _ _ _ W4 (Q _)). apply list_parameters. exact (is_list_grows _ _ _ _ Gr (is_list_kept _ _ _ _ (k_cells _ _ _ K13) Lp)). }
  set (g := s_next s4) in *. set (s6 := assign b (VFun g) s5).
  assert (Bh : bind_here env (VSym x) (VFun g) s5 = Some s6) by (unfold bind_here, bind_at; cbn [name_of]; rewrite B5, E5; reflexivity).
  assert (Ev : evals c env s (Done (Ok (VFun g))) s6). { apply C, A. unfold then_bind. rewrite Bh. split; reflexivity. }
  assert (W6 := wf_evals _ _ _ _ _ W Ev).
  assert (X6 : s_binds s6 !! b = Some (Binding (VSym x) (VFun g) false)).
  { unfold s6, assign, bind_at. rewrite E5. cbn [default b_sym b_prot]. change (put b (Binding (VSym x) (VFun g) false) (s_binds s5) !! b = Some (Binding (VSym x) (VFun g) false)). unfold put. rewrite E5. apply lookup_insert. }
  assert (O6 : forall b' : loc, b' <> b -> s_binds s6 !! b' = s_binds s5 !! b').
  { intros b' Nb. change (put b (Binding (b_sym (bind_at s5 b)) (VFun g) (b_prot (bind_at s5 b))) (s_binds s5) !! b' = s_binds s5 !! b'). unfold put. rewrite E5. apply lookup_insert_ne. congruence. }
  assert (Eg6 : s_global s6 = env) by exact Eg. assert (En6 : s_envs s6 = s_envs s5) by reflexivity. assert (Fn6 : s_funs s6 = s_funs s5) by reflexivity.
  assert (Ce6 : s_cells s6 = s_cells s5) by reflexivity. assert (St6 : s_strs s6 = s_strs s5) by reflexivity. assert (By6 : s_bytes s6 = s_bytes s5) by reflexivity.
  assert (Un6 : s_uni s6 = s_uni s5) by reflexivity.
  assert (L6 : forall y, local_binding s6 env y = local_binding s5 env y) by reflexivity. clearbody s6.
  assert (Kc : kept (s_cells s5) (s_cells s6)) by (rewrite Ce6; intros ? ? Q; exact Q). assert (Ks : kept (s_strs s5) (s_strs s6)) by (rewrite St6; intros ? ? Q; exact Q).
  assert (Kb : kept (s_bytes s5) (s_bytes s6)) by (rewrite By6; intros ? ? Q; exact Q). assert (HK6 := holds_kept s5 s6 Kc Ks Kb).
  assert (Fun6 : forall l' f' ys bd', s_funs s5 !! l' = Some f' -> f_env (fn_code f') = env -> stands_for s5 (VFun l') (Closure ys bd' []) -> stands_for s6 (VFun l') (Closure ys bd' [])).
  { intros l' f' ys bd' D1 F1 I1. inversion I1 as [| | | | |l2 g0 xs' body' ns c2 d' Q1 Q2 Q3 Q4 Q5 Q6 Q7 Q8 Q9 Q10 Q11 Q12 |]; subst. rewrite D1 in Q1. injection Q1 as <-.
    apply (sf_closure s6 l' f' ys bd' [] (f_body (fn_code f')) d'); auto; [rewrite Fn6; exact D1|exact (is_list_kept s5 s6 _ _ Kc Q9)|]. rewrite F1, <- Eg6. constructor. }
  exists (VFun g), s6. split; [exact Ev|]. split; [exact W6|]. destruct Px as (Px1 & Px2 & Px3). split; [split|split; [|split; [exact Eg6|split; [rewrite Un6; exact (k_uni _ _ _ K05)|intros y; rewrite Eg6, L6; apply L5]]]].
  - destruct R5 as [(ge5 & He5' & P1 & P2 & P3 & P4) _]. exists ge5. rewrite Eg6, En6, <- Eg. split; [exact He5'|]. split; [exact P1|]. split; [exact P2|]. split; [exact P3|].
    intros n I. destruct (P4 n I) as (bn & be & T1 & T2 & T3). exists bn, be. split; [exact T1|]. split; [|exact T3]. rewrite O6; [exact T2|]. intros ->. rewrite E5 in T2. injection T2 as <-. discriminate T3.
  - intros y ys bd' E. cbn [alookup] in E. destruct (str_eqb y x) eqn:Q.
    + apply str_eqb_eq in Q. subst y. injection E as <- <-.
      assert (Hf5 : s_funs s5 !! g = Some (FnState f false None)) by (unfold s5; cbn; apply lookup_insert).
      exists b, (Binding (VSym x) (VFun g) false), g, (FnState f false None). rewrite Eg6, L6. split; [exact B5|]. split; [exact X6|]. split; [reflexivity|]. split; [rewrite Fn6; exact Hf5|]. split; [reflexivity|].
      assert (HK15 := holds_kept s1 s5 (k_cells _ _ _ K15) (k_strs _ _ _ K15) (k_bytes _ _ _ K15)).
      apply (sf_closure s6 g (FnState f false None) xs body [] bd c'); try assumption; try reflexivity.
      * rewrite Fn6. exact Hf5.
      * cbn. rewrite (Forall2_length _ _ _ Fp), map_length. reflexivity.
      * apply HK6, HK15. econstructor; [exact Lp|exact Fp].
      * exact (is_list_kept _ _ _ _ Kc (is_list_grows _ _ _ _ G5 Lb)).
      * apply HK6, HK15, Hb.
      * assert (Q := sees_global s6). rewrite Eg6 in Q. exact Q.
    + assert (Ny : y <> x) by (intros ->; assert (T := proj2 (str_eqb_eq x x) eq_refl); congruence).
      destruct (proj2 R5 y ys bd' E) as (b' & be & l' & f' & A1 & T1 & C1 & D1 & F1 & I1). rewrite Eg in A1, F1.
      exists b', be, l', f'. rewrite Eg6, L6, Fn6. split; [exact A1|]. split; [|split; [exact C1|split; [exact D1|split; [exact F1|exact (Fun6 _ _ _ _ D1 F1 I1)]]]].
      rewrite O6; [exact T1|]. intros ->. destruct (Nm5 y (in_map fst _ _ (alookup_fst _ _ _ E))) as (b2 & l2 & M1 & M2). rewrite Eg, A1 in M1. injection M1 as <-. rewrite E5 in M2. congruence.
  - intros y I. destruct (string_dec y x) as [->|Ny]; [exists b, g; rewrite Eg6, L6; split; [exact B5|exact X6]|]. cbn [map fst] in I. destruct I as [I|I]; [congruence|].
    destruct (Nm5 y I) as (b2 & l2 & M1 & M2). rewrite Eg in M1. exists b2, l2. rewrite Eg6, L6. split; [exact M1|]. rewrite O6; [exact M2|]. intros ->. rewrite E5 in M2. congruence.
Qed.
Lemma new_step G s c x xs body : wf_state s -> ready G s -> named G s -> ~ In x (map fst G) -> local_binding s (s_global s) x = None -> plain_name x -> Forall plain_name xs -> List.NoDup xs -> proper body ->
  holds s c (definition (x, (xs, body))) ->
  exists w s', evals c (s_global s) s (Done (Ok w)) s' /\ wf_state s' /\ ready ((x, (xs, body)) :: G) s' /\ named ((x, (xs, body)) :: G) s' /\ s_global s' = s_global s /\ s_uni s' = s_uni s /\
    (forall y, y <> x -> local_binding s' (s_global s') y = local_binding s (s_global s) y).
Proof.
  intros W R Nm Nx U Px Pxs Nd Pb H. destruct (define_step_full G s c x xs body W R Px Pxs Nd Pb U (alookup_not_in _ _ Nx) H) as (w & s' & Ev & W' & [Rb Rg] & Eg & Eu & Lo & K & Ob).
  exists w, s'. split; [exact Ev|]. split; [exact W'|]. split; [|split; [|auto]].
  - split; [exact Rb|]. intros y ys bd E. apply Rg. rewrite alookup_app. cbn [alookup] in *. destruct (str_eqb y x) eqn:Q; [|rewrite E; reflexivity].
    apply str_eqb_eq in Q. subst y. rewrite (alookup_not_in _ _ Nx). exact E.
  - intros y I. destruct (string_dec y x) as [->|Ny]; [exact Ob|]. cbn [map fst] in I. destruct I as [I|I]; [congruence|]. destruct (Nm y I) as (b & l & M1 & M2). exists b, l.
    split; [rewrite Lo by exact Ny; exact M1|apply (k_binds _ _ _ K), M2].
Qed.
Lemma lively_session u G is answers : up_to_date G is answers -> forall texts s, Forall2 (fun i t => program u [entered i] t) is texts -> wf_state s -> s_uni s = u -> ready G s -> named G s ->
  (forall x, In x (new_names is) -> In x (map fst G) \/ local_binding s (s_global s) x = None) -> as_expected texts answers s.
Proof.
  induction 1 as [G|G x xs body is answers Px Pxs Nd Pb E IH|G e v is answers P M _ IH|G e is answers P M _ IH]; intros texts s F W U R Nm B.
  - inversion F; subst. exact Logic.I.
  - inversion F as [|? t ? ts Pt F']; subst. cbn [entered] in Pt.
    destruct (one_text _ _ t Pt ltac:(discriminate) s W eq_refl) as (c & s1 & K & W1 & H1 & T). assert (Lb := kept_local G s s1 R K). assert (Eg := k_global _ _ _ K).
    assert (R1 := ready_still _ _ _ K R). assert (Nm1 := named_kept G G s s1 R K Nm).
    assert (Q : exists w s2, evals c (s_global s1) s1 (Done (Ok w)) s2 /\ wf_state s2 /\ ready ((x, (xs, body)) :: G) s2 /\ named ((x, (xs, body)) :: G) s2 /\ s_global s2 = s_global s1 /\ s_uni s2 = s_uni s1 /\
      (forall y, y <> x -> local_binding s2 (s_global s2) y = local_binding s1 (s_global s1) y)).
    { destruct (in_dec string_dec x (map fst G)) as [I|I].
      - destruct (redefine_step G s1 c x xs body W1 R1 Nm1 (Nm1 x I) Px Pxs Nd Pb H1) as (w & s2 & Ev & W2 & R2 & N2 & Eg2 & Eu & Lo). exists w, s2. auto 10.
      - apply new_step; try assumption. rewrite Lb. destruct (B x (or_introl eq_refl)) as [J|J]; [contradiction|exact J]. }
    destruct Q as (w & s2 & Ev & W2 & R2 & N2 & Eg2 & Eu & Lo). rewrite Eg in Ev. specialize (T _ _ Ev (ex_intro _ _ eq_refl)). split; [eauto|].
    intros o s' T'. destruct (runs_det _ _ _ _ _ _ _ _ T T') as [<- <-]. split; [exists w; reflexivity|].
    apply IH; [exact F'|exact W2|rewrite Eu; exact (k_uni _ _ _ K)|exact R2|exact N2|]. intros y Hy. destruct (string_dec y x) as [->|Ny]; [left; left; reflexivity|].
    destruct (B y (or_intror Hy)) as [J|J]; [left; right; exact J|right]. rewrite Lo by exact Ny. rewrite Lb. exact J.
  - inversion F as [|? t ? ts Pt F']; subst. cbn [entered] in Pt.
    destruct (one_text _ _ t Pt (written_not_empty e) s W eq_refl) as (c & s1 & K & W1 & H1 & T). assert (Eg := k_global _ _ _ K).
    assert (Sg : sees s1 (s_global s) []) by (rewrite <- Eg; constructor).
    destruct (expression_value G [] e v c (s_global s) s1 M P W1 (ready_still _ _ _ K R) Sg H1) as ((w & s2 & Ev) & Q). destruct (Q _ _ Ev) as (w' & [= <-] & Sw & K2 & R2).
    specialize (T _ _ Ev (ex_intro _ _ eq_refl)). split; [eauto|]. intros o s' T'. destruct (runs_det _ _ _ _ _ _ _ _ T T') as [<- <-]. assert (K02 := keeps_trans _ _ _ _ K K2).
    split; [exists w; split; [reflexivity|]; split; [exact Sw|exact K02]|]. apply IH; [exact F'|exact (text_wf _ _ _ _ _ W T)|exact (k_uni _ _ _ K02)|exact R2|exact (named_kept G G s s2 R K02 Nm)|].
    intros y Hy. rewrite (kept_local G s s2 R K02). apply B. exact Hy.
  - inversion F as [|? t ? ts Pt F']; subst. cbn [entered] in Pt.
    destruct (one_text _ _ t Pt (written_not_empty e) s W eq_refl) as (c & s1 & K & W1 & H1 & T). assert (Eg := k_global _ _ _ K).
    assert (Sg : sees s1 (s_global s) []) by (rewrite <- Eg; constructor).
    destruct (expression_unchanged G [] e c (s_global s) s1 M P W1 (ready_still _ _ _ K R) Sg H1) as ((m & s2 & Ev) & Q). destruct (Q _ _ Ev) as (m' & [= <-] & K2 & R2).
    specialize (T _ _ Ev (ex_intro _ _ eq_refl)). split; [eauto|]. intros o s' T'. destruct (runs_det _ _ _ _ _ _ _ _ T T') as [<- <-]. assert (K02 := keeps_trans _ _ _ _ K K2).
    split; [exists m; split; [reflexivity|exact K02]|]. apply IH; [exact F'|exact (text_wf _ _ _ _ _ W T)|exact (k_uni _ _ _ K02)|exact R2|exact (named_kept G G s s2 R K02 Nm)|].
    intros y Hy. rewrite (kept_local G s s2 R K02). apply B. exact Hy.
Qed.
Lemma redefining u is answers texts s : up_to_date [] is answers -> Forall2 (fun i t => program u [entered i] t) is texts -> wf_state s -> s_uni s = u -> has_builtins s ->
  (forall x, In x (new_names is) -> local_binding s (s_global s) x = None) -> as_expected texts answers s.
Proof. intros E F W U B N. apply (lively_session u [] is answers E texts s F W U); [split; [exact B|discriminate]|intros x []|]. intros x I. right. exact (N x I). Qed.
(** The sample. *)
Lemma changing_expected k r1 r2 : int64 k -> mod64 r1 (k + 2) -> mod64 r2 (k ^ 4) ->
  up_to_date [] (changing k) [Defined; Defined; Value (Number r1); Defined; Value (Number r2); Defined; Failed].
Proof.
  intros Ik M1 M2. assert (exists q, mod64 q (k + 1)) as (q & Hq) by (eexists; apply mod64_wrap). assert (exists p, mod64 p (k * k)) as (p & Hp) by (eexists; apply mod64_wrap).
  apply u_define; [plain|proper|proper|proper|]. apply u_define; [plain|proper|proper|proper|].
  apply u_value; [proper| |].
  { eapply m_call; [eapply m_global; reflexivity|constructor; [apply m_num, Ik|constructor]|reflexivity|]. cbn [combine app].
    eapply m_call; [eapply m_global; reflexivity|constructor; [|constructor]|reflexivity|cbn [combine app]].
    - eapply m_call; [eapply m_global; reflexivity|constructor; [apply m_local; reflexivity|constructor]|reflexivity|]. cbn [combine app].
      eapply m_builtin; [constructor; [apply m_local; reflexivity|constructor; [apply m_num; unfold int64; lia|constructor]]|apply c_plus, Hq].
    - eapply m_builtin; [constructor; [apply m_local; reflexivity|constructor; [apply m_num; unfold int64; lia|constructor]]|apply c_plus].
      destruct M1 as [I1 (i & E1)], Hq as [_ (j & E2)]. split; [exact I1|]. exists (i - j). lia. }
  apply u_define; [plain|proper|proper|proper|].
  apply u_value; [proper| |].
  { eapply m_call; [eapply m_global; reflexivity|constructor; [apply m_num, Ik|constructor]|reflexivity|]. cbn [combine app].
    eapply m_call; [eapply m_global; reflexivity|constructor; [|constructor]|reflexivity|cbn [combine app]].
    - eapply m_call; [eapply m_global; reflexivity|constructor; [apply m_local; reflexivity|constructor]|reflexivity|]. cbn [combine app].
      eapply m_builtin; [constructor; [apply m_local; reflexivity|constructor; [apply m_local; reflexivity|constructor]]|apply c_times, Hp].
    - eapply m_builtin; [constructor; [apply m_local; reflexivity|constructor; [apply m_local; reflexivity|constructor]]|apply c_times].
      destruct M2 as [I1 (i & E1)], Hp as [_ (j & E2)]. split; [exact I1|]. exists (i - (2 * p * j + j * j * 2 ^ 64)).
      assert (E4 : k ^ 4 = (k * k) * (k * k)) by ring. rewrite E4, E2 in E1. lia. }
  apply u_define; [plain|proper|proper|proper|].
  apply u_failed; [proper| |constructor].
  eapply w_body; [eapply m_global; reflexivity|reflexivity|reflexivity|constructor; [apply m_num, Ik|constructor]|]. cbn [combine app].
  eapply w_count; [eapply m_global; reflexivity|reflexivity|discriminate].
Qed.
Lemma changing_texts u k : int64 k -> Forall2 (fun i t => program u [entered i] t) (changing k) (map (fun i => all_laid_out [entered i]) (changing k)).
Proof.
  intros H. unfold changing. cbn [map]. repeat (apply Forall2_cons; [apply all_laid_out_program; constructor; [|constructor]; cbn [entered simple_tree definition written map fst snd fold_right];
    repeat apply conj; try exact Logic.I; try (apply symbol_sample; reflexivity); unfold SpecMath.int64, SpecRead.int64 in *; lia|]). constructor.
Qed.
Lemma changing_unbound x : In x ["base"; "twice"] -> local_binding start (s_global start) x = None.
Proof. intros [<-|[<-|[]]]; vm_compute; reflexivity. Qed.
Lemma changing_runs u k r1 r2 texts s : int64 k -> mod64 r1 (k + 2) -> mod64 r2 (k ^ 4) -> Forall2 (fun i t => program u [entered i] t) (changing k) texts ->
  wf_state s -> s_uni s = u -> has_builtins s -> (forall x, In x ["base"; "twice"] -> local_binding s (s_global s) x = None) ->
  as_expected texts [Defined; Defined; Value (Number r1); Defined; Value (Number r2); Defined; Failed] s.
Proof.
  intros Ik M1 M2 F W U B N. apply (redefining u (changing k)); try assumption; [apply changing_expected; assumption|].
  intros x I. apply N. cbn in *. tauto.
Qed.
