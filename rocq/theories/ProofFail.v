(** Proofs of C72: programs of the functional core that go wrong. *)
From Verif Require Export ProofCore.
From stdpp Require Import list.
From Verif Require Import Base Data SpecCore SpecFail Apply SpecEval.
Local Open Scope string_scope.
Local Open Scope list_scope.
Local Open Scope Z_scope.

Definition bad (G : globals) (ns : list (string * value)) (e : expr) : Prop :=
  proper e -> forall X s env c, wf_state s -> ready G s -> (forall l, In l X -> handed_out s l) -> seesX X s env ns -> holds s c (written e) ->
  exists m s', evals c env s (Done (Err m)) s' /\ keeps [] s s'.

(** *** Operands *)
Lemma collect_fails G ns es vs e rest : Forall2 (good G ns) es vs -> bad G ns e -> (forall e', In e' (es ++ e :: rest) -> proper e') -> forall X s env args cs acc,
  wf_state s -> ready G s -> (forall l, In l X -> handed_out s l) -> seesX X s env ns -> is_list s args cs -> Forall2 (holds s) cs (map written (es ++ e :: rest)) ->
  exists m s', keeps [] s s' /\ forall (k : list val -> state -> behaviour), collects (evaluated env) k acc args s (Done (Err m)) s'.
Proof.
  intros F B. induction F as [|e0 v es vs He _ IH]; intros P X s env args cs acc W R HX S L F.
  - cbn [app map] in F. apply Forall2_cons_inv_r in F. destruct F as (c & cs' & Hc & F & ->). destruct (list_head _ _ _ _ L) as (l & d & -> & E & N & L').
    destruct (B (P e (or_introl eq_refl)) X s env c W R HX S Hc) as (m & s1 & Ev & K). exists m, s1. split; [exact K|]. intros k.
    apply collect_err; [exact (cell_end _ _ _ _ E N)|cbn [head_of]; rewrite (cell_some _ _ _ E); exact Ev].
  - cbn [app map] in F. apply Forall2_cons_inv_r in F. destruct F as (c & cs' & Hc & F & ->). destruct (list_head _ _ _ _ L) as (l & d & -> & E & N & L').
    destruct (He (P e0 (or_introl eq_refl)) X s env c W R HX S Hc) as (w & s1 & Ev & K & Sw).
    assert (W1 := wf_evals _ _ _ _ _ W Ev). assert (M := keeps_moves X [] s s1 ltac:(intros ? []) K).
    destruct (IH (fun e' I => P e' (or_intror I)) X s1 env d cs' (acc ++ [w]) W1 (ready_still _ _ _ K R)) as (m & s2 & K2 & C).
    + intros y Hy. exact (handed_later _ _ _ (k_next _ _ _ K) (HX y Hy)).
    + exact (sees_moved _ _ _ _ M _ _ S).
    + exact (is_list_kept _ _ _ _ (k_cells _ _ _ K) L').
    + eapply Forall2_impl; [exact F|]. intros x y. apply (holds_kept s s1 (k_cells _ _ _ K) (k_strs _ _ _ K) (k_bytes _ _ _ K)).
    + exists m, s2. split; [exact (keeps_trans _ _ _ _ K K2)|]. intros k. eapply collect_next; [exact (cell_end _ _ _ _ E N)|cbn [head_of]; rewrite (cell_some _ _ _ E); exact Ev|].
      cbn [rest_of]. rewrite (cell_some _ _ _ (k_cells _ _ _ K _ _ E)). cbn [snd]. apply C.
Qed.
Lemma pass_fails G ns es vs e1 rest : Forall2 (good G ns) es vs -> bad G ns e1 -> (forall e', In e' (es ++ e1 :: rest) -> proper e') -> forall X s env args cs ps xs le e ns0,
  length xs = length (es ++ e1 :: rest) -> Forall plain_name xs -> List.NoDup (map fst ns0 ++ xs) ->
  wf_state s -> ready G s -> (forall l, In l (le :: X) -> handed_out s l) -> le <> s_global s -> seesX (le :: X) s env ns ->
  is_list s args cs -> Forall2 (holds s) cs (map written (es ++ e1 :: rest)) -> holds s ps (XList (map XSym xs)) ->
  s_envs s !! le = Some e -> boundX (le :: X) s (e_binds e) ns0 ->
  exists m s', keeps [le] s s' /\ forall (k : state -> behaviour), passes (evaluated env) le k ps args s (Done (Err m)) s'.
Proof.
  intros F0 Bd. induction F0 as [|e0 v es vs He _ IH]; intros P X s env args cs ps xs le e ns0 Len Px Nd W R HX Ng S L F Hp Hle B.
  - destruct xs as [|x xs]; [discriminate|]. cbn [app map] in F, Hp. apply Forall2_cons_inv_r in F. destruct F as (c & cs' & Hc & F & ->). destruct (list_head _ _ _ _ L) as (l & d & -> & E & N & L').
    destruct (Bd (P e1 (or_introl eq_refl)) (le :: X) s env c W R HX S Hc) as (m & s1 & Ev & K). exists m, s1. split; [eapply keeps_more; [|exact K]; intros ? []|]. intros k.
    destruct (holds_list_inv _ _ _ Hp) as (ws & Lp & Fp).
    apply pass_err; [exact (cell_end _ _ _ _ E N)|exact (list_not_symbol _ _ _ Lp)|cbn [head_of]; rewrite (cell_some _ _ _ E); exact Ev].
  - destruct xs as [|x xs]; [discriminate|]. cbn [app map] in F, Hp. apply Forall2_cons_inv_r in F. destruct F as (c & cs' & Hc & F & ->). destruct (list_head _ _ _ _ L) as (l & d & -> & E & N & L').
    destruct (holds_list_inv _ _ _ Hp) as (ws & Lp & Fp). apply Forall2_cons_inv_r in Fp. destruct Fp as (px & ws' & Hx & Fp & ->). apply holds_sym_inv in Hx. subst px.
    destruct (list_head _ _ _ _ Lp) as (lp & dp & -> & Ep & Np & Lp').
    apply (proj1 (List.Forall_cons_iff _ _ _)) in Px. destruct Px as [Px Pxs].
    destruct (He (P e0 (or_introl eq_refl)) (le :: X) s env c W R HX S Hc) as (w & s1 & Ev & K & Sw).
    assert (W1 := wf_evals _ _ _ _ _ W Ev). assert (M := keeps_moves (le :: X) [] s s1 ltac:(intros ? []) K).
    assert (G1 := k_global _ _ _ K). assert (Hle1 := k_envs _ _ _ K _ _ ltac:(intros []) Hle).
    assert (Nx : ~ In x (map fst ns0)). { intros I. apply NoDup_remove_2 in Nd. apply Nd, in_or_app. left. exact I. }
    destruct (bind_next X s1 le e (e_binds e) ns0 x w v W1 ltac:(congruence) Hle1 eq_refl (bound_moved _ _ _ _ M _ _ B) Px Nx Sw) as (s2 & Bh & W2 & K2 & e2 & He2 & Q1 & Q2 & B2).
    assert (M2 := keeps_moves (le :: X) [le] s1 s2 ltac:(intros l0 [<-|[]]; left; reflexivity) K2).
    assert (K12 : keeps [le] s s2) by (eapply keeps_trans; [eapply keeps_more; [|exact K]; intros ? []|exact K2]).
    destruct (IH (fun e' I => P e' (or_intror I)) X s2 env d cs' dp xs le e2 (ns0 ++ [(x, v)])) as (m & s3 & K3 & C).
    + cbn [length app] in *. lia.
    + exact Pxs.
    + rewrite map_app. cbn [map fst]. rewrite <- app_assoc. exact Nd.
    + exact W2.
    + apply (ready_other G le s s2 Ng K12 R).
    + intros y Hy. exact (handed_later _ _ _ (k_next _ _ _ K12) (HX y Hy)).
    + rewrite (k_global _ _ _ K12). exact Ng.
    + exact (sees_moved _ _ _ _ M2 _ _ (sees_moved _ _ _ _ M _ _ S)).
    + exact (is_list_kept _ _ _ _ (k_cells _ _ _ K12) L').
    + eapply Forall2_impl; [exact F|]. intros x0 y. apply (holds_kept s s2 (k_cells _ _ _ K12) (k_strs _ _ _ K12) (k_bytes _ _ _ K12)).
    + apply (holds_kept s s2 (k_cells _ _ _ K12) (k_strs _ _ _ K12) (k_bytes _ _ _ K12)). econstructor; [exact Lp'|exact Fp].
    + exact He2.
    + exact B2.
    + exists m, s3. split; [exact (keeps_trans _ _ _ _ K12 K3)|]. intros k. eapply pass_next; [exact (cell_end _ _ _ _ E N)|reflexivity|cbn [head_of]; rewrite (cell_some _ _ _ E); exact Ev| |].
      * cbn [head_of]. rewrite (cell_some _ _ _ (k_cells _ _ _ K _ _ Ep)). exact Bh.
      * cbn [rest_of]. rewrite (cell_some _ _ _ (k_cells _ _ _ K12 _ _ E)), (cell_some _ _ _ (k_cells _ _ _ K12 _ _ Ep)). cbn [snd]. apply C.
Qed.
Lemma init_fails G ns b1 vs x1 e1 b2 : Forall2 (good G ns) (map snd b1) vs -> bad G ns e1 -> (forall b, In b (b1 ++ (x1, e1) :: b2) -> proper (snd b)) -> forall X s env c cs le e ns0,
  Forall plain_name (map fst (b1 ++ (x1, e1) :: b2)) -> List.NoDup (map fst ns0 ++ map fst (b1 ++ (x1, e1) :: b2)) ->
  wf_state s -> ready G s -> (forall l, In l (le :: X) -> handed_out s l) -> le <> s_global s -> seesX (le :: X) s env ns ->
  is_list s c cs -> Forall2 (holds s) cs (map (fun b => XList [XSym (fst b); written (snd b)]) (b1 ++ (x1, e1) :: b2)) ->
  s_envs s !! le = Some e -> boundX (le :: X) s (e_binds e) ns0 ->
  exists m s', keeps [le] s s' /\ forall (k : state -> behaviour), initialises env le k c s (Done (Err m)) s'.
Proof.
  intros H Bd. revert vs H. induction b1 as [|[x e0] bs IH]; intros vs H P X s env c cs le e ns0 Px Nd W R HX Ng S L F Hle B.
  - cbn [app map fst snd] in *. apply Forall2_cons_inv_r in F. destruct F as (cb & cs' & Hb & F & ->). destruct (list_head _ _ _ _ L) as (l & d & -> & E & N & L').
    destruct (holds_list_inv _ _ _ Hb) as (ws & Lb & Fb). apply Forall2_cons_inv_r in Fb. destruct Fb as (px & ws' & Hx & Fb & ->).
    apply Forall2_cons_inv_r in Fb. destruct Fb as (ce & ws & Hc & Fb & ->). apply Forall2_nil_inv_r in Fb. subst ws.
    destruct (list_head _ _ _ _ Lb) as (lb & db & -> & E1 & N1 & Lb'). destruct (list_head _ _ _ _ Lb') as (lc & dc & -> & E2 & N2 & _).
    destruct (Bd (P (x1, e1) (or_introl eq_refl)) (le :: X) s env ce W R HX S Hc) as (m & s1 & Ev & K). exists m, s1. split; [eapply keeps_more; [|exact K]; intros ? []|]. intros k.
    apply init_err; [exact (cell_end _ _ _ _ E N)|]. cbn [head_of]. rewrite (cell_some _ _ _ E). cbn [fst rest_of]. rewrite (cell_some _ _ _ E1). cbn [snd head_of]. rewrite (cell_some _ _ _ E2). exact Ev.
  - cbn [app map fst snd] in *. inversion H as [|? v ? vs' He H']; subst. apply Forall2_cons_inv_r in F. destruct F as (cb & cs' & Hb & F & ->). destruct (list_head _ _ _ _ L) as (l & d & -> & E & N & L').
    destruct (holds_list_inv _ _ _ Hb) as (ws & Lb & Fb). apply Forall2_cons_inv_r in Fb. destruct Fb as (px & ws' & Hx & Fb & ->). apply holds_sym_inv in Hx. subst px.
    apply Forall2_cons_inv_r in Fb. destruct Fb as (ce & ws & Hc & Fb & ->). apply Forall2_nil_inv_r in Fb. subst ws.
    destruct (list_head _ _ _ _ Lb) as (lb & db & -> & E1 & N1 & Lb'). destruct (list_head _ _ _ _ Lb') as (lc & dc & -> & E2 & N2 & _).
    apply (proj1 (List.Forall_cons_iff _ _ _)) in Px. destruct Px as [Px Pxs].
    destruct (He (P (x, e0) (or_introl eq_refl)) (le :: X) s env ce W R HX S Hc) as (w & s1 & Ev & K & Sw).
    assert (W1 := wf_evals _ _ _ _ _ W Ev). assert (M := keeps_moves (le :: X) [] s s1 ltac:(intros ? []) K).
    assert (G1 := k_global _ _ _ K). assert (Hle1 := k_envs _ _ _ K _ _ ltac:(intros []) Hle).
    assert (Nx : ~ In x (map fst ns0)). { intros I. apply NoDup_remove_2 in Nd. apply Nd, in_or_app. left. exact I. }
    destruct (bind_next X s1 le e (e_binds e) ns0 x w v W1 ltac:(congruence) Hle1 eq_refl (bound_moved _ _ _ _ M _ _ B) Px Nx Sw) as (s2 & Bh & W2 & K2 & e2 & He2 & Q1 & Q2 & B2).
    assert (M2 := keeps_moves (le :: X) [le] s1 s2 ltac:(intros l0 [<-|[]]; left; reflexivity) K2).
    assert (K12 : keeps [le] s s2) by (eapply keeps_trans; [eapply keeps_more; [|exact K]; intros ? []|exact K2]).
    destruct (IH vs' H' (fun b I => P b (or_intror I)) X s2 env d cs' le e2 (ns0 ++ [(x, v)])) as (m & s3 & K3 & C).
    + exact Pxs.
    + rewrite map_app. cbn [map fst]. rewrite <- app_assoc. exact Nd.
    + exact W2.
    + apply (ready_other G le s s2 Ng K12 R).
    + intros y Hy. exact (handed_later _ _ _ (k_next _ _ _ K12) (HX y Hy)).
    + rewrite (k_global _ _ _ K12). exact Ng.
    + exact (sees_moved _ _ _ _ M2 _ _ (sees_moved _ _ _ _ M _ _ S)).
    + exact (is_list_kept _ _ _ _ (k_cells _ _ _ K12) L').
    + eapply Forall2_impl; [exact F|]. intros x0 y. apply (holds_kept s s2 (k_cells _ _ _ K12) (k_strs _ _ _ K12) (k_bytes _ _ _ K12)).
    + exact He2.
    + exact B2.
    + exists m, s3. split; [exact (keeps_trans _ _ _ _ K12 K3)|]. intros k. assert (Hd : head_of s (head_of s (VCell TCons l)) = VSym x) by (cbn [head_of]; rewrite (cell_some _ _ _ E); cbn [fst head_of]; rewrite (cell_some _ _ _ E1); reflexivity).
      eapply init_next; [exact (cell_end _ _ _ _ E N)| |rewrite Hd; exact Bh|].
      * cbn [head_of]. rewrite (cell_some _ _ _ E). cbn [fst rest_of]. rewrite (cell_some _ _ _ E1). cbn [snd head_of]. rewrite (cell_some _ _ _ E2). exact Ev.
      * cbn [rest_of]. rewrite (cell_some _ _ _ (k_cells _ _ _ K12 _ _ E)). cbn [snd]. apply C.
Qed.
(** *** Calls *)
Lemma body_wrong le s c m s' f : is_list s (f_body f) [c] -> evals c le s (Done (Err m)) s' -> runs_body f le s (Done (Err (in_function (f_name f) m))) s'.
Proof.
  intros L Ev. exists (Done (Err m)). split; [|reflexivity]. destruct (list_head _ _ _ _ L) as (l & d & -> & E & N & Ld).
  apply cells_err; [exact (cell_end _ _ _ _ E N)|cbn [head_of]; rewrite (cell_some _ _ _ E); exact Ev].
Qed.
Lemma function_wrong G X s env ns (fl : loc) fv xs body ns' d cs es : wf_state s -> ready G s -> (forall l, In l X -> handed_out s l) -> seesX X s env ns ->
  standsX X s (VFun fl) fv -> parts fv = Some (xs, body, ns') -> (forall e, In e es -> proper e) -> is_list s d cs -> Forall2 (holds s) cs (map written es) ->
  length es <> length xs \/ (length es = length xs /\ exists before e after vs, es = before ++ e :: after /\ Forall2 (good G ns) before vs /\ bad G ns e) \/
  (length es = length xs /\ exists vs, Forall2 (good G ns) es vs /\ bad G (combine xs vs ++ ns') body) ->
  exists m s', calls_function fl None (evaluated env) d (length cs) env s (Done (Err m)) s' /\ keeps [] s s'.
Proof.
  intros W1 R1 HX1 S1 Sw Ep Pe Ld Fc Why. destruct (stands_parts _ _ _ _ _ _ _ Sw Ep) as (fl' & fs & bc & E & Hfs & Hp & Hv & Hr & Hps & Px & Nd & Lb & Hbc & Pb & Sn).
  injection E as <-.
  set (le := s_next s). set (fn := fn_code fs) in *. set (s2 := open_env (f_name fn) (f_env fn) (e_frame (env_at s (f_env fn))) s).
  assert (W2 : wf_state s2) by apply open_env_wf, W1. assert (K2 : keeps [] s s2) by apply keeps_open, W1.
  assert (Nle : ~ In le X). { intros I. specialize (HX1 _ I). unfold handed_out, le in HX1. lia. }
  assert (Ng : le <> s_global s). { assert (Q := ready_global G s W1 R1). unfold le. lia. }
  assert (Ng2 : le <> s_global s2) by (rewrite (k_global _ _ _ K2); exact Ng).
  assert (He := open_env_at (f_name fn) (f_env fn) (e_frame (env_at s (f_env fn))) s). fold le in He. fold s2 in He.
  assert (M2 := keeps_moves (le :: X) [] s s2 ltac:(intros ? []) K2). assert (Fm := fresh_moves X s W1). fold le in Fm.
  assert (S2 : seesX (le :: X) s2 env ns) by exact (sees_moved _ _ _ _ M2 _ _ (sees_moved _ _ _ _ Fm _ _ S1)).
  assert (Sn2 : seesX (le :: X) s2 (f_env fn) ns') by exact (sees_moved _ _ _ _ M2 _ _ (sees_moved _ _ _ _ Fm _ _ Sn)).
  assert (HK2 := fun d v => holds_kept _ _ (k_cells _ _ _ K2) (k_strs _ _ _ K2) (k_bytes _ _ _ K2) d v).
  assert (HL : forall l, In l (le :: X) -> handed_out s2 l).
  { intros y [<-|I]; [|exact (handed_later _ _ _ (k_next _ _ _ K2) (HX1 y I))]. unfold handed_out, s2. rewrite open_next. assert (Q := ready_global G s W1 R1). unfold le. lia. }
  assert (Fc2 : Forall2 (holds s2) cs (map written es)) by (eapply Forall2_impl; [exact Fc|]; intros x y; apply HK2).
  assert (Lc : length cs = length es) by (rewrite (Forall2_length _ _ _ Fc), map_length; reflexivity).
  assert (Fi := fun_is _ _ _ Hfs). destruct (seen_frame G X s env ns R1 S1) as (Fr1 & Sf1 & Ne1).
  assert (Rc : receiver_of s fl env = None) by (unfold receiver_of; rewrite Fr1; destruct (fn_slot (fun_at s fl)); reflexivity).
  assert (Pc : plain_call s fl env) by (split; [right; split; [exact Fr1|exact Sf1]|rewrite Fi; exact Hp]). assert (Nn : env <> s_next s) by (assert (Q := env_below s env W1 Ne1); lia).
  pose proof (fun o s' => proj2 (calls_plain fl (evaluated env) d (length cs) env s o s' Pc Nn)) as A. cbv zeta in A.
  rewrite Rc, Fi in A. fold fn s2 le in A. rewrite Hv, Hr in A. unfold enough in A.
  destruct Why as [Len|[(Len & before & e & af & vs & -> & Fg & Bd)|(Len & vs & Fg & Bd)]].
  - replace (Z.of_nat (length cs) =? Z.of_nat (length xs)) with false in A by (symmetry; apply Z.eqb_neq; lia).
    eexists _, _. split; [apply A; split; reflexivity|exact K2].
  - rewrite Lc, Len, Z.eqb_refl in A.
    destruct (pass_fails G ns before vs e af Fg Bd Pe X s2 env d cs (f_params fn) xs le _ [] (eq_sym Len) Px Nd W2 (ready_still _ _ _ K2 R1) HL Ng2 S2 (is_list_kept _ _ _ _ (k_cells _ _ _ K2) Ld) Fc2 (HK2 _ _ Hps) He ltac:(constructor)) as (m & s3 & K3 & C).
    exists m, s3. split; [rewrite Lc, Len; apply A, C|]. apply (keeps_fresh le s s2 s3); [exact (next_free s W1)|exact K2|exact K3].
  - rewrite Lc, Len, Z.eqb_refl in A. assert (Len' : length xs = length vs) by (rewrite <- Len; exact (Forall2_length _ _ _ Fg)).
    destruct (pass_all G ns es vs Fg Pe X s2 env d cs (f_params fn) xs le _ [] Len' Px Nd W2 (ready_still _ _ _ K2 R1) HL Ng2 S2 (is_list_kept _ _ _ _ (k_cells _ _ _ K2) Ld) Fc2 (HK2 _ _ Hps) He ltac:(constructor)) as (s3 & K3 & W3 & (e3 & He3 & Q1 & Q2 & B3) & C).
    cbn [e_parent e_frame app] in Q1, Q2, B3. destruct (seen_frame G X s (f_env fn) ns' R1 Sn) as (Frn & _ & _). rewrite Frn in Q2.
    destruct (inner_scope G X s2 s3 le e3 (f_env fn) _ ns' Nle ltac:(rewrite (k_global _ _ _ K3); exact Ng2) He3 Q1 Q2 B3 K3 Sn2 (ready_still _ _ _ K2 R1) Ng2) as [S3 R3].
    assert (K03 : keeps [] s s3) by (apply (keeps_fresh le s s2 s3); [exact (next_free s W1)|exact K2|exact K3]).
    assert (K13 := keeps_trans _ _ _ _ (keeps_more [] [le] _ _ ltac:(intros ? []) K2) K3).
    destruct (Bd Pb X s3 le bc W3 R3) as (m & s4 & Ev2 & K4).
    + intros y Hy. exact (handed_later _ _ _ (k_next _ _ _ K03) (HX1 y Hy)).
    + exact S3.
    + apply (holds_kept _ _ (k_cells _ _ _ K13) (k_strs _ _ _ K13) (k_bytes _ _ _ K13)). exact Hbc.
    + eexists _, s4. split; [|exact (keeps_trans _ _ _ _ K03 K4)]. rewrite Lc, Len. apply A, C. exact (body_wrong le s3 bc m s4 fn (is_list_kept _ _ _ _ (k_cells _ _ _ K13) Lb) Ev2).
Qed.
Lemma head_plain f ns G h s : proper f -> holds s h (written f) -> (exists v, means G ns f v) \/ goes_wrong G ns f -> plain_head h /\ forall n, h = VSym n -> has_suffix ":" n = false.
Proof.
  intros Pf Hh Mf. inversion Pf as [| | | |x Px| | | | | | | | | |]; subst; cbn [written] in Hh;
    try (destruct (holds_nonempty _ _ _ _ Hh) as (lh & ->); split; [exact Logic.I|discriminate]);
    try (inversion Hh; subst; split; [exact Logic.I|discriminate]).
  apply holds_sym_inv in Hh. subst h. destruct Px as (Q & _). split; [exact Q|]. intros n [= <-]. apply Q.
Qed.
(** The operator has the value [fv]; then a reason to fail. *)
Lemma call_wrong G ns f es : (exists v, means G ns f v) \/ goes_wrong G ns f ->
  bad G ns f \/
  (exists fv, good G ns f fv /\ parts fv = None) \/
  (exists fv xs body ns', good G ns f fv /\ parts fv = Some (xs, body, ns') /\
    (length es <> length xs \/ (length es = length xs /\ exists before e after vs, es = before ++ e :: after /\ Forall2 (good G ns) before vs /\ bad G ns e) \/
     (length es = length xs /\ exists vs, Forall2 (good G ns) es vs /\ bad G (combine xs vs ++ ns') body))) ->
  bad G ns (SpecCore.Call f es).
Proof.
  intros Mf Why P X s env c W R HX S Hc. inversion P as [| | | | | |? ? Pf Pe| | | | | | | |]; subst. cbn [written] in Hc.
  destruct (holds_list_inv _ _ _ Hc) as (cs & L & Fc). apply Forall2_cons_inv_r in Fc.
  destruct Fc as (h & cs' & Hh & Fc & ->). destruct (list_head _ _ _ _ L) as (l & d & -> & E & N & Ld).
  destruct (head_plain f ns G h s Pf Hh Mf) as [Ph Ps]. destruct (seen_frame G X s env ns R S) as (Fr & _ & _).
  assert (CE := fun o s' => proj2 (call_expression l env s o s' (cell_end _ _ _ _ E N) ltac:(cbn [head_of]; rewrite (cell_some _ _ _ E); exact Ph))).
  cbn [head_of] in CE. rewrite (cell_some _ _ _ E) in CE. cbn [fst] in CE.
  destruct Why as [Bf|Why].
  - destruct (Bf Pf X s env h W R HX S Hh) as (m & s1 & Ev & K). exists m, s1. split; [|exact K]. apply CE. exists (Done (Err m)), s1. split; [exact (operator_frame _ _ _ _ _ Fr Ps Ev)|split; reflexivity].
  - assert (Gf : exists fv, good G ns f fv /\ (parts fv = None \/ exists xs body ns', parts fv = Some (xs, body, ns') /\
      (length es <> length xs \/ (length es = length xs /\ exists before e after vs, es = before ++ e :: after /\ Forall2 (good G ns) before vs /\ bad G ns e) \/
       (length es = length xs /\ exists vs, Forall2 (good G ns) es vs /\ bad G (combine xs vs ++ ns') body)))).
    { destruct Why as [(fv & H1 & H2)|(fv & xs & body & ns' & H1 & H2 & H3)]; exists fv; [auto|]. split; [exact H1|]. right. exists xs, body, ns'. auto. }
    clear Why. destruct Gf as (fv & Gf & Why). destruct (Gf Pf X s env h W R HX S Hh) as (w & s1 & Ev & K & Sw). assert (W1 := wf_evals _ _ _ _ _ W Ev).
    assert (R1 := ready_still _ _ _ K R). assert (M1 := keeps_moves X [] s s1 ltac:(intros ? []) K). assert (S1 := sees_moved _ _ _ _ M1 _ _ S).
    assert (HX1 : forall l, In l X -> handed_out s1 l) by (intros y Hy; exact (handed_later _ _ _ (k_next _ _ _ K) (HX y Hy))).
    assert (Ld1 := is_list_kept _ _ _ _ (k_cells _ _ _ K) Ld).
    destruct Why as [Np|(xs & body & ns' & Ep & Why)].
    + destruct (nilb s1 w) eqn:En.
      * eexists _, s1. split; [|exact K]. apply CE. exists (Done (Ok w)), s1. split; [exact (operator_frame _ _ _ _ _ Fr Ps Ev)|]. cbv beta. rewrite En. split; reflexivity.
      * exists (type_name w +++ " when function or macro expected."), s1. split; [|exact K]. apply CE. exists (Done (Ok w)), s1. split; [exact (operator_frame _ _ _ _ _ Fr Ps Ev)|]. cbv beta. rewrite En.
        unfold applied. apply call_iff. cbn [denote]. unfold apply_body. eapply runs_bind; [apply runs_nilp|]. rewrite En. cbv iota.
        inversion Sw; subst; try discriminate Np; try apply runs_ret.
        match goal with H : is_list s1 w _ |- _ => destruct H; apply runs_ret end.
    + destruct (stands_parts _ _ _ _ _ _ _ Sw Ep) as (fl & fs & bc & -> & Hfs & _ & _ & _ & Hps & _).
      destruct (function_wrong G X s1 env ns fl fv xs body ns' d cs' es W1 R1 HX1 S1 Sw Ep Pe Ld1) as (m & s4 & C & K4).
      { eapply Forall2_impl; [exact Fc|]. intros x y. apply (holds_kept _ _ (k_cells _ _ _ K) (k_strs _ _ _ K) (k_bytes _ _ _ K)). }
      { exact Why. }
      exists m, s4. split; [|exact (keeps_trans _ _ _ _ K K4)]. apply CE. exists (Done (Ok (VFun fl))), s1. split; [exact (operator_frame _ _ _ _ _ Fr Ps Ev)|].
      cbn [nilb rest_of]. rewrite (cell_some _ _ _ (k_cells _ _ _ K _ _ E)). cbn [snd].
      destruct (seen_frame G X s1 env ns R1 S1) as (Fr1 & _ & _). destruct (holds_list_inv _ _ _ Hps) as (pcs & Lp & _).
      apply (function_called_any fl d cs' env s1); [exact Ld1|rewrite (fun_is _ _ _ Hfs); exact (list_not_symbol _ _ _ Lp)|].
      rewrite Fr1. destruct (fn_slot (fun_at s1 fl)); exact C.
Qed.
(** *** Choices and sequences *)
Lemma bad_if G ns c t e : bad G ns c \/ (exists b, good G ns c b /\ bad G ns (if counts_true b then t else e)) -> bad G ns (If c t e).
Proof.
  intros Why P X s env ce W R HX S Hc. inversion P as [| | | | | | |? ? ? P1 P2 P3| | | | | | |]; subst. cbn [written] in Hc.
  destruct (form_call G X s env ns "if" [Exactly 2; Exactly 3] ce _ special_if ltac:(cbn; tauto) W R S Hc ltac:(eexists; split; [right; left; reflexivity|reflexivity])) as (vs & s1 & W1 & K & F & N & C).
  apply Forall2_cons_inv_r in F. destruct F as (a1 & vs1 & H1 & F & ->). apply Forall2_cons_inv_r in F. destruct F as (a2 & vs2 & H2 & F & ->).
  apply Forall2_cons_inv_r in F. destruct F as (a3 & vs3 & H3 & F & ->). apply Forall2_nil_inv_r in F. subst vs3.
  assert (W2 := wf_entering "if" env s1 W1). assert (K2 := keeps_trans _ _ _ _ K (keeps_entering "if" env s1)).
  assert (HK := fun d v => holds_kept _ _ (k_cells _ _ _ (keeps_entering "if" env s1)) (k_strs _ _ _ (keeps_entering "if" env s1)) (k_bytes _ _ _ (keeps_entering "if" env s1)) d v).
  assert (R2 := ready_still _ _ _ K2 R). assert (HX2 : forall l, In l X -> handed_out (entering "if" env s1) l) by (intros y Hy; exact (handed_later _ _ _ (k_next _ _ _ K2) (HX y Hy))).
  assert (S2 := sees_moved _ _ _ _ (keeps_moves X [] _ _ ltac:(intros ? []) K2) _ _ S).
  destruct Why as [Bc|(b & Ic & Ib)].
  - destruct (Bc P1 X (entering "if" env s1) env a1 W2 R2 HX2 S2 (HK _ _ H1)) as (m & s2 & Ev & K3). exists m, s2. split; [|exact (keeps_trans _ _ _ _ K2 K3)]. apply C. apply if_iff. exists (Done (Err m)), s2. split; [exact Ev|split; reflexivity].
  - destruct (Ic P1 X (entering "if" env s1) env a1 W2 R2 HX2 S2 (HK _ _ H1)) as (w & s2 & Ev & K3 & Sw).
    assert (W3 := wf_evals _ _ _ _ _ W2 Ev). assert (K4 := keeps_trans _ _ _ _ K2 K3).
    assert (Hb : holds s2 (if truthy s2 w then a2 else a3) (written (if counts_true b then t else e))).
    { rewrite (truthy_stands _ _ _ _ Sw). apply (holds_kept _ _ (k_cells _ _ _ K3) (k_strs _ _ _ K3) (k_bytes _ _ _ K3)). destruct (counts_true b); apply HK; assumption. }
    destruct (Ib ltac:(destruct (counts_true b); assumption) X s2 env _ W3 (ready_still _ _ _ K4 R) ltac:(intros y Hy; exact (handed_later _ _ _ (k_next _ _ _ K4) (HX y Hy)))
      (sees_moved _ _ _ _ (keeps_moves X [] _ _ ltac:(intros ? []) K4) _ _ S) Hb) as (m & s3 & Ev2 & K5).
    exists m, s3. split; [|exact (keeps_trans _ _ _ _ K4 K5)]. apply C. apply if_iff. exists (Done (Ok w)), s2. split; [exact Ev|exact Ev2].
Qed.
Lemma bad_sequence G ns n es vs e rest : In n ["and"; "or"; "begin"] -> Forall2 (good G ns) es vs -> bad G ns e ->
  (forall e', In e' (es ++ e :: rest) -> proper e') -> forall X s env c, wf_state s -> ready G s -> (forall l, In l X -> handed_out s l) -> seesX X s env ns ->
  holds s c (XList (XSym n :: map written (es ++ e :: rest))) ->
  exists cs1 a cs2 s1 s2 m s3, keeps [] s s3 /\ in_sequence env cs1 vs (entering n env s1) s2 /\ evals a env s2 (Done (Err m)) s3 /\
    forall o s', applies n (cs1 ++ a :: cs2) env s1 o s' -> evals c env s o s'.
Proof.
  intros In_ F Ge P X s env c W R HX S Hc.
  destruct (form_call G X s env ns n [AnyCount] c _ (special_any n ltac:(cbn in *; tauto)) ltac:(destruct In_ as [<-|[<-|[<-|[]]]]; cbn; tauto) W R S Hc ltac:(eexists; split; [left; reflexivity|exact Logic.I])) as (us & s1 & W1 & K & Fu & N & C).
  rewrite map_app in Fu. cbn [map] in Fu. apply Forall2_app_inv_r in Fu. destruct Fu as (cs1 & r & F1 & F2 & ->). apply Forall2_cons_inv_r in F2. destruct F2 as (a & cs2 & Ha & F2 & ->).
  assert (K1 := keeps_entering n env s1). assert (K01 := keeps_trans _ _ _ _ K K1). assert (W2 := wf_entering n env s1 W1).
  assert (HK := fun d v => holds_kept _ _ (k_cells _ _ _ K1) (k_strs _ _ _ K1) (k_bytes _ _ _ K1) d v).
  destruct (sequence_all G ns es vs F (fun e' I => P e' (in_or_app _ _ _ (or_introl I))) X (entering n env s1) env cs1 W2 (ready_still _ _ _ K01 R)) as (s2 & Q & K2 & W3).
  - intros y Hy. exact (handed_later _ _ _ (k_next _ _ _ K01) (HX y Hy)).
  - exact (sees_moved _ _ _ _ (keeps_moves X [] _ _ ltac:(intros ? []) K01) _ _ S).
  - eapply Forall2_impl; [exact F1|]. intros x y. apply HK.
  - assert (K02 := keeps_trans _ _ _ _ K01 K2).
    destruct (Ge (P e (in_elt _ _ _)) X s2 env a W3 (ready_still _ _ _ K02 R)) as (m & s3 & Ev & K3).
    + intros y Hy. exact (handed_later _ _ _ (k_next _ _ _ K02) (HX y Hy)).
    + exact (sees_moved _ _ _ _ (keeps_moves X [] _ _ ltac:(intros ? []) K02) _ _ S).
    + apply (holds_kept _ _ (k_cells _ _ _ K2) (k_strs _ _ _ K2) (k_bytes _ _ _ K2)). apply HK, Ha.
    + exists cs1, a, cs2, s1, s2, m, s3. split; [exact (keeps_trans _ _ _ _ K02 K3)|]. split; [exact Q|]. split; [exact Ev|exact C].
Qed.
Lemma bad_and G ns es vs e rest : Forall2 (good G ns) es vs -> Forall (fun v => counts_true v = true) vs -> bad G ns e -> bad G ns (And (es ++ e :: rest)).
Proof.
  intros F T Ge P X s env c W R HX S Hc. inversion P as [| | | | | | | | |? Pe| | | | |]; subst.
  destruct (bad_sequence G ns "and" es vs e rest ltac:(cbn; tauto) F Ge Pe X s env c W R HX S Hc) as (cs1 & a & cs2 & s1 & s2 & m & s3 & K & Q & Ev & C).
  exists m, s3. split; [|exact K]. apply C. apply and_iff. apply (and_sequence _ _ _ _ _ _ _ _ Q T). intros last. cbn [and_of]. exists (Done (Err m)), s3. split; [exact Ev|split; reflexivity].
Qed.
Lemma bad_or G ns es vs e rest : Forall2 (good G ns) es vs -> Forall (fun v => counts_true v = false) vs -> bad G ns e -> bad G ns (Or (es ++ e :: rest)).
Proof.
  intros F T Ge P X s env c W R HX S Hc. inversion P as [| | | | | | | | | |? Pe| | | |]; subst.
  destruct (bad_sequence G ns "or" es vs e rest ltac:(cbn; tauto) F Ge Pe X s env c W R HX S Hc) as (cs1 & a & cs2 & s1 & s2 & m & s3 & K & Q & Ev & C).
  exists m, s3. split; [|exact K]. apply C. apply or_iff. apply (or_sequence _ _ _ _ _ _ _ _ Q T). intros last. cbn [or_of]. exists (Done (Err m)), s3. split; [exact Ev|split; reflexivity].
Qed.
Lemma bad_begin G ns es vs e rest : Forall2 (good G ns) es vs -> bad G ns e -> bad G ns (Begin (es ++ e :: rest)).
Proof.
  intros F Ge P X s env c W R HX S Hc. inversion P as [| | | | | | | | | | |? Pe| | |]; subst.
  destruct (bad_sequence G ns "begin" es vs e rest ltac:(cbn; tauto) F Ge Pe X s env c W R HX S Hc) as (cs1 & a & cs2 & s1 & s2 & m & s3 & K & Q & Ev & C).
  exists m, s3. split; [|exact K]. apply C. apply begin_iff. apply (begin_sequence _ _ _ _ _ _ _ _ Q). intros last. cbn [eval_each]. exists (Done (Err m)), s3. split; [exact Ev|split; reflexivity].
Qed.
Lemma bad_cond G ns cs bs t e rest o : Forall2 (good G ns) (map fst cs) bs -> Forall (fun b => counts_true b = false) bs ->
  bad G ns t \/ (exists b, good G ns t b /\ counts_true b = true /\ bad G ns e) -> bad G ns (Cond (cs ++ (t, e) :: rest) o).
Proof.
  intros Fb T Why P X s env c W R HX S Hc. inversion P as [| | | | | | | |? ? Pc Po| | | | | |]; subst.
  destruct (good_cond_start G ns cs bs ((t, e) :: rest) o Fb T Pc X s env c W R HX S Hc) as (us & s1 & K & W1 & F & C).
  cbn [map app] in F. apply Forall2_cons_inv_r in F. destruct F as (u & us' & Hu & F & ->). destruct (clause_parts _ _ _ _ Hu) as (ct & ce & Hp & Hh & Ht & Lr & Hce). cbn [fst snd] in *.
  destruct (Pc (t, e) (in_elt _ _ _)) as (Ne & Pt & Pe). cbn [fst snd] in *.
  assert (HX1 : forall l, In l X -> handed_out s1 l) by (intros y Hy; exact (handed_later _ _ _ (k_next _ _ _ K) (HX y Hy))).
  assert (S1 := sees_moved _ _ _ _ (keeps_moves X [] _ _ ltac:(intros ? []) K) _ _ S).
  destruct Why as [Bt|(b & Gt & Tb & Ge)].
  { destruct (Bt Pt X s1 env ct W1 (ready_still _ _ _ K R) HX1 S1 Ht) as (m & s2 & Ev & K2). exists m, s2. split; [|exact (keeps_trans _ _ _ _ K K2)]. apply C. cbn [cond_of]. rewrite Hp, Hh, (not_else _ _ _ Ht Ne).
    exists (Done (Err m)), s2. split; [exact Ev|split; reflexivity]. }
  destruct (Gt Pt X s1 env ct W1 (ready_still _ _ _ K R) HX1 S1 Ht) as (w & s2 & Ev & K2 & Sw).
  assert (W2 := wf_evals _ _ _ _ _ W1 Ev). assert (K02 := keeps_trans _ _ _ _ K K2).
  destruct (Ge Pe X s2 env ce W2 (ready_still _ _ _ K02 R)) as (m & s3 & Ev2 & K3).
  { intros y Hy. exact (handed_later _ _ _ (k_next _ _ _ K02) (HX y Hy)). }
  { exact (sees_moved _ _ _ _ (keeps_moves X [] _ _ ltac:(intros ? []) K02) _ _ S). }
  { apply (holds_kept _ _ (k_cells _ _ _ K2) (k_strs _ _ _ K2) (k_bytes _ _ _ K2)). exact Hce. }
  exists m, s3. split; [|exact (keeps_trans _ _ _ _ K02 K3)]. apply C. cbn [cond_of]. rewrite Hp, Hh, (not_else _ _ _ Ht Ne).
  exists (Done (Ok w)), s2. split; [exact Ev|]. rewrite (truthy_stands _ _ _ _ Sw), Tb.
  replace (rest_of s2 u) with (rest_of s1 u).
  { destruct (list_head _ _ _ _ (is_list_kept _ _ _ _ (k_cells _ _ _ K2) Lr)) as (lr & dr & -> & Er & Nr & _). apply cells_err; [exact (cell_end _ _ _ _ Er Nr)|cbn [head_of]; rewrite (cell_some _ _ _ Er); exact Ev2]. }
  destruct (holds_nonempty _ _ _ _ Hu) as (lu & ->). destruct (holds_list_inv _ _ _ Hu) as (xs & L & Fx). apply Forall2_cons_inv_r in Fx. destruct Fx as (x1 & xs1 & _ & _ & ->).
  destruct (list_head _ _ _ _ L) as (l0 & d & [= <-] & E & _ & _). cbn [rest_of]. rewrite (cell_some _ _ _ E), (cell_some _ _ _ (k_cells _ _ _ K2 _ _ E)). reflexivity.
Qed.
Lemma bad_cond_else G ns cs bs e : Forall2 (good G ns) (map fst cs) bs -> Forall (fun b => counts_true b = false) bs -> bad G ns e -> bad G ns (Cond cs (Some e)).
Proof.
  intros Fb T Ge P X s env c W R HX S Hc. inversion P as [| | | | | | | |? ? Pc Po| | | | | |]; subst.
  destruct (good_cond_start G ns cs bs [] (Some e) Fb T ltac:(rewrite (app_nil_r cs); exact Pc) X s env c W R HX S ltac:(rewrite (app_nil_r cs); exact Hc)) as (us & s1 & K & W1 & F & C).
  cbn [map app else_clause] in F. apply Forall2_cons_inv_r in F. destruct F as (u & us' & Hu & F & ->). destruct (clause_parts _ _ _ _ Hu) as (ct & ce & Hp & Hh & Ht & Lr & Hce).
  apply holds_sym_inv in Ht. subst ct.
  destruct (Ge (Po e eq_refl) X s1 env ce W1 (ready_still _ _ _ K R)) as (m & s2 & Ev & K2).
  { intros y Hy. exact (handed_later _ _ _ (k_next _ _ _ K) (HX y Hy)). }
  { exact (sees_moved _ _ _ _ (keeps_moves X [] _ _ ltac:(intros ? []) K) _ _ S). }
  { exact Hce. }
  exists m, s2. split; [|exact (keeps_trans _ _ _ _ K K2)]. apply C. cbn [cond_of]. rewrite Hp, Ht. cbn [is_symbol].
  destruct (list_head _ _ _ _ Lr) as (lr & dr & -> & Er & Nr & _). apply cells_err; [exact (cell_end _ _ _ _ Er Nr)|cbn [head_of]; rewrite (cell_some _ _ _ Er); exact Ev].
Qed.
(** *** let *)
Lemma bad_let G ns bs body :
  (exists b1 x e b2 vs, bs = b1 ++ (x, e) :: b2 /\ Forall2 (good G ns) (map snd b1) vs /\ bad G ns e) \/
  (exists vs, Forall2 (good G ns) (map snd bs) vs /\ bad G (combine (map fst bs) vs ++ ns) body) -> bad G ns (Let bs body).
Proof.
  intros Why P X s env c W R HX S Hc. inversion P as [| | | | | | | | | | | |? ? Px Nd Pe Pb| |]; subst. cbn [written] in Hc.
  destruct (form_call G X s env ns "let" [AtLeast 1] c _ special_let ltac:(cbn; tauto) W R S Hc ltac:(eexists; split; [left; reflexivity|cbn; lia])) as (us & s1 & W1 & K & Fu & N & C).
  apply Forall2_cons_inv_r in Fu. destruct Fu as (bv & us1 & Hbv & Fu & ->). apply Forall2_cons_inv_r in Fu. destruct Fu as (b & us2 & Hb & Fu & ->). apply Forall2_nil_inv_r in Fu. subst us2.
  destruct (holds_list_inv _ _ _ Hbv) as (bcs & Lb & Fb).
  set (s2 := entering "let" env s1). assert (W2 : wf_state s2) by (apply wf_entering, W1). assert (K2 : keeps [] s s2) by exact (keeps_trans _ _ _ _ K (keeps_entering "let" env s1)).
  assert (Nx : s_next s2 = s_next s1) by reflexivity.
  set (le := s_next s2). set (s3 := open_env "let" env (e_frame (env_at s1 env)) s2).
  assert (Ef : env_at s1 env = env_at s2 env) by reflexivity.
  assert (W3 : wf_state s3) by (unfold s3; rewrite Ef; apply open_env_wf, W2).
  assert (K3 : keeps [] s2 s3) by (apply keeps_open, W2). assert (K13 : keeps [] s s3) by exact (keeps_trans _ _ _ _ K2 K3).
  assert (S2 := sees_moved _ _ _ _ (keeps_moves X [] _ _ ltac:(intros ? []) K2) _ _ S). assert (R2 := ready_still _ _ _ K2 R).
  assert (HX2 : forall l, In l X -> handed_out s2 l) by (intros y Hy; exact (handed_later _ _ _ (k_next _ _ _ K2) (HX y Hy))).
  assert (Nle : ~ In le X). { intros I. specialize (HX2 _ I). unfold handed_out, le in HX2. lia. }
  assert (Ng : le <> s_global s2). { assert (Q := ready_global G s2 W2 R2). unfold le. lia. }
  assert (Ng3 : le <> s_global s3) by (rewrite (k_global _ _ _ K3); exact Ng).
  assert (He := open_env_at "let" env (e_frame (env_at s1 env)) s2). fold le in He. fold s3 in He.
  assert (S3 : seesX (le :: X) s3 env ns).
  { apply (sees_moved _ _ _ _ (keeps_moves (le :: X) [] s2 s3 ltac:(intros ? []) K3)). exact (sees_moved _ _ _ _ (fresh_moves X s2 W2) _ _ S2). }
  assert (K1_3 := keeps_trans _ _ _ _ (keeps_entering "let" env s1) K3).
  assert (HK := fun d v => holds_kept _ _ (k_cells _ _ _ K1_3) (k_strs _ _ _ K1_3) (k_bytes _ _ _ K1_3) d v).
  assert (HL : forall l, In l (le :: X) -> handed_out s3 l).
  { intros l [<-|I]; [|exact (handed_later _ _ _ (k_next _ _ _ K3) (HX2 l I))]. unfold handed_out, s3. rewrite open_next. assert (Q := ready_global G s2 W2 R2). unfold le. lia. }
  assert (LI : forall o s', initialises env le (eval_each [b] le VNil) bv s3 o s' -> evals c env s o s').
  { intros o s' I. apply C. apply (let_iff bv (map fst bs)); [|exact I].
    exists bcs. split; [exact Lb|]. clear -Fb. revert bs Fb. induction bcs as [|bc bcs IH]; intros bs Fb; destruct bs as [|[x e] bs]; try (inversion Fb; fail); [constructor|].
    cbn [map fst snd] in Fb. inversion Fb as [|? ? ? ? H1 H2]; subst. constructor; [|apply IH, H2].
    destruct (holds_list_inv _ _ _ H1) as (zs & Lz & Fz). apply Forall2_cons_inv_r in Fz. destruct Fz as (z & zs' & Hz & _ & ->). apply holds_sym_inv in Hz. subst z.
    destruct (list_head _ _ _ _ Lz) as (l & d & -> & E & _). split; [reflexivity|]. cbn [head_of fst]. rewrite (cell_some _ _ _ E). reflexivity. }
  assert (Fb3 : Forall2 (holds s3) bcs (map (fun b => XList [XSym (fst b); written (snd b)]) bs)) by (eapply Forall2_impl; [exact Fb|]; intros x y; apply HK).
  assert (Lb3 := is_list_kept _ _ _ _ (k_cells _ _ _ K1_3) Lb).
  assert (Free : s_envs s !! le = None).
  { destruct (s_envs s !! le) eqn:E; [|reflexivity]. exfalso.
    assert (Q : (le < s_next s)%positive) by (apply env_below; [exact W|intros Q0; discriminate (eq_trans (eq_sym E) Q0)]). assert (Q' := k_next _ _ _ K2). unfold le in Q. lia. }
  destruct Why as [(b1 & x & e & b2 & vs & -> & F & Bd)|(vs & F & Bd)].
  - destruct (init_fails G ns b1 vs x e b2 F Bd Pe X s3 env bv bcs le _ [] Px Nd W3 (ready_still _ _ _ K13 R) HL Ng3 S3 Lb3 Fb3 He ltac:(constructor)) as (m & s4 & K4 & I).
    exists m, s4. split; [apply LI, I|]. apply (keeps_fresh le s s3 s4); [exact Free|exact K13|exact K4].
  - destruct (init_all G ns bs vs F Pe X s3 env bv bcs le _ [] Px Nd W3 (ready_still _ _ _ K13 R) HL Ng3 S3 Lb3 Fb3 He ltac:(constructor)) as (s4 & K4 & W4 & (e4 & He4 & Q1 & Q2 & B4) & I).
    cbn [e_parent e_frame app] in Q1, Q2, B4. destruct (seen_frame G X s2 env ns R2 S2) as (Fr & _ & _). rewrite Ef, Fr in Q2.
    destruct (inner_scope G X s3 s4 le e4 env _ ns Nle ltac:(rewrite (k_global _ _ _ K4); exact Ng3) He4 Q1 Q2 B4 K4 S3 (ready_still _ _ _ K13 R) Ng3) as [S4 R4].
    assert (K04 : keeps [] s s4).
    { apply (keeps_fresh le s s3 s4); [exact Free|exact K13|exact K4]. }
    destruct (Bd Pb X s4 le b W4 R4) as (m & s5 & Ev & K5).
    + intros y Hy. exact (handed_later _ _ _ (k_next _ _ _ K04) (HX y Hy)).
    + exact S4.
    + apply (holds_kept _ _ (k_cells _ _ _ K4) (k_strs _ _ _ K4) (k_bytes _ _ _ K4)). apply HK, Hb.
    + exists m, s5. split; [|exact (keeps_trans _ _ _ _ K04 K5)]. apply LI, I. cbn [eval_each]. exists (Done (Err m)), s5. split; [exact Ev|split; reflexivity].
Qed.
Lemma bad_loop G ns x bs body :
  (exists b1 y e b2 vs, bs = b1 ++ (y, e) :: b2 /\ Forall2 (good G ns) (map snd b1) vs /\ bad G ns e) \/
  (exists vs, Forall2 (good G ns) (map snd bs) vs /\ bad G (combine (map fst bs) vs ++ (x, Looping x (map fst bs) body ns) :: ns) body) -> bad G ns (Loop x bs body).
Proof.
  intros Why P X s env c W R HX S Hc. destruct (loop_opens G ns x bs body P X s env c W R HX S Hc) as (fl & il & es & s9 & W9 & K09 & Sf & L9 & F9 & C).
  inversion P as [| | | | | | | | | | | | | |? ? ? Px Pxs Nd Pe Pb]; subst. assert (R9 := ready_still _ _ _ K09 R). assert (S9 := sees_moved _ _ _ _ (keeps_moves X [] _ _ ltac:(intros ? []) K09) _ _ S).
  destruct (function_wrong G X s9 env ns fl _ (map fst bs) body _ il es (map snd bs) W9 R9 ltac:(intros y Hy; exact (handed_later _ _ _ (k_next _ _ _ K09) (HX y Hy))) S9 Sf eq_refl) as (m & s10 & Cf & K10).
  - intros e I. apply in_map_iff in I. destruct I as (b0 & <- & I). exact (Pe b0 I).
  - exact L9.
  - exact F9.
  - right. destruct Why as [(b1 & y & e & b2 & vs & -> & F & Bd)|(vs & F & Bd)]; [left|right]; (split; [rewrite !map_length; reflexivity|]).
    + exists (map snd b1), e, (map snd b2), vs. split; [rewrite map_app; reflexivity|]. split; assumption.
    + exists vs. split; assumption.
  - exists m, s10. split; [apply C; exact Cf|exact (keeps_trans _ _ _ _ K09 K10)].
Qed.
(** *** Built-in functions *)
Lemma accepts_one t k : accepts [t] k <-> admits t k.
Proof. split; [intros (t' & [<-|[]] & H); exact H|intros H; exists t; split; [left; reflexivity|exact H]]. Qed.
Lemma function_table n k : In n functions -> exists p ts, In p all_prims /\ p_name p = n /\ declared p ts /\ p_special p = false /\ p_restricted p = false /\
  (accepts ts k \/ ~ accepts ts k) /\ (accepts ts k -> takes n k).
Proof.
  assert (Q : forall n ts, (exists p, table n = Some p /\ p_spec p = counts_text ts /\ p_special p = false /\ p_restricted p = false) -> Forall sane ts ->
    (accepts ts k \/ ~ accepts ts k) -> (accepts ts k -> takes n k) ->
    exists p ts, In p all_prims /\ p_name p = n /\ declared p ts /\ p_special p = false /\ p_restricted p = false /\ (accepts ts k \/ ~ accepts ts k) /\ (accepts ts k -> takes n k)).
  { intros m ts (p & T & H1 & H2 & H3) Hs Ha Hb. exists p, ts. destruct (table_in _ _ T) as [I1 I2]. repeat apply conj; assumption. }
  assert (D : forall t, accepts [t] k \/ ~ accepts [t] k).
  { intros t. rewrite accepts_one. destruct t as [|z|z|z1 z2]; cbn [admits]; [left; exact Logic.I|lia|lia|lia]. }
  intros I. cbn [functions In] in I. decompose [or] I; clear I; subst; try contradiction;
    first [eapply (Q _ [AnyCount]); [eexists; split; [reflexivity|repeat apply conj; reflexivity]|constructor; [exact Logic.I|constructor]|apply D|]
          |eapply (Q _ [Exactly 1]); [eexists; split; [reflexivity|repeat apply conj; reflexivity]|constructor; [unfold sane, int64_max, two63; lia|constructor]|apply D|]
          |eapply (Q _ [Exactly 2]); [eexists; split; [reflexivity|repeat apply conj; reflexivity]|constructor; [unfold sane, int64_max, two63; lia|constructor]|apply D|]
          |eapply (Q _ [Exactly 3]); [eexists; split; [reflexivity|repeat apply conj; reflexivity]|constructor; [unfold sane, int64_max, two63; lia|constructor]|apply D|]
          |eapply (Q _ [AtLeast 2]); [eexists; split; [reflexivity|repeat apply conj; reflexivity]|constructor; [unfold sane, int64_max, two63; lia|constructor]|apply D|]];
    rewrite accepts_one; cbn [admits]; intros A; unfold takes; cbn [In]; (split; [intros I; first [lia|decompose [or] I; try discriminate; contradiction]|]);
    (split; [intros I; first [lia|decompose [or] I; try discriminate; contradiction]|]); (split; intros I; first [lia|discriminate]).
Qed.
Lemma bad_builtin G ns n es :
  ~ takes n (length es) \/ (exists before e after vs, es = before ++ e :: after /\ Forall2 (good G ns) before vs /\ bad G ns e) \/
  (exists vs, Forall2 (good G ns) es vs /\ forall X env s xs, wf_state s -> ready G s -> (forall l, In l X -> handed_out s l) -> seesX X s env ns -> standX X s xs vs -> no_nils xs ->
    exists m s', applies n xs env s (Done (Err m)) s' /\ keeps [] s s') -> bad G ns (Builtin n es).
Proof.
  intros Why P X s env c W R HX S Hc. inversion P as [| | | | | | | | | | | | |? ? Pn Pe |]; subst. cbn [written] in Hc.
  destruct (holds_list_inv _ _ _ Hc) as (cs & L & Fc). apply Forall2_cons_inv_r in Fc.
  destruct Fc as (h & cs' & Hh & Fc & ->). apply holds_sym_inv in Hh. subst h. destruct (list_head _ _ _ _ L) as (l & d & -> & E & N & Ld).
  assert (Lc : length cs' = length es) by (rewrite (Forall2_length _ _ _ Fc), map_length; reflexivity).
  destruct (function_table n (length es) Pn) as (p & ts & Ip & Ep & Dc & Sp & Rp & Ac & Tk).
  assert (CN := fun o s' => call_name G X s env ns n d l o s' p R S (in_or_app _ _ _ (or_introl Pn)) Ip Ep E).
  destruct Ac as [Ac|Ac].
  2:{ eexists _, s. split; [|apply keeps_refl]. apply CN. apply (builtin_refused p ts d cs' env s _ _ Ip Dc Ld (or_introl Rp)); [rewrite Lc; exact Ac|split; reflexivity]. }
  assert (BC := fun o s' H => CN o s' (proj2 (builtin_called p ts d cs' env s o s' Ip Dc Ld (or_introl Rp) ltac:(rewrite Lc; exact Ac)) H)). rewrite Sp in BC.
  destruct Why as [Nt|[(before & e & af & vs & -> & F & Bd)|(vs & F & D)]].
  - destruct (Nt (Tk Ac)).
  - destruct (collect_fails G ns before vs e af F Bd Pe X s env d cs' [] W R HX S Ld Fc) as (m & s1 & K & C). exists m, s1. split; [apply BC, C|exact K].
  - destruct (collect_all G ns es vs F Pe X s env d cs' [] W R HX S Ld Fc) as (ws & s1 & K & W1 & Sws & C).
    destruct (all_stored_ok ws s1 W1) as (G1 & W2 & E1 & N1). assert (K2 := grows_keeps _ _ G1). assert (K02 := keeps_trans _ _ _ _ K K2).
    destruct (D X env (snd (all_stored ws s1)) (fst (all_stored ws s1)) W2) as (m & s2 & A & K3).
    + exact (ready_still _ _ _ K02 R).
    + intros y Hy. exact (handed_later _ _ _ (k_next _ _ _ K02) (HX y Hy)).
    + exact (sees_moved _ _ _ _ (keeps_moves X [] _ _ ltac:(intros ? []) K02) _ _ S).
    + apply (elem_stands _ _ _ _ E1). exact (stand_moved _ _ _ _ (keeps_moves X [] _ _ ltac:(intros ? []) K2) _ _ Sws).
    + exact N1.
    + exists m, s2. split; [|exact (keeps_trans _ _ _ _ K02 K3)]. apply BC, C. cbn [app]. unfold enters. destruct (all_stored ws s1). rewrite Ep. exact A.
Qed.
(** Arguments refused by arithmetic: every value can be printed in the message. *)
Lemma printable X s : (forall w v, standsX X s w v -> forall n env, exists t, runs denote (call (RString w)) (entering n env s) (Done t) (entering n env s)) /\
  (forall ws vs, standX X s ws vs -> forall n env, Forall (fun w => exists t, runs denote (call (RString w)) (entering n env s) (Done t) (entering n env s)) ws) /\
  (forall env ns, seesX X s env ns -> True) /\ (forall bs ns, boundX X s bs ns -> True).
Proof.
  apply (standsX_all X s (fun w v _ => forall n env, exists t, runs denote (call (RString w)) (entering n env s) (Done t) (entering n env s))
    (fun ws vs _ => forall n env, Forall (fun w => exists t, runs denote (call (RString w)) (entering n env s) (Done t) (entering n env s)) ws) (fun _ _ _ => True) (fun _ _ _ => True)); intros; try exact Logic.I.
  - eexists. apply runs_do_call. apply runs_ret.
  - eexists. apply runs_do_call. apply runs_ret.
  - eexists. apply runs_do_call. cbn [denote string_body]. eapply runs_bind; [eapply runs_op; reflexivity|]. apply runs_ret.
  - eexists. apply runs_do_call. apply runs_ret.
  - eapply runs_string_list; [|match goal with H : context [Forall _ _] |- _ => apply H end]. eapply is_list_cells; [|eassumption]. reflexivity.
  - eexists. apply runs_do_call. cbn [denote string_body]. eapply runs_bind; [eapply runs_op; reflexivity|]. apply runs_ret.
  - eexists. apply runs_do_call. cbn [denote string_body]. eapply runs_bind; [eapply runs_op; reflexivity|]. apply runs_ret.
  - constructor.
  - constructor; auto.
Qed.
Lemma not_numeric X s w v : standsX X s w v -> no_number v -> numberp w = false.
Proof.
  intros S N. inversion S as [| | | |? ? ? L| |]; subst; cbn in *; try contradiction; try reflexivity. inversion L; reflexivity.
Qed.
Lemma refused_values X n vs : refuses n vs -> forall env s xs, wf_state s -> standX X s xs vs -> exists m s', applies n xs env s (Done (Err m)) s' /\ keeps [] s s'.
Proof.
  assert (Rec : forall A who v w s n env, standsX X s w v -> exists m, runs denote (fail_recv (A:=A) who w) (entering n env s) (Done (Err m)) (entering n env s)).
  { intros A who v w s m env S. destruct (proj1 (printable X s) w v S m env) as [t R]. eexists. unfold fail_recv. eapply runs_bind; [exact R|apply runs_ret]. }
  intros H env s xs W S. destruct H as [n zs v rest I N|n a b I N|n v I N|a].
  - assert (Q : exists w, any_floats xs = inl w /\ standsX X s w v).
    { revert xs S. induction zs as [|z zs IH]; intros xs S; inversion S as [|w ? ws ? S1 S2]; subst; cbn [any_floats].
      - rewrite (not_numeric _ _ _ _ S1 N). exists w. split; [reflexivity|exact S1].
      - apply stands_number in S1. subst w. cbn. apply IH, S2. }
    destruct Q as (w & Q & Sw). destruct (Rec val "Number expected, received " v w s n env Sw) as (m & R). exists m, (entering n env s). split; [|apply keeps_entering].
    destruct I as [<-|[<-|[<-|[<-|[]]]]]; applies; unfold add_impl, subtract_impl, multiply_impl, quotient_impl, with_floats; rewrite Q; exact R.
  - destruct (stand_two _ _ _ _ _ S) as (x & y & -> & S1 & S2).
    assert (D : numberp x = false \/ (exists z, x = VInt z) /\ numberp y = false).
    { destruct a as [z| | | | | |]; try (left; apply (not_numeric _ _ _ _ S1 Logic.I)). right. apply stands_number in S1. subst x. destruct N as [[]|N]. split; [exists z; reflexivity|exact (not_numeric _ _ _ _ S2 N)]. }
    destruct D as [D|((z & ->) & D)].
    + assert (NI : forall A who k, need_integer (A := A) who x k = fail_recv who x) by (intros; destruct x; try reflexivity; discriminate).
      destruct I as [<-|[<-|[<-|[<-|[<-|[]]]]]]; (edestruct Rec as (m & R); [exact S1|]); exists m; eexists; (split; [|apply keeps_entering]); applies; unfold remainder_impl, compare_impl, need_number; cbn [arg nth]; rewrite ?NI, ?D; exact R.
    + assert (NI : forall A who k, need_integer (A := A) who y k = fail_recv who y) by (intros; destruct y; try reflexivity; discriminate).
      destruct I as [<-|[<-|[<-|[<-|[<-|[]]]]]]; (edestruct Rec as (m & R); [exact S2|]); exists m; eexists; (split; [|apply keeps_entering]); applies; unfold remainder_impl, compare_impl, need_number; cbn [arg nth need_integer numberp]; rewrite ?NI, ?D; exact R.
  - destruct (stand_one _ _ _ _ S) as (x & -> & S1). assert (D := not_numeric _ _ _ _ S1 N).
    assert (NI : forall A who k, need_integer (A := A) who x k = fail_recv who x) by (intros; destruct x; try reflexivity; discriminate).
    assert (NF : forall k : Z -> prog (res val), forall e, match x with VInt z => k z | _ => e end = e) by (intros; destruct x; try reflexivity; discriminate).
    destruct I as [<-|[<-|I]]; [eexists; eexists; split; [applies; unfold succ_impl; cbn [arg nth]; rewrite NF; apply runs_ret|apply keeps_entering]
      |eexists; eexists; split; [applies; unfold pred_impl; cbn [arg nth]; rewrite NF; apply runs_ret|apply keeps_entering]|].
    destruct I as [<-|[<-|[<-|[<-|[<-|[]]]]]]; (edestruct Rec as (m & R); [exact S1|]); exists m; eexists; (split; [|apply keeps_entering]); applies;
      unfold even_impl, odd_impl, zero_impl, positive_impl, negative_impl, float_test, need_number; cbn [arg nth]; rewrite ?NI, ?D; exact R.
  - destruct (stand_two _ _ _ _ _ S) as (x & y & -> & S1 & S2). apply stands_number in S1, S2. subst.
    destruct (run_quotient_zero "quotient" a [0] env s W ltac:(right; left; reflexivity) ltac:(left; reflexivity)) as (m & s' & A & Gr).
    exists m, s'. split; [exact A|exact (grows_keeps _ _ Gr)].
Qed.
(** *** map, filter and fold-left *)
Lemma call_closure_wrong G X s env ns fw xs body ns' ws vs : wf_state s -> ready G s -> (forall l, In l X -> handed_out s l) -> seesX X s env ns ->
  standsX X s fw (Closure xs body ns') -> standX X s ws vs -> length xs = length vs -> bad G (combine xs vs ++ ns') body ->
  exists m s', call_on fw ws env s (Done (Err m)) s' /\ keeps [] s s'.
Proof.
  intros W R HX S Sf Sv Len Ib. unfold call_on. destruct (new_list_list_of ws s W) as ((ys & Fy & L) & Gr). assert (W1 := proj2 (new_list_grows ws s W)).
  destruct (new_list ws s) as [al s1]. cbn [fst snd] in *. assert (K := grows_keeps _ _ Gr).
  assert (R1 := ready_still _ _ _ K R). assert (M1 := keeps_moves X [] s s1 ltac:(intros ? []) K). assert (S1 := sees_moved _ _ _ _ M1 _ _ S).
  assert (Sy := elem_stands _ _ _ _ Fy _ (stand_moved _ _ _ _ M1 _ _ Sv)). assert (Sw := stands_moved _ _ _ _ M1 _ _ Sf).
  assert (HX1 : forall l, In l X -> handed_out s1 l) by (intros y Hy; exact (handed_later _ _ _ (k_next _ _ _ K) (HX y Hy))).
  inversion Sw as [| | | | |fl fs ? ? ? b bc Hfs Hp Hv Hr Hps Px Nd Hbody Lb Hbc Pb Sn |]; subst.
  set (le := s_next s1). set (fn := fn_code fs) in *. set (s2 := open_env (f_name fn) (f_env fn) (e_frame (env_at s1 (f_env fn))) s1).
  assert (W2 : wf_state s2) by apply open_env_wf, W1. assert (K2 : keeps [] s1 s2) by apply keeps_open, W1. assert (K02 := keeps_trans _ _ _ _ K K2).
  assert (Nle : ~ In le X). { intros I. specialize (HX1 _ I). unfold handed_out, le in HX1. lia. }
  assert (Ng : le <> s_global s1). { assert (Q := ready_global G s1 W1 R1). unfold le. lia. }
  assert (Ng2 : le <> s_global s2) by (rewrite (k_global _ _ _ K2); exact Ng).
  assert (He := open_env_at (f_name fn) (f_env fn) (e_frame (env_at s1 (f_env fn))) s1). fold le in He. fold s2 in He.
  assert (M2 := keeps_moves (le :: X) [] s1 s2 ltac:(intros ? []) K2). assert (Fm := fresh_moves X s1 W1). fold le in Fm.
  assert (Sy2 := stand_moved _ _ _ _ M2 _ _ (stand_moved _ _ _ _ Fm _ _ Sy)).
  assert (Sn2 : seesX (le :: X) s2 (f_env fn) ns') by exact (sees_moved _ _ _ _ M2 _ _ (sees_moved _ _ _ _ Fm _ _ Sn)).
  assert (HK2 := fun d v => holds_kept _ _ (k_cells _ _ _ K2) (k_strs _ _ _ K2) (k_bytes _ _ _ K2) d v).
  assert (HL : forall l, In l (le :: X) -> handed_out s2 l).
  { intros y [<-|I]; [|exact (handed_later _ _ _ (k_next _ _ _ K2) (HX1 y I))]. unfold handed_out, s2. rewrite open_next. assert (Q := ready_global G s1 W1 R1). unfold le. lia. }
  destruct (pass_values G vs X s2 al ys (f_params fn) xs le _ [] Len Px Nd W2 (ready_still _ _ _ K02 R) HL Ng2 (is_list_kept _ _ _ _ (k_cells _ _ _ K2) L) Sy2 (HK2 _ _ Hps) He ltac:(constructor)) as (s3 & K3 & W3 & (e3 & He3 & Q1 & Q2 & B3) & C).
  cbn [e_parent e_frame app] in Q1, Q2, B3. destruct (seen_frame G X s1 (f_env fn) ns' R1 Sn) as (Frn & _ & _). rewrite Frn in Q2.
  destruct (inner_scope G X s2 s3 le e3 (f_env fn) _ ns' Nle ltac:(rewrite (k_global _ _ _ K3); exact Ng2) He3 Q1 Q2 B3 K3 Sn2 (ready_still _ _ _ K02 R) Ng2) as [S3 R3].
  assert (K03 : keeps [] s s3).
  { apply (keeps_fresh le s s2 s3); [|exact K02|exact K3]. destruct (s_envs s !! le) eqn:E'; [|exact E']. exfalso.
    assert (Q : (le < s_next s)%positive) by (apply env_below; [exact W|intros Q0; discriminate (eq_trans (eq_sym E') Q0)]). assert (Q' := k_next _ _ _ K). unfold le in Q. lia. }
  assert (K13 := keeps_trans _ _ _ _ (keeps_more [] [le] _ _ ltac:(intros ? []) K2) K3).
  destruct (Ib Pb X s3 le bc W3 R3) as (m & s4 & Ev2 & K4).
  { intros y Hy. exact (handed_later _ _ _ (k_next _ _ _ K03) (HX y Hy)). }
  { exact S3. }
  { apply (holds_kept _ _ (k_cells _ _ _ K13) (k_strs _ _ _ K13) (k_bytes _ _ _ K13)). exact Hbc. }
  eexists _, s4. split; [|exact (keeps_trans _ _ _ _ K03 K4)].
  assert (Fi := fun_is _ _ _ Hfs). destruct (holds_list_inv _ _ _ Hps) as (pcs & Lp & _). destruct (seen_frame G X s1 env ns R1 S1) as (Fr1 & Sf1 & Ne1).
  unfold applied_values. apply (apply_fun_iff false fl al ys env s1 _ _ L); [rewrite Fi; exact (list_not_symbol _ _ _ Lp)|].
  apply (calls_plain fl _ al (length ys) env s1 _ _).
  - split; [right; split; [exact Fr1|exact Sf1]|]. rewrite Fi. exact Hp.
  - assert (Q := env_below s1 env W1 Ne1). lia.
  - cbv zeta. rewrite Fi. fold fn. rewrite Hv, Hr. unfold enough. rewrite (stand_length _ _ _ _ Sy), Len, Z.eqb_refl.
    apply C. exact (body_wrong le s3 bc m s4 fn (is_list_kept _ _ _ _ (k_cells _ _ _ K13) Lb) Ev2).
Qed.
Lemma same_kept s0 s l xs : is_list s0 l xs -> keeps [] s0 s -> Forall (same_list s0 s) [l].
Proof.
  intros L K. constructor; [|constructor]. intros k I. clear -L K I. revert xs L. induction I as [t l|t l k I IH]; intros xs L.
  - inversion L as [| |? E|? a d ? E]; subst; rewrite E; exact (k_cells _ _ _ K _ _ E).
  - inversion L as [| |? E|? a d ? E N L']; subst; cbn [rest_of] in *; rewrite (cell_some _ _ _ E) in *; cbn [snd] in *; [inversion I|exact (IH _ L')].
Qed.
Lemma one_call fw ws env s o1 s1 o2 s2 : call_on fw ws env s o1 s1 -> call_on fw ws env s o2 s2 -> o1 = o2 /\ s1 = s2.
Proof. unfold call_on. destruct (new_list ws s) as [al sa]. unfold applied_values. intros C C1. exact (runs_det _ _ _ _ _ _ _ _ C C1). Qed.
Lemma each_wrong G X env ns fw x body ns' before ws v rest : Forall2 (fun v w => good G ((x, v) :: ns') body w) before ws -> bad G ((x, v) :: ns') body -> forall s s0 l xs us,
  wf_state s -> ready G s -> (forall l, In l X -> handed_out s l) -> seesX X s env ns -> standsX X s fw (Closure [x] body ns') -> standX X s us (before ++ v :: rest) ->
  is_list s0 l xs -> keeps [] s0 s ->
  undisturbed fw env s0 [l] (map (fun u => [u]) us) s /\ exists m s', keeps [] s s' /\
    (forall acc, map_over fw env (map (fun u => [u]) us) acc s (Done (Err m)) s') /\
    (forall bs found, ws = map Boolean bs -> select_over "filter" true fw env us found s (Done (Err m)) s').
Proof.
  intros F Bd. induction F as [|v0 w vs ws Hv _ IH]; intros s s0 l xs us W R HX S Sf Su L K0.
  - cbn [app] in Su. inversion Su as [|u ? us' ? Su1 Sus]; subst.
    destruct (call_closure_wrong G X s env ns fw [x] body ns' [u] [v] W R HX S Sf ltac:(constructor; [exact Su1|constructor]) eq_refl Bd) as (m & s1 & C & K).
    split. { cbn [map undisturbed]. split; [exact (same_kept _ _ _ _ L K0)|]. intros v1 s3 C1. destruct (one_call _ _ _ _ _ _ _ _ C C1); discriminate. }
    exists m, s1. split; [exact K|]. split; intros; cbn [map map_over select_over]; exists (Done (Err m)), s1; (split; [exact C|split; reflexivity]).
  - cbn [app] in Su. inversion Su as [|u ? us' ? Su1 Sus]; subst.
    destruct (call_closure G X s env ns fw [x] body ns' [u] [v0] w W R HX S Sf ltac:(constructor; [exact Su1|constructor]) eq_refl Hv) as (r & s1 & C & K & Sr & W1).
    assert (M := keeps_moves X [] s s1 ltac:(intros ? []) K).
    destruct (IH s1 s0 l xs us' W1 (ready_still _ _ _ K R)) as (U & m & s2 & K2 & Cm & Cf).
    + intros y Hy. exact (handed_later _ _ _ (k_next _ _ _ K) (HX y Hy)).
    + exact (sees_moved _ _ _ _ M _ _ S).
    + exact (stands_moved _ _ _ _ M _ _ Sf).
    + exact (stand_moved _ _ _ _ M _ _ Sus).
    + exact L.
    + exact (keeps_trans _ _ _ _ K0 K).
    + split. { cbn [map undisturbed]. split; [exact (same_kept _ _ _ _ L K0)|]. intros v1 s3 C1. destruct (one_call _ _ _ _ _ _ _ _ C C1) as [_ <-]. exact U. }
      exists m, s2. split; [exact (keeps_trans _ _ _ _ K K2)|]. split.
      * intros acc. cbn [map map_over]. exists (Done (Ok r)), s1. split; [exact C|apply Cm].
      * intros bs found E. destruct bs as [|b bs]; [discriminate|]. injection E as -> ->. cbn [select_over]. exists (Done (Ok r)), s1. split; [exact C|].
        inversion Sr; subst. apply (Cf bs). reflexivity.
Qed.
Lemma answer_wrong G X env ns fw x body ns' vs ws w : Forall2 (fun v w => good G ((x, v) :: ns') body w) vs ws -> In w ws -> (forall b, w <> Boolean b) -> forall s us,
  wf_state s -> ready G s -> (forall l, In l X -> handed_out s l) -> seesX X s env ns -> standsX X s fw (Closure [x] body ns') -> standX X s us vs ->
  exists m s', keeps [] s s' /\ forall found, select_over "filter" true fw env us found s (Done (Err m)) s'.
Proof.
  intros F I Nb. induction F as [|v0 w0 vs ws Hv _ IH]; intros s us W R HX S Sf Su; [destruct I|].
  inversion Su as [|u ? us' ? Su1 Sus]; subst.
  destruct (call_closure G X s env ns fw [x] body ns' [u] [v0] w0 W R HX S Sf ltac:(constructor; [exact Su1|constructor]) eq_refl Hv) as (r & s1 & C & K & Sr & W1).
  assert (D : (forall b, w0 <> Boolean b) \/ exists b, w0 = Boolean b) by (destruct w0; try (left; discriminate); right; eauto).
  destruct D as [D|(b & ->)].
  - exists ("filter" +++ " needs a predicate function as its first argument."), s1. split; [exact K|]. intros found. cbn [select_over]. exists (Done (Ok r)), s1. split; [exact C|].
    destruct r; try (split; reflexivity). inversion Sr as [| | | |? ? ? L| |]; subst; [destruct (D _ eq_refl)|inversion L].
  - assert (M := keeps_moves X [] s s1 ltac:(intros ? []) K). inversion Sr as [|b0| | |? ? ? L| |]; subst.
    destruct (IH ltac:(destruct I as [<-|I]; [destruct (Nb _ eq_refl)|exact I]) s1 us' W1 (ready_still _ _ _ K R)) as (m & s2 & K2 & Cf).
    + intros y Hy. exact (handed_later _ _ _ (k_next _ _ _ K) (HX y Hy)).
    + exact (sees_moved _ _ _ _ M _ _ S).
    + exact (stands_moved _ _ _ _ M _ _ Sf).
    + exact (stand_moved _ _ _ _ M _ _ Sus).
    + exists m, s2. split; [exact (keeps_trans _ _ _ _ K K2)|]. intros found. cbn [select_over]. exists (Done (Ok (VBool b))), s1. split; [exact C|apply Cf].
Qed.
Lemma bad_map G ns f l x body ns' before v rest ws : Forall2 (good G ns) [f; l] [Closure [x] body ns'; Items (before ++ v :: rest)] -> fits (before ++ v :: rest) ->
  Forall2 (fun v w => good G ((x, v) :: ns') body w) before ws -> bad G ((x, v) :: ns') body -> bad G ns (Builtin "map" [f; l]).
Proof.
  intros F Fit Fe Bd. apply bad_builtin. right. right. eexists. split; [exact F|].
  intros X env s xs W R HX S Sx N. destruct (stand_two _ _ _ _ _ Sx) as (fw & lw & -> & Hf & Hl). destruct (stands_items _ _ _ _ Hl) as (us & L & Su).
  assert (K0 := keeps_entering "map" env s). assert (M := keeps_moves X [] _ _ ltac:(intros ? []) K0).
  destruct (each_wrong G X env ns fw x body ns' before ws v rest Fe Bd (entering "map" env s) (entering "map" env s) lw us us (wf_entering _ _ _ W) (ready_still _ _ _ K0 R) HX
    (sees_moved _ _ _ _ M _ _ S) (stands_moved _ _ _ _ M _ _ Hf) (stand_moved _ _ _ _ M _ _ Su) (is_list_kept _ _ _ _ (k_cells _ _ _ K0) L) (keeps_refl _ _)) as (U & m & s1 & K1 & Cm & _).
  assert (Len := stand_length _ _ _ _ Su). pose proof (fun o s' => proj2 (map_iff fw [lw] [us] env s o s' (closure_function _ _ _ _ _ _ Hf) ltac:(discriminate) ltac:(constructor; [exact L|constructor]) ltac:(cbn [least_length]; rewrite Len; exact Fit) ltac:(rewrite rows_one; exact U))) as A.
  rewrite rows_one in A. cbn [least_length] in A. exists m, s1. split; [|exact (keeps_trans _ _ _ _ K0 K1)]. apply A. destruct us as [|u us]; [|apply Cm]. rewrite app_length in Len. cbn in Len. lia.
Qed.
Lemma filter_nils X s us vs : standX X s us vs -> Forall (fun v => v <> Items []) vs -> no_nils us.
Proof.
  intros Su Ne. unfold no_nils. induction Su as [|u v us vs H _ IH]; [constructor|]. apply (proj1 (List.Forall_cons_iff _ _ _)) in Ne. destruct Ne as [N1 N2]. constructor; [|apply IH, N2].
  intros ->. inversion H as [| | | |? ? ? L' S'| |]; subst. inversion L'; subst. inversion S'; subst. congruence.
Qed.
Lemma bad_filter G ns f l x body ns' before v rest bs : Forall2 (good G ns) [f; l] [Closure [x] body ns'; Items (before ++ v :: rest)] -> Forall (fun v => v <> Items []) (before ++ v :: rest) ->
  Forall2 (fun v w => good G ((x, v) :: ns') body w) before (map Boolean bs) -> bad G ((x, v) :: ns') body -> bad G ns (Builtin "filter" [f; l]).
Proof.
  intros F Ne Fe Bd. apply bad_builtin. right. right. eexists. split; [exact F|].
  intros X env s xs W R HX S Sx N. destruct (stand_two _ _ _ _ _ Sx) as (fw & lw & -> & Hf & Hl). destruct (stands_items _ _ _ _ Hl) as (us & L & Su).
  assert (K0 := keeps_entering "filter" env s). assert (M := keeps_moves X [] _ _ ltac:(intros ? []) K0).
  destruct (each_wrong G X env ns fw x body ns' before _ v rest Fe Bd (entering "filter" env s) (entering "filter" env s) lw us us (wf_entering _ _ _ W) (ready_still _ _ _ K0 R) HX
    (sees_moved _ _ _ _ M _ _ S) (stands_moved _ _ _ _ M _ _ Hf) (stand_moved _ _ _ _ M _ _ Su) (is_list_kept _ _ _ _ (k_cells _ _ _ K0) L) (keeps_refl _ _)) as (U & m & s1 & K1 & _ & Cf).
  exists m, s1. split; [|exact (keeps_trans _ _ _ _ K0 K1)]. apply (select_iff "filter" "filter" true fw lw us env s _ _ eq_refl (closure_function _ _ _ _ _ _ Hf) L (filter_nils _ _ _ _ Su Ne) U). apply (Cf bs). reflexivity.
Qed.
Lemma bad_answer G ns f l x body ns' vs ws w : Forall2 (good G ns) [f; l] [Closure [x] body ns'; Items vs] -> Forall (fun v => v <> Items []) vs ->
  Forall2 (fun v w => good G ((x, v) :: ns') body w) vs ws -> In w ws -> (forall b, w <> Boolean b) -> bad G ns (Builtin "filter" [f; l]).
Proof.
  intros F Ne Fe I Nb. apply bad_builtin. right. right. eexists. split; [exact F|].
  intros X env s xs W R HX S Sx N. destruct (stand_two _ _ _ _ _ Sx) as (fw & lw & -> & Hf & Hl). destruct (stands_items _ _ _ _ Hl) as (us & L & Su).
  assert (K0 := keeps_entering "filter" env s). assert (M := keeps_moves X [] _ _ ltac:(intros ? []) K0).
  destruct (each_called G X env ns fw x body ns' vs ws Fe (entering "filter" env s) (entering "filter" env s) lw us us (wf_entering _ _ _ W) (ready_still _ _ _ K0 R) HX
    (sees_moved _ _ _ _ M _ _ S) (stands_moved _ _ _ _ M _ _ Hf) (stand_moved _ _ _ _ M _ _ Su) (is_list_kept _ _ _ _ (k_cells _ _ _ K0) L) (keeps_refl _ _)) as (rs & s1 & _ & _ & _ & U & _ & _).
  destruct (answer_wrong G X env ns fw x body ns' vs ws w Fe I Nb (entering "filter" env s) us (wf_entering _ _ _ W) (ready_still _ _ _ K0 R) HX
    (sees_moved _ _ _ _ M _ _ S) (stands_moved _ _ _ _ M _ _ Hf) (stand_moved _ _ _ _ M _ _ Su)) as (m & s2 & K2 & Cf).
  exists m, s2. split; [|exact (keeps_trans _ _ _ _ K0 K2)]. apply (select_iff "filter" "filter" true fw lw us env s _ _ eq_refl (closure_function _ _ _ _ _ _ Hf) L (filter_nils _ _ _ _ Su Ne) U). apply Cf.
Qed.
Lemma fold_wrong G X env ns fw x y body ns' a before b v rest : good_steps G x y body ns' a before b -> bad G ((x, b) :: (y, v) :: ns') body -> forall s us aw,
  wf_state s -> ready G s -> (forall l, In l X -> handed_out s l) -> seesX X s env ns -> standsX X s fw (Closure [x; y] body ns') -> standX X s us (before ++ v :: rest) -> standsX X s aw a ->
  exists m s', left_nested fw env aw us s (Done (Err m)) s' /\ keeps [] s s'.
Proof.
  induction 1 as [a|a v0 vs b r Hv _ IH]; intros Bd s us aw W R HX S Sf Su Sa.
  - cbn [app] in Su. inversion Su as [|u ? us' ? Su1 Sus]; subst.
    destruct (call_closure_wrong G X s env ns fw [x; y] body ns' [aw; u] [a; v] W R HX S Sf ltac:(constructor; [exact Sa|constructor; [exact Su1|constructor]]) eq_refl Bd) as (m & s1 & C & K).
    exists m, s1. split; [|exact K]. cbn [left_nested]. exists (Done (Err m)), s1. split; [exact C|split; reflexivity].
  - cbn [app] in Su. inversion Su as [|u ? us' ? Su1 Sus]; subst.
    destruct (call_closure G X s env ns fw [x; y] body ns' [aw; u] [a; v0] b W R HX S Sf ltac:(constructor; [exact Sa|constructor; [exact Su1|constructor]]) eq_refl Hv) as (bw & s1 & C & K & Sb & W1).
    assert (M := keeps_moves X [] s s1 ltac:(intros ? []) K).
    destruct (IH Bd s1 us' bw W1 (ready_still _ _ _ K R)) as (m & s2 & C2 & K2).
    + intros z Hz. exact (handed_later _ _ _ (k_next _ _ _ K) (HX z Hz)).
    + exact (sees_moved _ _ _ _ M _ _ S).
    + exact (stands_moved _ _ _ _ M _ _ Sf).
    + exact (stand_moved _ _ _ _ M _ _ Sus).
    + exact Sb.
    + exists m, s2. split; [|exact (keeps_trans _ _ _ _ K K2)]. cbn [left_nested]. exists (Done (Ok bw)), s1. split; [exact C|exact C2].
Qed.
Lemma bad_fold G ns f i l x y body ns' a before b v rest : Forall2 (good G ns) [f; i; l] [Closure [x; y] body ns'; a; Items (before ++ v :: rest)] ->
  good_steps G x y body ns' a before b -> bad G ((x, b) :: (y, v) :: ns') body -> bad G ns (Builtin "fold-left" [f; i; l]).
Proof.
  intros F Fe Bd. apply bad_builtin. right. right. eexists. split; [exact F|].
  intros X env s xs W R HX S Sx N. inversion Sx as [|fw ? xs1 ? Hf Sx1]; subst. destruct (stand_two _ _ _ _ _ Sx1) as (iw & lw & -> & Hi & Hl). destruct (stands_items _ _ _ _ Hl) as (us & L & Su).
  assert (K0 := keeps_entering "fold-left" env s). assert (M := keeps_moves X [] _ _ ltac:(intros ? []) K0).
  destruct (fold_wrong G X env ns fw x y body ns' a before b v rest Fe Bd (entering "fold-left" env s) us iw (wf_entering _ _ _ W) (ready_still _ _ _ K0 R) HX
    (sees_moved _ _ _ _ M _ _ S) (stands_moved _ _ _ _ M _ _ Hf) (stand_moved _ _ _ _ M _ _ Su) (stands_moved _ _ _ _ M _ _ Hi)) as (m & s1 & C & K1).
  exists m, s1. split; [|exact (keeps_trans _ _ _ _ K0 K1)]. apply (fold_left_iff fw iw lw us env s _ _ (closure_function _ _ _ _ _ _ Hf) L). exact C.
Qed.
(** *** C72 *)
Lemma all_bad G : forall ns e, goes_wrong G ns e -> bad G ns e.
Proof.
  destruct (all_good G) as (G1 & G2 & G3 & G4).
  induction 1 as [ns f es H IH|ns f es v M Np|ns f es v xs body ns' M Ep Len|ns f es v xs body ns' before e af vs M Ep Len E Ma H IH|ns f es v xs body ns' vs M Ep Len Ma H IH
    |ns c t e H IH|ns c t e b M H IH|ns cs bs t e rest o Ma T H IH|ns cs bs t e b rest o Ma T M Tb H IH|ns cs bs e Ma T H IH|ns es vs e rest Ma T H IH|ns es vs e rest Ma T H IH|ns es vs e rest Ma H IH
    |ns before x e af body vs Ma H IH|ns bs body vs Ma H IH|ns name before x e af body vs Ma H IH|ns x bs body vs Ma H IH
    |ns n es Nt|ns n es before e af vs E Ma H IH|ns n es vs Ma Rf|ns f l x body ns' before v af ws Ma Fit Me H IH|ns f l x body ns' before v af bs Ma Ne Me H IH|ns f l x body ns' vs ws w Ma Ne Me I Nb
    |ns f i l x y body ns' a before b v af Ma Mf H IH].
  - apply call_wrong; [right; exact H|left; exact IH].
  - apply call_wrong; [left; eauto|]. right. left. exists v. split; [apply G1, M|exact Np].
  - apply call_wrong; [left; eauto|]. right. right. exists v, xs, body, ns'. split; [apply G1, M|]. split; [exact Ep|]. left. exact Len.
  - apply call_wrong; [left; eauto|]. right. right. exists v, xs, body, ns'. split; [apply G1, M|]. split; [exact Ep|]. right. left. split; [exact Len|]. exists before, e, af, vs. split; [exact E|]. split; [apply G2, Ma|exact IH].
  - apply call_wrong; [left; eauto|]. right. right. exists v, xs, body, ns'. split; [apply G1, M|]. split; [exact Ep|]. right. right. split; [exact Len|]. exists vs. split; [apply G2, Ma|exact IH].
  - apply bad_if. left. exact IH.
  - apply bad_if. right. exists b. split; [apply G1, M|exact IH].
  - eapply bad_cond; [apply G2, Ma|exact T|left; exact IH].
  - eapply bad_cond; [apply G2, Ma|exact T|right; exists b; split; [apply G1, M|split; assumption]].
  - eapply bad_cond_else; [apply G2, Ma|exact T|exact IH].
  - eapply bad_and; [apply G2, Ma|exact T|exact IH].
  - eapply bad_or; [apply G2, Ma|exact T|exact IH].
  - eapply bad_begin; [apply G2, Ma|exact IH].
  - apply bad_let. left. exists before, x, e, af, vs. split; [reflexivity|]. split; [apply G2, Ma|exact IH].
  - apply bad_let. right. exists vs. split; [apply G2, Ma|exact IH].
  - apply bad_loop. left. exists before, x, e, af, vs. split; [reflexivity|]. split; [apply G2, Ma|exact IH].
  - apply bad_loop. right. exists vs. split; [apply G2, Ma|exact IH].
  - apply bad_builtin. left. exact Nt.
  - apply bad_builtin. right. left. exists before, e, af, vs. split; [exact E|]. split; [apply G2, Ma|exact IH].
  - apply bad_builtin. right. right. exists vs. split; [apply G2, Ma|]. intros X env s xs W _ _ _ S _. exact (refused_values X n vs Rf env s xs W S).
  - eapply bad_map; [apply G2, Ma|exact Fit|apply G3, Me|exact IH].
  - eapply bad_filter; [apply G2, Ma|exact Ne|apply G3, Me|exact IH].
  - eapply bad_answer; [apply G2, Ma|exact Ne|apply G3, Me|exact I|exact Nb].
  - eapply bad_fold; [apply G2, Ma|apply G4, Mf|exact IH].
Qed.
Lemma expression_unchanged G ns e c env s : goes_wrong G ns e -> proper e -> wf_state s -> ready G s -> sees s env ns -> holds s c (written e) ->
  (exists m s', evals c env s (Done (Err m)) s') /\ forall o s', evals c env s o s' -> exists m, o = Done (Err m) /\ keeps [] s s' /\ ready G s'.
Proof.
  intros M P W R S H. destruct (all_bad G ns e M P [] s env c W R ltac:(intros ? []) (proj1 (proj2 (proj2 (to_X s))) _ _ S) H) as (m & s' & Ev & K).
  split; [exists m, s'; exact Ev|]. intros o s2 Ev2. destruct (runs_det _ _ _ _ _ _ _ _ Ev Ev2) as [<- <-]. exists m. split; [reflexivity|]. split; [exact K|exact (ready_still _ _ _ K R)].
Qed.
Lemma expression_wrong G ns e c env s : goes_wrong G ns e -> proper e -> wf_state s -> ready G s -> sees s env ns -> holds s c (written e) ->
  (exists m s', evals c env s (Done (Err m)) s') /\ forall o s', evals c env s o s' -> exists m, o = Done (Err m).
Proof.
  intros M P W R S H. destruct (expression_unchanged G ns e c env s M P W R S H) as [A B]. split; [exact A|]. intros o s' Ev. destruct (B o s' Ev) as (m & -> & _). exists m. reflexivity.
Qed.
(** An expression cannot both have a value and go wrong. *)
Lemma value_or_error G ns e v c env s : goes_wrong G ns e -> means G ns e v -> proper e -> wf_state s -> ready G s -> sees s env ns -> holds s c (written e) -> False.
Proof.
  intros H M P W R S Hc. destruct (expression_wrong G ns e c env s H P W R S Hc) as (_ & A). destruct (expression_value G ns e v c env s M P W R S Hc) as ((w & s' & Ev) & _).
  destruct (A _ _ Ev) as (m & Q). discriminate.
Qed.
Lemma program_fails e ts : forall rest done puts s last, goes_wrong (done ++ rest) [] e -> proper e -> proper_globals (done ++ rest) ->
  Forall2 plants (map definition rest ++ written e :: ts) puts -> wf_state s -> ready done s -> (forall x, In x (map fst rest) -> local_binding s (s_global s) x = None) ->
  exists m s', in_turn (s_global s) gives (combine (map definition rest ++ written e :: ts) puts) last s (Done (Err m)) s'.
Proof.
  induction rest as [|[x [xs body]] rest IH]; intros done puts s last M P PG F W R U.
  - rewrite app_nil_r in *. cbn [map app] in *. inversion F as [|? put ? puts' Pl F']; subst. destruct (Pl s W) as (G1 & W1 & H1). assert (K := grows_keeps _ _ G1).
    assert (Eg : s_global (snd (put s)) = s_global s) by exact (k_global _ _ _ K).
    assert (Sg : sees (snd (put s)) (s_global s) []) by (rewrite <- Eg; constructor).
    destruct (expression_wrong done [] e (fst (put s)) (s_global s) (snd (put s)) M P W1 (ready_still _ _ _ K R) Sg H1) as ((m & s' & Ev) & Q).
    exists m, s'. cbn [combine]. apply in_turn_next; [apply written_not_empty|]. exists (Done (Err m)), s'. split; [exact Ev|]. split; reflexivity.
  - cbn [map app] in *. inversion F as [|? put ? puts' Pl F']; subst. destruct (Pl s W) as (G1 & W1 & H1). assert (K := grows_keeps _ _ G1).
    assert (Eg : s_global (snd (put s)) = s_global s) by exact (k_global _ _ _ K).
    assert (Lb : forall y, local_binding (snd (put s)) (s_global s) y = local_binding s (s_global s) y).
    { intros y. pose proof R as [(ge & He & _) _]. assert (Q := k_envs _ _ _ K _ _ ltac:(intros []) He). unfold local_binding. rewrite (env_is _ _ _ Q), (env_is _ _ _ He). reflexivity. }
    pose proof PG as [Nd Pr]. destruct (Pr x xs body) as (Px & Pxs & Ndx & Pb); [apply in_or_app; right; left; reflexivity|].
    rewrite map_app in Nd. cbn [map fst] in Nd. assert (Nx := NoDup_remove_2 _ _ _ Nd).
    destruct (define_step done (snd (put s)) (fst (put s)) x xs body W1 (ready_still _ _ _ K R) Px Pxs Ndx Pb) as (w & s1 & Ev & W2 & R2 & Eg2 & _ & Lo).
    + rewrite Eg, Lb. apply U. left. reflexivity.
    + apply alookup_not_in. intros I. apply Nx, in_or_app. left. exact I.
    + exact H1.
    + assert (EG : (done ++ [(x, (xs, body))]) ++ rest = done ++ (x, (xs, body)) :: rest) by (rewrite <- app_assoc; reflexivity).
      rewrite <- EG in M, PG. destruct (IH _ puts' s1 w M P PG F' W2 R2) as (m & s' & T).
      * intros y Hy. assert (y <> x) by (intros ->; apply Nx, in_or_app; right; exact Hy). rewrite Lo by assumption. rewrite Eg, Lb. apply U. right. exact Hy.
      * exists m, s'. cbn [combine]. apply in_turn_next; [discriminate|]. exists (Done (Ok w)), s1.
        rewrite Eg in Ev. split; [exact Ev|]. rewrite Eg2, Eg in T. exact T.
Qed.
Lemma program_stops u G e ts src : program u (map definition G ++ written e :: ts) src -> proper_globals G -> proper e -> goes_wrong G [] e ->
  forall s, wf_state s -> s_uni s = u -> has_builtins s -> (forall x, In x (map fst G) -> local_binding s (s_global s) x = None) ->
  (exists m s', run_text src (s_global s) s (Done (Err m)) s') /\
  forall o s', run_text src (s_global s) s o s' -> exists m, o = Done (Err m).
Proof.
  intros P PG Pe M s W Eu B U. destruct (run_program u _ src P) as (puts & F & H).
  assert (R : ready [] s) by (split; [exact B|intros x xs body E; discriminate]).
  destruct (program_fails e ts G [] puts s VNil M Pe PG F W R U) as (m & s' & T). apply (H (s_global s) s Eu) in T.
  split; [exists m, s'; exact T|]. intros o s2 T2. destruct (runs_det _ _ _ _ _ _ _ _ T T2) as [<- <-]. exists m. reflexivity.
Qed.
