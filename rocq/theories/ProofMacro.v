(** Proofs of C77: macros written with a template. *)
From Verif Require Export ProofObject ProofSession ProofThread ProofQuasi ProofCoreRun SpecMacro.
From stdpp Require Import list.
From Verif Require Import Base Data SpecCore SpecFail SpecEval SpecQuasi SpecSession SpecObject SpecMacro.
Local Open Scope string_scope.
Local Open Scope list_scope.
Local Open Scope Z_scope.

Section Templates.
  Variable P : template -> Prop.
  Hypothesis H1 : forall d, P (Fixed d).
  Hypothesis H2 : forall p, P (Hole p).
  Hypothesis H3 : forall ts, Forall P ts -> P (Form ts).
  Fixpoint template_ind2 (t : template) : P t :=
    match t with
    | Fixed d => H1 d
    | Hole p => H2 p
    | Form ts => H3 ts ((fix all (l : list template) : Forall P l := match l with [] => List.Forall_nil P | t :: r => @List.Forall_cons _ P t r (template_ind2 t) (all r) end) ts)
    end.
End Templates.
Lemma template_contributes ps ds s env t : proper_template ps t -> (forall p, In p ps -> yields s env (XSym p) (fun s' r => holds s' r (datum_for ps ds p))) ->
  forall v, holds s v (template_text t) -> contributes s env 1 v [filled_in ps ds t].
Proof.
  intros Pt Y. induction t as [d|p|ts IH] using template_ind2; intros v H; inversion Pt as [? U|? I|? F Hd]; subst; cbn [template_text filled_in] in *.
  - apply unmarked_contributes; assumption.
  - destruct (holds_list_inv _ _ _ H) as (vs & L & Fv). apply Forall2_cons_inv_r in Fv. destruct Fv as (a & vs1 & Ha & Fv & ->). apply holds_sym_inv in Ha. subst a.
    apply Forall2_cons_inv_r in Fv. destruct Fv as (e & vs2 & He & Fv & ->). apply Forall2_nil_inv_r in Fv. subst vs2.
    eapply ct_unquote; [exact L|apply ct_atom; [exact He|exact Logic.I]|apply Y, I].
  - destruct (holds_list_inv _ _ _ H) as (vs & L & Fv).
    replace (XList (map (filled_in ps ds) ts)) with (XList (List.concat (map (fun t => [filled_in ps ds t]) ts))) by (f_equal; clear; induction ts as [|t ts E]; [reflexivity|cbn; f_equal; exact E]).
    apply (ct_list s env 1 v vs); [exact L| |].
    + intros m r ->. destruct ts as [|t ts]; [inversion Fv|]. cbn [map] in Fv. inversion Fv as [|? ? ? ? Hm _]; subst. destruct t as [d|p|ts'].
      * cbn [template_text] in Hm. inversion Hm; subst; try (match goal with K : is_list _ (VSym _) _ |- _ => inversion K end). exact (Hd _ _ eq_refl).
      * cbn [template_text] in Hm. destruct (holds_list_inv _ _ _ Hm) as (? & K & _). inversion K.
      * cbn [template_text] in Hm. destruct (holds_list_inv _ _ _ Hm) as (us & K & _). inversion K.
    + clear -IH F Fv. revert vs Fv. induction ts as [|t ts E]; intros vs Fv; cbn [map] in *; inversion Fv as [|v ? vs' ? Hv Fv']; subst; [constructor|].
      apply (proj1 (List.Forall_cons_iff _ _ _)) in F, IH. destruct F as [F1 F2], IH as [I1 I2]. constructor; [apply I1; assumption|apply E; assumption].
Qed.
(** The operands are bound as they are. *)
Definition bound_as (s : state) (bs : list (string * loc)) (ns : list (string * val)) : Prop :=
  Forall2 (fun b n => fst b = fst n /\ exists be, s_binds s !! snd b = Some be /\ b_val be = snd n) bs ns.
Lemma bound_as_lookup s bs ns x : bound_as s bs ns -> match alookup x ns with Some w => exists b be, alookup x bs = Some b /\ s_binds s !! b = Some be /\ b_val be = w | None => alookup x bs = None end.
Proof.
  induction 1 as [|[y b] [z w] bs ns (E & be & A & B) _ IH]; [reflexivity|]. cbn [fst snd] in *. subst z. cbn [alookup]. destruct (str_eqb x y); [exists b, be; auto|exact IH].
Qed.
Lemma bound_as_kept but s s' bs ns : keeps but s s' -> bound_as s bs ns -> bound_as s' bs ns.
Proof. intros K H. unfold bound_as in *. eapply Forall2_impl; [exact H|]. intros b n (E & be & A & B). split; [exact E|]. exists be. split; [apply (k_binds _ _ _ K), A|exact B]. Qed.
Lemma pass_operands : forall ws s args ps xs le e ns0, length xs = length ws -> List.NoDup (map fst ns0 ++ xs) -> wf_state s ->
  is_list s args ws -> holds s ps (XList (map XSym xs)) -> s_envs s !! le = Some e -> bound_as s (e_binds e) ns0 ->
  exists s', keeps [le] s s' /\ wf_state s' /\
    (exists e', s_envs s' !! le = Some e' /\ e_parent e' = e_parent e /\ e_frame e' = e_frame e /\ bound_as s' (e_binds e') (ns0 ++ combine xs ws)) /\
    forall (k : state -> behaviour) o s2, k s' o s2 -> passes as_it_is le k ps args s o s2.
Proof.
  induction ws as [|w ws IH]; intros s args ps xs le e ns0 Len Nd W L Hp Hle B.
  - destruct xs; [|discriminate]. exists s. split; [apply keeps_refl|]. split; [exact W|].
    split; [exists e; rewrite app_nil_r; auto|]. intros k o s2 H. destruct (holds_list_inv _ _ _ Hp) as (us & Lp & _).
    apply pass_end; [apply list_end, L| |exact H]. inversion Lp; reflexivity.
  - destruct xs as [|x xs]; [discriminate|]. cbn [map] in Hp. destruct (list_head _ _ _ _ L) as (l & d & -> & E & N & L').
    destruct (holds_list_inv _ _ _ Hp) as (us & Lp & Fp). apply Forall2_cons_inv_r in Fp. destruct Fp as (px & us' & Hx & Fp & ->). apply holds_sym_inv in Hx. subst px.
    destruct (list_head _ _ _ _ Lp) as (lp & dp & -> & Ep & Np & Lp').
    assert (Nx : ~ In x (map fst ns0)). { intros I. apply NoDup_remove_2 in Nd. apply Nd, in_or_app. left. exact I. }
    assert (Lx : local_binding s le x = None).
    { unfold local_binding. rewrite (env_is _ _ _ Hle). assert (Q := bound_as_lookup _ _ _ x B). rewrite (alookup_not_in _ _ Nx) in Q. exact Q. }
    assert (Bh : bind_here le (VSym x) w s = Some (add_binding le (VSym x) w s)) by (unfold bind_here; cbn [name_of]; rewrite Lx; reflexivity).
    assert (W2 : wf_state (add_binding le (VSym x) w s)). { pose proof (bind_locally_run le (VSym x) w s) as R. rewrite Bh in R. exact (wf_runs _ _ _ _ _ W R). }
    assert (K2 := keeps_add le x w s W).
    assert (He2 : exists e2, s_envs (add_binding le (VSym x) w s) !! le = Some e2 /\ e_parent e2 = e_parent e /\ e_frame e2 = e_frame e /\ bound_as (add_binding le (VSym x) w s) (e_binds e2) (ns0 ++ [(x, w)])).
    { eexists. split; [unfold add_binding; cbn; unfold put; rewrite Hle; apply lookup_insert|]. rewrite (env_is _ _ _ Hle). cbn [e_parent e_frame e_binds name_of]. split; [reflexivity|]. split; [reflexivity|].
      rewrite aset_fresh by (unfold local_binding in Lx; rewrite (env_is _ _ _ Hle) in Lx; exact Lx). apply Forall2_app; [exact (bound_as_kept _ _ _ _ _ K2 B)|].
      constructor; [|constructor]. split; [reflexivity|]. eexists. split; [cbn; apply lookup_insert|reflexivity]. }
    set (s2 := add_binding le (VSym x) w s) in *. clearbody s2. destruct He2 as (e2 & He2 & Q1 & Q2 & B2).
    destruct (IH s2 d dp xs le e2 (ns0 ++ [(x, w)])) as (s3 & K3 & W3 & (e3 & He3 & Q3 & Q4 & B3) & C).
    + cbn in Len. congruence.
    + rewrite map_app. cbn [map fst]. rewrite <- app_assoc. exact Nd.
    + exact W2.
    + exact (is_list_kept _ _ _ _ (k_cells _ _ _ K2) L').
    + apply (holds_kept s s2 (k_cells _ _ _ K2) (k_strs _ _ _ K2) (k_bytes _ _ _ K2)). econstructor; [exact Lp'|exact Fp].
    + exact He2.
    + exact B2.
    + exists s3. split; [exact (keeps_trans _ _ _ _ K2 K3)|]. split; [exact W3|]. split; [exists e3; rewrite Q3, Q4; rewrite <- app_assoc in B3; auto|].
      intros k o s4 H. eapply pass_next; [exact (cell_end _ _ _ _ E N)|reflexivity|cbn [head_of]; rewrite (cell_some _ _ _ E); split; reflexivity| |].
      * cbn [head_of fst]. rewrite (cell_some _ _ _ Ep). exact Bh.
      * cbn [rest_of]. rewrite (cell_some _ _ _ (k_cells _ _ _ K2 _ _ E)), (cell_some _ _ _ (k_cells _ _ _ K2 _ _ Ep)). cbn [snd]. apply C, H.
Qed.
Lemma special_quasi : exists p, In p all_prims /\ Apply.p_name p = "quasiquote" /\ declared p [Exactly 1] /\ p_special p = true /\ p_restricted p = false.
Proof.
  destruct (table "quasiquote") as [p|] eqn:T; [|discriminate]. exists p. destruct (table_in _ _ T) as [I1 I2]. injection T as <-.
  repeat apply conj; try assumption; try reflexivity. repeat constructor; unfold sane, int64_max, two63; lia.
Qed.
Lemma alookup_in_combine {A B} ps (ds : list A) (ws : list B) (R : B -> A -> Prop) p : Forall2 R ws ds -> In p ps -> length ps = length ds ->
  exists w d, alookup p (combine ps ws) = Some w /\ alookup p (combine ps ds) = Some d /\ R w d.
Proof.
  intros F. revert ps. induction F as [|w d ws ds H _ IH]; intros [|q ps] I Len; try discriminate; [destruct I|]. cbn [combine alookup]. destruct (str_eqb p q) eqn:E; [exists w, d; auto|].
  destruct I as [->|I]; [rewrite str_eqb_refl in E; discriminate|]. apply IH; [exact I|cbn in Len; congruence].
Qed.
(** The macro found by its name. *)
Lemma macro_found G s env ns name ps t : ready G s -> sees s env ns -> alookup name ns = None -> has_macro s name ps t ->
  exists ml m, s_macros s !! (ml : loc) = Some m /\ m_env m = s_global s /\ m_varargs m = false /\ m_req m = Z.of_nat (length ps) /\ holds s (m_params m) (XList (map XSym ps)) /\
    holds s (m_body m) (XList [XSym "quasiquote"; template_text t]) /\ forall fl, finds fl env name s (Done (Ok (VMacro ml))) s.
Proof.
  intros R S A (b & be & ml & m & L & B & V & M & E1 & E2 & E3 & E4 & E5). exists ml, m. repeat (split; [assumption|]).
  assert (Vb : value_in s b = VMacro ml) by (rewrite (bind_is _ _ _ B); exact V). assert (S' := proj1 (proj2 (proj2 (to_X s))) _ _ S).
  destruct (seen_frame G _ s env ns R S') as (F & _ & _). assert (Vi : visible s name env (Some b)) by (apply (seen_global _ s env ns S' name _ A), visible_here, L).
  intros fl. unfold finds. destruct (local_binding s env name) as [b'|] eqn:Q.
  - inversion Vi as [? ? Q'| ? ? ? Q'|]; subst; rewrite Q in Q'; [injection Q' as ->|discriminate]. rewrite Vb. split; reflexivity.
  - rewrite F. exists (Some b). split; [exact Vi|]. rewrite Vb. split; reflexivity.
Qed.
Lemma use_call G s env ns name ps t c ds : wf_state s -> ready G s -> sees s env ns -> alookup name ns = None -> plain_name name -> has_macro s name ps t -> holds s c (use name ds) ->
  exists ml m args ws, s_macros s !! (ml : loc) = Some m /\ m_env m = s_global s /\ m_varargs m = false /\ m_req m = Z.of_nat (length ps) /\ holds s (m_params m) (XList (map XSym ps)) /\
    holds s (m_body m) (XList [XSym "quasiquote"; template_text t]) /\ is_list s args ws /\ Forall2 (holds s) ws ds /\
    forall o s', calls_macro ml args (length ws) env s o s' -> evals c env s o s'.
Proof.
  intros W R S A Pn Hm H. destruct (macro_found G s env ns name ps t R S A Hm) as (ml & m & M & E1 & E2 & E3 & E4 & E5 & Fi).
  destruct (holds_list_inv _ _ _ H) as (cs & L & F). apply Forall2_cons_inv_r in F.
  destruct F as (h & ws & Hh & F & ->). apply holds_sym_inv in Hh. subst h. destruct (list_head _ _ _ _ L) as (l & d & -> & E & N & Ld).
  exists ml, m, d, ws. repeat (split; [assumption|]). intros o s' C. destruct Pn as [Ph _]. apply call_expression.
  - cbn [at_end]. rewrite (cell_some _ _ _ E). discriminate.
  - cbn [head_of]. rewrite (cell_some _ _ _ E). exact Ph.
  - cbn [head_of]. rewrite (cell_some _ _ _ E). cbn [fst operator]. pose proof Ph as (_ & _ & -> & _). exists (Done (Ok (VMacro ml))), s. split; [apply Fi|].
    cbn [nilb rest_of]. rewrite (cell_some _ _ _ E). cbn [snd]. apply (macro_called ml d ws env s o s' Ld); [|exact C].
    unfold mac_at. rewrite M. change (symbolp (m_params m) = false). destruct (holds_list_inv _ _ _ E4) as (us & K & _). destruct (m_params m); try reflexivity; inversion K.
Qed.
Lemma macro_fills G s name ps t ml m args ws ds : wf_state s -> ready G s -> proper_macro name ps t -> offers s "quasiquote" -> length ds = length ps ->
  s_macros s !! (ml : loc) = Some m -> m_env m = s_global s -> m_varargs m = false -> m_req m = Z.of_nat (length ps) -> holds s (m_params m) (XList (map XSym ps)) ->
  holds s (m_body m) (XList [XSym "quasiquote"; template_text t]) -> is_list s args ws -> Forall2 (holds s) ws ds ->
  exists c' s1, keeps [] s s1 /\ wf_state s1 /\ holds s1 c' (filled_in ps ds t) /\ expands ml args (length ws) s (Done (Ok c')) s1 /\
    forall env o s', evals c' env s1 o s' -> calls_macro ml args (length ws) env s o s'.
Proof.
  intros W R (Pn & Pps & Nd & Nq & Pt) Of Len M E1 E2 E3 E4 E5 L F.
  assert (Lw := Forall2_length _ _ _ F). assert (Em : mac_at s ml = m) by (unfold mac_at; rewrite M; reflexivity).
  set (le := s_next s). set (s1 := open_env (m_name m) (m_env m) (e_frame (env_at s (m_env m))) s).
  assert (W1 : wf_state s1) by apply open_env_wf, W. assert (K1 : keeps [] s s1) by apply keeps_open, W.
  assert (He := open_env_at (m_name m) (m_env m) (e_frame (env_at s (m_env m))) s). fold le in He. fold s1 in He.
  assert (HK1 := holds_kept _ _ (k_cells _ _ _ K1) (k_strs _ _ _ K1) (k_bytes _ _ _ K1)).
  destruct (pass_operands ws s1 args (m_params m) ps le _ [] ltac:(congruence) Nd W1 (is_list_kept _ _ _ _ (k_cells _ _ _ K1) L) (HK1 _ _ E4) He ltac:(constructor)) as (s2 & K2 & W2 & (e & He2 & Ep & Ef & B) & Pa).
  cbn [e_parent e_frame app] in *. assert (K02 : keeps [] s s2) by exact (keeps_fresh le s s1 s2 (next_free s W) K1 K2).
  assert (HK2 := holds_kept _ _ (k_cells _ _ _ K02) (k_strs _ _ _ K02) (k_bytes _ _ _ K02)).
  destruct (seen_frame G [] s (s_global s) [] R ltac:(constructor)) as (Fg & _ & _). rewrite E1, Fg in Ef. rewrite E1 in Ep.
  pose proof R as [(ge & Hge & _) _]. assert (Hge2 := k_envs _ _ _ K02 _ _ ltac:(intros []) Hge).
  destruct special_quasi as (p & Ip & Eqp & D & Sp & Rp). destruct (holds_list_inv _ _ _ (HK2 _ _ E5)) as (cs & Lb & Fb). apply Forall2_cons_inv_r in Fb.
  destruct Fb as (h & cs' & Hh & Fb & ->). apply holds_sym_inv in Hh. subst h. destruct (list_head _ _ _ _ Lb) as (l & d & Eb & E & N & Ld).
  destruct (all_stored_ok cs' s2 W2) as (G3 & W3 & E3' & N3). assert (Fb3 : Forall2 (holds (snd (all_stored cs' s2))) (fst (all_stored cs' s2)) [template_text t]).
  { apply (ProofCore.elem_holds _ _ _ E3'). eapply Forall2_impl; [exact Fb|]. intros x y. assert (K := grows_keeps _ _ G3). apply (holds_kept _ _ (k_cells _ _ _ K) (k_strs _ _ _ K) (k_bytes _ _ _ K)). }
  assert (Lcs := Forall2_length _ _ _ Fb). destruct (all_stored cs' s2) as [xs s3] eqn:Es. cbn [fst snd] in *. apply Forall2_cons_inv_r in Fb3. destruct Fb3 as (tv & xs1 & Ht & Fb3 & ->).
  apply Forall2_nil_inv_r in Fb3. subst xs1. assert (K3 := grows_keeps _ _ G3). assert (He3 := k_envs _ _ _ K3 _ _ ltac:(intros []) He2).
  assert (Ct : contributes s3 le 1 tv [filled_in ps ds t]).
  { apply template_contributes; [exact Pt| |exact Ht]. intros q Iq. destruct (alookup_in_combine ps ds ws (holds s) q F Iq ltac:(congruence)) as (w & x & Qw & Qx & Hw).
    assert (Q := bound_as_lookup _ _ _ q (bound_as_kept _ _ _ _ _ K3 B)). rewrite Qw in Q. destruct Q as (b & be & Qb & Hb & Vb).
    assert (Vw : value_in s3 b = w) by (rewrite (bind_is _ _ _ Hb); exact Vb). unfold datum_for. rewrite Qx.
    apply (name_yields s3 q le b).
    - apply visible_here. unfold local_binding. rewrite (env_is _ _ _ He3). exact Qb.
    - rewrite (env_is _ _ _ He3). exact Ef.
    - rewrite List.Forall_forall in Pps. destruct (Pps _ Iq) as [(_ & _ & Q & _) _]. exact Q.
    - rewrite Hb. discriminate.
    - rewrite Vw. intros fl ->. inversion Hw; match goal with K : is_list _ (VFun _) _ |- _ => inversion K | _ => idtac end.
    - intros s' G'. rewrite Vw. assert (K' := keeps_trans _ _ _ _ (keeps_trans _ _ _ _ K02 K3) (grows_keeps _ _ G')). exact (holds_kept _ _ (k_cells _ _ _ K') (k_strs _ _ _ K') (k_bytes _ _ _ K') _ _ Hw). }
  destruct (quasi_fills tv _ le s3 W3 Ct) as (c' & s4 & Ap & G4 & H4). assert (Ev : evals (m_body m) le s2 (Done (Ok c')) s4).
  { rewrite Eb. eapply (call_found le s2 "quasiquote" p _ l d cs' s2); [repeat apply conj; reflexivity|exact Ip|exact Eqp|exact D|exact Rp| |exact E|exact Ld| |intros ? ? Q; exact Q|].
    - eexists; split; [left; reflexivity|rewrite Lcs; reflexivity].
    - unfold finds. assert (Lq : local_binding s2 le "quasiquote" = None).
      { unfold local_binding. rewrite (env_is _ _ _ He2). assert (Q := bound_as_lookup _ _ _ "quasiquote" B). rewrite (alookup_not_in "quasiquote" (combine ps ws)) in Q; [exact Q|].
        intros I. apply in_map_iff in I. destruct I as ([y w] & Ey & I). cbn in Ey. subst y. apply in_combine_l in I. exact (Nq I). }
      rewrite Lq. rewrite (env_is _ _ _ He2), Ef. destruct Of as (ob & obe & Of1 & Of2 & Of3). exists (Some ob). split.
      + eapply visible_above; [exact Lq|rewrite (env_is _ _ _ He2); exact Ep|]. apply visible_here. unfold local_binding in *. rewrite (env_is _ _ _ Hge2). rewrite (env_is _ _ _ Hge) in Of1. exact Of1.
      + rewrite (bind_is _ _ _ (k_binds _ _ _ K02 _ _ Of2)), Of3. split; reflexivity.
    - rewrite Sp. apply (collect_as_is _ cs'); [exact Ld|]. cbn [app]. unfold enters. rewrite Es. exact Ap. }
  exists c', s4. split; [exact (keeps_trans _ _ _ _ (keeps_trans _ _ _ _ K02 K3) (grows_keeps _ _ G4))|]. split; [exact (wf_evals _ _ _ _ _ W2 Ev)|]. split; [exact H4|].
  unfold expands, calls_macro. rewrite Em. fold le. fold s1. unfold enough. rewrite E2, E3. replace (Z.of_nat (length ws)) with (Z.of_nat (length ps)) by congruence. rewrite Z.eqb_refl.
  split; [apply Pa; exact Ev|]. intros env o s' Ev'. apply Pa. exists (Done (Ok c')), s4. split; [exact Ev|exact Ev'].
Qed.
Lemma macro_expands G s env ns name ps t c ds : wf_state s -> ready G s -> sees s env ns -> alookup name ns = None -> proper_macro name ps t -> has_macro s name ps t ->
  offers s "quasiquote" -> holds s c (use name ds) -> length ds = length ps ->
  exists c' s1, keeps [] s s1 /\ wf_state s1 /\ holds s1 c' (filled_in ps ds t) /\ forall o s', evals c' env s1 o s' -> evals c env s o s'.
Proof.
  intros W R S A Pm Hm Of H Len. destruct (use_call G s env ns name ps t c ds W R S A (proj1 Pm) Hm H) as (ml & m & args & ws & M & E1 & E2 & E3 & E4 & E5 & L & F & C).
  destruct (macro_fills G s name ps t ml m args ws ds W R Pm Of Len M E1 E2 E3 E4 E5 L F) as (c' & s1 & K & W1 & H1 & _ & X). exists c', s1. split; [exact K|]. split; [exact W1|]. split; [exact H1|].
  intros o s' Ev. apply C, X, Ev.
Qed.
Lemma use_value G s env ns name ps t c ds e v : wf_state s -> ready G s -> sees s env ns -> alookup name ns = None -> proper_macro name ps t -> has_macro s name ps t ->
  offers s "quasiquote" -> holds s c (use name ds) -> length ds = length ps -> filled_in ps ds t = written e -> proper e -> means G ns e v -> comes_to G (evals c env s) s v.
Proof.
  intros W R S A Pm Hm Of H Len E P M. destruct (macro_expands G s env ns name ps t c ds W R S A Pm Hm Of H Len) as (c' & s1 & K & W1 & H1 & C). rewrite E in H1.
  assert (S1 : sees s1 env ns). { apply (proj1 (proj2 (proj2 (from_X [] s1)))). apply (sees_moved _ _ _ _ (keeps_moves [] [] _ _ ltac:(intros ? []) K)). apply (proj1 (proj2 (proj2 (to_X s)))), S. }
  destruct (expression_value G ns e v c' env s1 M P W1 (ready_still _ _ _ K R) S1 H1) as ((w & s2 & Ev) & Q). split; [exists w, s2; apply C, Ev|].
  intros o s' Ev'. destruct (runs_det _ _ _ _ _ _ _ _ (C _ _ Ev) Ev') as [<- <-]. destruct (Q _ _ Ev) as (w' & Q1 & Q2 & Q3 & Q4). exists w'. split; [exact Q1|]. split; [exact Q2|]. split; [exact (keeps_trans _ _ _ _ K Q3)|exact Q4].
Qed.
Lemma use_fails G s env ns name ps t c ds e : wf_state s -> ready G s -> sees s env ns -> alookup name ns = None -> proper_macro name ps t -> has_macro s name ps t ->
  offers s "quasiquote" -> holds s c (use name ds) -> length ds = length ps -> filled_in ps ds t = written e -> proper e -> goes_wrong G ns e ->
  exists m s', evals c env s (Done (Err m)) s' /\ keeps [] s s'.
Proof.
  intros W R S A Pm Hm Of H Len E P M. destruct (macro_expands G s env ns name ps t c ds W R S A Pm Hm Of H Len) as (c' & s1 & K & W1 & H1 & C). rewrite E in H1.
  assert (S1 : sees s1 env ns). { apply (proj1 (proj2 (proj2 (from_X [] s1)))). apply (sees_moved _ _ _ _ (keeps_moves [] [] _ _ ltac:(intros ? []) K)). apply (proj1 (proj2 (proj2 (to_X s)))), S. }
  destruct (expression_unchanged G ns e c' env s1 M P W1 (ready_still _ _ _ K R) S1 H1) as ((m & s2 & Ev) & Q). exists m, s2. split; [apply C, Ev|].
  destruct (Q _ _ Ev) as (m' & Q1 & Q3 & Q4). exact (keeps_trans _ _ _ _ K Q3).
Qed.
Lemma use_miscounts G s env ns name ps t c ds : wf_state s -> ready G s -> sees s env ns -> alookup name ns = None -> plain_name name -> has_macro s name ps t -> holds s c (use name ds) -> length ds <> length ps ->
  exists m s', evals c env s (Done (Err m)) s' /\ keeps [] s s'.
Proof.
  intros W R S A Pn Hm H Len. destruct (use_call G s env ns name ps t c ds W R S A Pn Hm H) as (ml & m & args & ws & M & E1 & E2 & E3 & E4 & E5 & L & F & C).
  assert (Lw := Forall2_length _ _ _ F). eexists _, _. split; [apply C; unfold calls_macro, enough; replace (mac_at s ml) with m by (unfold mac_at; rewrite M; reflexivity); rewrite E2, E3|].
  - destruct (Z.eqb_spec (Z.of_nat (length ws)) (Z.of_nat (length ps))) as [Q|_]; [exfalso; apply Len; rewrite <- Lw; lia|]. split; reflexivity.
  - cbn. apply keeps_open, W.
Qed.

(** *** expand *)
Lemma offer_found G s env ns n : ready G s -> sees s env ns -> alookup n ns = None -> offers s n -> finds true env n s (Done (Ok (VPrim n))) s.
Proof.
  intros R S A (b & be & L & B & V). assert (Vb : value_in s b = VPrim n) by (rewrite (bind_is _ _ _ B); exact V). assert (S' := proj1 (proj2 (proj2 (to_X s))) _ _ S).
  destruct (seen_frame G _ s env ns R S') as (F & _ & _). assert (Vi : visible s n env (Some b)) by (apply (seen_global _ s env ns S' n _ A), visible_here, L).
  unfold finds. destruct (local_binding s env n) as [b'|] eqn:Q.
  - inversion Vi as [? ? Q'| ? ? ? Q'|]; subst; rewrite Q in Q'; [injection Q' as ->|discriminate]. rewrite Vb. split; reflexivity.
  - rewrite F. exists (Some b). split; [exact Vi|]. rewrite Vb. split; reflexivity.
Qed.
Lemma special_expand : exists p, In p all_prims /\ Apply.p_name p = "expand" /\ declared p [AtLeast 1] /\ p_special p = true /\ p_restricted p = false.
Proof.
  destruct (table "expand") as [p|] eqn:T; [|discriminate]. exists p. destruct (table_in _ _ T) as [I1 I2]. injection T as <-.
  repeat apply conj; try assumption; try reflexivity. repeat constructor; unfold sane, int64_max, two63; lia.
Qed.
Lemma sees_kept s s' env ns : keeps [] s s' -> sees s env ns -> sees s' env ns.
Proof. intros K S. apply (proj1 (proj2 (proj2 (from_X [] s')))). apply (sees_moved _ _ _ _ (keeps_moves [] [] _ _ ltac:(intros ? []) K)). apply (proj1 (proj2 (proj2 (to_X s)))), S. Qed.
Lemma has_macro_still G s s' name ps t : ready G s -> keeps [] s s' -> has_macro s name ps t -> has_macro s' name ps t.
Proof.
  intros R K (b & be & ml & m & A1 & A2 & A3 & A4 & A5 & A6 & A7 & A8 & A9). assert (H := holds_kept _ _ (k_cells _ _ _ K) (k_strs _ _ _ K) (k_bytes _ _ _ K)).
  exists b, be, ml, m. rewrite (kept_local G s s' R K). split; [exact A1|]. split; [apply (k_binds _ _ _ K), A2|]. split; [exact A3|]. split; [apply (k_macros _ _ _ K), A4|]. split; [rewrite (k_global _ _ _ K); exact A5|].
  split; [exact A6|]. split; [exact A7|]. split; [exact (H _ _ A8)|exact (H _ _ A9)].
Qed.
Lemma expand_shows G s env ns name ps t c ds : wf_state s -> ready G s -> sees s env ns -> alookup name ns = None -> alookup "expand" ns = None -> proper_macro name ps t -> has_macro s name ps t ->
  offers s "quasiquote" -> offers s "expand" -> holds s c (XList (XSym "expand" :: XSym name :: ds)) -> length ds = length ps ->
  (exists r s', evals c env s (Done (Ok r)) s') /\
  forall o s', evals c env s o s' -> exists r, o = Done (Ok r) /\ holds s' r (filled_in ps ds t) /\ keeps [] s s'.
Proof.
  intros W R S A Ax Pm Hm Oq Ox H Len. assert (X : exists r s', evals c env s (Done (Ok r)) s' /\ holds s' r (filled_in ps ds t) /\ keeps [] s s').
  2:{ destruct X as (r & s' & Ev & Hr & K). split; [eauto|]. intros o s2 Ev2. destruct (runs_det _ _ _ _ _ _ _ _ Ev Ev2) as [<- <-]. eauto. }
  destruct special_expand as (p & Ip & Ep & D & Sp & Rp). destruct (holds_list_inv _ _ _ H) as (cs & L & F). apply Forall2_cons_inv_r in F.
  destruct F as (h & cs' & Hh & F & ->). apply holds_sym_inv in Hh. subst h. destruct (list_head _ _ _ _ L) as (l & d & -> & E & N & Ld).
  destruct (all_stored_ok cs' s W) as (G1 & W1 & E1 & N1). assert (K1 := grows_keeps _ _ G1).
  assert (F1 : Forall2 (holds (snd (all_stored cs' s))) (fst (all_stored cs' s)) (XSym name :: ds)).
  { apply (ProofCore.elem_holds _ _ _ E1). eapply Forall2_impl; [exact F|]. intros x y. apply (holds_kept _ _ (k_cells _ _ _ K1) (k_strs _ _ _ K1) (k_bytes _ _ _ K1)). }
  assert (Ln := Forall2_length _ _ _ F). destruct (all_stored cs' s) as [xs s1] eqn:Es. cbn [fst snd] in *. apply Forall2_cons_inv_r in F1. destruct F1 as (nm & ops & Hn & F1 & ->). apply holds_sym_inv in Hn. subst nm.
  apply (proj1 (List.Forall_cons_iff _ _ _)) in N1. destruct N1 as [_ N1].
  set (s2 := entering "expand" env s1). assert (K2 : keeps [] s1 s2) by apply keeps_entering. assert (W2 : wf_state s2) by apply wf_entering, W1. assert (K02 := keeps_trans _ _ _ _ K1 K2).
  destruct (macro_found G s2 env ns name ps t (ready_still _ _ _ K02 R) (sees_kept _ _ _ _ K02 S) A (has_macro_still G _ _ _ _ _ R K02 Hm)) as (ml & m & M & B1 & B2 & B3 & B4 & B5 & Fi).
  assert (En : evals (VSym name) env s2 (Done (Ok (VMacro ml))) s2). { apply symbol_iff. destruct Pm as [[(_ & _ & Sf & _) _] _]. rewrite Sf. apply Fi. }
  assert (Sy : symbolp (m_params (mac_at s2 ml)) = false).
  { unfold mac_at. rewrite M. change (symbolp (m_params m) = false). destruct (holds_list_inv _ _ _ B4) as (us & K & _). destruct (m_params m); try reflexivity; inversion K. }
  assert (X := expand_iff_ok (VSym name) ops env s1 ml s2 En Sy W1 N1). assert (La := new_tail_is ops s2 W2 N1). destruct (new_tail_grows ops VNil s2 W2) as [G3 W3].
  destruct (new_tail ops VNil s2) as [args s3]. cbn [fst snd] in *. assert (K3 := grows_keeps _ _ G3). assert (K03 := keeps_trans _ _ _ _ K02 K3). assert (K13 := keeps_trans _ _ _ _ K2 K3).
  assert (HK := holds_kept _ _ (k_cells _ _ _ K3) (k_strs _ _ _ K3) (k_bytes _ _ _ K3)).
  destruct (macro_fills G s3 name ps t ml m args ops ds W3 (ready_still _ _ _ K03 R) Pm) as (r & s4 & K4 & W4 & H4 & Ex & _).
  - destruct Oq as (b & be & Q1 & Q2 & Q3). exists b, be. rewrite (kept_local G s s3 R K03). split; [exact Q1|]. split; [apply (k_binds _ _ _ K03), Q2|exact Q3].
  - exact Len.
  - apply (k_macros _ _ _ K3), M.
  - rewrite (k_global _ _ _ K3). exact B1.
  - exact B2.
  - exact B3.
  - apply HK, B4.
  - apply HK, B5.
  - exact La.
  - eapply Forall2_impl; [exact F1|]. intros x y. apply (holds_kept _ _ (k_cells _ _ _ K13) (k_strs _ _ _ K13) (k_bytes _ _ _ K13)).
  - exists r, s4. split; [|split; [exact H4|exact (keeps_trans _ _ _ _ K03 K4)]].
    eapply (call_found env s "expand" p _ l d cs' s); [repeat apply conj; reflexivity|exact Ip|exact Ep|exact D|exact Rp| |exact E|exact Ld| |intros ? ? Q; exact Q|].
    + eexists; split; [left; reflexivity|rewrite Ln; cbn; lia].
    + exact (offer_found G s env ns "expand" R S Ax Ox).
    + rewrite Sp. apply (collect_as_is _ cs'); [exact Ld|]. cbn [app]. unfold enters. rewrite Es. apply X. exact Ex.
Qed.
(** *** The definition of a macro *)
Lemma special_defmacro : exists p, In p all_prims /\ Apply.p_name p = "defmacro" /\ declared p [AtLeast 1] /\ p_special p = true /\ p_restricted p = false.
Proof.
  destruct (table "defmacro") as [p|] eqn:T; [|discriminate]. exists p. destruct (table_in _ _ T) as [I1 I2]. injection T as <-.
  repeat apply conj; try assumption; try reflexivity. repeat constructor; unfold sane, int64_max, two63; lia.
Qed.
Lemma has_macro_kept but s s' name ps t : keeps but s s' -> local_binding s' (s_global s') name = local_binding s (s_global s) name -> has_macro s name ps t -> has_macro s' name ps t.
Proof.
  intros K E (b & be & ml & m & A1 & A2 & A3 & A4 & A5 & A6 & A7 & A8 & A9). assert (H := holds_kept _ _ (k_cells _ _ _ K) (k_strs _ _ _ K) (k_bytes _ _ _ K)).
  exists b, be, ml, m. rewrite E. split; [exact A1|]. split; [apply (k_binds _ _ _ K), A2|]. split; [exact A3|]. split; [apply (k_macros _ _ _ K), A4|]. split; [rewrite (k_global _ _ _ K); exact A5|].
  split; [exact A6|]. split; [exact A7|]. split; [exact (H _ _ A8)|exact (H _ _ A9)].
Qed.
Lemma offers_kept but s s' n : keeps but s s' -> local_binding s' (s_global s') n = local_binding s (s_global s) n -> offers s n -> offers s' n.
Proof. intros K E (b & be & A1 & A2 & A3). exists b, be. rewrite E. split; [exact A1|]. split; [apply (k_binds _ _ _ K), A2|exact A3]. Qed.
(** A new global binding leaves the functional core as it was. *)
Lemma ready_add G s x v : wf_state s -> ready G s -> local_binding s (s_global s) x = None -> plain_name x ->
  ready G (add_binding (s_global s) (VSym x) v s) /\ (forall y, y <> x -> local_binding (add_binding (s_global s) (VSym x) v s) (s_global s) y = local_binding s (s_global s) y) /\
  local_binding (add_binding (s_global s) (VSym x) v s) (s_global s) x = Some (s_next s).
Proof.
  intros W R U (Px1 & Px2 & Px3). set (env := s_global s). set (s6 := add_binding env (VSym x) v s). pose proof R as [(ge & He & H1 & H2 & H3 & H4) Rg]. fold env in He.
  assert (K6 : keeps [env] s s6) by apply keeps_add, W. assert (Eg6 : s_global s6 = env) by exact (k_global _ _ _ K6).
  assert (He6 : s_envs s6 !! env = Some (Env (e_name ge) (e_parent ge) (e_frame ge) (aset x (s_next s) (e_binds ge)) (e_restricted ge))).
  { unfold s6, add_binding. cbn [name_of]. rewrite (env_is _ _ _ He). cbn. unfold put. rewrite He. apply lookup_insert. }
  assert (Lo : forall y, y <> x -> local_binding s6 env y = local_binding s env y).
  { intros y Ny. unfold local_binding. rewrite (env_is _ _ _ He6), (env_is _ _ _ He). cbn [e_binds]. apply alookup_aset_other. congruence. }
  split; [|split; [exact Lo|unfold local_binding; rewrite (env_is _ _ _ He6); cbn [e_binds]; apply alookup_aset_same]]. split.
  - eexists. rewrite Eg6. split; [exact He6|]. cbn [e_parent e_frame e_binds]. split; [exact H1|]. split; [exact H2|]. split; [rewrite alookup_aset_other by congruence; exact H3|].
    intros n I. destruct (H4 n I) as (bn & be & B1 & B2 & B3). exists bn, be. assert (n <> x) by (intros ->; exact (Px3 I)). rewrite alookup_aset_other by congruence.
    split; [exact B1|]. split; [apply K6, B2|exact B3].
  - intros y ys bd' Ey. destruct (Rg y ys bd' Ey) as (b' & be & l & g & A1 & B1 & C1 & D1 & F1 & I1). fold env in A1, F1. assert (Ny : y <> x) by (intros ->; fold env in U; congruence).
    destruct (k_funs _ _ _ K6 _ _ D1) as (g' & E1 & E2 & E3). exists b', be, l, g'. rewrite Eg6, (Lo y Ny). split; [exact A1|].
    split; [apply K6, B1|]. split; [exact C1|]. split; [exact E1|]. split; [rewrite E2; exact F1|].
    inversion I1 as [| | | | |l' g0 xs' body' ns c' d' Q1 Q2 Q3 Q4 Q5 Q6 Q7 Q8 Q9 Q10 Q11 Q12 |]; subst. rewrite D1 in Q1. injection Q1 as <-.
    assert (HK6 := holds_kept s s6 (k_cells _ _ _ K6) (k_strs _ _ _ K6) (k_bytes _ _ _ K6)).
    apply (sf_closure s6 l g' ys bd' [] (f_body (fn_code g)) d'); rewrite ?E2; auto; [congruence|exact (is_list_kept s s6 _ _ (k_cells _ _ _ K6) Q9)|].
    rewrite F1, <- Eg6. constructor.
Qed.
Lemma macro_step G s c name ps t : wf_state s -> ready G s -> plain_name name -> offers s "defmacro" -> local_binding s (s_global s) name = None -> holds s c (macro_definition name ps t) ->
  exists w s', evals c (s_global s) s (Done (Ok w)) s' /\ wf_state s' /\ ready G s' /\ keeps [s_global s] s s' /\ has_macro s' name ps t /\
    (forall y, y <> name -> local_binding s' (s_global s') y = local_binding s (s_global s) y).
Proof.
  intros W R Pn (ob & obe & Of1 & Of2 & Of3) U H. set (env := s_global s) in *. destruct special_defmacro as (p & Ip & Ep & D & Sp & Rp). destruct (holds_list_inv _ _ _ H) as (cs & L & F). apply Forall2_cons_inv_r in F.
  destruct F as (h & cs' & Hh & F & ->). apply holds_sym_inv in Hh. subst h. destruct (list_head _ _ _ _ L) as (l & d & -> & E & N & Ld).
  destruct (all_stored_ok cs' s W) as (G1 & W1 & E1 & N1). assert (K1 := grows_keeps _ _ G1).
  assert (F1 : Forall2 (holds (snd (all_stored cs' s))) (fst (all_stored cs' s)) [XList (map XSym (name :: ps)); XList [XSym "quasiquote"; template_text t]]).
  { apply (ProofCore.elem_holds _ _ _ E1). eapply Forall2_impl; [exact F|]. intros x y. apply (holds_kept _ _ (k_cells _ _ _ K1) (k_strs _ _ _ K1) (k_bytes _ _ _ K1)). }
  assert (Len := Forall2_length _ _ _ F).
  destruct (all_stored cs' s) as [xs s1] eqn:Es. cbn [fst snd] in *. apply Forall2_cons_inv_r in F1. destruct F1 as (hd & xs1 & Hhd & F1 & ->).
  apply Forall2_cons_inv_r in F1. destruct F1 as (body & xs2 & Hb & F1 & ->). apply Forall2_nil_inv_r in F1. subst xs2.
  destruct (holds_list_inv _ _ _ Hhd) as (hcs & Lh & Fh). cbn [map] in Fh. apply Forall2_cons_inv_r in Fh. destruct Fh as (hx & pcs & Hx & Fp & ->). apply holds_sym_inv in Hx. subst hx.
  destruct (list_head _ _ _ _ Lh) as (lh & pl & -> & Eh & Nh & Lp).
  assert (A := fun o s' => defmacro_iff (VCell TCons lh) name pl body [] env (length pcs) false s1 o s' eq_refl
    ltac:(cbn [head_of]; rewrite (cell_some _ _ _ Eh); reflexivity) ltac:(cbn [rest_of]; rewrite (cell_some _ _ _ Eh); reflexivity) (list_parameters _ _ _ Lp)).
  assert (Q2 := make_macro_run name pl (length pcs) false body env (entering "defmacro" env s1) (parameters_grows _ _ _ _ _ (grows_entering "defmacro" env s1) (list_parameters _ _ _ Lp))).
  unfold fresh_macro in A, Q2. set (s2 := entering "defmacro" env s1) in *. assert (W2 : wf_state s2) by apply wf_entering, W1. set (m := Mac name pl false (Z.of_nat (length pcs)) body env) in *.
  set (s3 := set_macros _ _) in *. assert (W3 : wf_state s3) by exact (wf_runs _ _ _ _ _ W2 Q2).
  assert (G3 : grows s2 s3).
  { unfold s3. constructor; try reflexivity; try (intros k y Hy; exact Hy).
    - cbn. lia.
    - intros k g Hg. cbn. rewrite lookup_insert_ne; [exact Hg|]. intros <-. assert (Q := wf_macros _ W2 _ _ Hg). unfold handed_out in Q. change (s_next s2) with (s_next s1) in Q. lia.
    - exists []. split; [reflexivity|constructor]. }
  assert (K13 : keeps [] s1 s3) by (apply grows_keeps; exact (grows_trans _ _ _ (grows_entering "defmacro" env s1) G3)). assert (K03 := keeps_trans _ _ _ _ K1 K13).
  assert (R3 := ready_still _ _ _ K03 R). assert (Eg : s_global s3 = env) by exact (k_global _ _ _ K03). assert (Lb := kept_local G s s3 R K03).
  assert (U3 : local_binding s3 (s_global s3) name = None) by (rewrite Lb; exact U).
  destruct (ready_add G s3 name (VMacro (s_next s2)) W3 R3 U3 Pn) as (R4 & Lo & Ln). rewrite Eg in R4, Lo, Ln, U3. assert (K4 := keeps_add env name (VMacro (s_next s2)) s3 W3).
  assert (Bh : bind_here env (VSym name) (VMacro (s_next s2)) s3 = Some (add_binding env (VSym name) (VMacro (s_next s2)) s3)) by (unfold bind_here; cbn [name_of]; rewrite U3; reflexivity).
  assert (B4 : s_binds (add_binding env (VSym name) (VMacro (s_next s2)) s3) !! s_next s3 = Some (Binding (VSym name) (VMacro (s_next s2)) false)) by (unfold add_binding; cbn; apply lookup_insert).
  set (s4 := add_binding env (VSym name) (VMacro (s_next s2)) s3) in *. assert (Ev : evals (VCell TCons l) env s (Done (Ok (VMacro (s_next s2)))) s4).
  { eapply (call_found env s "defmacro" p _ l d cs' s); [repeat apply conj; reflexivity|exact Ip|exact Ep|exact D|exact Rp| |exact E|exact Ld| |intros ? ? Q; exact Q|].
    - eexists; split; [left; reflexivity|rewrite Len; cbn; lia].
    - unfold finds. rewrite Of1, (bind_is _ _ _ Of2), Of3. split; reflexivity.
    - rewrite Sp. apply (collect_as_is _ cs'); [exact Ld|]. cbn [app]. unfold enters. rewrite Es. apply A. unfold then_bind. rewrite Bh. split; reflexivity. }
  assert (M3 : s_macros s3 !! s_next s2 = Some m) by (unfold s3; cbn; apply lookup_insert). clearbody s4 s3 s2.
  assert (Eg4 : s_global s4 = env) by (rewrite (k_global _ _ _ K4); exact Eg). assert (K14 : keeps [env] s1 s4) by exact (keeps_trans _ _ _ _ (keeps_more [] [env] _ _ ltac:(intros ? []) K13) K4).
  assert (HK := holds_kept _ _ (k_cells _ _ _ K14) (k_strs _ _ _ K14) (k_bytes _ _ _ K14)).
  exists (VMacro (s_next s2)), s4. split; [exact Ev|]. split; [exact (wf_evals _ _ _ _ _ W Ev)|]. split; [exact R4|]. split; [exact (keeps_trans _ _ _ _ (keeps_more [] [env] _ _ ltac:(intros ? []) K1) K14)|].
  split; [|intros y Ny; rewrite Eg4, (Lo y Ny); specialize (Lb y); rewrite Eg in Lb; exact Lb].
  exists (s_next s3), (Binding (VSym name) (VMacro (s_next s2)) false), (s_next s2), m. rewrite Eg4. split; [exact Ln|]. split; [exact B4|]. split; [reflexivity|]. split; [apply (k_macros _ _ _ K4), M3|].
  split; [reflexivity|]. split; [reflexivity|]. split; [cbn; rewrite (Forall2_length _ _ _ Fp), map_length; reflexivity|]. split; [apply HK; econstructor; [exact Lp|exact Fp]|apply HK, Hb].
Qed.

(** *** Sessions *)
Lemma has_macros_still G M s s' : ready G s -> keeps [] s s' -> has_macros M s -> has_macros M s'.
Proof. intros R K H name ps t I. destruct (H _ _ _ I) as [A B]. split; [exact A|exact (has_macro_still G _ _ _ _ _ R K B)]. Qed.
Lemma offers_still G s s' n : ready G s -> keeps [] s s' -> offers s n -> offers s' n.
Proof. intros R K. apply (offers_kept _ _ _ _ K), (kept_local G s s' R K). Qed.
Lemma unfolding G M s env ns c d d' : wf_state s -> ready G s -> sees s env ns -> (forall name, In name (map fst M) -> alookup name ns = None) -> has_macros M s ->
  offers s "quasiquote" -> holds s c d -> unfolds M d d' ->
  exists c' s1, keeps [] s s1 /\ wf_state s1 /\ holds s1 c' d' /\ forall o s', evals c' env s1 o s' -> evals c env s o s'.
Proof.
  intros W R S A Hm Oq H U. revert s c W R S Hm Oq H. induction U as [d|name ps t ds d I Len _ IH]; intros s c W R S Hm Oq H.
  - exists c, s. split; [apply keeps_refl|]. auto.
  - destruct (Hm _ _ _ I) as [Pm Hn].
    destruct (macro_expands G s env ns name ps t c ds W R S (A _ (in_map fst _ _ I)) Pm Hn Oq H Len) as (c1 & s1 & K1 & W1 & H1 & C1).
    destruct (IH s1 c1 W1 (ready_still _ _ _ K1 R) (sees_kept _ _ _ _ K1 S) (has_macros_still G M _ _ R K1 Hm) (offers_still G _ _ _ R K1 Oq) H1) as (c2 & s2 & K2 & W2 & H2 & C2).
    exists c2, s2. split; [exact (keeps_trans _ _ _ _ K1 K2)|]. split; [exact W2|]. split; [exact H2|]. auto.
Qed.
Lemma unfolded_value G M s env ns c d e v : wf_state s -> ready G s -> sees s env ns -> (forall name, In name (map fst M) -> alookup name ns = None) -> has_macros M s ->
  offers s "quasiquote" -> holds s c d -> unfolds M d (written e) -> proper e -> means G ns e v -> comes_to G (evals c env s) s v.
Proof.
  intros W R S A Hm Oq H U P Mn. destruct (unfolding G M s env ns c d _ W R S A Hm Oq H U) as (c' & s1 & K & W1 & H1 & C).
  destruct (expression_value G ns e v c' env s1 Mn P W1 (ready_still _ _ _ K R) (sees_kept _ _ _ _ K S) H1) as ((w & s2 & Ev) & Q). split; [exists w, s2; apply C, Ev|].
  intros o s' Ev'. destruct (runs_det _ _ _ _ _ _ _ _ (C _ _ Ev) Ev') as [<- <-]. destruct (Q _ _ Ev) as (w' & Q1 & Q2 & Q3 & Q4). exists w'. split; [exact Q1|]. split; [exact Q2|]. split; [exact (keeps_trans _ _ _ _ K Q3)|exact Q4].
Qed.
Lemma unfolded_fails G M s env ns c d e : wf_state s -> ready G s -> sees s env ns -> (forall name, In name (map fst M) -> alookup name ns = None) -> has_macros M s ->
  offers s "quasiquote" -> holds s c d -> unfolds M d (written e) -> proper e -> goes_wrong G ns e -> exists m s', evals c env s (Done (Err m)) s' /\ keeps [] s s'.
Proof.
  intros W R S A Hm Oq H U P Mn. destruct (unfolding G M s env ns c d _ W R S A Hm Oq H U) as (c' & s1 & K & W1 & H1 & C).
  destruct (expression_unchanged G ns e c' env s1 Mn P W1 (ready_still _ _ _ K R) (sees_kept _ _ _ _ K S) H1) as ((m & s2 & Ev) & Q). exists m, s2. split; [apply C, Ev|].
  destruct (Q _ _ Ev) as (m' & Q1 & Q3 & Q4). exact (keeps_trans _ _ _ _ K Q3).
Qed.
Lemma unfolded_miscounts G M s env ns c d name ps t ds : wf_state s -> ready G s -> sees s env ns -> (forall name, In name (map fst M) -> alookup name ns = None) -> has_macros M s ->
  offers s "quasiquote" -> holds s c d -> unfolds M d (use name ds) -> In (name, (ps, t)) M -> length ds <> length ps -> exists m s', evals c env s (Done (Err m)) s' /\ keeps [] s s'.
Proof.
  intros W R S A Hm Oq H U I Len. destruct (unfolding G M s env ns c d _ W R S A Hm Oq H U) as (c' & s1 & K & W1 & H1 & C).
  destruct (has_macros_still G M _ _ R K Hm _ _ _ I) as [Pm Hn].
  destruct (use_miscounts G s1 env ns name ps t c' ds W1 (ready_still _ _ _ K R) (sees_kept _ _ _ _ K S) (A _ (in_map fst _ _ I)) (proj1 Pm) Hn H1 Len) as (m & s2 & Ev & K2).
  exists m, s2. split; [apply C, Ev|exact (keeps_trans _ _ _ _ K K2)].
Qed.
Lemma abbreviated_new G M cs answers : abbreviated G M cs answers -> forall x, In x (commanded cs) -> ~ In x (map fst G) /\ ~ In x (map fst M).
Proof.
  induction 1 as [G M|G M name ps t cs answers Pm N1 N2 _ IH|G M x xs body cs answers _ _ _ _ N1 N2 _ IH|G M e v cs answers _ _ _ IH|G M e cs answers _ _ _ IH|G M name ds e v cs answers _ _ _ _ IH|G M name ds e cs answers _ _ _ _ IH|G M name ds name' ps t ds' cs answers _ _ _ _ IH];
    intros y I; cbn [commanded flat_map app] in I; try exact (IH y I).
  - destruct I.
  - destruct I as [<-|I]; [split; assumption|]. destruct (IH y I) as [A B]. split; [exact A|]. intros Q. apply B. right. exact Q.
  - destruct I as [<-|I]; [split; assumption|]. destruct (IH y I) as [A B]. split; [|exact B]. intros Q. apply A. rewrite map_app. apply in_or_app. left. exact Q.
Qed.
Lemma has_macros_kept M but s s' : keeps but s s' -> (forall y, In y (map fst M) -> local_binding s' (s_global s') y = local_binding s (s_global s) y) -> has_macros M s -> has_macros M s'.
Proof.
  intros K L H name ps t I. destruct (H _ _ _ I) as [A B]. split; [exact A|]. apply (has_macro_kept _ _ _ _ _ _ K); [|exact B]. apply L. apply in_map_iff. exists (name, (ps, t)). auto.
Qed.
Lemma macro_session u G M cs answers : abbreviated G M cs answers -> forall texts s, Forall2 (fun i t => program u [command_text i] t) cs texts -> wf_state s -> s_uni s = u -> ready G s ->
  has_macros M s -> offers s "quasiquote" -> offers s "defmacro" -> (forall x, In x (commanded cs) -> local_binding s (s_global s) x = None) -> as_expected texts answers s.
Proof.
  induction 1 as [G M|G M name ps t cs answers Pm N1 N2 E IH|G M x xs body cs answers Px Pxs Nd Pb N1 N2 E IH|G M e v cs answers P Mn _ IH|G M e cs answers P Mn _ IH|G M name ds e v cs answers Un P Mn _ IH|G M name ds e cs answers Un P Mn _ IH|G M name ds name' ps t ds' cs answers Un Im Len _ IH];
    intros texts s F W U R Hm Oq Od B; (destruct texts as [|src ts]; [inversion F; try exact Logic.I|]); inversion F as [|? ? ? ? Pt F']; subst; cbn [command_text] in Pt.
  - destruct (one_text _ _ src Pt ltac:(discriminate) s W eq_refl) as (c & s1 & K & W1 & H1 & T). assert (Lb := kept_local G s s1 R K). assert (Eg := k_global _ _ _ K).
    pose proof Pm as (Pn & _). destruct (macro_step G s1 c name ps t W1 (ready_still _ _ _ K R) Pn (offers_kept _ _ _ _ K (Lb _) Od)) as (w & s2 & Ev & W2 & R2 & K2 & Hm2 & Lo).
    + rewrite Lb. apply B. left. reflexivity.
    + exact H1.
    + rewrite Eg in Ev. specialize (T _ _ Ev (ex_intro _ _ eq_refl)). split; [eauto|]. intros o s' T'. destruct (runs_det _ _ _ _ _ _ _ _ T T') as [<- <-].
      split; [exists w; reflexivity|]. assert (K02 := keeps_trans _ _ _ _ (keeps_more [] [s_global s1] _ _ ltac:(intros ? []) K) K2).
      assert (Un : local_binding s (s_global s) name = None) by (apply B; left; reflexivity).
      assert (Lo2 : forall y, y <> name -> local_binding s2 (s_global s2) y = local_binding s (s_global s) y) by (intros y Ny; rewrite Lo by exact Ny; apply Lb).
      assert (No : forall n, offers s n -> offers s2 n). { intros n O. apply (offers_kept _ _ _ _ K02); [|exact O]. apply Lo2. intros ->. destruct O as (? & ? & O & _). congruence. }
      apply IH; [exact F'|exact W2|exact (k_uni _ _ _ K02)|exact R2| |apply No, Oq|apply No, Od|].
      * intros n qs q [[= <- <- <-]|I]; [split; assumption|]. revert n qs q I. apply (has_macros_kept M _ s s2 K02); [|exact Hm]. intros y Iy. apply Lo2. congruence.
      * intros y Hy. assert (y <> name). { intros ->. apply (proj2 (abbreviated_new _ _ _ _ E name Hy)). left. reflexivity. } rewrite Lo2 by assumption. apply B. right. exact Hy.
  - destruct (one_text _ _ src Pt ltac:(discriminate) s W eq_refl) as (c & s1 & K & W1 & H1 & T). assert (Lb := kept_local G s s1 R K). assert (Eg := k_global _ _ _ K).
    destruct (define_step_keeps G s1 c x xs body W1 (ready_still _ _ _ K R) Px Pxs Nd Pb) as (w & s2 & Ev & W2 & R2 & Eg2 & Eu & Lo & K2).
    + rewrite Lb. apply B. left. reflexivity.
    + apply alookup_not_in. exact N1.
    + exact H1.
    + rewrite Eg in Ev. specialize (T _ _ Ev (ex_intro _ _ eq_refl)). split; [eauto|]. intros o s' T'. destruct (runs_det _ _ _ _ _ _ _ _ T T') as [<- <-].
      split; [exists w; reflexivity|]. assert (K02 := keeps_trans _ _ _ _ (keeps_more [] [s_global s1] _ _ ltac:(intros ? []) K) K2).
      assert (Un : local_binding s (s_global s) x = None) by (apply B; left; reflexivity).
      assert (Lo2 : forall y, y <> x -> local_binding s2 (s_global s2) y = local_binding s (s_global s) y) by (intros y Ny; rewrite Lo by exact Ny; apply Lb).
      assert (No : forall n, offers s n -> offers s2 n). { intros n O. apply (offers_kept _ _ _ _ K02); [|exact O]. apply Lo2. intros ->. destruct O as (? & ? & O & _). congruence. }
      apply IH; [exact F'|exact W2|exact (k_uni _ _ _ K02)|exact R2| |apply No, Oq|apply No, Od|].
      * apply (has_macros_kept M _ s s2 K02); [|exact Hm]. intros y Iy. apply Lo2. congruence.
      * intros y Hy. assert (y <> x). { intros ->. apply (proj1 (abbreviated_new _ _ _ _ E x Hy)). rewrite map_app. apply in_or_app. right. left. reflexivity. } rewrite Lo2 by assumption. apply B. right. exact Hy.
  - destruct (one_text _ _ src Pt (written_not_empty e) s W eq_refl) as (c & s1 & K & W1 & H1 & T). assert (Eg := k_global _ _ _ K).
    assert (Sg : sees s1 (s_global s) []) by (rewrite <- Eg; constructor).
    destruct (expression_value G [] e v c (s_global s) s1 Mn P W1 (ready_still _ _ _ K R) Sg H1) as ((w & s2 & Ev) & Q). destruct (Q _ _ Ev) as (w' & [= <-] & Sw & K2 & R2).
    specialize (T _ _ Ev (ex_intro _ _ eq_refl)). split; [eauto|]. intros o s' T'. destruct (runs_det _ _ _ _ _ _ _ _ T T') as [<- <-]. assert (K02 := keeps_trans _ _ _ _ K K2). assert (Lb := kept_local G s s2 R K02).
    split; [exists w; split; [reflexivity|]; split; [exact Sw|exact K02]|]. apply IH; [exact F'|exact (text_wf _ _ _ _ _ W T)|exact (k_uni _ _ _ K02)|exact R2|exact (has_macros_kept M _ _ _ K02 (fun y _ => Lb y) Hm)|exact (offers_kept _ _ _ _ K02 (Lb _) Oq)|exact (offers_kept _ _ _ _ K02 (Lb _) Od)|].
    intros y Hy. rewrite Lb. apply B. exact Hy.
  - destruct (one_text _ _ src Pt (written_not_empty e) s W eq_refl) as (c & s1 & K & W1 & H1 & T). assert (Eg := k_global _ _ _ K).
    assert (Sg : sees s1 (s_global s) []) by (rewrite <- Eg; constructor).
    destruct (expression_unchanged G [] e c (s_global s) s1 Mn P W1 (ready_still _ _ _ K R) Sg H1) as ((m & s2 & Ev) & Q). destruct (Q _ _ Ev) as (m' & [= <-] & K2 & R2).
    specialize (T _ _ Ev (ex_intro _ _ eq_refl)). split; [eauto|]. intros o s' T'. destruct (runs_det _ _ _ _ _ _ _ _ T T') as [<- <-]. assert (K02 := keeps_trans _ _ _ _ K K2). assert (Lb := kept_local G s s2 R K02).
    split; [exists m; split; [reflexivity|exact K02]|]. apply IH; [exact F'|exact (text_wf _ _ _ _ _ W T)|exact (k_uni _ _ _ K02)|exact R2|exact (has_macros_kept M _ _ _ K02 (fun y _ => Lb y) Hm)|exact (offers_kept _ _ _ _ K02 (Lb _) Oq)|exact (offers_kept _ _ _ _ K02 (Lb _) Od)|].
    intros y Hy. rewrite Lb. apply B. exact Hy.
  - destruct (one_text _ _ src Pt ltac:(discriminate) s W eq_refl) as (c & s1 & K & W1 & H1 & T). assert (Eg := k_global _ _ _ K). assert (Lb1 := kept_local G s s1 R K).
    assert (Sg : sees s1 (s_global s) []) by (rewrite <- Eg; constructor). assert (Hm1 := has_macros_still G M _ _ R K Hm).
    destruct (unfolded_value G M s1 (s_global s) [] c _ e v W1 (ready_still _ _ _ K R) Sg (fun _ _ => eq_refl) Hm1 (offers_kept _ _ _ _ K (Lb1 _) Oq) H1 Un P Mn) as ((w & s2 & Ev) & Q). destruct (Q _ _ Ev) as (w' & [= <-] & Sw & K2 & R2).
    specialize (T _ _ Ev (ex_intro _ _ eq_refl)). split; [eauto|]. intros o s' T'. destruct (runs_det _ _ _ _ _ _ _ _ T T') as [<- <-]. assert (K02 := keeps_trans _ _ _ _ K K2). assert (Lb := kept_local G s s2 R K02).
    split; [exists w; split; [reflexivity|]; split; [exact Sw|exact K02]|]. apply IH; [exact F'|exact (text_wf _ _ _ _ _ W T)|exact (k_uni _ _ _ K02)|exact R2|exact (has_macros_kept M _ _ _ K02 (fun y _ => Lb y) Hm)|exact (offers_kept _ _ _ _ K02 (Lb _) Oq)|exact (offers_kept _ _ _ _ K02 (Lb _) Od)|].
    intros y Hy. rewrite Lb. apply B. exact Hy.
  - destruct (one_text _ _ src Pt ltac:(discriminate) s W eq_refl) as (c & s1 & K & W1 & H1 & T). assert (Eg := k_global _ _ _ K). assert (Lb1 := kept_local G s s1 R K).
    assert (Sg : sees s1 (s_global s) []) by (rewrite <- Eg; constructor). assert (Hm1 := has_macros_still G M _ _ R K Hm).
    destruct (unfolded_fails G M s1 (s_global s) [] c _ e W1 (ready_still _ _ _ K R) Sg (fun _ _ => eq_refl) Hm1 (offers_kept _ _ _ _ K (Lb1 _) Oq) H1 Un P Mn) as (m & s2 & Ev & K2).
    specialize (T _ _ Ev (ex_intro _ _ eq_refl)). split; [eauto|]. intros o s' T'. destruct (runs_det _ _ _ _ _ _ _ _ T T') as [<- <-]. assert (K02 := keeps_trans _ _ _ _ K K2). assert (Lb := kept_local G s s2 R K02).
    split; [exists m; split; [reflexivity|exact K02]|]. apply IH; [exact F'|exact (text_wf _ _ _ _ _ W T)|exact (k_uni _ _ _ K02)|exact (ready_still _ _ _ K02 R)|exact (has_macros_kept M _ _ _ K02 (fun y _ => Lb y) Hm)|exact (offers_kept _ _ _ _ K02 (Lb _) Oq)|exact (offers_kept _ _ _ _ K02 (Lb _) Od)|].
    intros y Hy. rewrite Lb. apply B. exact Hy.
  - destruct (one_text _ _ src Pt ltac:(discriminate) s W eq_refl) as (c & s1 & K & W1 & H1 & T). assert (Eg := k_global _ _ _ K). assert (Lb1 := kept_local G s s1 R K).
    assert (Sg : sees s1 (s_global s) []) by (rewrite <- Eg; constructor). assert (Hm1 := has_macros_still G M _ _ R K Hm).
    destruct (unfolded_miscounts G M s1 (s_global s) [] c _ name' ps t ds' W1 (ready_still _ _ _ K R) Sg (fun _ _ => eq_refl) Hm1 (offers_kept _ _ _ _ K (Lb1 _) Oq) H1 Un Im Len) as (m & s2 & Ev & K2).
    specialize (T _ _ Ev (ex_intro _ _ eq_refl)). split; [eauto|]. intros o s' T'. destruct (runs_det _ _ _ _ _ _ _ _ T T') as [<- <-]. assert (K02 := keeps_trans _ _ _ _ K K2). assert (Lb := kept_local G s s2 R K02).
    split; [exists m; split; [reflexivity|exact K02]|]. apply IH; [exact F'|exact (text_wf _ _ _ _ _ W T)|exact (k_uni _ _ _ K02)|exact (ready_still _ _ _ K02 R)|exact (has_macros_kept M _ _ _ K02 (fun y _ => Lb y) Hm)|exact (offers_kept _ _ _ _ K02 (Lb _) Oq)|exact (offers_kept _ _ _ _ K02 (Lb _) Od)|].
    intros y Hy. rewrite Lb. apply B. exact Hy.
Qed.
Lemma abbreviating u cs answers texts s : abbreviated [] [] cs answers -> Forall2 (fun i t => program u [command_text i] t) cs texts -> wf_state s -> s_uni s = u -> has_builtins s ->
  offers s "quasiquote" -> offers s "defmacro" -> (forall x, In x (commanded cs) -> local_binding s (s_global s) x = None) -> as_expected texts answers s.
Proof. intros E F W U B Oq Od N. apply (macro_session u [] [] cs answers E texts s F W U); [split; [exact B|discriminate]|intros ? ? ? []|exact Oq|exact Od|exact N]. Qed.

(** The text of a definition. *)
Lemma defining_macro u G name ps t src s : program u [macro_definition name ps t] src -> wf_state s -> s_uni s = u -> ready G s -> plain_name name -> offers s "defmacro" -> local_binding s (s_global s) name = None ->
  exists w s', run_text src (s_global s) s (Done (Ok w)) s' /\ wf_state s' /\ ready G s' /\ has_macro s' name ps t /\ keeps [s_global s] s s' /\
    (forall y, y <> name -> local_binding s' (s_global s') y = local_binding s (s_global s) y) /\
    forall o s2, run_text src (s_global s) s o s2 -> o = Done (Ok w) /\ s2 = s'.
Proof.
  intros Pt W U R Pn Od B. destruct (one_text _ _ src Pt ltac:(discriminate) s W U) as (c & s1 & K & W1 & H1 & T). assert (Lb := kept_local G s s1 R K). assert (Eg := k_global _ _ _ K).
  destruct (macro_step G s1 c name ps t W1 (ready_still _ _ _ K R) Pn (offers_kept _ _ _ _ K (Lb _) Od) ltac:(rewrite Lb; exact B) H1) as (w & s2 & Ev & W2 & R2 & K2 & Hm2 & Lo).
  rewrite Eg in Ev, K2. specialize (T _ _ Ev (ex_intro _ _ eq_refl)). exists w, s2. split; [exact T|]. split; [exact W2|]. split; [exact R2|]. split; [exact Hm2|].
  split; [exact (keeps_trans _ _ _ _ (keeps_more [] [s_global s] _ _ ltac:(intros ? []) K) K2)|]. split; [intros y Ny; rewrite (Lo y Ny); apply Lb|].
  intros o s3 T'. destruct (runs_det _ _ _ _ _ _ _ _ T T') as [<- <-]. auto.
Qed.
Lemma backwards_proper : proper_macro "backwards-if" ["c"; "no"; "yes"] backwards.
Proof.
  split; [plain|]. split; [proper|]. split; [proper|]. split; [cbn; intuition discriminate|]. apply pt_form.
  - repeat apply List.Forall_cons; try apply List.Forall_nil; try (apply pt_hole; cbn; tauto). apply pt_fixed. constructor. exact Logic.I.
  - intros m r [= <- _]. cbn. intuition discriminate.
Qed.
Lemma backwards_expected c a b cv v : proper c -> proper a -> proper b -> means [] [] c cv -> means [] [] (if counts_true cv then b else a) v ->
  abbreviated [] [] (backwards_if c a b) [Defined; Value v].
Proof.
  intros Pc Pa Pb Mc Mv. apply ab_macro; [exact backwards_proper|intros []|intros []|].
  apply (ab_use _ _ _ _ (If c b a)); [eapply un_use; [left; reflexivity|reflexivity|apply un_done]|apply p_if; assumption|eapply m_if; [exact Mc|exact Mv]|constructor].
Qed.
Lemma backwards_runs u c a b cv v texts s : proper c -> proper a -> proper b -> means [] [] c cv -> means [] [] (if counts_true cv then b else a) v ->
  Forall2 (fun i t => program u [command_text i] t) (backwards_if c a b) texts -> wf_state s -> s_uni s = u -> has_builtins s ->
  offers s "quasiquote" -> offers s "defmacro" -> local_binding s (s_global s) "backwards-if" = None -> as_expected texts [Defined; Value v] s.
Proof.
  intros Pc Pa Pb Mc Mv F W U B Oq Od N. apply (abbreviating u (backwards_if c a b)); try assumption; [exact (backwards_expected c a b cv v Pc Pa Pb Mc Mv)|].
  intros x [<-|[]]. exact N.
Qed.
Lemma macro_offers : offers start "quasiquote" /\ offers start "defmacro" /\ offers start "expand".
Proof. repeat split; apply offered; vm_compute; reflexivity. Qed.
Lemma macro_unbound : local_binding start (s_global start) "backwards-if" = None.
Proof. vm_compute. reflexivity. Qed.
Lemma backwards_texts u : let is := backwards_if (Truth true) (Builtin "car" [Num 1]) (Num 7) in
  Forall2 (fun i t => program u [command_text i] t) is (map (fun i => all_laid_out [command_text i]) is).
Proof.
  unfold backwards_if. cbn [map]. repeat (constructor; [apply all_laid_out_program; repeat apply Forall_cons_2; try apply Forall_nil_2;
    cbn [simple_tree command_text macro_definition use backwards template_text written map fst snd fold_right app];
    repeat apply conj; try exact Logic.I; try (apply symbol_sample; reflexivity); unfold int64; lia|]). constructor.
Qed.
Lemma backwards_sample : abbreviated [] [] (backwards_if (Truth true) (Builtin "car" [Num 1]) (Num 7)) [Defined; Value (Number 7)].
Proof. eapply backwards_expected; [proper|proper|proper|apply m_truth|apply m_num; unfold SpecMath.int64, SpecRead.int64; lia]. Qed.
Lemma sure_proper : proper_macro "sure-if" ["c"; "yes"] (Form [Fixed (XSym "backwards-if"); Hole "c"; Fixed (XList [XSym "car"; XInt 1]); Hole "yes"]).
Proof.
  split; [plain|]. split; [proper|]. split; [proper|]. split; [cbn; intuition discriminate|]. apply pt_form.
  - repeat apply List.Forall_cons; try apply List.Forall_nil; try (apply pt_hole; cbn; tauto); apply pt_fixed; [constructor; exact Logic.I|].
    apply um_list; [repeat apply List.Forall_cons; try apply List.Forall_nil; constructor; exact Logic.I|intros m r [= <- _]; cbn; intuition discriminate].
  - intros m r [= <- _]. cbn. intuition discriminate.
Qed.
Lemma sure_expected c b cv v : proper c -> proper b -> means [] [] c cv -> counts_true cv = true -> means [] [] b v -> abbreviated [] [] (sure_if c b) [Defined; Defined; Value v].
Proof.
  intros Pc Pb Mc T Mv. apply ab_macro; [exact backwards_proper|intros []|intros []|]. apply ab_macro; [exact sure_proper|intros []|cbn; intuition discriminate|].
  apply (ab_use _ _ _ _ (If c b (Builtin "car" [Num 1]))).
  - eapply un_use; [left; reflexivity|reflexivity|]. cbn [filled_in map]. eapply (un_use _ "backwards-if"); [right; left; reflexivity|reflexivity|apply un_done].
  - apply p_if; [assumption|assumption|proper].
  - eapply m_if; [exact Mc|rewrite T; exact Mv].
  - constructor.
Qed.
Lemma sure_sample : abbreviated [] [] (sure_if (Truth true) (Num 7)) [Defined; Defined; Value (Number 7)].
Proof. eapply sure_expected; [proper|proper|apply m_truth|reflexivity|apply m_num; unfold SpecMath.int64, SpecRead.int64; lia]. Qed.
