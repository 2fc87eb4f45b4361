(** Proofs of C71: functions with private state. *)
From Verif Require Export SpecState ProofCore ProofCoreRun.
From stdpp Require Import list.
From Verif Require Import Base Data SpecCore SpecEval SpecState.
Local Open Scope string_scope.
Local Open Scope list_scope.
Local Open Scope Z_scope.

Lemma special_set : special_here "set!" [Exactly 2].
Proof.
  destruct (table "set!") as [p|] eqn:T; [|discriminate]. exists p. destruct (table_in _ _ T) as [I1 I2]. injection T as <-.
  repeat apply conj; try assumption; try reflexivity. repeat constructor; unfold sane, int64_max, two63; lia.
Qed.

(** The account [x] with balance [z], kept in the binding [bd] of the environment [le]. *)
Record has_account (s : state) (x y p : string) (z : Z) (le bd : loc) : Prop := HasAccount {
  ha_global : exists gb be (l : loc) fs bc, local_binding s (s_global s) x = Some gb /\ s_binds s !! (gb : loc) = Some be /\ b_val be = VFun l /\
    s_funs s !! l = Some fs /\ fn_proc fs = None /\ f_varargs (fn_code fs) = false /\ f_req (fn_code fs) = 1 /\
    holds s (f_params (fn_code fs)) (XList [XSym p]) /\ is_list s (f_body (fn_code fs)) [bc] /\ holds s bc (paying_in y p) /\ f_env (fn_code fs) = le;
  ha_env : exists e, s_envs s !! le = Some e /\ le <> s_global s /\ e_parent e = Some (s_global s) /\ e_frame e = None /\ e_binds e = [(y, bd)];
  ha_balance : s_binds s !! bd = Some (Binding (VSym y) (VInt z) false) }.

Lemma account_kept s s' x y p z le bd : has_builtins s -> keeps [] s s' -> has_account s x y p z le bd -> has_account s' x y p z le bd.
Proof.
  intros (ge & Hg & _) K [(gb & be & l & fs & bc & A1 & A2 & A3 & A4 & A5 & A6 & A7 & A8 & A9 & A10 & A11) (e & B1 & B2 & B3 & B4 & B5) C].
  assert (HK := holds_kept s s' (k_cells _ _ _ K) (k_strs _ _ _ K) (k_bytes _ _ _ K)). assert (Hg' := k_envs _ _ _ K _ _ ltac:(intros []) Hg).
  constructor.
  - destruct (k_funs _ _ _ K _ _ A4) as (f' & E1 & E2 & E3). exists gb, be, l, f', bc. rewrite (k_global _ _ _ K).
    split; [unfold local_binding in *; rewrite (env_is _ _ _ Hg'); rewrite (env_is _ _ _ Hg) in A1; exact A1|]. split; [apply K, A2|]. split; [exact A3|]. split; [exact E1|].
    rewrite E2, E3. repeat apply conj; auto. exact (is_list_kept _ _ _ _ (k_cells _ _ _ K) A9).
  - exists e. rewrite (k_global _ _ _ K). split; [apply K; [intros []|exact B1]|auto].
  - apply K, C.
Qed.
Lemma assign_cells b v s : s_cells (assign b v s) = s_cells s. Proof. reflexivity. Qed.
Lemma assign_other (b b' : loc) v s : b <> b' -> s_binds (assign b v s) !! b' = s_binds s !! b'.
Proof. intros N. unfold assign. cbn. unfold put. destruct (s_binds s !! b); [|reflexivity]. apply lookup_insert_ne, N. Qed.
Lemma holds_same s s' v d : s_cells s' = s_cells s -> s_strs s' = s_strs s -> s_bytes s' = s_bytes s -> holds s v d -> holds s' v d.
Proof. intros E1 E2 E3. apply holds_kept; intros l x H; congruence. Qed.
Lemma account_assign s (b : loc) v x y p z le bd be : s_binds s !! b = Some be -> (forall l, b_val be <> VFun l) -> b <> bd ->
  has_account s x y p z le bd -> has_account (assign b v s) x y p z le bd.
Proof.
  intros Hb Nf N [(gb & be' & l & fs & bc & A1 & A2 & A3 & A4 & A5 & A6 & A7 & A8 & A9 & A10 & A11) B C]. constructor.
  - exists gb, be', l, fs, bc. split; [exact A1|]. split; [rewrite assign_other; [exact A2|]; intros ->; rewrite Hb in A2; injection A2 as <-; exact (Nf _ A3)|].
    repeat apply conj; auto; try (apply (holds_same s); auto; fail). exact (is_list_kept s (assign b v s) _ _ ltac:(intros ? ? H; exact H) A9).
  - exact B.
  - rewrite assign_other by exact N. exact C.
Qed.
Lemma account_paid s x y p z z' le bd : has_account s x y p z le bd -> has_account (assign bd (VInt z') s) x y p z' le bd.
Proof.
  intros [(gb & be' & l & fs & bc & A1 & A2 & A3 & A4 & A5 & A6 & A7 & A8 & A9 & A10 & A11) B C]. constructor.
  - exists gb, be', l, fs, bc. split; [exact A1|]. split; [rewrite assign_other; [exact A2|]; intros ->; rewrite C in A2; injection A2 as <-; discriminate|].
    repeat apply conj; auto; try (apply (holds_same s); auto; fail). exact (is_list_kept s (assign bd (VInt z') s) _ _ ltac:(intros ? ? H; exact H) A9).
  - exact B.
  - rewrite (assign_at _ _ _ _ C). reflexivity.
Qed.
Lemma ready_assign G s (b : loc) v be z : s_binds s !! b = Some be -> b_val be = VInt z -> ready G s -> ready G (assign b v s).
Proof.
  intros Hb Hz [(e & He & H1 & H2 & H3 & H4) R]. split.
  - exists e. split; [exact He|]. split; [exact H1|]. split; [exact H2|]. split; [exact H3|].
    intros n I. destruct (H4 n I) as (b' & be' & A & B & C). exists b', be'. split; [exact A|]. split; [|exact C].
    rewrite assign_other; [exact B|]. intros ->. rewrite Hb in B. injection B as <-. congruence.
  - intros x xs body E. destruct (R x xs body E) as (b' & be' & l & f & A & B & C & D & F & I). exists b', be', l, f.
    split; [exact A|]. split; [rewrite assign_other; [exact B|]; intros ->; rewrite Hb in B; injection B as <-; congruence|].
    split; [exact C|]. split; [exact D|]. split; [exact F|].
    inversion I as [| | | | |l' g xs' body' ns c d F1 F2 F3 F4 F5 F6 F7 F8 F9 F10 F11 F12 |]; subst. rewrite D in F1. injection F1 as <-.
    apply (sf_closure _ l f xs body [] (f_body (fn_code f)) d); auto; try (apply (holds_same s); auto; fail).
    + exact (is_list_kept s (assign b v s) _ _ ltac:(intros ? ? H; exact H) F9).
    + rewrite F. apply (sees_global (assign b v s)).
Qed.
(** *** Paying in *)
Lemma body_cells le s c b w s' f : is_list s b [c] -> f_body f = b -> evals c le s (Done (Ok w)) s' -> kept (s_cells s) (s_cells s') -> runs_body f le s (Done (Ok w)) s'.
Proof.
  intros L Eb Ev K. exists (Done (Ok w)). split; [|reflexivity]. rewrite Eb. destruct (list_head _ _ _ _ L) as (l & d & -> & E & N & Ld).
  eapply cells_next; [exact (cell_end _ _ _ _ E N)|cbn [head_of]; rewrite (cell_some _ _ _ E); exact Ev|].
  cbn [rest_of]. rewrite (cell_some _ _ _ (K _ _ E)). cbn [snd]. apply cells_end. apply list_end. exact (is_list_kept _ _ _ _ K Ld).
Qed.
(** The body of the function, evaluated in the environment [ce] of a call. *)
Lemma paying_body G s ce c x y p z d r le bd : wf_state s -> ready G s -> has_account s x y p z le bd -> plain_name y -> plain_name p -> y <> p ->
  (exists e, s_envs s !! ce = Some e /\ ce <> s_global s /\ e_parent e = Some le /\ e_frame e = None /\ boundX [] s (e_binds e) [(p, Number d)]) ->
  mod64 r (z + d) -> holds s c (paying_in y p) ->
  exists s1 s', evals c ce s (Done (Ok (VInt r))) s' /\ keeps [] s s1 /\ keeps [] (assign bd (VInt r) s1) s'.
Proof.
  intros W R Ac Py Pp Nyp (e & He & Ng & Ep & Ef & B) Hr Hc.
  assert (Sees : forall s', has_account s' x y p z le bd -> ready G s' -> keeps [] s s' -> seesX [] s' ce [(p, Number d); (y, Number z)]).
  { intros s' [_ (e' & E1 & E2 & E3 & E4 & E5) Cb] _ K. change [(p, Number d); (y, Number z)] with ([(p, Number d)] ++ [(y, Number z)] ++ []).
    assert (M := keeps_moves [] [] s s' ltac:(intros ? []) K).
    eapply seesX_local; [intros []|apply K; [intros []|exact He]|rewrite (k_global _ _ _ K); exact Ng|exact Ep|exact Ef|exact (bound_moved _ _ _ _ M _ _ B)|].
    eapply seesX_local; [intros []|exact E1|exact E2|exact E3|exact E4| |constructor].
    rewrite E5. econstructor; [exact Py|exact Cb|reflexivity|constructor|constructor]. }
  assert (S0 := Sees s Ac R (keeps_refl _ _)). unfold paying_in in Hc.
  destruct (form_call G [] s ce _ "begin" [AnyCount] c _ (special_any "begin" ltac:(cbn; tauto)) ltac:(cbn; tauto) W R S0 Hc ltac:(eexists; split; [left; reflexivity|exact Logic.I])) as (us & s1 & W1 & K1 & Fu & N & C).
  apply Forall2_cons_inv_r in Fu. destruct Fu as (a & us1 & Ha & Fu & ->). apply Forall2_cons_inv_r in Fu. destruct Fu as (b & us2 & Hb & Fu & ->). apply Forall2_nil_inv_r in Fu. subst us2.
  apply holds_sym_inv in Hb. subst b.
  assert (K2 := keeps_trans _ _ _ _ K1 (keeps_entering "begin" ce s1)). assert (W2 := wf_entering "begin" ce s1 W1). set (s2 := entering "begin" ce s1) in *.
  assert (R2 := ready_still _ _ _ K2 R). assert (Ac2 := account_kept _ _ _ _ _ _ _ _ (proj1 R) K2 Ac).
  assert (Ha2 : holds s2 a (XList [XSym "set!"; XSym y; XList [XSym "+"; XSym y; XSym p]])) by (apply (holds_same s1); auto).
  destruct (form_call G [] s2 ce _ "set!" [Exactly 2] a _ special_set ltac:(cbn; tauto) W2 R2 (Sees s2 Ac2 R2 K2) Ha2 ltac:(eexists; split; [left; reflexivity|reflexivity])) as (us & s3 & W3 & K3 & Fu & N3 & C3).
  apply Forall2_cons_inv_r in Fu. destruct Fu as (yy & us1 & Hy & Fu & ->). apply holds_sym_inv in Hy. subst yy. apply Forall2_cons_inv_r in Fu. destruct Fu as (pl & us2 & Hpl & Fu & ->). apply Forall2_nil_inv_r in Fu. subst us2.
  assert (K4 := keeps_trans _ _ _ _ (keeps_trans _ _ _ _ K2 K3) (keeps_entering "set!" ce s3)). assert (W4 := wf_entering "set!" ce s3 W3). set (s4 := entering "set!" ce s3) in *.
  assert (R4 := ready_still _ _ _ K4 R). assert (Ac4 := account_kept _ _ _ _ _ _ _ _ (proj1 R) K4 Ac).
  assert (Hpl4 : holds s4 pl (written (Builtin "+" [Name y; Name p]))) by (apply (holds_same s3); auto).
  assert (M : means G [(p, Number d); (y, Number z)] (Builtin "+" [Name y; Name p]) (Number r)).
  { eapply m_builtin; [|apply c_plus; exact Hr]. constructor; [apply m_local; cbn [alookup]; rewrite (proj2 (str_eqb_neq y p) Nyp), str_eqb_refl; reflexivity|].
    constructor; [apply m_local; cbn [alookup]; rewrite str_eqb_refl; reflexivity|constructor]. }
  assert (Pr : proper (Builtin "+" [Name y; Name p])).
  { apply p_builtin; [cbn; tauto|]. intros q [<-|[<-|[]]]; apply p_name; assumption. }
  destruct (proj1 (all_good G) _ _ _ M Pr [] s4 ce pl W4 R4 ltac:(intros ? []) (Sees s4 Ac4 R4 K4) Hpl4) as (w & s5 & Ev & K45 & Sw).
  inversion Sw; subst. assert (K5 := keeps_trans _ _ _ _ K4 K45). assert (W5 := wf_evals _ _ _ _ _ W4 Ev).
  assert (R5 := ready_still _ _ _ K5 R). assert (Ac5 := account_kept _ _ _ _ _ _ _ _ (proj1 R) K5 Ac).
  assert (He5 := k_envs _ _ _ K5 _ _ ltac:(intros []) He).
  inversion B as [|p' pb pe w' v' bs ns _ Hpb Hw Sp Bn]; subst. inversion Bn; subst. inversion Sp; subst.
  match goal with Q : _ = e_binds e |- _ => rename Q into Eb end.
  assert (Ly : local_binding s5 ce y = None) by (unfold local_binding; rewrite (env_is _ _ _ He5), <- Eb; cbn [alookup]; rewrite (proj2 (str_eqb_neq y p) Nyp); reflexivity).
  pose proof Ac5 as [_ (e' & E1 & E2 & E3 & E4 & E5) Cb].
  assert (Vi : forall s', s_envs s' = s_envs s5 -> visible s' y ce (Some bd)).
  { intros s' Es. apply (visible_same s5); [exact Es|]. eapply visible_above; [exact Ly|rewrite (env_is _ _ _ He5); exact Ep|].
    apply visible_here. unfold local_binding. rewrite (env_is _ _ _ E1), E5. cbn [alookup]. rewrite str_eqb_refl. reflexivity. }
  set (s6 := assign bd (VInt r) s5) in *.
  assert (Es : evals a ce s2 (Done (Ok (VInt r))) s6).
  { apply C3, set_iff. exists (Done (Ok (VInt r))), s5. split; [exact Ev|]. unfold sets. rewrite Ly, (env_is _ _ _ He5), Ef.
    exists (Some bd). split; [apply Vi; reflexivity|]. unfold writes_to. rewrite (bind_at_is _ _ _ Cb). split; reflexivity. }
  assert (R6 : ready G s6) by (eapply ready_assign; [exact Cb|reflexivity|exact R5]).
  assert (Ac6 : has_account s6 x y p r le bd) by exact (account_paid _ _ _ _ _ r _ _ Ac5).
  assert (S6 : exists d', seesX [] s6 ce [(p, Number d'); (y, Number r)]).
  { assert (Hpb6 : exists d' be', s_binds s6 !! pb = Some be' /\ b_val be' = VInt d').
    { destruct (Pos.eq_dec bd pb) as [<-|Nb]; [exists r; eexists; split; [exact (assign_at _ _ _ _ Cb)|reflexivity]|].
      eexists d, pe. split; [unfold s6; rewrite assign_other by exact Nb; apply K5, Hpb|]. symmetry. assumption. }
    destruct Hpb6 as (d' & be' & Hb6 & Hv6). exists d'. change [(p, Number d'); (y, Number r)] with ([(p, Number d')] ++ [(y, Number r)] ++ []).
    destruct Ac6 as [_ (e6 & F1 & F2 & F3 & F4 & F5) Cb6].
    eapply seesX_local; [intros []|exact He5|change (s_global s6) with (s_global s5); rewrite (k_global _ _ _ K5); exact Ng|exact Ep|exact Ef| |].
    - rewrite <- Eb. econstructor; [exact Pp|exact Hb6|exact Hv6|constructor|constructor].
    - eapply seesX_local; [intros []|exact F1|exact F2|exact F3|exact F4| |constructor].
      rewrite F5. econstructor; [exact Py|exact Cb6|reflexivity|constructor|constructor]. }
  destruct S6 as (d' & S6).
  destruct (name_found G [] s6 ce _ y bd false R6 S6 (Vi s6 eq_refl)) as (s7 & Fi & K7).
  exists s5, s7. split; [|split; [exact K5|exact K7]]. apply C, begin_iff. cbn [eval_each]. exists (Done (Ok (VInt r))), s6. split; [exact Es|].
  exists (Done (Ok (VInt r))), s7. split; [|split; reflexivity]. unfold evals. apply symbol_iff. destruct Py as ((_ & _ & -> & _) & _).
  rewrite (bind_is _ _ _ (ha_balance _ _ _ _ _ _ _ Ac6)) in Fi. exact Fi.
Qed.
(** A state after paying in: the account has its new balance, every other account is as it was. *)
Definition paid (G : globals) (s s' : state) (x y p : string) (r : Z) (le bd : loc) : Prop :=
  wf_state s' /\ ready G s' /\ s_global s' = s_global s /\ has_account s' x y p r le bd /\
  forall x' y' p' z' le' bd', bd' <> bd -> has_account s x' y' p' z' le' bd' -> has_account s' x' y' p' z' le' bd'.
Lemma deposit G s c x y p z e d r le bd : wf_state s -> ready G s -> has_account s x y p z le bd -> plain_name x -> plain_name y -> plain_name p -> y <> p ->
  proper e -> means G [] e (Number d) -> mod64 r (z + d) -> holds s c (XList [XSym x; written e]) ->
  exists s', evals c (s_global s) s (Done (Ok (VInt r))) s' /\ paid G s s' x y p r le bd.
Proof.
  intros W R Ac Px Py Pp Nyp Pe Me Hr Hc. set (env := s_global s).
  destruct (holds_list_inv _ _ _ Hc) as (cs & L & Fc). apply Forall2_cons_inv_r in Fc. destruct Fc as (h & cs' & Hh & Fc & ->). apply holds_sym_inv in Hh. subst h.
  destruct (list_head _ _ _ _ L) as (l & dd & -> & E & N & Ld). assert (S : seesX [] s env []) by constructor.
  pose proof Ac as [(gb & be & fl & fs0 & bc & A1 & A2 & A3 & _) _ _].
  destruct (name_found G [] s env [] x gb true R S (visible_here _ _ _ _ A1)) as (s1 & Fi & K). rewrite (bind_is _ _ _ A2), A3 in Fi.
  assert (Op : operator (VSym x) env s (Done (Ok (VFun fl))) s1). { cbn [operator]. destruct Px as ((_ & _ & -> & _) & _). exact Fi. }
  assert (R1 := ready_still _ _ _ K R). assert (Ac1 := account_kept _ _ _ _ _ _ _ _ (proj1 R) K Ac).
  assert (W1 : wf_state s1) by (apply operator_iff in Op; exact (wf_runs _ _ _ _ _ W Op)).
  assert (Eg1 : s_global s1 = env) by exact (k_global _ _ _ K).
  assert (S1 : seesX [] s1 env []) by (rewrite <- Eg1; constructor).
  pose proof R as [(ge & Hg & _) _]. pose proof R1 as [(ge1 & Hg1 & _) _].
  pose proof Ac1 as [(gb1 & be1 & fl1 & fs & bc1 & B1 & B2 & B3 & Hfs & Hp & Hv & Hq & Hps & Lb & Hbc & Hle) (e1 & Hle1 & Nle1 & Ep1 & Ef1 & Eb1) Cb1].
  assert (Sameg : local_binding s1 (s_global s1) x = local_binding s env x).
  { unfold local_binding. rewrite Eg1. assert (Q := k_envs _ _ _ K _ _ ltac:(intros []) Hg). unfold env. rewrite (env_is _ _ _ Q), (env_is _ _ _ Hg). reflexivity. }
  rewrite Sameg in B1. unfold env in B1. rewrite A1 in B1. injection B1 as <-. assert (Q := k_binds _ _ _ K _ _ A2). rewrite Q in B2. injection B2 as <-. rewrite A3 in B3. injection B3 as <-. clear Q.
  set (fn := fn_code fs) in *. set (ce := s_next s1). set (s2 := open_env (f_name fn) le (e_frame (env_at s1 le)) s1).
  assert (W2 : wf_state s2) by apply open_env_wf, W1. assert (K2 : keeps [] s1 s2) by apply keeps_open, W1.
  assert (Ng : ce <> s_global s1). { assert (Q := ready_global G s1 W1 R1). unfold ce. lia. }
  assert (Ng2 : ce <> s_global s2) by (rewrite (k_global _ _ _ K2); exact Ng).
  assert (He := open_env_at (f_name fn) le (e_frame (env_at s1 le)) s1). fold ce in He. fold s2 in He.
  assert (Fm := fresh_moves [] s1 W1). fold ce in Fm. assert (M2 := keeps_moves [ce] [] s1 s2 ltac:(intros ? []) K2).
  assert (S2 : seesX [ce] s2 env []) by exact (sees_moved _ _ _ _ M2 _ _ (sees_moved _ _ _ _ Fm _ _ S1)).
  assert (HK2 := fun d v => holds_kept _ _ (k_cells _ _ _ K2) (k_strs _ _ _ K2) (k_bytes _ _ _ K2) d v).
  assert (HK1 := fun d v => holds_kept _ _ (k_cells _ _ _ K) (k_strs _ _ _ K) (k_bytes _ _ _ K) d v).
  assert (Ld1 := is_list_kept _ _ _ _ (k_cells _ _ _ K) Ld).
  assert (HL : forall l, In l [ce] -> handed_out s2 l).
  { intros q [<-|[]]. unfold handed_out, s2. rewrite open_next. assert (Q := ready_global G s1 W1 R1). unfold ce. lia. }
  assert (Pps : List.Forall plain_name [p]) by (apply Forall_cons_2; [exact Pp|apply Forall_nil_2]).
  assert (Ndp : List.NoDup (map fst (@nil (string * value)) ++ [p])) by (apply List.NoDup_cons; [intros []|apply List.NoDup_nil]).
  destruct (pass_all G [] [e] [Number d] ltac:(constructor; [exact (proj1 (all_good G) _ _ _ Me)|constructor]) ltac:(intros q [<-|[]]; exact Pe) [] s2 env dd cs' (f_params fn) [p] ce
    (Env (f_name fn) (Some le) (e_frame (env_at s1 le)) [] (e_restricted (env_at s1 le))) [] eq_refl Pps Ndp W2 (ready_still _ _ _ K2 R1) HL Ng2 S2
    (is_list_kept _ _ _ _ (k_cells _ _ _ K2) Ld1)) as (s3 & K3 & W3 & (e3 & He3 & Q1 & Q2 & B3) & C).
  { eapply Forall2_impl; [exact Fc|]. intros u v Huv. apply HK2, HK1, Huv. }
  { apply HK2, Hps. }
  { exact He. }
  { constructor. }
  cbn [e_parent e_frame app combine] in Q1, Q2, B3. rewrite (env_is _ _ _ Hle1), Ef1 in Q2.
  assert (K03 : keeps [] s1 s3) by (apply (keeps_fresh ce s1 s2 s3); [exact (next_free s1 W1)|exact K2|exact K3]).
  assert (R3 := ready_still _ _ _ K03 R1). assert (Ac3 := account_kept _ _ _ _ _ _ _ _ (proj1 R1) K03 Ac1).
  assert (B3' : boundX [] s3 (e_binds e3) [(p, Number d)]) by exact (bound_moved _ _ _ _ (fewer_moves [ce] [] s3 ltac:(intros ? [])) _ _ B3).
  destruct (paying_body G s3 ce bc1 x y p z d r le bd W3 R3 Ac3 Py Pp Nyp) as (s4 & s5 & Ev & K4 & K5); [|exact Hr| |].
  { exists e3. split; [exact He3|]. split; [rewrite (k_global _ _ _ K03); exact Ng|]. split; [exact Q1|]. split; [exact Q2|exact B3']. }
  { apply (holds_kept _ _ (k_cells _ _ _ K03) (k_strs _ _ _ K03) (k_bytes _ _ _ K03)). exact Hbc. }
  assert (K04 := keeps_trans _ _ _ _ (keeps_trans _ _ _ _ K K03) K4). assert (R4 := ready_still _ _ _ K04 R). assert (Ac4 := account_kept _ _ _ _ _ _ _ _ (proj1 R) K04 Ac).
  assert (Cb4 := ha_balance _ _ _ _ _ _ _ Ac4). set (s4' := assign bd (VInt r) s4) in *.
  assert (R4' : ready G s4') by (eapply ready_assign; [exact Cb4|reflexivity|exact R4]).
  assert (Call : evals (VCell TCons l) env s (Done (Ok (VInt r))) s5).
  { apply call_expression; [exact (cell_end _ _ _ _ E N)|cbn [head_of]; rewrite (cell_some _ _ _ E); exact (proj1 Px)|].
    exists (Done (Ok (VFun fl))), s1. split; [cbn [head_of]; rewrite (cell_some _ _ _ E); exact Op|].
    cbn [nilb rest_of]. rewrite (cell_some _ _ _ (k_cells _ _ _ K _ _ E)). cbn [snd].
    destruct (seen_frame G [] s1 env [] R1 S1) as (Fr1 & Sf1 & Ne1). destruct (holds_list_inv _ _ _ Hps) as (pcs & Lp & _).
    assert (Fu := fun_is _ _ _ Hfs).
    apply (function_called_any fl dd cs' env s1); [exact Ld1|rewrite Fu; exact (list_not_symbol _ _ _ Lp)|].
    assert (Rc : (if fn_slot (fun_at s1 fl) then e_frame (env_at s1 env) else None) = receiver_of s1 fl env) by (unfold receiver_of; rewrite Fr1; destruct (fn_slot (fun_at s1 fl)); reflexivity).
    rewrite Rc. assert (Pc : plain_call s1 fl env) by (split; [right; split; [exact Fr1|exact Sf1]|rewrite Fu; exact Hp]). assert (Nn : env <> s_next s1) by (assert (Q := env_below s1 env W1 Ne1); lia).
    apply (proj2 (calls_plain fl (evaluated env) dd (length cs') env s1 _ _ Pc Nn)). cbv zeta. rewrite Fu. fold fn. rewrite Hv, Hq, Hle. unfold enough. rewrite (Forall2_length _ _ _ Fc). cbn [length Z.of_nat]. 
    apply C. apply (body_cells ce s3 bc1 (f_body fn)); [exact (is_list_kept _ _ _ _ (k_cells _ _ _ K03) Lb)|reflexivity|exact Ev|].
    intros k v Hk. apply K5. exact (k_cells _ _ _ K4 _ _ Hk). }
  exists s5. split; [exact Call|]. split; [exact (wf_evals _ _ _ _ _ W Call)|]. split; [exact (ready_still _ _ _ K5 R4')|]. split; [rewrite (k_global _ _ _ K5); exact (k_global _ _ _ K04)|].
  split; [exact (account_kept _ _ _ _ _ _ _ _ (proj1 R4') K5 (account_paid _ _ _ _ _ r _ _ Ac4))|].
  intros x' y' p' z' le' bd' Nb A'. apply (account_kept _ _ _ _ _ _ _ _ (proj1 R4') K5). eapply account_assign; [exact Cb4|discriminate|congruence|].
  exact (account_kept _ _ _ _ _ _ _ _ (proj1 R) K04 A').
Qed.
(** *** Opening an account *)
Lemma ready_add G s x v : wf_state s -> ready G s -> plain_name x -> alookup x G = None -> ready G (add_binding (s_global s) (VSym x) v s).
Proof.
  intros W R (Px1 & Px2 & Px3) U. set (env := s_global s). set (s6 := add_binding env (VSym x) v s). pose proof R as [(ge & He & H1 & H2 & H3 & H4) RG].
  assert (K6 : keeps [env] s s6) by apply keeps_add, W. assert (He6 := add_env env x v s ge He). fold s6 in He6.
  assert (Eg6 : s_global s6 = env) by exact (k_global _ _ _ K6). split.
  - eexists. rewrite Eg6. split; [exact He6|]. cbn [e_parent e_frame e_binds]. split; [exact H1|]. split; [exact H2|]. split; [rewrite alookup_aset_other by congruence; exact H3|].
    intros n I. destruct (H4 n I) as (bn & be & B1 & B2 & B3). exists bn, be. assert (n <> x) by (intros ->; exact (Px3 I)). rewrite alookup_aset_other by congruence.
    split; [exact B1|]. split; [apply K6, B2|exact B3].
  - intros y ys bd' Ey. assert (Ny : y <> x) by congruence. destruct (RG y ys bd' Ey) as (b' & be & l & g & A1 & B1 & C1 & D1 & F1 & I1).
    destruct (k_funs _ _ _ K6 _ _ D1) as (g' & E1 & E2 & E3). exists b', be, l, g'. rewrite Eg6. split; [|split; [apply K6, B1|]].
    { unfold local_binding in *. rewrite (env_is _ _ _ He6). cbn [e_binds]. rewrite (env_is _ _ _ He) in A1. rewrite alookup_aset_other by congruence. exact A1. }
    split; [exact C1|]. split; [exact E1|]. split; [rewrite E2; exact F1|].
    inversion I1 as [| | | | |l' g0 xs' body' ns c' d' Q1 Q2 Q3 Q4 Q5 Q6 Q7 Q8 Q9 Q10 Q11 Q12 |]; subst. rewrite D1 in Q1. injection Q1 as <-.
    assert (HK6 := holds_kept s s6 (k_cells _ _ _ K6) (k_strs _ _ _ K6) (k_bytes _ _ _ K6)).
    apply (sf_closure s6 l g' ys bd' [] (f_body (fn_code g)) d'); rewrite ?E2; auto; [congruence|exact (is_list_kept s s6 _ _ (k_cells _ _ _ K6) Q9)|].
    rewrite F1. fold env. rewrite <- Eg6. constructor.
Qed.
Lemma account_add s x v x' y p z le bd : wf_state s -> has_builtins s -> x' <> x -> has_account s x' y p z le bd -> has_account (add_binding (s_global s) (VSym x) v s) x' y p z le bd.
Proof.
  intros W (ge & Hg & _) Nx [(gb & be & l & fs & bc & A1 & A2 & A3 & A4 & A5 & A6 & A7 & A8 & A9 & A10 & A11) (e & B1 & B2 & B3 & B4 & B5) C].
  set (env := s_global s) in *. set (s' := add_binding env (VSym x) v s). assert (K : keeps [env] s s') by apply keeps_add, W.
  assert (HK := holds_kept s s' (k_cells _ _ _ K) (k_strs _ _ _ K) (k_bytes _ _ _ K)). assert (Hg' := add_env env x v s ge Hg). fold s' in Hg'.
  assert (Eg : s_global s' = env) by exact (k_global _ _ _ K). constructor.
  - exists gb, be, l, fs, bc. rewrite Eg. split; [unfold local_binding in *; rewrite (env_is _ _ _ Hg'); cbn [e_binds]; rewrite (env_is _ _ _ Hg) in A1; rewrite alookup_aset_other by congruence; exact A1|].
    split; [apply K, A2|]. split; [exact A3|]. split; [exact A4|]. repeat apply conj; auto. exact (is_list_kept _ _ _ _ (k_cells _ _ _ K) A9).
  - exists e. rewrite Eg. split; [apply K; [intros [Q|[]]; congruence|exact B1]|auto].
  - apply K, C.
Qed.
Lemma open_account G s c x y p z : wf_state s -> ready G s -> plain_name x -> plain_name y -> plain_name p ->
  local_binding s (s_global s) x = None -> alookup x G = None -> holds s c (account x y p z) ->
  exists w s' le bd, evals c (s_global s) s (Done (Ok w)) s' /\ wf_state s' /\ ready G s' /\ s_global s' = s_global s /\ has_account s' x y p z le bd /\ (s_next s <= bd)%positive /\
    (forall x' y' p' z' le' bd', x' <> x -> has_account s x' y' p' z' le' bd' -> has_account s' x' y' p' z' le' bd') /\
    forall n, n <> x -> local_binding s' (s_global s') n = local_binding s (s_global s) n.
Proof.
  intros W R Px Py Pp U UG Hc. unfold account in Hc. set (env := s_global s) in *. assert (S : seesX [] s env []) by constructor.
  destruct (form_call G [] s env [] "define" [AtLeast 1] c _ special_define ltac:(cbn; tauto) W R S Hc ltac:(eexists; split; [left; reflexivity|cbn; lia])) as (us & s1 & W1 & K1 & F & N1 & C1).
  apply Forall2_cons_inv_r in F. destruct F as (xv & us1 & Hx & F & ->). apply holds_sym_inv in Hx. subst xv. apply Forall2_cons_inv_r in F. destruct F as (lt & us2 & Hlt & F & ->). apply Forall2_nil_inv_r in F. subst us2.
  set (s2 := entering "define" env s1). assert (W2 : wf_state s2) by apply wf_entering, W1. assert (K2 := keeps_trans _ _ _ _ K1 (keeps_entering "define" env s1)). fold s2 in K2.
  assert (Hlt2 : holds s2 lt (XList [XSym "let"; XList [XList [XSym y; XInt z]]; XList [XSym "lambda"; XList [XSym p]; paying_in y p]])) by (apply (holds_same s1); auto).
  assert (R2 := ready_still _ _ _ K2 R). assert (S2 := sees_moved _ _ _ _ (keeps_moves [] [] _ _ ltac:(intros ? []) K2) _ _ S).
  destruct (form_call G [] s2 env [] "let" [AtLeast 1] lt _ special_let ltac:(cbn; tauto) W2 R2 S2 Hlt2 ltac:(eexists; split; [left; reflexivity|cbn; lia])) as (us & s3 & W3 & K23 & F & N3 & C3).
  apply Forall2_cons_inv_r in F. destruct F as (bv & us1 & Hbv & F & ->). apply Forall2_cons_inv_r in F. destruct F as (lam & us2 & Hlam & F & ->). apply Forall2_nil_inv_r in F. subst us2.
  destruct (holds_list_inv _ _ _ Hbv) as (bcs & Lbv & Fb). apply Forall2_cons_inv_r in Fb. destruct Fb as (bc & bcs' & Hb & Fb & ->). apply Forall2_nil_inv_r in Fb. subst bcs'.
  destruct (holds_list_inv _ _ _ Hb) as (zs & Lz & Fz). apply Forall2_cons_inv_r in Fz. destruct Fz as (yv & zs' & Hy & Fz & ->). apply holds_sym_inv in Hy. subst yv.
  apply Forall2_cons_inv_r in Fz. destruct Fz as (zv & zs2 & Hz & Fz & ->). apply Forall2_nil_inv_r in Fz. subst zs2. inversion Hz; subst.
  destruct (list_head _ _ _ _ Lbv) as (l & d & -> & E & Nl & Ld). destruct (list_head _ _ _ _ Lz) as (l1 & d1 & -> & E1 & _ & Ld1). destruct (list_head _ _ _ _ Ld1) as (l2 & d2 & -> & E2 & _ & _).
  set (s4 := entering "let" env s3). assert (W4 : wf_state s4) by apply wf_entering, W3. assert (K34 := keeps_entering "let" env s3). fold s4 in K34.
  assert (K4 := keeps_trans _ _ _ _ (keeps_trans _ _ _ _ K2 K23) K34). assert (R4 := ready_still _ _ _ K4 R).
  set (le := s_next s4). set (s5 := open_env "let" env (e_frame (env_at s3 env)) s4).
  assert (W5 : wf_state s5) by exact (open_env_wf "let" env s4 W4). assert (K45 : keeps [] s4 s5) by apply keeps_open, W4. assert (K5 := keeps_trans _ _ _ _ K4 K45).
  assert (He5 := open_env_at "let" env (e_frame (env_at s3 env)) s4). fold le in He5. fold s5 in He5.
  assert (Ng : le <> s_global s4). { assert (Q := ready_global G s4 W4 R4). unfold le. lia. }
  assert (Eg4 : s_global s4 = env) by exact (k_global _ _ _ K4). assert (Eg5 : s_global s5 = env) by exact (k_global _ _ _ K5).
  set (bd := s_next s5). set (s6 := add_binding le (VSym y) (VInt z) s5).
  assert (Lne : local_binding s5 le y = None) by (unfold local_binding; rewrite (env_is _ _ _ He5); reflexivity).
  assert (Bh : bind_here le (VSym y) (VInt z) s5 = Some s6) by (unfold bind_here; cbn [name_of]; rewrite Lne; reflexivity).
  assert (K56 : keeps [le] s5 s6) by apply keeps_add, W5.
  assert (K6 : keeps [] s s6).
  { apply (keeps_fresh le s s5 s6); [|exact K5|exact K56]. destruct (s_envs s !! le) eqn:El; [|exact El]. exfalso.
    assert (Q : (le < s_next s)%positive) by (apply env_below; [exact W|intros Q0; discriminate (eq_trans (eq_sym El) Q0)]). assert (Q' := k_next _ _ _ K4). unfold le in Q. lia. }
  assert (W6 : wf_state s6) by
    (destruct (bind_next [] s5 le _ [] [] y (VInt z) (Number z) W5 ltac:(congruence) He5 eq_refl (bx_none _ _) Py ltac:(intros []) (sx_number _ _ z)) as (s6' & Bh' & W6' & _);
     rewrite Bh in Bh'; injection Bh' as ->; exact W6').
  assert (He6 := add_env le y (VInt z) s5 _ He5). fold s6 in He6. cbn [e_name e_parent e_frame e_binds e_restricted] in He6. change (aset y (s_next s5) []) with [(y, bd)] in He6.
  assert (Hb6 : s_binds s6 !! bd = Some (Binding (VSym y) (VInt z) false)) by (unfold s6, add_binding; cbn; apply lookup_insert).
  assert (R6 := ready_still _ _ _ K6 R). assert (Eg6 : s_global s6 = env) by exact (k_global _ _ _ K6).
  pose proof R4 as [(ge4 & Hge4 & _ & Fr4 & _) _]. rewrite Eg4 in Hge4.
  assert (Fr3 : e_frame (env_at s3 env) = None) by (change (env_at s3 env) with (env_at s4 env); rewrite (env_is _ _ _ Hge4); exact Fr4).
  rewrite Fr3 in He6.
  assert (S6 : seesX [] s6 le ([(y, Number z)] ++ [])).
  { eapply seesX_local; [intros []|exact He6|rewrite Eg6, <- Eg4; exact Ng|reflexivity|reflexivity| |rewrite <- Eg6; constructor]. cbn [e_binds]. econstructor; [exact Py|exact Hb6|reflexivity|constructor|constructor]. }
  assert (K36 : keeps [le] s3 s6) by exact (keeps_trans _ _ _ _ (keeps_more [] [le] _ _ ltac:(intros ? []) (keeps_trans _ _ _ _ K34 K45)) K56).
  assert (Hlam6 : holds s6 lam (XList [XSym "lambda"; XList [XSym p]; paying_in y p])) by exact (holds_kept _ _ (k_cells _ _ _ K36) (k_strs _ _ _ K36) (k_bytes _ _ _ K36) _ _ Hlam).
  destruct (form_call G [] s6 le _ "lambda" [AtLeast 1] lam _ special_lambda ltac:(cbn; tauto) W6 R6 S6 Hlam6 ltac:(eexists; split; [left; reflexivity|cbn; lia])) as (vs & s7 & W7 & K67 & F & N7 & C7).
  apply Forall2_cons_inv_r in F. destruct F as (ps & vs1 & Hps & F & ->). apply Forall2_cons_inv_r in F. destruct F as (b & vs2 & Hbo & F & ->). apply Forall2_nil_inv_r in F. subst vs2.
  destruct (holds_list_inv _ _ _ Hps) as (pcs & Lp & Fp).
  pose proof (lambda_run ps [b] le (length pcs) false s7 W7 (list_pair _ _ _ Lp) (list_parameters _ _ _ Lp)) as A.
  assert (W8 := wf_entering "lambda" le s7 W7). apply (proj1 (List.Forall_cons_iff _ _ _)) in N7. destruct N7 as [_ N7].
  assert (Lb := new_tail_is [b] (entering "lambda" le s7) W8 N7). destruct (new_tail_grows [b] VNil (entering "lambda" le s7) W8) as [Gr W9].
  destruct (new_tail [b] VNil (entering "lambda" le s7)) as [bdy s9]. unfold fresh_function in A. cbn [fst snd] in *.
  set (f := Fn "unnamed" ps false (Z.of_nat (length pcs)) bdy le) in *. set (s10 := set_funs _ _) in *.
  assert (K79 := grows_keeps _ _ (grows_trans _ _ _ (grows_entering "lambda" le s7) Gr)).
  assert (K910 : keeps [] s9 s10).
  { apply grows_keeps. unfold s10. constructor; try reflexivity; try (intros k q H; exact H).
    - cbn. lia.
    - intros k g Hg. cbn. rewrite lookup_insert_ne; [exact Hg|]. intros <-. destruct (wf_funs _ W9 _ _ Hg). lia.
    - exists []. split; [reflexivity|constructor]. }
  assert (K710 := keeps_trans _ _ _ _ K79 K910). assert (K610 := keeps_trans _ _ _ _ K67 K710). assert (K10 := keeps_trans _ _ _ _ K6 K610).
  assert (Elam : evals lam le s6 (Done (Ok (VFun (s_next s9)))) s10) by apply C7, A.
  assert (Elet : evals lt env s2 (Done (Ok (VFun (s_next s9)))) s10).
  { apply C3. apply (let_iff (VCell TCons l) [y]).
    { exists [VCell TCons l1]. split; [exact Lbv|]. constructor; [|constructor]. split; [reflexivity|]. cbn [head_of]. rewrite (cell_some _ _ _ E1). reflexivity. }
    cbv zeta. change (s_next s3) with le. fold s4. fold s5.
    assert (Kc : kept (s_cells s3) (s_cells s5)) by exact (k_cells _ _ _ (keeps_trans _ _ _ _ K34 K45)).
    eapply (init_next env le _ _ _ (VInt z) s5 s6).
    - exact (cell_end _ _ _ _ (Kc _ _ E) Nl).
    - cbn [head_of]. rewrite (cell_some _ _ _ (Kc _ _ E)). cbn [fst rest_of]. rewrite (cell_some _ _ _ (Kc _ _ E1)). cbn [snd head_of]. rewrite (cell_some _ _ _ (Kc _ _ E2)). cbn [fst].
      apply eval_self; [exact Logic.I|split; reflexivity].
    - cbn [head_of]. rewrite (cell_some _ _ _ (Kc _ _ E)). cbn [fst head_of]. rewrite (cell_some _ _ _ (Kc _ _ E1)). exact Bh.
    - cbn [rest_of]. rewrite (cell_some _ _ _ (k_cells _ _ _ K36 _ _ E)). cbn [snd]. apply init_end; [apply list_end; exact (is_list_kept _ _ _ _ (k_cells _ _ _ K36) Ld)|].
      cbn [eval_each]. exists (Done (Ok (VFun (s_next s9)))), s10. split; [exact Elam|split; reflexivity]. }
  assert (W10 := wf_evals _ _ _ _ _ W6 Elam). assert (R10 := ready_still _ _ _ K10 R). assert (Eg10 : s_global s10 = env) by exact (k_global _ _ _ K10).
  pose proof R as [(ge & Hge & _) _]. fold env in Hge. assert (Hge10 := k_envs _ _ _ K10 _ _ ltac:(intros []) Hge).
  assert (L10 : forall n, local_binding s10 env n = local_binding s env n) by (intros n; unfold local_binding; rewrite (env_is _ _ _ Hge10), (env_is _ _ _ Hge); reflexivity).
  set (s11 := add_binding env (VSym x) (VFun (s_next s9)) s10).
  assert (Bx : bind_here env (VSym x) (VFun (s_next s9)) s10 = Some s11) by (unfold bind_here; cbn [name_of]; rewrite L10, U; reflexivity).
  assert (Ev : evals c env s (Done (Ok (VFun (s_next s9)))) s11).
  { apply C1, define_iff. exists (Done (Ok (VFun (s_next s9)))), s10. split; [exact Elet|]. unfold then_bind. rewrite Bx. split; reflexivity. }
  assert (K11 : keeps [env] s10 s11) by apply keeps_add, W10. assert (Eg11 : s_global s11 = env) by (rewrite (k_global _ _ _ K11); exact Eg10).
  assert (He11 := add_env env x (VFun (s_next s9)) s10 ge Hge10). fold s11 in He11.
  assert (R11 : ready G s11) by (assert (Q := ready_add G s10 x (VFun (s_next s9)) W10 R10 Px UG); rewrite Eg10 in Q; exact Q).
  assert (K711 := keeps_trans _ _ _ _ (keeps_more [] [env] _ _ ltac:(intros ? []) K710) K11).
  assert (K611 := keeps_trans _ _ _ _ (keeps_more [] [env] _ _ ltac:(intros ? []) K610) K11).
  assert (HK := holds_kept _ _ (k_cells _ _ _ K711) (k_strs _ _ _ K711) (k_bytes _ _ _ K711)).
  exists (VFun (s_next s9)), s11, le, bd. split; [exact Ev|]. split; [exact (wf_evals _ _ _ _ _ W Ev)|]. split; [exact R11|]. split; [exact Eg11|]. split; [|split; [|split]].
  - assert (Hf10 : s_funs s10 !! s_next s9 = Some (FnState f false None)) by (unfold s10; cbn; apply lookup_insert).
    destruct (k_funs _ _ _ K11 _ _ Hf10) as (g & G1 & G2 & G3). cbn [fn_code fn_proc] in G2, G3. constructor.
    + exists (s_next s10), (Binding (VSym x) (VFun (s_next s9)) false), (s_next s9), g, b. rewrite Eg11.
      split; [unfold local_binding; rewrite (env_is _ _ _ He11); cbn [e_binds]; apply alookup_aset_same|]. split; [unfold s11, add_binding; cbn; apply lookup_insert|].
      split; [reflexivity|]. split; [exact G1|]. rewrite G2. split; [exact G3|]. split; [reflexivity|]. split; [cbn; rewrite (Forall2_length _ _ _ Fp); reflexivity|].
      split; [apply HK, Hps|]. split; [exact (is_list_kept _ _ _ _ (k_cells _ _ _ K11) (is_list_kept _ _ _ _ (k_cells _ _ _ K910) Lb))|]. split; [apply HK, Hbo|reflexivity].
    + eexists. rewrite Eg11. split; [apply K611; [intros [Q|[]]; apply Ng; congruence|exact He6]|]. split; [rewrite <- Eg4; exact Ng|]. split; [reflexivity|]. split; reflexivity.
    + apply K611, Hb6.
  - unfold bd. exact (k_next _ _ _ K5).
  - intros x' y' p' z' le' bd' Nx Ha. unfold s11. rewrite <- Eg10. apply (account_add s10 x _ x' _ _ _ _ _ W10 (proj1 R10) Nx). exact (account_kept _ _ _ _ _ _ _ _ (proj1 R) K10 Ha).
  - intros n Nn. rewrite Eg11. unfold local_binding at 1. rewrite (env_is _ _ _ He11). cbn [e_binds]. rewrite alookup_aset_other by congruence.
    rewrite <- L10. unfold local_binding. rewrite (env_is _ _ _ Hge10). reflexivity.
Qed.
(** *** The whole program *)
Lemma global_still G s s' n : ready G s -> keeps [] s s' -> local_binding s' (s_global s') n = local_binding s (s_global s) n.
Proof.
  intros [(ge & He & _) _] K. assert (Q := k_envs _ _ _ K _ _ ltac:(intros []) He). unfold local_binding. rewrite (k_global _ _ _ K), (env_is _ _ _ Q), (env_is _ _ _ He). reflexivity.
Qed.
Lemma definitions_run tl : forall rest done puts s last, proper_globals (done ++ rest) -> Forall2 plants (map definition rest ++ tl) puts -> wf_state s -> ready done s ->
  (forall x, In x (map fst rest) -> local_binding s (s_global s) x = None) ->
  exists puts' s' last', Forall2 plants tl puts' /\ wf_state s' /\ ready (done ++ rest) s' /\ s_global s' = s_global s /\
    (forall n, ~ In n (map fst rest) -> local_binding s' (s_global s') n = local_binding s (s_global s) n) /\ keeps [s_global s] s s' /\
    forall o s2, in_turn (s_global s) gives (combine tl puts') last' s' o s2 -> in_turn (s_global s) gives (combine (map definition rest ++ tl) puts) last s o s2.
Proof.
  induction rest as [|[x [xs body]] rest IH]; intros done puts s last PG F W R U.
  - rewrite app_nil_r in *. exists puts, s, last. split; [exact F|]. split; [exact W|]. split; [exact R|]. split; [reflexivity|]. split; [reflexivity|]. split; [apply keeps_refl|]. intros o s2 T. exact T.
  - cbn [map app] in *. inversion F as [|? put ? puts' Pl F']; subst. destruct (Pl s W) as (G1 & W1 & H1). assert (K := grows_keeps _ _ G1).
    assert (Eg : s_global (snd (put s)) = s_global s) by exact (k_global _ _ _ K).
    assert (Lb := fun n => global_still done s (snd (put s)) n R K).
    pose proof PG as [Nd Pr]. destruct (Pr x xs body) as (Px & Pxs & Ndx & Pb); [apply in_or_app; right; left; reflexivity|].
    rewrite map_app in Nd. cbn [map fst] in Nd. assert (Nx := NoDup_remove_2 _ _ _ Nd).
    destruct (define_step_keeps done (snd (put s)) (fst (put s)) x xs body W1 (ready_still _ _ _ K R) Px Pxs Ndx Pb) as (w & s1 & Ev & W2 & R2 & Eg2 & _ & Lo & Kd).
    + rewrite Lb. apply U. left. reflexivity.
    + apply alookup_not_in. intros I. apply Nx, in_or_app. left. exact I.
    + exact H1.
    + assert (EG : (done ++ [(x, (xs, body))]) ++ rest = done ++ (x, (xs, body)) :: rest) by (rewrite <- app_assoc; reflexivity).
      rewrite <- EG in PG. destruct (IH _ puts' s1 w PG F' W2 R2) as (puts2 & s' & last' & P1 & P2 & P3 & P4 & P5 & Kp & P6).
      * intros n Hn. assert (n <> x) by (intros ->; apply Nx, in_or_app; right; exact Hn). rewrite Lo by assumption. rewrite Lb. apply U. right. exact Hn.
      * rewrite EG in P3. exists puts2, s', last'. split; [exact P1|]. split; [exact P2|]. split; [exact P3|]. split; [rewrite P4, Eg2; exact Eg|]. split; [|split].
        -- intros n Hn. cbn [fst] in Hn. rewrite P5 by (intros I; apply Hn; right; exact I). rewrite Lo by (intros ->; apply Hn; left; reflexivity). apply Lb.
        -- rewrite Eg in Kd. rewrite Eg2, Eg in Kp. exact (keeps_trans _ _ _ _ (keeps_more [] [s_global s] _ _ ltac:(intros ? []) K) (keeps_trans _ _ _ _ Kd Kp)).
        -- intros o s2 T. cbn [combine]. apply in_turn_next; [discriminate|]. exists (Done (Ok w)), s1. rewrite Eg in Ev. split; [exact Ev|]. rewrite Eg2, Eg in P6. apply P6, T.
Qed.
Lemma mod64_exists x : exists r, mod64 r x.
Proof.
  exists ((x + 2 ^ 63) mod 2 ^ 64 - 2 ^ 63). split; [unfold SpecMath.int64; assert (Q := Z.mod_pos_bound (x + 2 ^ 63) (2 ^ 64) eq_refl); remember ((x + 2 ^ 63) mod 2 ^ 64) as m; clear Heqm; lia|].
  exists ((x + 2 ^ 63) / 2 ^ 64). assert (Q := Z.div_mod (x + 2 ^ 63) (2 ^ 64) ltac:(lia)). remember ((x + 2 ^ 63) mod 2 ^ 64) as m. remember ((x + 2 ^ 63) / 2 ^ 64) as q. clear Heqm Heqq. lia.
Qed.
Lemma mod64_shift a b c r : mod64 a b -> mod64 r (b + c) -> mod64 r (a + c).
Proof. intros (_ & k & ->) (H & j & E). split; [exact H|]. exists (j - k). lia. Qed.
Lemma pays_any G first a d : pays G first a d -> exists d', pays G (negb first) a d'.
Proof.
  intros H. destruct H as [e d M|e d M|e v M].
  - exists 0. assert (Q := pays_other G (negb first) e d M). rewrite negb_involutive in Q. exact Q.
  - exists d. apply pays_in, M.
  - exists 0. eapply pays_nothing, M.
Qed.
Section Actions.
  Context (G : globals) (x1 x2 y p : string) (P1 : plain_name x1) (P2 : plain_name x2) (Py : plain_name y) (Pp : plain_name p) (Nyp : y <> p).
  Let named (b : bool) : string := if b then x1 else x2.
  Lemma named_plain b : plain_name (named b). Proof. destruct b; assumption. Qed.
  Lemma action_step s put a first d lef bdf leo bdo zf zo : wf_state s -> ready G s -> has_account s (named first) y p zf lef bdf -> has_account s (named (negb first)) y p zo leo bdo -> bdf <> bdo ->
    proper_action a -> pays G first a d -> plants (action_text x1 x2 a) put ->
    exists w s' zf' zo', evals (fst (put s)) (s_global s) (snd (put s)) (Done (Ok w)) s' /\ wf_state s' /\ ready G s' /\ s_global s' = s_global s /\
      has_account s' (named first) y p zf' lef bdf /\ has_account s' (named (negb first)) y p zo' leo bdo /\ (forall r c, mod64 r (zf + (d + c)) -> mod64 r (zf' + c)) /\
      (forall e, a = Deposit first e -> w = VInt zf' /\ int64 zf').
  Proof.
    intros W R Af Ao Nb Pa H Pl. destruct (Pl s W) as (G1 & W1 & H1). assert (K := grows_keeps _ _ G1). assert (R1 := ready_still _ _ _ K R). assert (Eg := k_global _ _ _ K).
    assert (Af1 := account_kept _ _ _ _ _ _ _ _ (proj1 R) K Af). assert (Ao1 := account_kept _ _ _ _ _ _ _ _ (proj1 R) K Ao).
    destruct H as [e d M|e d M|e v M]; cbn [action_text proper_action] in *.
    - destruct (mod64_exists (zf + d)) as (r & Hr). change (if first then x1 else x2) with (named first) in H1.
      destruct (deposit G _ _ (named first) y p zf e d r lef bdf W1 R1 Af1 (named_plain _) Py Pp Nyp Pa M Hr H1) as (s' & Ev & Wp & Rp & Gp & Ap & Op).
      exists (VInt r), s', r, zo. rewrite Eg in Ev. split; [exact Ev|]. split; [exact Wp|]. split; [exact Rp|]. split; [congruence|]. split; [exact Ap|]. split; [apply Op; [congruence|exact Ao1]|].
      split; [|intros _ _; split; [reflexivity|apply Hr]]. intros q c Hq. apply (mod64_shift r (zf + d)); [exact Hr|]. rewrite Z.add_assoc in Hq. exact Hq.
    - destruct (mod64_exists (zo + d)) as (r & Hr). change (if negb first then x1 else x2) with (named (negb first)) in H1.
      destruct (deposit G _ _ (named (negb first)) y p zo e d r leo bdo W1 R1 Ao1 (named_plain _) Py Pp Nyp Pa M Hr H1) as (s' & Ev & Wp & Rp & Gp & Ap & Op).
      exists (VInt r), s', zf, r. rewrite Eg in Ev. split; [exact Ev|]. split; [exact Wp|]. split; [exact Rp|]. split; [congruence|]. split; [apply Op; [congruence|exact Af1]|]. split; [exact Ap|].
      split; [intros q c Hq; exact Hq|]. intros e' [= Q _]. destruct first; discriminate.
    - assert (Sg : sees (snd (put s)) (s_global s) []) by (rewrite <- Eg; constructor).
      destruct (expression_value G [] e v _ _ _ M Pa W1 R1 Sg H1) as ((w & s' & Ev) & Q). destruct (Q _ _ Ev) as (w' & [= <-] & _ & K' & R').
      exists w, s', zf, zo. split; [exact Ev|]. split; [exact (wf_evals _ _ _ _ _ W1 Ev)|]. split; [exact R'|]. split; [rewrite (k_global _ _ _ K'); exact Eg|].
      split; [exact (account_kept _ _ _ _ _ _ _ _ (proj1 R1) K' Af1)|]. split; [exact (account_kept _ _ _ _ _ _ _ _ (proj1 R1) K' Ao1)|]. split; [intros q c Hq; exact Hq|discriminate].
  Qed.
  Lemma action_text_full a : action_text x1 x2 a <> XList [].
  Proof. destruct a; [discriminate|]. apply written_not_empty. Qed.
  Lemma actions_run first e lef bdf leo bdo : bdf <> bdo -> forall acts ds r zf zo s puts last, wf_state s -> ready G s ->
    has_account s (named first) y p zf lef bdf -> has_account s (named (negb first)) y p zo leo bdo ->
    Forall proper_action (acts ++ [Deposit first e]) -> Forall2 (pays G first) (acts ++ [Deposit first e]) ds -> mod64 r (zf + sum ds) ->
    Forall2 plants (map (action_text x1 x2) (acts ++ [Deposit first e])) puts ->
    exists s', in_turn (s_global s) gives (combine (map (action_text x1 x2) (acts ++ [Deposit first e])) puts) last s (Done (Ok (VInt r))) s'.
  Proof.
    intros Nb. induction acts as [|a acts IH]; intros ds r zf zo s puts last W R Af Ao Pa H Hr F; cbn [app map] in *;
      inversion H as [|? d ? ds' Hd Hds]; subst; inversion F as [|? put ? puts' Pl F']; subst; apply (proj1 (List.Forall_cons_iff _ _ _)) in Pa; destruct Pa as [Pa Pas];
      destruct (action_step s put _ first d lef bdf leo bdo zf zo W R Af Ao Nb Pa Hd Pl) as (w & s' & zf' & zo' & Ev & W' & R' & Eg & Af' & Ao' & Hz & Hw).
    - inversion Hds; subst. inversion F'; subst. exists s'. cbn [combine]. apply in_turn_next; [discriminate|]. exists (Done (Ok w)), s'. split; [exact Ev|].
      destruct (Hw e eq_refl) as [-> Iz]. cbn [sum fold_right] in Hr. specialize (Hz r 0 Hr). rewrite Z.add_0_r in Hz.
      destruct Hz as (A1 & k & Ek). assert (k = 0) by (unfold SpecMath.int64, SpecRead.int64 in *; lia). subst k. replace r with zf' by lia. split; reflexivity.
    - specialize (Hz r (sum ds') Hr). destruct (IH ds' r zf' zo' s' puts' w W' R' Af' Ao' Pas Hds Hz F') as (s2 & T). exists s2. cbn [combine]. apply in_turn_next; [apply action_text_full|].
      exists (Done (Ok w)), s'. split; [exact Ev|]. rewrite Eg in T. exact T.
  Qed.
End Actions.
Lemma accounts_run u G x1 x2 y p z1 z2 acts first e ds r src :
  program u (banking G x1 x2 y p z1 z2 (acts ++ [Deposit first e])) src -> proper_globals G ->
  plain_name x1 -> plain_name x2 -> plain_name y -> plain_name p -> x1 <> x2 -> y <> p -> ~ In x1 (map fst G) -> ~ In x2 (map fst G) ->
  Forall proper_action (acts ++ [Deposit first e]) -> Forall2 (pays G first) (acts ++ [Deposit first e]) ds -> mod64 r ((if first then z1 else z2) + sum ds) ->
  forall s, wf_state s -> s_uni s = u -> has_builtins s -> (forall x, In x (x1 :: x2 :: map fst G) -> local_binding s (s_global s) x = None) ->
  (exists s', run_text src (s_global s) s (Done (Ok (VInt r))) s') /\ forall o s', run_text src (s_global s) s o s' -> o = Done (Ok (VInt r)).
Proof.
  intros P PG P1 P2 Py Pp N12 Nyp U1 U2 Pa Hd Hr s W Eu B U. destruct (run_program u _ src P) as (puts & F & H).
  assert (R : ready [] s) by (split; [exact B|intros x xs body E; discriminate]). unfold banking in F, H.
  destruct (definitions_run _ G [] puts s VNil PG F W R ltac:(intros x I; apply U; right; right; exact I)) as (puts1 & s1 & last1 & F1 & W1 & R1 & Eg1 & L1 & _ & T1). cbn [app] in R1, F1, T1.
  inversion F1 as [|? put1 ? puts2 Pl1 F2]; subst. destruct (Pl1 s1 W1) as (Gr1 & Wa & Ha). assert (Ka := grows_keeps _ _ Gr1). assert (Ra := ready_still _ _ _ Ka R1).
  assert (La := fun n => global_still G s1 (snd (put1 s1)) n R1 Ka). assert (Ega := k_global _ _ _ Ka).
  destruct (open_account G (snd (put1 s1)) (fst (put1 s1)) x1 y p z1 Wa Ra P1 Py Pp) as (w1 & s2 & le1 & bd1 & Ev1 & W2 & R2 & Eg2 & A1 & _ & _ & L2).
  { rewrite La, (L1 _ U1). apply U. left. reflexivity. }
  { apply alookup_not_in, U1. }
  { exact Ha. }
  inversion F2 as [|? put2 ? puts3 Pl2 F3]; subst. destruct (Pl2 s2 W2) as (Gr2 & Wb & Hb). assert (Kb := grows_keeps _ _ Gr2). assert (Rb := ready_still _ _ _ Kb R2).
  assert (Lb := fun n => global_still G s2 (snd (put2 s2)) n R2 Kb). assert (Egb := k_global _ _ _ Kb).
  assert (A1b := account_kept _ _ _ _ _ _ _ _ (proj1 R2) Kb A1).
  destruct (open_account G (snd (put2 s2)) (fst (put2 s2)) x2 y p z2 Wb Rb P2 Py Pp) as (w2 & s3 & le2 & bd2 & Ev2 & W3 & R3 & Eg3 & A2 & Le & O3 & _).
  { rewrite Lb, L2 by congruence. rewrite La, (L1 _ U2). apply U. right. left. reflexivity. }
  { apply alookup_not_in, U2. }
  { exact Hb. }
  assert (A1c := O3 _ _ _ _ _ _ N12 A1b).
  assert (Nb : bd1 <> bd2). { intros ->. destruct (wf_binds _ Wb _ _ (ha_balance _ _ _ _ _ _ _ A1b)). lia. }
  assert (T : exists s', in_turn (s_global s3) gives (combine (map (action_text x1 x2) (acts ++ [Deposit first e])) puts3) w2 s3 (Done (Ok (VInt r))) s').
  { destruct first.
    - exact (actions_run G x1 x2 y p P1 P2 Py Pp Nyp true e le1 bd1 le2 bd2 Nb acts ds r z1 z2 s3 puts3 w2 W3 R3 A1c A2 Pa Hd Hr F3).
    - exact (actions_run G x1 x2 y p P1 P2 Py Pp Nyp false e le2 bd2 le1 bd1 ltac:(congruence) acts ds r z2 z1 s3 puts3 w2 W3 R3 A2 A1c Pa Hd Hr F3). }
  destruct T as (s' & T). assert (Run : run_text src (s_global s) s (Done (Ok (VInt r))) s').
  { apply (H (s_global s) s eq_refl). apply T1. cbn [combine]. apply in_turn_next; [discriminate|]. exists (Done (Ok w1)), s2. rewrite Ega, Eg1 in Ev1. split; [exact Ev1|].
    apply in_turn_next; [discriminate|]. exists (Done (Ok w2)), s3. rewrite Egb, Eg2, Ega, Eg1 in Ev2. split; [exact Ev2|]. rewrite Eg3, Egb, Eg2, Ega, Eg1 in T. exact T. }
  split; [exists s'; exact Run|]. intros o s4 Q. destruct (runs_det _ _ _ _ _ _ _ _ Run Q) as [<- _]. reflexivity.
Qed.
(** *** An example *)
Definition sample_actions : list action :=
  [Deposit true (Num 5); Compute (SpecCore.Call (Name "fact") [Num 3]); Deposit false (Num 7); Deposit true (SpecCore.Call (Name "fact") [Num 4])].
Definition sample : list tree := banking factorial "savings" "other" "balance" "k" 10 100 sample_actions.
Lemma sample_program u : program u sample (all_laid_out sample).
Proof.
  apply all_laid_out_program. unfold sample, banking, sample_actions, account, paying_in.
  repeat apply Forall_cons_2; try apply Forall_nil_2; cbn [simple_tree definition written factorial action_text map fst snd fold_right app];
    repeat apply conj; try exact Logic.I; try apply minus_symbol; try (apply symbol_sample; reflexivity); unfold int64; lia.
Qed.
Lemma sample_pays : Forall2 (pays factorial true) sample_actions [5; 0; 0; 24].
Proof.
  unfold sample_actions. constructor; [apply pays_in, m_num; unfold SpecRead.int64, SpecMath.int64; lia|].
  constructor; [eapply pays_nothing, (fact_means 3 6); [unfold small; lia|split; [unfold SpecMath.int64; lia|exists 0; reflexivity]]|].
  constructor; [apply (pays_other _ true _ 7), m_num; unfold SpecRead.int64, SpecMath.int64; lia|].
  constructor; [apply pays_in, (fact_means 4 24); [unfold small; lia|split; [unfold SpecMath.int64; lia|exists 0; reflexivity]]|constructor].
Qed.
Lemma sample_proper : Forall proper_action sample_actions.
Proof. unfold sample_actions. repeat apply Forall_cons_2; try apply Forall_nil_2; cbn [proper_action]; proper. Qed.
Lemma sample_names : plain_name "savings" /\ plain_name "other" /\ plain_name "balance" /\ plain_name "k".
Proof. repeat split; try reflexivity; try discriminate; cbn; intuition discriminate. Qed.
Lemma sample_unbound : forall x, In x ["savings"; "other"; "fact"] -> local_binding start (s_global start) x = None.
Proof. intros x [<-|[<-|[<-|[]]]]; vm_compute; reflexivity. Qed.
