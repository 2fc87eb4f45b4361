(** Proofs of C75: errors that are handled. *)
From Verif Require Export SpecRescue ProofObject ProofThread ProofSession.
From stdpp Require Import list.
From Verif Require Import Base Data SpecCore SpecFail SpecEval SpecObject SpecRescue.
Local Open Scope string_scope.
Local Open Scope list_scope.
Local Open Scope Z_scope.

Lemma special_on_error : special_here "on-error" [Exactly 2; Exactly 3].
Proof.
  destruct (table "on-error") as [p|] eqn:T; [|discriminate]. exists p. destruct (table_in _ _ T) as [I1 I2]. injection T as <-.
  repeat apply conj; try assumption; try reflexivity. repeat constructor; unfold sane, int64_max, two63; lia.
Qed.
Lemma ordinary_error : exists p, In p all_prims /\ Apply.p_name p = "error" /\ declared p [Exactly 1] /\ p_special p = false /\ p_restricted p = false.
Proof.
  destruct (table "error") as [p|] eqn:T; [|discriminate]. exists p. destruct (table_in _ _ T) as [I1 I2]. injection T as <-.
  repeat apply conj; try assumption; try reflexivity. repeat constructor; unfold sane, int64_max, two63; lia.
Qed.
Lemma guard_call s c dg dh : wf_state s -> offers s "on-error" -> holds s c (XList [XSym "on-error"; dg; dh]) ->
  exists xg xh s1, wf_state s1 /\ keeps [] s s1 /\ holds s1 xg dg /\ holds s1 xh dh /\ forall o s', applies "on-error" [xg; xh] (s_global s) s1 o s' -> evals c (s_global s) s o s'.
Proof.
  intros W (ob & obe & Of1 & Of2 & Of3) H. destruct special_on_error as (p & Ip & Ep & D & Sp & Rp). destruct (holds_list_inv _ _ _ H) as (cs & L & F). apply Forall2_cons_inv_r in F.
  destruct F as (h & cs' & Hh & F & ->). apply holds_sym_inv in Hh. subst h. destruct (list_head _ _ _ _ L) as (l & d & -> & E & N & Ld).
  destruct (all_stored_ok cs' s W) as (G1 & W1 & E1 & N1). assert (K := grows_keeps _ _ G1).
  assert (F1 : Forall2 (holds (snd (all_stored cs' s))) (fst (all_stored cs' s)) [dg; dh]).
  { apply (elem_holds _ _ _ E1). eapply Forall2_impl; [exact F|]. intros x y. apply (holds_kept _ _ (k_cells _ _ _ K) (k_strs _ _ _ K) (k_bytes _ _ _ K)). }
  assert (Len := Forall2_length _ _ _ F).
  destruct (all_stored cs' s) as [xs s1] eqn:Es. cbn [fst snd] in *. apply Forall2_cons_inv_r in F1. destruct F1 as (xg & xs1 & Hg & F1 & ->).
  apply Forall2_cons_inv_r in F1. destruct F1 as (xh & xs2 & Hh & F1 & ->). apply Forall2_nil_inv_r in F1. subst xs2.
  exists xg, xh, s1. split; [exact W1|]. split; [exact K|]. split; [exact Hg|]. split; [exact Hh|]. intros o s' A.
  eapply (call_found (s_global s) s "on-error" p _ l d cs' s); [repeat apply conj; reflexivity|exact Ip|exact Ep|exact D|exact Rp| |exact E|exact Ld| |intros ? ? Q; exact Q|].
  - eexists; split; [left; reflexivity|rewrite Len; reflexivity].
  - unfold finds. rewrite Of1, (bind_is _ _ _ Of2), Of3. split; reflexivity.
  - rewrite Sp. apply (collect_as_is _ cs'); [exact Ld|]. cbn [app]. unfold enters. rewrite Es. exact A.
Qed.
(** (error e): the argument is evaluated. *)
Lemma error_call G s c de : wf_state s -> offers s "error" -> holds s c (XList [XSym "error"; written de]) -> ready G s -> proper de ->
  (bad G [] de -> exists m s', evals c (s_global s) s (Done (Err m)) s' /\ keeps [] s s') /\
  (forall v t, means G [] de v -> (forall s1 w, stands_for s1 w v -> w <> VNil /\ prints w s1 t) -> exists s', evals c (s_global s) s (Done (Err t)) s' /\ keeps [] s s').
Proof.
  intros W (ob & obe & Of1 & Of2 & Of3) H R Pe. destruct ordinary_error as (p & Ip & Ep & D & Sp & Rp). destruct (holds_list_inv _ _ _ H) as (cs & L & F). apply Forall2_cons_inv_r in F.
  destruct F as (h & cs' & Hh & F & ->). apply holds_sym_inv in Hh. subst h. destruct (list_head _ _ _ _ L) as (l & d & -> & E & N & Ld).
  apply Forall2_cons_inv_r in F. destruct F as (a & cs2 & Ha & F & ->). apply Forall2_nil_inv_r in F. subst cs2.
  assert (Go : forall o s', collects (evaluated (s_global s)) (enters "error" (s_global s)) [] d s o s' -> evals (VCell TCons l) (s_global s) s o s').
  { intros o s' C. eapply (call_found (s_global s) s "error" p _ l d [a] s); [repeat apply conj; reflexivity|exact Ip|exact Ep|exact D|exact Rp| |exact E|exact Ld| |intros ? ? Q; exact Q|].
    - eexists; split; [left; reflexivity|reflexivity].
    - unfold finds. rewrite Of1, (bind_is _ _ _ Of2), Of3. split; reflexivity.
    - rewrite Sp. exact C. }
  split.
  - intros B. destruct (collect_fails G [] [] [] de [] (Forall2_nil _) B ltac:(intros e' [<-|[]]; exact Pe) [] s (s_global s) d [a] [] W R ltac:(intros ? []) ltac:(constructor) Ld ltac:(constructor; [exact Ha|constructor])) as (m & s' & K & C).
    exists m, s'. split; [apply Go, C|exact K].
  - intros v t M Hp. destruct (proj1 (all_good G) _ _ _ M Pe [] s (s_global s) a W R ltac:(intros ? []) ltac:(constructor) Ha) as (w & s1 & Ev & K & Sw).
    assert (Sw' := proj1 (from_X [] s1) _ _ Sw). destruct (list_head _ _ _ _ Ld) as (l1 & d1 & -> & E1 & N1 & Ld1).
    exists (entering "error" (s_global s) s1). split; [|exact (keeps_trans _ _ _ _ K (keeps_entering "error" _ s1))]. apply Go.
    eapply collect_next; [exact (cell_end _ _ _ _ E1 N1)|cbn [head_of]; rewrite (cell_some _ _ _ E1); exact Ev|].
    cbn [rest_of]. rewrite (cell_some _ _ _ (k_cells _ _ _ K _ _ E1)). cbn [snd]. apply collect_end; [apply list_end; exact (is_list_kept _ _ _ _ (k_cells _ _ _ K) Ld1)|].
    assert (Sw2 : stands_for (entering "error" (s_global s) s1) w v).
    { apply (proj1 (from_X [] _)). exact (stands_moved _ _ _ _ (keeps_moves [] [] s1 _ ltac:(intros ? []) (keeps_entering "error" _ s1)) _ _ Sw). }
    destruct (Hp _ _ Sw2) as [Nw Pw]. cbn [app]. unfold enters. cbn [all_stored]. replace (stored w s1) with (w, s1) by (destruct w; [congruence|..]; reflexivity).
    apply error_run. exact Pw.
Qed.
(** The handler is made and called with the message. *)
Lemma handler_called G s xg xh p h m s1 : wf_state s -> ready G s -> plain_name p -> proper h -> holds s xh (XList [XSym "lambda"; XList [XSym p]; written h]) ->
  evals xg (s_global s) (entering "on-error" (s_global s) s) (Done (Err m)) s1 -> keeps [] (entering "on-error" (s_global s) s) s1 ->
  (forall v, means G [(p, Characters m)] h v -> exists w s', applies "on-error" [xg; xh] (s_global s) s (Done (Ok w)) s' /\ keeps [] s s' /\ stands_for s' w v) /\
  (goes_wrong G [(p, Characters m)] h -> exists m' s', applies "on-error" [xg; xh] (s_global s) s (Done (Err m')) s' /\ keeps [] s s').
Proof.
  intros W R Pp Ph Hh Ev K1. set (env := s_global s) in *. assert (W1 : wf_state s1) by exact (wf_evals _ _ _ _ _ (wf_entering _ _ _ W) Ev).
  assert (K01 := keeps_trans _ _ _ _ (keeps_entering "on-error" env s) K1). assert (R1 := ready_still _ _ _ K01 R).
  assert (Pl : proper (Lambda [p] h)) by (apply p_lambda; [constructor; [exact Pp|constructor]|constructor; [intros []|constructor]|exact Ph]).
  assert (S1 : seesX [] s1 env []) by (unfold env; rewrite <- (k_global _ _ _ K01); constructor).
  assert (Hh1 : holds s1 xh (written (Lambda [p] h))) by exact (holds_kept _ _ (k_cells _ _ _ K01) (k_strs _ _ _ K01) (k_bytes _ _ _ K01) _ _ Hh).
  destruct (good_lambda G [] [p] h Pl [] s1 env xh W1 R1 ltac:(intros ? []) S1 Hh1) as (w & s2 & Ev2 & K2 & Sw). assert (W2 := wf_evals _ _ _ _ _ W1 Ev2).
  destruct (stands_parts _ _ _ _ _ _ _ Sw eq_refl) as (fl & fs & bc & -> & Hfs & _ & _ & _ & Hps & _). destruct (holds_list_inv _ _ _ Hps) as (pcs & Lp & _).
  pose proof (fun o s' => proj2 (on_error_handled xg xh [] env s m s1 fl s2 o s' W Ev Ev2 ltac:(rewrite (fun_is _ _ _ Hfs); exact (list_not_symbol _ _ _ Lp)))) as C.
  unfold fresh_string in C. set (s3 := set_strs (<[s_next s2 := m]> (s_strs s2)) (bump s2)) in *.
  assert (R3 : runs denote (new_str m) s2 (Done (VStr (s_next s2))) s3) by (unfold new_str; rsteps).
  assert (W3 := wf_runs _ _ _ _ _ W2 R3). assert (G3 : grows s2 s3) by apply grows_new_str, W2.
  assert (L4 := new_list_is [VStr (s_next s2)] s3 W3 ltac:(constructor; [discriminate|constructor])). destruct (new_list_grows [VStr (s_next s2)] s3 W3) as [G4 W4].
  destruct (new_list [VStr (s_next s2)] s3) as [l s4]. cbn [fst snd] in *. assert (K24 := grows_keeps _ _ (grows_trans _ _ _ G3 G4)). assert (K14 := keeps_trans _ _ _ _ K2 K24). assert (K04 := keeps_trans _ _ _ _ K01 K14).
  assert (R4 := ready_still _ _ _ K14 R1). assert (S4 := sees_moved _ _ _ _ (keeps_moves [] [] s1 s4 ltac:(intros ? []) K14) _ _ S1).
  assert (Sw4 := stands_moved _ _ _ _ (keeps_moves [] [] s2 s4 ltac:(intros ? []) K24) _ _ Sw).
  assert (Hm : Forall2 (holds s4) [VStr (s_next s2)] (map written [Text m])).
  { constructor; [|constructor]. constructor. apply (k_strs _ _ _ (grows_keeps _ _ G4)). cbn. apply lookup_insert. }
  assert (Gm : Forall2 (good G []) [Text m] [Characters m]) by (constructor; [exact (proj1 (all_good G) _ _ _ (m_text G [] m))|constructor]).
  assert (Pm : forall e, In e [Text m] -> proper e) by (intros e [<-|[]]; apply p_text).
  split.
  - intros v M. destruct (function_value G [] s4 env [] fl _ [p] h [] l [VStr (s_next s2)] [Text m] [Characters m] v W4 R4 ltac:(intros ? []) S4 Sw4 eq_refl Gm Pm eq_refl (proj1 (all_good G) _ _ _ M) L4 Hm) as (w & s5 & A & K5 & Sv).
    exists w, s5. split; [apply C; exact A|]. split; [exact (keeps_trans _ _ _ _ K04 K5)|exact (proj1 (from_X [] s5) _ _ Sv)].
  - intros B. destruct (function_wrong G [] s4 env [] fl _ [p] h [] l [VStr (s_next s2)] [Text m] W4 R4 ltac:(intros ? []) S4 Sw4 eq_refl Pm L4 Hm) as (m' & s5 & A & K5).
    { right. right. split; [reflexivity|]. exists [Characters m]. split; [exact Gm|exact (all_bad G _ _ B)]. }
    exists m', s5. split; [apply C; exact A|exact (keeps_trans _ _ _ _ K04 K5)].
Qed.
Definition equipped (G : globals) (s : state) : Prop := ready G s /\ offers s "error" /\ offers s "on-error".
Lemma equipped_kept G s s' : keeps [] s s' -> equipped G s -> equipped G s'.
Proof. intros K (R & A & B). split; [exact (ready_still _ _ _ K R)|]. split; eapply offers_kept; try eassumption; apply R. Qed.
Lemma symbol_prints s1 w x : stands_for s1 w (Symbol x) -> w <> VNil /\ prints w s1 x.
Proof. intros S. inversion S; subst. split; [discriminate|]. unfold prints. apply call_iff. cbn. apply runs_ret. Qed.
Lemma guarded_run G : forall g, proper_guarded g -> forall s c, wf_state s -> equipped G s -> holds s c (guarded_text g) ->
  (forall P, ends_in G g P -> exists w v s', evals c (s_global s) s (Done (Ok w)) s' /\ stands_for s' w v /\ P v /\ keeps [] s s') /\
  (forall M, breaks G g M -> exists m s', evals c (s_global s) s (Done (Err m)) s' /\ M m /\ keeps [] s s').
Proof.
  induction g as [e|e|g IH p h]; intros Pg s c W Q Hc; cbn [proper_guarded guarded_text] in *; pose proof Q as (R & Oe & Oo).
  - split.
    + intros P H. inversion H as [? v ? M Pv| |]; subst. destruct (expression_value G [] e v c (s_global s) s M Pg W R ltac:(constructor) Hc) as ((w & s' & Ev) & A). destruct (A _ _ Ev) as (w' & [= <-] & Sw & K & _).
      exists w, v, s'. auto.
    + intros M H. inversion H as [? ? B Am| | | |]; subst. destruct (expression_unchanged G [] e c (s_global s) s B Pg W R ltac:(constructor) Hc) as ((m & s' & Ev) & A). destruct (A _ _ Ev) as (m' & [= <-] & K & _).
      exists m, s'. auto.
  - split; [intros P H; inversion H|]. destruct (error_call G s c e W Oe Hc R Pg) as [E1 E2]. intros M H. inversion H as [|? ? B Am|? x ? Me Mx|? t ? Me Am|]; subst.
    + destruct (E1 (all_bad G _ _ B)) as (m & s' & Ev & K). exists m, s'. auto.
    + destruct (E2 _ x Me (fun s1 w => symbol_prints s1 w x)) as (s' & Ev & K). exists x, s'. auto.
    + destruct (E2 _ (quoted t) Me) as (s' & Ev & K); [|exists (quoted t), s'; auto]. intros s1 w Sw. inversion Sw as [| |l ? El| | | |]; subst. split; [discriminate|]. exact (ProofPrint.run_prints s1 (XStr t) Logic.I _ (holds_str _ _ _ El)).
  - destruct Pg as (Pg & Pp & Ph). destruct (guard_call s c _ _ W Oo Hc) as (xg & xh & s1 & W1 & K1 & Hg & Hh & C). assert (Eg := k_global _ _ _ K1).
    set (s2 := entering "on-error" (s_global s1) s1). assert (K2 : keeps [] s1 s2) by apply keeps_entering. assert (K02 := keeps_trans _ _ _ _ K1 K2). assert (W2 : wf_state s2) by apply wf_entering, W1.
    destruct (IH Pg s2 xg W2 (equipped_kept _ _ _ K02 Q) (holds_kept _ _ (k_cells _ _ _ K2) (k_strs _ _ _ K2) (k_bytes _ _ _ K2) _ _ Hg)) as [IH1 IH2].
    assert (Eg2 : s_global s2 = s_global s1) by exact (k_global _ _ _ K2). rewrite Eg2 in IH1, IH2. rewrite <- Eg in C. rewrite <- Eg.
    split.
    + intros P H. inversion H as [|? ? ? ? H1|? ? ? M ? H1 H2]; subst.
      * destruct (IH1 P H1) as (w & v & s' & Ev & Sw & Pv & K). exists w, v, s'. split; [apply C, on_error_ok, Ev|]. split; [exact Sw|]. split; [exact Pv|exact (keeps_trans _ _ _ _ K02 K)].
      * destruct (IH2 M H1) as (m & s3 & Ev & Hm & K). destruct (H2 m Hm) as (v & Mv & Pv).
        destruct (handler_called G s1 xg xh p h m s3 W1 (ready_still _ _ _ K1 R) Pp Ph Hh Ev K) as [A _]. destruct (A v Mv) as (w & s' & Ap & K' & Sw).
        exists w, v, s'. split; [apply C, Ap|]. split; [exact Sw|]. split; [exact Pv|exact (keeps_trans _ _ _ _ K1 K')].
    + intros M' H. inversion H as [| | | |? ? ? M ? H1 H2 Am]; subst. destruct (IH2 M H1) as (m & s3 & Ev & Hm & K).
      destruct (handler_called G s1 xg xh p h m s3 W1 (ready_still _ _ _ K1 R) Pp Ph Hh Ev K) as [_ A]. destruct (A (H2 m Hm)) as (m' & s' & Ap & K').
      exists m', s'. split; [apply C, Ap|]. split; [apply Am|exact (keeps_trans _ _ _ _ K1 K')].
Qed.
(** *** Texts in turn *)
Lemma guarded_full g : guarded_text g <> XList [].
Proof. destruct g; [apply written_not_empty|discriminate|discriminate]. Qed.
Lemma foreseen_new G is rs : foreseen G is rs -> forall x, In x (introduced is) -> ~ In x (map fst G).
Proof.
  induction 1 as [G|G x xs body is rs Px N1 N2 Pxs Nd Pb Nx _ IH|G g P is rs Pg H _ IH|G g M is rs Pg H _ IH]; intros y I; cbn [introduced flat_map app] in I; [destruct I| |exact (IH y I)|exact (IH y I)].
  destruct I as [<-|I]; [exact Nx|]. intros J. apply (IH y I). rewrite map_app. apply in_or_app. left. exact J.
Qed.
Lemma offers_defined s s' x n : local_binding s' (s_global s') n = local_binding s (s_global s) n -> keeps [x] s s' -> offers s n -> offers s' n.
Proof. intros L K (b & be & A & B & C). exists b, be. rewrite L. split; [exact A|]. split; [apply K, B|exact C]. Qed.
Lemma rescue_session u G is rs : foreseen G is rs -> forall texts s, Forall2 (fun i t => program u [entry_text i] t) is texts -> wf_state s -> s_uni s = u -> equipped G s ->
  (forall x, In x (introduced is) -> local_binding s (s_global s) x = None) -> as_foreseen texts rs s.
Proof.
  induction 1 as [G|G x xs body is rs Px N1 N2 Pxs Nd Pb Nx E IH|G g P is rs Pg H _ IH|G g M is rs Pg H _ IH]; intros texts s F W U Q B; pose proof Q as (R & Oe & Oo).
  - inversion F; subst. exact Logic.I.
  - inversion F as [|? t ? ts Pt F']; subst. cbn [entry_text] in Pt.
    destruct (one_text _ _ t Pt ltac:(discriminate) s W eq_refl) as (c & s1 & K & W1 & H1 & T). assert (Lb := kept_local G s s1 R K). assert (Eg := k_global _ _ _ K).
    destruct (equipped_kept _ _ _ K Q) as (R1 & Oe1 & Oo1).
    destruct (define_step_keeps G s1 c x xs body W1 R1 Px Pxs Nd Pb) as (w & s2 & Ev & W2 & R2 & Eg2 & Eu & Lo & Kd).
    + rewrite Lb. apply B. left. reflexivity.
    + apply alookup_not_in. exact Nx.
    + exact H1.
    + rewrite Eg in Ev. specialize (T _ _ Ev (ex_intro _ _ eq_refl)). split; [eauto|]. intros o s' T'. destruct (runs_det _ _ _ _ _ _ _ _ T T') as [<- <-].
      split; [exists w; reflexivity|]. apply IH; [exact F'|exact W2|rewrite Eu; exact (k_uni _ _ _ K)| |].
      * split; [exact R2|]. split; eapply offers_defined; try eassumption; apply Lo; congruence.
      * intros y Hy. assert (y <> x). { intros ->. apply (foreseen_new _ _ _ E x Hy). rewrite map_app. apply in_or_app. right. left. reflexivity. }
        rewrite Lo by assumption. rewrite Lb. apply B. right. exact Hy.
  - inversion F as [|? t ? ts Pt F']; subst. cbn [entry_text] in Pt.
    destruct (one_text _ _ t Pt (guarded_full g) s W eq_refl) as (c & s1 & K & W1 & H1 & T). assert (Eg := k_global _ _ _ K).
    destruct (guarded_run G g Pg s1 c W1 (equipped_kept _ _ _ K Q) H1) as [A _]. destruct (A P H) as (w & v & s2 & Ev & Sw & Pv & K2). rewrite Eg in Ev.
    specialize (T _ _ Ev (ex_intro _ _ eq_refl)). split; [eauto|]. intros o s' T'. destruct (runs_det _ _ _ _ _ _ _ _ T T') as [<- <-]. assert (K02 := keeps_trans _ _ _ _ K K2).
    split; [exists w, v; auto|]. apply IH; [exact F'|exact (text_wf _ _ _ _ _ W T)|exact (k_uni _ _ _ K02)|exact (equipped_kept _ _ _ K02 Q)|].
    intros y Hy. rewrite (kept_local G s s2 R K02). apply B. exact Hy.
  - inversion F as [|? t ? ts Pt F']; subst. cbn [entry_text] in Pt.
    destruct (one_text _ _ t Pt (guarded_full g) s W eq_refl) as (c & s1 & K & W1 & H1 & T). assert (Eg := k_global _ _ _ K).
    destruct (guarded_run G g Pg s1 c W1 (equipped_kept _ _ _ K Q) H1) as [_ A]. destruct (A M H) as (m & s2 & Ev & Hm & K2). rewrite Eg in Ev.
    specialize (T _ _ Ev (ex_intro _ _ eq_refl)). split; [eauto|]. intros o s' T'. destruct (runs_det _ _ _ _ _ _ _ _ T T') as [<- <-]. assert (K02 := keeps_trans _ _ _ _ K K2).
    split; [exists m; auto|]. apply IH; [exact F'|exact (text_wf _ _ _ _ _ W T)|exact (k_uni _ _ _ K02)|exact (equipped_kept _ _ _ K02 Q)|].
    intros y Hy. rewrite (kept_local G s s2 R K02). apply B. exact Hy.
Qed.
Lemma rescue_fresh u is rs texts s : foreseen [] is rs -> Forall2 (fun i t => program u [entry_text i] t) is texts -> wf_state s -> s_uni s = u -> has_builtins s -> offers s "error" -> offers s "on-error" ->
  (forall x, In x (introduced is) -> local_binding s (s_global s) x = None) -> as_foreseen texts rs s.
Proof. intros E F W U B Oe Oo N. apply (rescue_session u [] is rs E texts s F W U); [split; [split; [exact B|discriminate]|auto]|exact N]. Qed.
(** One guarded expression, when the functions are defined. *)
Lemma rescue_value G g P c s : ends_in G g P -> proper_guarded g -> wf_state s -> ready G s -> offers s "error" -> offers s "on-error" -> holds s c (guarded_text g) ->
  (exists w s', evals c (s_global s) s (Done (Ok w)) s') /\
  forall o s', evals c (s_global s) s o s' -> exists w v, o = Done (Ok w) /\ stands_for s' w v /\ P v /\ keeps [] s s'.
Proof.
  intros H Pg W R Oe Oo Hc. destruct (guarded_run G g Pg s c W (conj R (conj Oe Oo)) Hc) as [A _]. destruct (A P H) as (w & v & s' & Ev & Sw & Pv & K).
  split; [eauto|]. intros o s2 Ev2. destruct (runs_det _ _ _ _ _ _ _ _ Ev Ev2) as [<- <-]. exists w, v. auto.
Qed.
Lemma rescue_error G g M c s : breaks G g M -> proper_guarded g -> wf_state s -> ready G s -> offers s "error" -> offers s "on-error" -> holds s c (guarded_text g) ->
  (exists m s', evals c (s_global s) s (Done (Err m)) s') /\
  forall o s', evals c (s_global s) s o s' -> exists m, o = Done (Err m) /\ M m /\ keeps [] s s'.
Proof.
  intros H Pg W R Oe Oo Hc. destruct (guarded_run G g Pg s c W (conj R (conj Oe Oo)) Hc) as [_ A]. destruct (A M H) as (m & s' & Ev & Hm & K).
  split; [eauto|]. intros o s2 Ev2. destruct (runs_det _ _ _ _ _ _ _ _ Ev Ev2) as [<- <-]. exists m. auto.
Qed.
(** *** A sample *)
Lemma rescuing_proper : proper_guarded rescuing.
Proof.
  assert (P : plain_name "m") by plain. cbn [rescuing proper_guarded]. repeat apply conj; try exact P; proper.
Qed.
Lemma rescuing_value : ends_in factorial rescuing (fun v => v = Number 120).
Proof.
  eapply (g_rescued factorial _ _ _ (fun _ => True)).
  - eapply (b_again factorial _ _ _ (fun _ => True)); [| |auto].
    + eapply (b_again factorial _ _ _ (fun t => t = "oops")); [eapply b_symbol; [apply m_quote; reflexivity|reflexivity]| |auto].
      intros t ->. eapply w_refused; [constructor; [apply m_local; reflexivity|constructor; [apply m_num; unfold SpecRead.int64, SpecMath.int64; lia|constructor]]|]. apply (r_arithmetic "+" [] (Characters "oops") [Number 1]); [cbn; tauto|exact Logic.I].
    + intros t _. eapply w_count; [apply m_global; reflexivity|reflexivity|cbn; lia].
  - intros t _. exists (Number 120). split; [|reflexivity].
    eapply (fact_call 5); [reflexivity|unfold small; lia|reflexivity|apply m_num; unfold SpecRead.int64, SpecMath.int64; lia|split; [split; [discriminate|reflexivity]|exists 0; reflexivity]].
Qed.
(** (define (fact n) ...), the guarded expression, and (error 'oops) *)
Definition rescue_sample : list entry :=
  [Introduce "fact" ["n"] (If (Builtin "<" [Name "n"; Num 1]) (Num 1) (Builtin "*" [Name "n"; SpecCore.Call (Name "fact") [Builtin "-" [Name "n"; Num 1]]])); Try rescuing; Try (Throw (Quote (XSym "oops")))].
Lemma rescue_foreseen : foreseen [] rescue_sample [Accepted; One_of (fun v => v = Number 120); Refused (fun m => m = "oops")].
Proof.
  assert (PG := factorial_proper). destruct PG as [_ PG]. destruct (PG "fact" ["n"] _ (or_introl eq_refl)) as (P1 & P2 & P3 & P4).
  apply fs_define; [exact P1|discriminate|discriminate|exact P2|exact P3|exact P4|intros []|]. cbn [app]. change [(_, _)] with factorial.
  apply fs_value; [exact rescuing_proper|exact rescuing_value|]. apply fs_error; [apply p_quote| |constructor]. eapply b_symbol; [apply m_quote; reflexivity|reflexivity].
Qed.
Lemma rescue_texts u : Forall2 (fun i t => program u [entry_text i] t) rescue_sample (map (fun i => all_laid_out [entry_text i]) rescue_sample).
Proof.
  unfold rescue_sample. cbn [map]. repeat (constructor; [apply all_laid_out_program; repeat apply Forall_cons_2; try apply Forall_nil_2;
    cbn [simple_tree definition entry_text guarded_text rescuing written map fst snd fold_right app];
    repeat apply conj; try exact Logic.I; try apply minus_symbol; try (apply symbol_sample; reflexivity); unfold int64; lia|]). constructor.
Qed.
Lemma rescue_offers : offers start "error" /\ offers start "on-error".
Proof. split; apply offered; vm_compute; reflexivity. Qed.
