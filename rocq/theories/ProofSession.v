(** Proofs of C73: texts run one after the other, some of which fail. *)
From Verif Require Export ProofFailRun SpecSession.
From stdpp Require Import list.
From Verif Require Import Base Data SpecCore SpecFail SpecEval SpecSession.
Local Open Scope string_scope.
Local Open Scope list_scope.
Local Open Scope Z_scope.

Lemma expected_new G is answers : expected G is answers -> forall x, In x (new_names is) -> ~ In x (map fst G).
Proof.
  induction 1 as [G|G x xs body is answers Px Pxs Nd Pb Nx _ IH|G e v is answers P M _ IH|G e is answers P M _ IH]; intros y I; cbn [new_names flat_map app] in I; [destruct I| |exact (IH y I)|exact (IH y I)].
  destruct I as [<-|I]; [exact Nx|]. intros J. apply (IH y I). rewrite map_app. apply in_or_app. left. exact J.
Qed.
Lemma kept_local G s s' : ready G s -> keeps [] s s' -> forall y, local_binding s' (s_global s') y = local_binding s (s_global s) y.
Proof.
  intros [(ge & He & _) _] K y. assert (Q := k_envs _ _ _ K _ _ ltac:(intros []) He). unfold local_binding. rewrite (k_global _ _ _ K), (env_is _ _ _ Q), (env_is _ _ _ He). reflexivity.
Qed.
(** One text with one datum: it is put into memory and evaluated. *)
Lemma one_text u d src : program u [d] src -> d <> XList [] -> forall s, wf_state s -> s_uni s = u -> exists c s1, keeps [] s s1 /\ wf_state s1 /\ holds s1 c d /\
  forall o s', evals c (s_global s) s1 o s' -> (exists r, o = Done r) -> run_text src (s_global s) s o s'.
Proof.
  intros P N s W U. destruct (run_program u _ src P) as (puts & F & H). inversion F as [|? put ? puts' Pl F']; subst. inversion F'; subst.
  destruct (Pl s W) as (G1 & W1 & H1). exists (fst (put s)), (snd (put s)). split; [exact (grows_keeps _ _ G1)|]. split; [exact W1|]. split; [exact H1|].
  intros o s' Ev (r & ->). apply (H (s_global s) s eq_refl). cbn [combine]. apply in_turn_next; [exact N|]. exists (Done r), s'. split; [exact Ev|]. destruct r; split; reflexivity.
Qed.
Lemma text_wf src env s o s' : wf_state s -> run_text src env s o s' -> wf_state s'.
Proof. apply wf_runs. Qed.
Lemma session u G is answers : expected G is answers -> forall texts s, Forall2 (fun i t => program u [entered i] t) is texts -> wf_state s -> s_uni s = u -> ready G s ->
  (forall x, In x (new_names is) -> local_binding s (s_global s) x = None) -> as_expected texts answers s.
Proof.
  induction 1 as [G|G x xs body is answers Px Pxs Nd Pb Nx E IH|G e v is answers P M _ IH|G e is answers P M _ IH]; intros texts s F W U R B.
  - inversion F; subst. exact Logic.I.
  - inversion F as [|? t ? ts Pt F']; subst. cbn [entered] in Pt.
    destruct (one_text _ _ t Pt ltac:(discriminate) s W eq_refl) as (c & s1 & K & W1 & H1 & T). assert (Lb := kept_local G s s1 R K). assert (Eg := k_global _ _ _ K).
    destruct (define_step G s1 c x xs body W1 (ready_still _ _ _ K R) Px Pxs Nd Pb) as (w & s2 & Ev & W2 & R2 & Eg2 & Eu & Lo).
    + rewrite Lb. apply B. left. reflexivity.
    + apply alookup_not_in. exact Nx.
    + exact H1.
    + rewrite Eg in Ev. specialize (T _ _ Ev (ex_intro _ _ eq_refl)). split; [eauto|]. intros o s' T'. destruct (runs_det _ _ _ _ _ _ _ _ T T') as [<- <-].
      split; [exists w; reflexivity|]. apply IH; [exact F'|exact W2|rewrite Eu; exact (k_uni _ _ _ K)|exact R2|].
      intros y Hy. assert (y <> x). { intros ->. apply (expected_new _ _ _ E x Hy). rewrite map_app. apply in_or_app. right. left. reflexivity. }
      rewrite Lo by assumption. rewrite Lb. apply B. right. exact Hy.
  - inversion F as [|? t ? ts Pt F']; subst. cbn [entered] in Pt.
    destruct (one_text _ _ t Pt (written_not_empty e) s W eq_refl) as (c & s1 & K & W1 & H1 & T). assert (Eg := k_global _ _ _ K).
    assert (Sg : sees s1 (s_global s) []) by (rewrite <- Eg; constructor).
    destruct (expression_value G [] e v c (s_global s) s1 M P W1 (ready_still _ _ _ K R) Sg H1) as ((w & s2 & Ev) & Q). destruct (Q _ _ Ev) as (w' & [= <-] & Sw & K2 & R2).
    specialize (T _ _ Ev (ex_intro _ _ eq_refl)). split; [eauto|]. intros o s' T'. destruct (runs_det _ _ _ _ _ _ _ _ T T') as [<- <-]. assert (K02 := keeps_trans _ _ _ _ K K2).
    split; [exists w; split; [reflexivity|]; split; [exact Sw|exact K02]|]. apply IH; [exact F'|exact (text_wf _ _ _ _ _ W T)|exact (k_uni _ _ _ K02)|exact R2|].
    intros y Hy. rewrite (kept_local G s s2 R K02). apply B. exact Hy.
  - inversion F as [|? t ? ts Pt F']; subst. cbn [entered] in Pt.
    destruct (one_text _ _ t Pt (written_not_empty e) s W eq_refl) as (c & s1 & K & W1 & H1 & T). assert (Eg := k_global _ _ _ K).
    assert (Sg : sees s1 (s_global s) []) by (rewrite <- Eg; constructor).
    destruct (expression_unchanged G [] e c (s_global s) s1 M P W1 (ready_still _ _ _ K R) Sg H1) as ((m & s2 & Ev) & Q). destruct (Q _ _ Ev) as (m' & [= <-] & K2 & R2).
    specialize (T _ _ Ev (ex_intro _ _ eq_refl)). split; [eauto|]. intros o s' T'. destruct (runs_det _ _ _ _ _ _ _ _ T T') as [<- <-]. assert (K02 := keeps_trans _ _ _ _ K K2).
    split; [exists m; split; [reflexivity|exact K02]|]. apply IH; [exact F'|exact (text_wf _ _ _ _ _ W T)|exact (k_uni _ _ _ K02)|exact R2|].
    intros y Hy. rewrite (kept_local G s s2 R K02). apply B. exact Hy.
Qed.
Lemma fresh_session u is answers texts s : expected [] is answers -> Forall2 (fun i t => program u [entered i] t) is texts -> wf_state s -> s_uni s = u -> has_builtins s ->
  (forall x, In x (new_names is) -> local_binding s (s_global s) x = None) -> as_expected texts answers s.
Proof. intros E F W U B N. apply (session u [] is answers E texts s F W U); [split; [exact B|discriminate]|exact N]. Qed.
Lemma persevering_expected bad n r : Forall (fun e => proper e /\ goes_wrong factorial [] e) bad -> small (Z.of_nat n) -> mod64 r (Z.of_nat (fact n)) ->
  expected [] (persevering bad n) (Defined :: map (fun _ => Failed) bad ++ [Value (Number r)]).
Proof.
  intros F Hs Hm. assert (PG := factorial_proper). destruct PG as [_ PG]. destruct (PG "fact" ["n"] _ (or_introl eq_refl)) as (P1 & P2 & P3 & P4).
  apply x_define; [exact P1|exact P2|exact P3|exact P4|intros []|]. cbn [app]. change [(_, _)] with factorial.
  induction F as [|e bad [Pe We] _ IH]; cbn [map app].
  - apply x_value; [proper|exact (fact_means n r Hs Hm)|constructor].
  - apply x_failed; [exact Pe|exact We|exact IH].
Qed.
Lemma persevering_recovers u bad n r texts s : Forall (fun e => proper e /\ goes_wrong factorial [] e) bad -> small (Z.of_nat n) -> mod64 r (Z.of_nat (fact n)) ->
  Forall2 (fun i t => program u [entered i] t) (persevering bad n) texts -> wf_state s -> s_uni s = u -> has_builtins s -> local_binding s (s_global s) "fact" = None ->
  as_expected texts (Defined :: map (fun _ => Failed) bad ++ [Value (Number r)]) s.
Proof.
  intros F Hs Hm T W U B N. apply (fresh_session u (persevering bad n)); try assumption; [apply persevering_expected; assumption|].
  intros x I. cbn [persevering new_names flat_map app] in I. destruct I as [<-|I]; [exact N|]. exfalso. clear -I. induction bad as [|b bad IH]; [exact I|exact (IH I)].
Qed.
Lemma persevering_texts u : let is := persevering [too_many; SpecCore.Call (Name "fact") [Num 1; Num 2]] 5 in
  Forall2 (fun i t => program u [entered i] t) is (map (fun i => all_laid_out [entered i]) is).
Proof.
  cbn [persevering map app]. repeat (constructor; [apply all_laid_out_program; repeat apply Forall_cons_2; try apply Forall_nil_2;
    cbn [simple_tree definition entered written factorial too_many map fst snd fold_right app];
    repeat apply conj; try exact Logic.I; try apply minus_symbol; try (apply symbol_sample; reflexivity); unfold int64; lia|]). constructor.
Qed.
Lemma one_too_many : goes_wrong factorial [] (SpecCore.Call (Name "fact") [Num 1; Num 2]).
Proof. eapply w_count; [apply m_global; reflexivity|reflexivity|cbn; lia]. Qed.
Lemma one_too_many_proper : proper (SpecCore.Call (Name "fact") [Num 1; Num 2]).
Proof. proper. Qed.
