(** Proofs of C67 for ways of writing the same thing. *)
From Verif Require Export ProofCoreRun SpecRewrite.
From stdpp Require Import list.
From Verif Require Import Base Data SpecMath SpecCore SpecRewrite.
Local Open Scope string_scope.
Local Open Scope list_scope.
Local Open Scope Z_scope.

Ltac all_inv := repeat match goal with H : means_all _ _ (_ :: _) _ |- _ => inversion H; clear H; subst | H : means_all _ _ [] _ |- _ => inversion H; clear H; subst | H : Forall _ (_ :: _) |- _ => inversion H; clear H; subst end.
Lemma all_length G ns : forall es vs, means_all G ns es vs -> length es = length vs.
Proof. induction es as [|e es IH]; intros vs H; inversion H; subst; [reflexivity|]. cbn [length]. f_equal. auto. Qed.
Lemma and_split G ns a b es v : means G ns (And (a :: b :: es)) v <-> (means G ns a v /\ counts_true v = false) \/ exists w, means G ns a w /\ counts_true w = true /\ means G ns (And (b :: es)) v.
Proof.
  split.
  - intros M. inversion M as [| | | | | | | | | | | |? es0 vs e rest ? MA F Me R Eq| | | | | | | | |]; subst. destruct es0 as [|a0 es0]; cbn [app] in *.
    + match goal with H : _ :: _ = _ :: _ |- _ => inversion H; clear H; subst | _ => idtac end. destruct R as [[=]|R]. left. auto.
    + match goal with H : _ :: _ ++ _ = _ :: _ |- _ => injection H as -> H end. all_inv. right. eexists. split; [eassumption|]. split; [eassumption|].
      match goal with H : es0 ++ _ = _ |- _ => rewrite <- H | _ => idtac end. eapply m_and; eassumption.
  - intros [(M & C)|(w & M & C & M')].
    + apply (m_and G ns [] [] a (b :: es) v); [constructor|constructor|exact M|right; exact C].
    + inversion M' as [| | | | | | | | | | | |? es0 vs e rest ? MA F Me R Eq| | | | | | | | |]; subst.
      change (a :: es0 ++ e :: rest) with ((a :: es0) ++ e :: rest). eapply m_and; [constructor; eassumption|constructor; eassumption|exact Me|exact R].
Qed.
Lemma or_split G ns a b es v : means G ns (Or (a :: b :: es)) v <-> (means G ns a v /\ counts_true v = true) \/ exists w, means G ns a w /\ counts_true w = false /\ means G ns (Or (b :: es)) v.
Proof.
  split.
  - intros M. inversion M as [| | | | | | | | | | | | |? es0 vs e rest ? MA F Me R Eq| | | | | | | |]; subst. destruct es0 as [|a0 es0]; cbn [app] in *.
    + match goal with H : _ :: _ = _ :: _ |- _ => inversion H; clear H; subst | _ => idtac end. destruct R as [[=]|R]. left. auto.
    + match goal with H : _ :: _ ++ _ = _ :: _ |- _ => injection H as -> H end. all_inv. right. eexists. split; [eassumption|]. split; [eassumption|].
      match goal with H : es0 ++ _ = _ |- _ => rewrite <- H | _ => idtac end. eapply m_or; eassumption.
  - intros [(M & C)|(w & M & C & M')].
    + apply (m_or G ns [] [] a (b :: es) v); [constructor|constructor|exact M|right; exact C].
    + inversion M' as [| | | | | | | | | | | | |? es0 vs e rest ? MA F Me R Eq| | | | | | | |]; subst.
      change (a :: es0 ++ e :: rest) with ((a :: es0) ++ e :: rest). eapply m_or; [constructor; eassumption|constructor; eassumption|exact Me|exact R].
Qed.
Lemma if_split G ns c t e v : means G ns (If c t e) v <-> exists b, means G ns c b /\ means G ns (if counts_true b then t else e) v.
Proof. split; [intros M; inversion M; subst; eauto|intros (b & H1 & H2); eapply m_if; eauto]. Qed.
Lemma cond_split G ns t e cs o v : means G ns (Cond ((t, e) :: cs) o) v <-> exists b, means G ns t b /\ means G ns (if counts_true b then e else Cond cs o) v.
Proof.
  split.
  - intros M. inversion M as [| | | | | | | | |? cs0 bs t0 e0 b rest ? ? MA F Mt C Me Eq|? cs0 bs e0 ? MA F Me|? cs0 bs MA F| | | | | | | | | |]; subst.
    + destruct cs0 as [|[t1 e1] cs0]; cbn [app map fst] in *.
      * match goal with H : _ :: _ = _ :: _ |- _ => inversion H; clear H; subst | _ => idtac end. exists b. rewrite C. auto.
      * match goal with H : _ :: _ = _ :: _ |- _ => inversion H; clear H; subst | _ => idtac end.
        all_inv. eexists. split; [eassumption|]. match goal with H : counts_true ?x = false |- context [counts_true ?x] => rewrite H end. eapply m_cond; eassumption.
    + cbn [map fst] in *. all_inv. eexists. split; [eassumption|]. match goal with H : counts_true ?x = false |- context [counts_true ?x] => rewrite H end. eapply m_cond_else; eassumption.
    + cbn [map fst] in *. all_inv. eexists. split; [eassumption|]. match goal with H : counts_true ?x = false |- context [counts_true ?x] => rewrite H end. eapply m_cond_none; eassumption.
  - intros (b & Mt & M). destruct (counts_true b) eqn:C.
    + apply (m_cond G ns [] [] t e b cs o v); [constructor|constructor|exact Mt|exact C|exact M].
    + inversion M as [| | | | | | | | |? cs0 bs t0 e0 b0 rest ? ? MA F Mt0 C0 Me Eq|? cs0 bs e0 ? MA F Me|? cs0 bs MA F| | | | | | | | | |]; subst.
      * change ((t, e) :: cs0 ++ (t0, e0) :: rest) with (((t, e) :: cs0) ++ (t0, e0) :: rest).
        eapply m_cond; [cbn [map fst]; constructor; eassumption|constructor; eassumption|exact Mt0|exact C0|exact Me].
      * eapply m_cond_else; [cbn [map fst]; constructor; eassumption|constructor; eassumption|exact Me].
      * eapply m_cond_none; [cbn [map fst]; constructor; eassumption|constructor; eassumption].
Qed.
Lemma single_and G ns e v : means G ns (And [e]) v <-> means G ns e v.
Proof.
  split; [|intros M; apply (m_and G ns [] [] e [] v); [constructor|constructor|exact M|left; reflexivity]].
  intros M. inversion M as [| | | | | | | | | | | |? es0 vs e0 rest ? MA F Me R Eq| | | | | | | | |]; subst.
  destruct es0 as [|a0 [|]]; cbn [app] in *; match goal with H : _ :: _ = _ |- _ => inversion H; subst end. exact Me.
Qed.
Lemma single_or G ns e v : means G ns (Or [e]) v <-> means G ns e v.
Proof.
  split; [|intros M; apply (m_or G ns [] [] e [] v); [constructor|constructor|exact M|left; reflexivity]].
  intros M. inversion M as [| | | | | | | | | | | | |? es0 vs e0 rest ? MA F Me R Eq| | | | | | | |]; subst.
  destruct es0 as [|a0 [|]]; cbn [app] in *; match goal with H : _ :: _ = _ |- _ => inversion H; subst end. exact Me.
Qed.
Lemma single_begin G ns e v : means G ns (Begin [e]) v <-> means G ns e v.
Proof.
  split; [|intros M; apply (m_begin G ns [] [] e v); [constructor|exact M]].
  intros M. inversion M as [| | | | | | | | | | | | | |? es0 vs e0 ? MA Me Eq| | | | | | |]; subst.
  destruct es0 as [|a0 [|]]; cbn [app] in *; match goal with H : _ :: _ = _ |- _ => inversion H; subst end. exact Me.
Qed.
Lemma else_only G ns e v : means G ns (Cond [] (Some e)) v <-> means G ns e v.
Proof.
  split; [|intros M; apply (m_cond_else G ns [] []); [constructor|constructor|exact M]].
  intros M. inversion M; subst; [|assumption]. match goal with H : ?l ++ _ :: _ = [] |- _ => destruct l; discriminate H end.
Qed.
Lemma let_lambda G ns bs body v : means G ns (Let bs body) v <-> means G ns (SpecCore.Call (Lambda (map fst bs) body) (map snd bs)) v.
Proof.
  split; intros M; inversion M; subst.
  - eapply m_call; [apply m_lambda|eassumption| |eassumption]. match goal with H : means_all _ _ _ _ |- _ => rewrite <- (all_length _ _ _ _ H) end. rewrite !map_length. reflexivity.
  - match goal with H : means _ _ (Lambda _ _) _ |- _ => inversion H; subst end. eapply m_let; eassumption.
  - match goal with H : means _ _ (Lambda _ _) _ |- _ => inversion H end.
Qed.
Lemma if_not G ns c t e v : means G ns (If (Builtin "not" [c]) t e) v <-> means G ns (If c e t) v.
Proof.
  rewrite !if_split. split.
  - intros (b & Mb & M). inversion Mb; subst. all_inv. match goal with H : computes _ _ _ |- _ => inversion H; subst end.
    eexists. split; [eassumption|]. cbn [counts_true] in M. destruct (counts_true _); exact M.
  - intros (b & Mb & M). exists (Boolean (negb (counts_true b))). split; [eapply m_builtin; [constructor; [exact Mb|constructor]|apply c_not]|].
    cbn [counts_true]. destruct (counts_true b); exact M.
Qed.
Lemma if_and G ns a b es t e v : means G ns (If (And (a :: b :: es)) t e) v <-> means G ns (If a (If (And (b :: es)) t e) e) v.
Proof.
  rewrite !if_split. split.
  - intros (w & Mw & M). apply and_split in Mw. destruct Mw as [(Mw & C)|(w' & Mw & C & Mr)].
    + exists w. rewrite C in M |- *. auto.
    + exists w'. rewrite C. split; [exact Mw|]. apply if_split. eauto.
  - intros (w & Mw & M). destruct (counts_true w) eqn:C.
    + apply if_split in M. destruct M as (w' & Mr & M). exists w'. split; [|exact M]. apply and_split. right. eauto.
    + exists w. rewrite C. split; [|exact M]. apply and_split. left. auto.
Qed.
Lemma if_or G ns a b es t e v : means G ns (If (Or (a :: b :: es)) t e) v <-> means G ns (If a t (If (Or (b :: es)) t e)) v.
Proof.
  rewrite !if_split. split.
  - intros (w & Mw & M). apply or_split in Mw. destruct Mw as [(Mw & C)|(w' & Mw & C & Mr)].
    + exists w. rewrite C in M |- *. auto.
    + exists w'. rewrite C. split; [exact Mw|]. apply if_split. eauto.
  - intros (w & Mw & M). destruct (counts_true w) eqn:C.
    + exists w. rewrite C. split; [|exact M]. apply or_split. left. auto.
    + apply if_split in M. destruct M as (w' & Mr & M). exists w'. split; [|exact M]. apply or_split. right. eauto.
Qed.
Lemma same_value e e' : same_thing e e' -> forall G ns v, means G ns e v <-> means G ns e' v.
Proof.
  induction 1; intros G ns v.
  - apply let_lambda.
  - rewrite cond_split, if_split. reflexivity.
  - apply else_only.
  - apply if_not.
  - apply if_and.
  - apply if_or.
  - apply single_and.
  - apply single_or.
  - apply single_begin.
  - symmetry. apply IHsame_thing.
  - rewrite IHsame_thing1. apply IHsame_thing2.
Qed.
Lemma same_runs u G e e' v src src' : same_thing e e' -> proper e -> proper e' -> proper_globals G -> means G [] e v ->
  program u (map definition G ++ [written e]) src -> program u (map definition G ++ [written e']) src' ->
  forall s, wf_state s -> s_uni s = u -> has_builtins s -> (forall x, In x (map fst G) -> local_binding s (s_global s) x = None) ->
  (exists w t w' t', run_text src (s_global s) s (Done (Ok w)) t /\ run_text src' (s_global s) s (Done (Ok w')) t') /\
  forall o t o' t', run_text src (s_global s) s o t -> run_text src' (s_global s) s o' t' ->
    exists w w', o = Done (Ok w) /\ o' = Done (Ok w') /\ stands_for t w v /\ stands_for t' w' v.
Proof.
  intros I Pe Pe' PG M P P' s W Eu B U. assert (M' := proj1 (same_value e e' I G [] v) M).
  destruct (program_value u _ e v src P PG Pe M s W Eu B U) as ((w & t & T) & Q).
  destruct (program_value u _ e' v src' P' PG Pe' M' s W Eu B U) as ((w' & t' & T') & Q'). split.
  - exists w, t, w', t'. split; assumption.
  - intros o1 t1 o2 t2 T1 T2. destruct (Q _ _ T1) as (w1 & -> & S1 & _), (Q' _ _ T2) as (w2 & -> & S2 & _). exists w1, w2. repeat split; assumption.
Qed.
Definition sign : expr := Let [("x", Num (-7))] (Cond [(Builtin "negative?" [Name "x"], Num (-1))] (Some (Num 1))).
Definition sign' : expr := SpecCore.Call (Lambda ["x"] (Cond [(Builtin "negative?" [Name "x"], Num (-1))] (Some (Num 1)))) [Num (-7)].
Lemma sign_means : means [] [] sign (Number (-1)).
Proof.
  assert (I : SpecMath.int64 (-7)) by (unfold SpecMath.int64; lia).
  eapply m_let; [constructor; [apply m_num, I|constructor]|]. cbn [map fst combine app].
  apply (m_cond [] _ [] [] (Builtin "negative?" [Name "x"]) (Num (-1)) (Boolean true) []); [apply m_none|apply Forall_nil_2| |reflexivity|apply m_num; unfold SpecMath.int64, SpecRead.int64; lia].
  eapply m_builtin; [constructor; [apply m_local; reflexivity|constructor]|]. apply (c_negative (-7)), I.
Qed.
Lemma sign_proper : proper sign /\ proper sign'.
Proof.
  assert (P : proper (Cond [(Builtin "negative?" [Name "x"], Num (-1))] (Some (Num 1)))).
  { apply p_cond.
    - intros c [<-|[]]. cbn [fst snd]. split; [discriminate|]. split; [proper|apply p_num].
    - intros e [= <-]. apply p_num. }
  split.
  - apply p_let; [proper|proper|intros b [<-|[]]; apply p_num|exact P].
  - apply p_call; [apply p_lambda; [proper|proper|exact P]|proper].
Qed.
Lemma sign_program u e : e = sign \/ e = sign' -> program u [written e] (all_laid_out [written e]).
Proof.
  intros He. apply all_laid_out_program. apply Forall_cons_2; [|apply Forall_nil_2]. destruct He as [-> | ->];
    cbn [simple_tree definition written sign sign' map fst snd fold_right app];
    repeat apply conj; try exact Logic.I; try (apply symbol_sample; reflexivity); try (unfold SpecMath.int64, SpecRead.int64 in *; lia).
Qed.
