(** Proofs of C67 for map and fold-left written by the programmer. *)
From Verif Require Export ProofCoreRun SpecOwn.
From stdpp Require Import list.
From Verif Require Import Base Data SpecMath SpecCore SpecOwn.
Local Open Scope string_scope.
Local Open Scope list_scope.
Local Open Scope Z_scope.

Ltac local_name := apply m_local; reflexivity.
Lemma each_call G x body ns' : forall vs ws ns f l, alookup "each" (own ++ G) = alookup "each" own -> means_each (own ++ G) x body ns' vs ws -> alookup "each" ns = None ->
  means (own ++ G) ns f (Closure [x] body ns') -> means (own ++ G) ns l (Items vs) -> means (own ++ G) ns (SpecCore.Call (Name "each") [f; l]) (Items ws).
Proof.
  induction vs as [|v vs IH]; intros ws ns f l EG H N Hf Hl; inversion H; subst;
    (eapply m_call; [eapply m_global; [exact N|rewrite EG; reflexivity]|constructor; [exact Hf|constructor; [exact Hl|constructor]]|reflexivity|]); cbn [combine app];
    (eapply m_if; [eapply m_builtin; [constructor; [local_name|constructor]|apply c_null]|]); cbn [counts_true].
  - eapply m_builtin; [constructor|apply c_list].
  - eapply m_builtin; [constructor; [|constructor; [|constructor]]|apply c_cons].
    + eapply m_call; [local_name|constructor; [eapply m_builtin; [constructor; [local_name|constructor]|apply c_car]|constructor]|reflexivity|]. cbn [combine app]. eassumption.
    + apply IH; [exact EG|assumption|reflexivity|local_name|]. eapply m_builtin; [constructor; [local_name|constructor]|apply c_cdr].
Qed.
Lemma gather_call G x y body ns' : forall vs a r ns f i l, alookup "gather" (own ++ G) = alookup "gather" own -> means_fold (own ++ G) x y body ns' a vs r -> alookup "gather" ns = None ->
  means (own ++ G) ns f (Closure [x; y] body ns') -> means (own ++ G) ns i a -> means (own ++ G) ns l (Items vs) -> means (own ++ G) ns (SpecCore.Call (Name "gather") [f; i; l]) r.
Proof.
  induction vs as [|v vs IH]; intros a r ns f i l EG H N Hf Hi Hl; inversion H; subst;
    (eapply m_call; [eapply m_global; [exact N|rewrite EG; reflexivity]|constructor; [exact Hf|constructor; [exact Hi|constructor; [exact Hl|constructor]]]|reflexivity|]); cbn [combine app];
    (eapply m_if; [eapply m_builtin; [constructor; [local_name|constructor]|apply c_null]|]); cbn [counts_true].
  - local_name.
  - eapply IH; [exact EG|eassumption|reflexivity|local_name| |].
    + eapply m_call; [local_name|constructor; [local_name|constructor; [eapply m_builtin; [constructor; [local_name|constructor]|apply c_car]|constructor]]|reflexivity|]. cbn [combine app]. eassumption.
    + eapply m_builtin; [constructor; [local_name|constructor]|apply c_cdr].
Qed.
Lemma own_value G e e' v ns : instead e e' -> means (own ++ G) ns e v -> alookup "each" ns = None -> alookup "gather" ns = None -> means (own ++ G) ns e' v.
Proof.
  intros I M N1 N2. destruct I; inversion M; subst;
    try (match goal with H : computes _ _ _ |- _ => inversion H end; fail);
    repeat match goal with H : means_all _ _ (_ :: _) (_ :: _) |- _ => inversion H; clear H; subst end.
  - eapply each_call; eauto.
  - eapply gather_call; eauto.
Qed.
Lemma own_runs u G e e' v src src' : instead e e' -> proper e -> proper e' -> proper_globals (own ++ G) -> means (own ++ G) [] e v ->
  program u (map definition (own ++ G) ++ [written e]) src -> program u (map definition (own ++ G) ++ [written e']) src' ->
  forall s, wf_state s -> s_uni s = u -> has_builtins s -> (forall x, In x (map fst (own ++ G)) -> local_binding s (s_global s) x = None) ->
  (exists w t w' t', run_text src (s_global s) s (Done (Ok w)) t /\ run_text src' (s_global s) s (Done (Ok w')) t') /\
  forall o t o' t', run_text src (s_global s) s o t -> run_text src' (s_global s) s o' t' ->
    exists w w', o = Done (Ok w) /\ o' = Done (Ok w') /\ stands_for t w v /\ stands_for t' w' v.
Proof.
  intros I Pe Pe' PG M P P' s W Eu B U. assert (M' := own_value G e e' v [] I M eq_refl eq_refl).
  destruct (program_value u _ e v src P PG Pe M s W Eu B U) as ((w & t & T) & Q).
  destruct (program_value u _ e' v src' P' PG Pe' M' s W Eu B U) as ((w' & t' & T') & Q'). split.
  - exists w, t, w', t'. split; assumption.
  - intros o1 t1 o2 t2 T1 T2. destruct (Q _ _ T1) as (w1 & -> & S1 & _), (Q' _ _ T2) as (w2 & -> & S2 & _). exists w1, w2. repeat split; assumption.
Qed.
Lemma own_proper : proper_globals own.
Proof.
  split; [apply List.NoDup_cons; [intros [[=]|[]]|apply List.NoDup_cons; [intros []|apply List.NoDup_nil]]|].
  intros x xs body [[= <- <- <-]|[[= <- <- <-]|[]]]; (split; [plain|]; split; [proper|]; split; [proper|]; proper).
Qed.
Lemma own_unbound : forall x, In x (map fst own) -> local_binding start (s_global start) x = None.
Proof. intros x [<-|[<-|[]]]; vm_compute; reflexivity. Qed.
Definition doubled : expr := Builtin "map" [Lambda ["x"] (Builtin "*" [Name "x"; Num 2]); Builtin "list" [Num 4; Num (-5)]].
Definition doubled' : expr := SpecCore.Call (Name "each") [Lambda ["x"] (Builtin "*" [Name "x"; Num 2]); Builtin "list" [Num 4; Num (-5)]].
Lemma doubled_means : means own [] doubled (Items [Number 8; Number (-10)]).
Proof.
  assert (I : forall z, -100 <= z <= 100 -> SpecMath.int64 z) by (intros z; unfold SpecMath.int64; lia).
  eapply m_map; [constructor; [apply m_lambda|constructor; [eapply m_builtin; [|apply c_list]|constructor]]| |].
  - constructor; [apply m_num, I; lia|constructor; [apply m_num, I; lia|constructor]].
  - unfold fits. cbn [length]. lia.
  - constructor; [|constructor; [|constructor]]; (eapply m_builtin; [constructor; [local_name|constructor; [apply m_num, I; lia|constructor]]|apply c_times, mod64_same, I; lia]).
Qed.
Lemma doubled_program u e : e = doubled \/ e = doubled' -> let ds := map definition own ++ [written e] in program u ds (all_laid_out ds).
Proof.
  intros He. apply all_laid_out_program. destruct He as [-> | ->];
    (constructor; [|constructor; [|constructor; [|constructor]]]); cbn [simple_tree definition written own doubled doubled' map fst snd fold_right];
    repeat apply conj; try exact Logic.I; try (apply symbol_sample; reflexivity); unfold SpecMath.int64, SpecRead.int64 in *; lia.
Qed.
Lemma doubled_proper : proper doubled /\ proper doubled'.
Proof. split; proper. Qed.
