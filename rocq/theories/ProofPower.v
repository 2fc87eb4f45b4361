(** Proofs of C67 for powers by repeated squaring. *)
From Verif Require Export ProofCoreRun SpecPower.
From Coq Require Import Zpow_facts.
From stdpp Require Import list.
From Verif Require Import Base Data SpecMath SpecCore SpecPower ProofMath.
Local Open Scope string_scope.
Local Open Scope list_scope.
Local Open Scope Z_scope.

Lemma mod64_power b x r q : mod64 b x -> mod64 r (x ^ q) -> mod64 r (b ^ q).
Proof.
  intros [_ (k & Ex)] [Ir (j & Ej)]. split; [exact Ir|].
  assert (E : (b ^ q) mod 2 ^ 64 = (x ^ q) mod 2 ^ 64).
  { rewrite (Zpower_mod b), (Zpower_mod x) by reflexivity. rewrite Ex, Z.mod_add by discriminate. reflexivity. }
  assert (D1 := Z.div_mod (b ^ q) (2 ^ 64) ltac:(discriminate)). assert (D2 := Z.div_mod (x ^ q) (2 ^ 64) ltac:(discriminate)).
  exists ((b ^ q) / 2 ^ 64 - (x ^ q) / 2 ^ 64 + j). rewrite E in D1. lia.
Qed.
Lemma mod64_factor b p x r : mod64 p x -> mod64 r (b * x) -> mod64 r (b * p).
Proof. intros [_ (k & Ex)] [Ir (j & Ej)]. split; [exact Ir|]. exists (j - b * k). rewrite Ex in Ej. lia. Qed.
Lemma power_call : forall k n b ns e1 e2 r, (Z.to_nat n <= k)%nat -> 0 <= n -> int64 n -> alookup "power" ns = None ->
  means power ns e1 (Number b) -> means power ns e2 (Number n) -> mod64 r (b ^ n) -> means power ns (SpecCore.Call (Name "power") [e1; e2]) (Number r).
Proof.
  induction k as [|k IH]; intros n b ns e1 e2 r Hk Hn In N H1 H2 Hr;
    (eapply m_call; [eapply m_global; [exact N|reflexivity]|constructor; [exact H1|constructor; [exact H2|constructor]]|reflexivity|]); cbn [combine app];
    (eapply m_if; [eapply m_builtin; [constructor; [apply m_local; reflexivity|constructor]|apply c_zero, In]|]); cbn [counts_true].
  - assert (n = 0) as -> by lia. cbn [Z.eqb]. assert (r = 1) as -> by (apply (mod64_unique _ _ _ Hr), mod64_same; unfold SpecMath.int64; lia). apply m_num. unfold SpecMath.int64, SpecRead.int64. lia.
  - destruct (Z.eqb_spec n 0) as [->|Nn].
    { assert (r = 1) as -> by (apply (mod64_unique _ _ _ Hr), mod64_same; unfold SpecMath.int64; lia). apply m_num. unfold SpecMath.int64, SpecRead.int64. lia. }
    eapply m_if; [eapply m_builtin; [constructor; [apply m_local; reflexivity|constructor]|apply c_even]|]. cbn [counts_true]. destruct (Z.even n) eqn:Ev.
    + apply Z.even_spec in Ev. destruct Ev as (q & ->). assert (Iq : SpecMath.int64 q) by (unfold SpecMath.int64, SpecRead.int64 in *; lia).
      apply (IH q (wrap64 (b * b))); [lia|lia|exact Iq|reflexivity| | |].
      * eapply m_builtin; [constructor; [apply m_local; reflexivity|constructor; [apply m_local; reflexivity|constructor]]|]. apply c_times, mod64_wrap.
      * eapply m_builtin; [constructor; [apply m_local; reflexivity|constructor; [apply m_num; unfold SpecMath.int64, SpecRead.int64; lia|constructor]]|].
        apply (c_quotient (2 * q) 2 q 0); [discriminate| |apply mod64_same, Iq]. unfold divides_into. lia.
      * apply (mod64_power _ (b * b)); [apply mod64_wrap|]. rewrite <- Z.pow_2_r, <- Z.pow_mul_r by lia. exact Hr.
    + eapply m_builtin; [constructor; [apply m_local; reflexivity|constructor; [|constructor]]|].
      * apply (IH (n - 1) b _ _ _ (wrap64 (b ^ (n - 1)))); [lia|lia|unfold SpecMath.int64, SpecRead.int64 in *; lia|reflexivity|apply m_local; reflexivity| |apply mod64_wrap].
        eapply m_builtin; [constructor; [apply m_local; reflexivity|constructor]|]. apply c_pred, mod64_same. unfold SpecMath.int64, SpecRead.int64 in *. lia.
      * apply c_times. apply (mod64_factor _ _ (b ^ (n - 1))); [apply mod64_wrap|]. rewrite <- Z.pow_succ_r by lia. replace (Z.succ (n - 1)) with n by lia. exact Hr.
Qed.
Lemma power_proper : proper_globals power.
Proof.
  split; [apply List.NoDup_cons; [intros []|apply List.NoDup_nil]|]. intros x xs body [[= <- <- <-]|[]]. split; [plain|]. split; [proper|]. split; [proper|]. proper.
Qed.
Lemma power_program u b n : int64 b -> int64 n -> let ds := map definition power ++ [written (SpecCore.Call (Name "power") [Num b; Num n])] in program u ds (all_laid_out ds).
Proof.
  intros Hb Hn. apply all_laid_out_program. constructor; [|constructor; [|constructor]]; cbn [simple_tree definition written power map fst snd fold_right];
    repeat apply conj; try exact Logic.I; try (apply symbol_sample; reflexivity); unfold SpecMath.int64, SpecRead.int64 in *; lia.
Qed.
Lemma power_runs u b n r src : int64 b -> int64 n -> 0 <= n -> mod64 r (b ^ n) ->
  program u (map definition power ++ [written (SpecCore.Call (Name "power") [Num b; Num n])]) src ->
  forall s, wf_state s -> s_uni s = u -> has_builtins s -> local_binding s (s_global s) "power" = None ->
  (exists s', run_text src (s_global s) s (Done (Ok (VInt r))) s') /\ forall o s', run_text src (s_global s) s o s' -> o = Done (Ok (VInt r)).
Proof.
  intros Ib In Hn Hr P s W Eu B U. refine (one_number u power _ _ src P power_proper ltac:(proper) _ s W Eu B _).
  - eapply power_call; [reflexivity|exact Hn|exact In|reflexivity|apply m_num; exact Ib|apply m_num; exact In|exact Hr].
  - intros x [<-|[]]. exact U.
Qed.
Lemma power_unbound : local_binding start (s_global start) "power" = None.
Proof. vm_compute. reflexivity. Qed.
