(** Sorting integers with < (C09). *)
From Verif Require Import ProofApply ProofHigher ProofMath ProofFloat.
From Coq Require Import Permutation Sorted.
From stdpp Require Import list.
From Verif Require ProofList.
From Verif Require Import Data.
Local Open Scope string_scope.
Local Open Scope list_scope.
Local Open Scope Z_scope.

Definition int_lt (a b : val) : bool := match a, b with VInt x, VInt y => x <? y | _, _ => false end.
Lemma int_lt_weak zs : strict_weak int_lt (map VInt zs).
Proof.
  split.
  - intros a H. apply in_map_iff in H. destruct H as (x & <- & _). cbn. lia.
  - intros a b c Ha Hb Hc. apply in_map_iff in Ha, Hb, Hc. destruct Ha as (x & <- & _), Hb as (y & <- & _), Hc as (z & <- & _). cbn. lia.
  - intros a b c Ha Hb Hc. apply in_map_iff in Ha, Hb, Hc. destruct Ha as (x & <- & _), Hb as (y & <- & _), Hc as (z & <- & _). cbn. lia.
Qed.
Lemma int_perm ys zs : Permutation ys (map VInt zs) -> exists xs, ys = map VInt xs /\ Permutation xs zs.
Proof. intros P. apply Permutation_map_inv in P. destruct P as (xs & -> & P). exists xs. split; [reflexivity|symmetry; exact P]. Qed.
Lemma int_ordered xs : ordered int_lt (map VInt xs) -> Sorted Z.le xs.
Proof.
  intros O. apply StronglySorted_Sorted. induction xs as [|x xs IH]; constructor.
  - apply IH. intros i j a b Lt Hi Hj. apply (O (S i) (S j) a b); [lia|exact Hi|exact Hj].
  - apply List.Forall_forall. intros y Hy. apply In_nth_error in Hy. destruct Hy as [j Hj].
    assert (K := O 0%nat (S j) (VInt x) (VInt y) ltac:(lia) eq_refl (map_nth_error VInt _ _ Hj)). cbn in K. lia.
Qed.
Lemma sort_integers l zs env s : wf_state s -> is_list s l (map VInt zs) -> Forall (fun z => Z.abs z <= 2 ^ 24) zs ->
  means_builtin env "quote" s -> exists v ys s',
  applies "sort" [l; VPrim "<"] env s (Done (Ok v)) s' /\ Permutation ys zs /\ Sorted Z.le ys /\
  is_list s' v (map VInt ys) /\ is_list s' l (map VInt zs).
Proof.
  intros W L B M.
  destruct (sort_ordered l (VPrim "<") (map VInt zs) env s (fun s => means_builtin env "quote" s /\ is_list s l (map VInt zs)) int_lt W L eq_refl) as (v & ys & s' & H & P & O & Lv & _ & Ll).
  - intros s1 s2 [M1 L1] _ G. split; [eapply means_grows|eapply is_list_grows]; eassumption.
  - auto.
  - apply int_lt_weak.
  - intros a b s1 Ha Hb W1 [M1 L1]. apply in_map_iff in Ha, Hb. destruct Ha as (x & <- & Hx), Hb as (y & <- & Hy).
    assert (T : exists p, table "<" = Some p /\ (p_special p = false /\ p_spec p = "2" /\ p_restricted p = false)) by (eexists; split; [reflexivity|repeat apply conj; reflexivity]).
    destruct T as (p & T & Sp & Ps & Rp). destruct (table_in _ _ T) as [Ip En].
    destruct (call_on_builtin p [Exactly 2] [VInt x; VInt y] env s1 Ip) as (s2 & G & Hc); try assumption; try discriminate.
    { split; [exact Ps|]. constructor; [unfold sane, int64_max, two63; lia|constructor]. }
    { repeat constructor; discriminate. }
    { exists (Exactly 2). split; [left; reflexivity|reflexivity]. }
    exists (VBool (x <? y)), (entering "<" env s2). split; [|split; [reflexivity|]].
    + assert (K : call_on (VPrim (p_name p)) [VInt x; VInt y] env s1 (Done (Ok (VBool (x <? y)))) (entering "<" env s2)).
      { apply Hc. rewrite En. rewrite <- ltb_exact; [apply run_lt|exact (proj1 (List.Forall_forall _ _) B _ Hx)|exact (proj1 (List.Forall_forall _ _) B _ Hy)]. }
      rewrite En in K. exact K.
    + assert (G2 : grows s1 (entering "<" env s2)) by (eapply grows_trans; [exact G|apply grows_entering]). split; [eapply means_grows|eapply is_list_grows]; eassumption.
  - destruct (int_perm _ _ P) as (xs & -> & P2). exists v, xs, s'. split; [exact H|]. split; [exact P2|]. split; [apply int_ordered, O|]. split; [|exact Ll].
    destruct Lv as (zs' & F & Lz). rewrite (elems_no_nil _ _ _ F) in Lz; [exact Lz|]. clear. induction xs; constructor; [discriminate|assumption].
Qed.
(** A concrete case of [undisturbed], for the examples in PropHigher. *)
Lemma concrete_run : exists l1 l2 s, grows start s /\ wf_state s /\ Forall2 (is_list s) [l1; l2] [[VInt 1; VInt 2; VInt 3]; [VInt 40; VInt 50]] /\
  undisturbed (VPrim "<") (s_global start) (entering "map" (s_global start) s) [l1; l2] (rows [[VInt 1; VInt 2; VInt 3]; [VInt 40; VInt 50]]) (entering "map" (s_global start) s).
Proof.
  destruct (ProofList.two_lists_exist [VInt 1; VInt 2; VInt 3] [VInt 40; VInt 50]) as (l1 & l2 & s & G & W & L1 & L2); [repeat constructor; discriminate|repeat constructor; discriminate|].
  exists l1, l2, s. split; [exact G|]. split; [exact W|]. split; [repeat constructor; assumption|].
  assert (T : exists p, table "<" = Some p /\ (p_special p = false /\ p_spec p = "2" /\ p_restricted p = false)) by (eexists; split; [reflexivity|repeat apply conj; reflexivity]).
  destruct T as (p & T & Sp & Ps & Rp). destruct (table_in _ _ T) as [Ip En]. rewrite <- En.
  set (s0 := entering "map" (s_global start) s).
  assert (M : means_builtin (s_global start) "quote" s0).
  { eapply means_grows; [eapply grows_trans; [exact G|apply grows_entering]|]. exact (start_quote start (grows_refl _) eq_refl eq_refl). }
  assert (U : forall todo s2, Forall (fun t => exists a b, t = [VInt a; VInt b]) todo -> wf_state s2 -> grows s0 s2 -> undisturbed (VPrim (p_name p)) (s_global start) s0 [l1; l2] todo s2).
  { assert (L0 : Forall2 (is_list s0) [l1; l2] [[VInt 1; VInt 2; VInt 3]; [VInt 40; VInt 50]]) by (repeat constructor; [exact (is_list_cells s s0 _ _ eq_refl L1)|exact (is_list_cells s s0 _ _ eq_refl L2)]).
    induction todo as [|t r IH]; intros s2 F W2 G2; cbn [undisturbed].
    - split; [|exact I]. eapply Forall2_Forall_l; [exact L0|]. apply List.Forall_forall. intros xs _ v L. eapply same_grows; eassumption.
    - split; [eapply Forall2_Forall_l; [exact L0|]; apply List.Forall_forall; intros xs _ v L; eapply same_grows; eassumption|]. intros v s3 H.
      destruct (Forall_inv F) as (a & b & ->).
      destruct (call_on_builtin p [Exactly 2] [VInt a; VInt b] (s_global start) s2 Ip) as (s4 & G4 & Hc); try assumption; try discriminate.
      { split; [exact Ps|]. constructor; [unfold sane, int64_max, two63; lia|constructor]. }
      { repeat constructor; discriminate. }
      { exists (Exactly 2). split; [left; reflexivity|reflexivity]. }
      { eapply means_grows; eassumption. }
      assert (H' := proj1 (Hc _ _) H). rewrite En in H'. pose proof (run_lt a b (s_global start) s4) as R. destruct (applies_det _ _ _ _ _ _ _ _ H' R) as [_ ->].
      apply IH; [exact (Forall_inv_tail F)| |eapply grows_trans; [exact G2|]; eapply grows_trans; [exact G4|apply grows_entering]].
      eapply call_on_wf; [exact W2|exact H]. }
  apply U; [|apply wf_entering, W|apply grows_refl]. cbn. repeat constructor; eauto.
Qed.
