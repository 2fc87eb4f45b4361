(** Proofs of C25-C31. *)
From Verif Require Export SpecMath RunFacts.
From Verif Require Import ProofFloat NumText.
From stdpp Require Import list.
Local Open Scope string_scope.
Local Open Scope list_scope.
Local Open Scope Z_scope.

(** *** 64-bit integers *)
Lemma mod64_wrap z : mod64 (wrap64 z) z.
Proof.
  unfold mod64, int64, wrap64, two63, two64.
  pose proof (Z.mod_pos_bound (z + 9223372036854775808) 18446744073709551616 eq_refl).
  pose proof (Z.div_mod (z + 9223372036854775808) 18446744073709551616 ltac:(lia)).
  split; [lia|]. exists ((z + 9223372036854775808) / 18446744073709551616). lia.
Qed.
Lemma mod64_unique r1 r2 z : mod64 r1 z -> mod64 r2 z -> r1 = r2.
Proof. unfold mod64, int64. intros [H1 [k1 E1]] [H2 [k2 E2]]. nia. Qed.
Lemma mod64_same z : int64 z -> mod64 z z.
Proof. intros H. split; [exact H|]. exists 0. lia. Qed.
Lemma wrap_same z : int64 z -> wrap64 z = z.
Proof. intros H. apply (mod64_unique _ _ z); [apply mod64_wrap|apply mod64_same, H]. Qed.
Lemma mod64_int r z : mod64 r z -> int64 r.
Proof. intros [H _]. exact H. Qed.
Lemma mod64_shift r z k : mod64 r z -> mod64 r (z + k * 2 ^ 64).
Proof. intros [H [j E]]. split; [exact H|]. exists (j + k). lia. Qed.
Lemma mod64_add r1 r2 z1 z2 r : mod64 r1 z1 -> mod64 r2 z2 -> mod64 r (r1 + r2) -> mod64 r (z1 + z2).
Proof. intros [H1 [k1 E1]] [H2 [k2 E2]] [H [k E]]. split; [exact H|]. exists (k + k1 + k2). lia. Qed.
Lemma mod64_mul r1 r2 z1 z2 r : mod64 r1 z1 -> mod64 r2 z2 -> mod64 r (r1 * r2) -> mod64 r (z1 * z2).
Proof.
  intros [H1 [k1 E1]] [H2 [k2 E2]] [H [k E]]. split; [exact H|].
  exists (k + r1 * k2 + k1 * r2 + k1 * k2 * 2 ^ 64). rewrite E1, E2.
  replace ((r1 + k1 * 2 ^ 64) * (r2 + k2 * 2 ^ 64)) with (r1 * r2 + (r1 * k2 + k1 * r2 + k1 * k2 * 2 ^ 64) * 2 ^ 64) by ring.
  rewrite E. ring.
Qed.
Lemma mod64_wrap_add r z y : mod64 r z -> mod64 (wrap64 (r + y)) (z + y).
Proof.
  intros [H [k E]]. destruct (mod64_wrap (r + y)) as [H2 [j E2]]. split; [exact H2|]. exists (j + k). lia.
Qed.

(** *** C25 *)
Lemma any_floats_ints zs : any_floats (map VInt zs) = inr false.
Proof. induction zs; cbn; auto. Qed.
Lemma add_ints_spec zs : mod64 (add_ints (map VInt zs)) (sum zs).
Proof.
  unfold add_ints. assert (H : forall acc z, mod64 acc z ->
    mod64 (fold_left (fun acc v => wrap64 (acc + int_value v)) (map VInt zs) acc) (z + sum zs)).
  { induction zs as [|x zs IH]; intros acc z H; cbn [map fold_left sum fold_right].
    - rewrite Z.add_0_r. exact H.
    - fold (sum zs). rewrite Z.add_assoc. apply IH. cbn [int_value]. apply mod64_wrap_add, H. }
  apply (H 0 0). apply mod64_same. unfold int64. lia.
Qed.
Lemma sub_ints_spec z zs : int64 z -> mod64 (sub_ints (map VInt (z :: zs))) (z - sum zs).
Proof.
  intros Hz. unfold sub_ints. cbn [map tl arg nth int_value].
  assert (H : forall acc y, mod64 acc y ->
    mod64 (fold_left (fun acc v => wrap64 (acc - int_value v)) (map VInt zs) acc) (y - sum zs)).
  { clear. induction zs as [|x zs IH]; intros acc z H; cbn [map fold_left sum fold_right].
    - rewrite Z.sub_0_r. exact H.
    - fold (sum zs). replace (z - (x + sum zs)) with ((z + - x) - sum zs) by lia. apply IH. cbn [int_value].
      apply mod64_wrap_add, H. }
  apply H. apply mod64_same, Hz.
Qed.
Lemma mul_ints_spec zs : mod64 (mul_ints (map VInt zs)) (product zs).
Proof.
  unfold mul_ints. assert (H : forall acc z, mod64 acc z ->
    mod64 (fold_left (fun acc v => wrap64 (acc * int_value v)) (map VInt zs) acc) (z * product zs)).
  { induction zs as [|x zs IH]; intros acc z H; cbn [map fold_left product fold_right].
    - rewrite Z.mul_1_r. exact H.
    - fold (product zs). rewrite Z.mul_assoc. apply IH. cbn [int_value].
      destruct H as [H [k E]]. destruct (mod64_wrap (acc * x)) as [H2 [j E2]]. split; [exact H2|]. exists (j + k * x).
      rewrite E. lia. }
  replace (product zs) with (1 * product zs) by lia. apply H. apply mod64_same. unfold int64. lia.
Qed.
Lemma quot_rem_spec a b : b <> 0 -> divides_into a b (Z.quot a b) (Z.rem a b).
Proof.
  intros Hb. pose proof (Z.quot_rem a b Hb). split; [lia|]. split.
  - apply Z.rem_bound_abs, Hb.
  - destruct (Z.eq_dec (Z.rem a b) 0) as [->|N]; [lia|]. pose proof (Z.rem_sign_mul a b Hb). lia.
Qed.
Lemma quot_ints_spec zs : Forall (fun z => z <> 0) zs -> forall a, exists r,
  quot_ints a (map VInt zs) = Some r /\ quotients a zs r.
Proof.
  induction 1 as [|z zs Hz _ IH]; intros a.
  - exists a. split; [reflexivity|constructor].
  - cbn [map quot_ints int_value]. destruct (Z.eqb_spec z 0) as [E|_]; [contradiction|].
    destruct (IH (wrap64 (Z.quot a z))) as (r & E & Q). exists r. split; [exact E|].
    econstructor; [exact Hz|apply quot_rem_spec, Hz|apply mod64_wrap|exact Q].
Qed.
Lemma quot_ints_zero zs : In 0 zs -> forall a, quot_ints a (map VInt zs) = None.
Proof.
  induction zs as [|z zs IH]; intros H a; [destruct H|]. cbn [map quot_ints int_value].
  destruct (Z.eqb_spec z 0) as [E|N]; [reflexivity|]. apply IH. destruct H; [congruence|assumption].
Qed.
Lemma run_plus zs env s : exists r, mod64 r (sum zs) /\
  applies "+" (map VInt zs) env s (Done (Ok (VInt r))) (entering "+" env s).
Proof.
  eexists. split; [apply add_ints_spec|]. applies. unfold add_impl, with_floats. rewrite any_floats_ints. apply runs_ret.
Qed.
Lemma run_minus z zs env s : int64 z -> exists r, mod64 r (z - sum zs) /\
  applies "-" (map VInt (z :: zs)) env s (Done (Ok (VInt r))) (entering "-" env s).
Proof.
  intros Hz. eexists. split; [apply sub_ints_spec, Hz|]. applies. unfold subtract_impl, with_floats.
  rewrite any_floats_ints. apply runs_ret.
Qed.
Lemma run_times zs env s : exists r, mod64 r (product zs) /\
  applies "*" (map VInt zs) env s (Done (Ok (VInt r))) (entering "*" env s).
Proof.
  eexists. split; [apply mul_ints_spec|]. applies. unfold multiply_impl, with_floats. rewrite any_floats_ints. apply runs_ret.
Qed.
Lemma run_quotient name a zs env s : In name ["/"; "quotient"] -> Forall (fun z => z <> 0) zs -> exists r,
  quotients a zs r /\ applies name (map VInt (a :: zs)) env s (Done (Ok (VInt r))) (entering name env s).
Proof.
  intros Hn F. destruct (quot_ints_spec zs F a) as (r & E & Q). exists r. split; [exact Q|].
  destruct Hn as [<-|[<-|[]]]; applies; unfold quotient_impl, with_floats; rewrite any_floats_ints; cbn [map arg nth tl int_value]; rewrite E;
    apply runs_ret.
Qed.
(** Printing a list of numbers, as the error message does. *)
Lemma runs_string_list s v xs : is_list s v xs ->
  Forall (fun x => exists t, runs denote (call (RString x)) s (Done t) s) xs ->
  exists t, runs denote (call (RString v)) s (Done t) s.
Proof.
  intros L F.
  assert (HL : forall xs v acc, is_list s v xs -> Forall (fun x => exists t, runs denote (call (RString x)) s (Done t) s) xs ->
    exists c acc', nilb s c = true /\ runs denote (loop (fun st : val * list string =>
             let '(c, acc) := st in
             n <- nilp c ;;
             if negb n && pairp c then
               a <- car c ;; s <- call (RString a) ;; c' <- cdr c ;; Ret (inl (c', acc ++ [s]))
             else Ret (inr (c, acc))) (v, acc)) s (Done (c, acc')) s).
  { clear. induction xs as [|x xs IH]; intros v acc L F.
    - exists v, acc. pose proof (is_list_nil_inv _ _ L) as E. split; [exact E|]. apply runs_loop_stop. rsteps. rewrite E. apply runs_ret.
    - destruct (is_list_cons_inv _ _ _ _ L) as (E1 & E2 & E3 & l & ->).
      inversion F as [|? ? [t Ht] Fx]; subst.
      destruct (IH _ (acc ++ [t]) E3 Fx) as (c & acc' & Hn & Hr). exists c, acc'. split; [exact Hn|].
      eapply runs_loop_step; [|exact Hr]. rsteps. rewrite E1. cbn [negb andb pairp]. rsteps.
      eapply runs_bind; [exact Ht|]. rsteps. }
  inversion L as [| |l E|l a d ys E N T]; subst.
  - eexists. apply runs_do_call. apply runs_ret.
  - eexists. apply runs_do_call. apply runs_ret.
  - exists "()". apply runs_do_call. cbn [denote string_body]. rsteps. rewrite (is_list_nil_inv _ _ L). apply runs_ret.
  - destruct (HL _ _ [] L F) as (c & acc' & Hn & Hr). destruct (is_list_cons_inv _ _ _ _ L) as (E1 & E2 & _).
    eexists. apply runs_do_call. cbn [denote string_body]. rsteps. rewrite E1.
    eapply runs_bind; [exact Hr|]. cbv beta iota. rsteps. rewrite Hn. rsteps.
    instantiate (1 := match car_of s (VCell TCons l) with
       | VSym "quote" => match acc' with _ :: q :: _ => "'" +++ q | _ => "'()" end
       | _ => "(" +++ str_join " " acc' +++ ")" end).
    destruct (car_of s (VCell TCons l)); try apply runs_ret.
    repeat match goal with |- context [match ?x with _ => _ end] => destruct x end; apply runs_ret.
Qed.
Lemma runs_string_int s z : runs denote (call (RString (VInt z))) s (Done (string_of_Z z)) s.
Proof. apply runs_do_call. apply runs_ret. Qed.
Lemma run_quotient_zero name a zs env s : wf_state s -> In name ["/"; "quotient"] -> In 0 zs -> exists m s',
  applies name (map VInt (a :: zs)) env s (Done (Err m)) s' /\ grows s s'.
Proof.
  intros W Hn H0.
  assert (Wn : wf_state (entering name env s)) by (apply wf_entering, W).
  destruct (runs_array_to_list_exact (map VInt (a :: zs)) (entering name env s) Wn) as (v & s' & R & G & L).
  { apply List.Forall_forall. intros x Hx. apply in_map_iff in Hx. destruct Hx as (? & <- & _). discriminate. }
  destruct (runs_string_list s' v _ L) as (t & Ht).
  { apply List.Forall_forall. intros x Hx. apply in_map_iff in Hx. destruct Hx as (? & <- & _). eexists. apply runs_string_int. }
  exists ("Quotent: " +++ t +++ " -> Divide by zero."), s'.
  split; [|eapply grows_trans; [apply (grows_entering name env)|exact G]].
  destruct Hn as [<-|[<-|[]]]; applies; unfold quotient_impl, with_floats; rewrite any_floats_ints; cbn [map arg nth tl int_value];
    rewrite (quot_ints_zero zs H0); unfold div_zero; (eapply runs_bind; [exact R|]); (eapply runs_bind; [exact Ht|]); apply runs_ret.
Qed.
Lemma run_rem name a b env s : In name ["%"; "modulo"] -> b <> 0 -> exists q r, divides_into a b q r /\
  applies name [VInt a; VInt b] env s (Done (Ok (VInt r))) (entering name env s).
Proof.
  intros Hn Hb. exists (Z.quot a b), (Z.rem a b). split; [apply quot_rem_spec, Hb|].
  destruct Hn as [<-|[<-|[]]]; applies; unfold remainder_impl; cbn [arg nth need_integer];
  (destruct (Z.eqb_spec b 0); [contradiction|apply runs_ret]).
Qed.

(** *** C26 *)
Lemma pow_loop_spec e : forall ret b zr zb, mod64 ret zr -> mod64 b zb -> mod64 (pow_loop e ret b) (zr * zb ^ Zpos e).
Proof.
  induction e as [e IH|e IH|]; intros ret b zr zb Hr Hb; cbn [pow_loop].
  - replace (zr * zb ^ Zpos e~1) with ((zr * zb) * (zb * zb) ^ Zpos e).
    2:{ replace (Zpos e~1) with (1 + 2 * Zpos e) by lia. rewrite Z.pow_add_r, Z.pow_mul_r, Z.pow_2_r by lia. ring. }
    apply IH; eapply mod64_mul; eauto using mod64_wrap.
  - replace (zr * zb ^ Zpos e~0) with (zr * (zb * zb) ^ Zpos e).
    2:{ replace (Zpos e~0) with (2 * Zpos e) by lia. rewrite Z.pow_mul_r, Z.pow_2_r by lia. ring. }
    apply IH; [exact Hr|]. eapply mod64_mul; eauto using mod64_wrap.
  - rewrite Z.pow_1_r. eapply mod64_mul; eauto using mod64_wrap.
Qed.
Lemma run_pow b e env s : int64 b -> 0 <= e -> exists r, mod64 r (b ^ e) /\
  applies "pow" [VInt b; VInt e] env s (Done (Ok (VInt r))) (entering "pow" env s).
Proof.
  intros Hb He. exists (pow_ints b e). split.
  - destruct e as [|e|e]; [|cbn [pow_ints]|lia].
    + cbn. apply mod64_same. unfold int64. lia.
    + replace (b ^ Zpos e) with (1 * b ^ Zpos e) by lia. apply pow_loop_spec; apply mod64_same; [unfold int64; lia|exact Hb].
  - applies. unfold pow_impl, with_floats. cbn. apply runs_ret.
Qed.
Lemma run_pow_negative b e env s : e < 0 ->
  applies "pow" [VInt b; VInt e] env s (Done (Ok (VInt 1))) (entering "pow" env s).
Proof. intros He. applies. unfold pow_impl, with_floats. cbn. destruct e; try lia. apply runs_ret. Qed.

(** *** C28 *)
Lemma u64_bit z i : 0 <= i < 64 -> Z.testbit (to_u64 z) i = Z.testbit z i.
Proof. intros H. unfold to_u64. change two64 with (2 ^ 64). rewrite Z.mod_pow2_bits_low by lia. reflexivity. Qed.
Lemma int64_high z i : int64 z -> 63 <= i -> Z.testbit z i = (z <? 0).
Proof.
  intros H Hi. destruct (Z.ltb_spec z 0).
  - apply Z.bits_above_log2_neg; [exact H0|]. destruct (Z.eq_dec z (-1)) as [->|]; [change (Z.log2 (Z.pred (- -1))) with 0; lia|].
    assert (Z.log2 (Z.pred (- z)) < 63); [|lia]. apply Z.log2_lt_pow2; unfold int64 in H; lia.
  - destruct (Z.eq_dec z 0) as [->|]; [apply Z.bits_0|]. apply Z.bits_above_log2; [lia|].
    assert (Z.log2 z < 63); [|lia]. apply Z.log2_lt_pow2; unfold int64 in H; lia.
Qed.
Lemma mod64_bits r z i : mod64 r z -> 0 <= i < 64 -> Z.testbit r i = Z.testbit z i.
Proof.
  intros [_ [k ->]] Hi. rewrite <- (Z.mod_pow2_bits_low (r + k * 2 ^ 64) 64 i) by lia.
  rewrite Z.mod_add by lia. rewrite Z.mod_pow2_bits_low by lia. reflexivity.
Qed.
Lemma int64_bits a b : int64 a -> int64 b -> (forall i, 0 <= i < 64 -> Z.testbit a i = Z.testbit b i) -> a = b.
Proof.
  intros Ha Hb H. apply Z.bits_inj'. intros i Hi. destruct (Z.lt_ge_cases i 64); [apply H; lia|].
  rewrite (int64_high a i), (int64_high b i) by (assumption || lia).
  specialize (H 63 ltac:(lia)). rewrite (int64_high a 63), (int64_high b 63) in H by (assumption || lia). exact H.
Qed.
Lemma land_int64 a b : int64 a -> int64 b -> int64 (Z.land a b).
Proof.
  intros Ha Hb. assert (H : forall i, 63 <= i -> Z.testbit (Z.land a b) i = (a <? 0) && (b <? 0)).
  { intros i Hi. rewrite Z.land_spec, (int64_high a i), (int64_high b i) by assumption. reflexivity. }
  unfold int64. destruct (Z.land_neg a b) as [N1 N2].
  destruct ((a <? 0) && (b <? 0)) eqn:E.
  - apply andb_true_iff in E. destruct E as [E1 E2]. apply Z.ltb_lt in E1, E2. specialize (N2 (conj E1 E2)).
    split; [|lia]. assert (E : Z.land a b = Z.lnot (Z.lor (Z.lnot a) (Z.lnot b))) by (rewrite Z.lnot_lor, !Z.lnot_involutive; reflexivity).
    rewrite E. unfold Z.lnot at 1. assert (Z.lor (Z.lnot a) (Z.lnot b) < 2 ^ 63); [|lia].
    assert (G : forall x, 0 <= x < 2 ^ 63 -> Z.log2 x < 63 \/ x = 0).
    { intros x Hx. destruct (Z.eq_dec x 0); [auto|left; apply Z.log2_lt_pow2; lia]. }
    assert (Ga : 0 <= Z.lnot a < 2 ^ 63) by (unfold Z.lnot, int64 in *; lia).
    assert (Gb : 0 <= Z.lnot b < 2 ^ 63) by (unfold Z.lnot, int64 in *; lia).
    destruct (Z.eq_dec (Z.lor (Z.lnot a) (Z.lnot b)) 0) as [->|NZ]; [lia|].
    assert (0 <= Z.lor (Z.lnot a) (Z.lnot b)) by (apply Z.lor_nonneg; lia).
    apply Z.log2_lt_pow2; [lia|]. rewrite Z.log2_lor by lia.
    assert (X : forall x, 0 <= x < 2 ^ 63 -> Z.log2 x < 63).
    { intros x Hx. destruct (Z.eq_dec x 0) as [->|]; [change (Z.log2 0) with 0; lia|apply Z.log2_lt_pow2; lia]. }
    pose proof (X _ Ga). pose proof (X _ Gb). lia.
  - assert (NN : ~ Z.land a b < 0).
    { intros C. apply N1 in C. destruct C as [C1 C2]. apply Z.ltb_lt in C1, C2. rewrite C1, C2 in E. discriminate. }
    split; [lia|]. destruct (Z.eq_dec (Z.land a b) 0) as [->|NZ]; [lia|].
    apply Z.log2_lt_pow2; [lia|]. destruct (Z.lt_ge_cases (Z.log2 (Z.land a b)) 63); [assumption|].
    pose proof (Z.bit_log2 (Z.land a b) ltac:(lia)) as B. rewrite H in B by assumption. discriminate.
Qed.
Lemma bit_and_spec a b : int64 a -> int64 b -> bit_and a b = Z.land a b.
Proof.
  intros Ha Hb. apply int64_bits; [apply (mod64_wrap (Z.land (to_u64 a) (to_u64 b)))|apply land_int64; assumption|].
  intros i Hi. unfold bit_and. rewrite (mod64_bits _ _ i (mod64_wrap _) Hi), !Z.land_spec, !u64_bit by assumption. reflexivity.
Qed.
Lemma lor_int64 a b : int64 a -> int64 b -> int64 (Z.lor a b).
Proof.
  intros Ha Hb. assert (E : Z.lor a b = Z.lnot (Z.land (Z.lnot a) (Z.lnot b))) by (rewrite Z.lnot_land, !Z.lnot_involutive; reflexivity).
  rewrite E. assert (H : int64 (Z.land (Z.lnot a) (Z.lnot b))).
  { apply land_int64; unfold Z.lnot, int64 in *; lia. }
  unfold Z.lnot at 1. unfold int64 in *. lia.
Qed.
Lemma bit_or_spec a b : int64 a -> int64 b -> bit_or a b = Z.lor a b.
Proof.
  intros Ha Hb. apply int64_bits; [apply (mod64_wrap (Z.lor (to_u64 a) (to_u64 b)))|apply lor_int64; assumption|].
  intros i Hi. unfold bit_or. rewrite (mod64_bits _ _ i (mod64_wrap _) Hi), !Z.lor_spec, !u64_bit by assumption. reflexivity.
Qed.
Lemma bits32 i : 0 <= i -> Z.testbit 4294967295 i = (i <? 32).
Proof.
  intros H. change 4294967295 with (Z.ones 32). destruct (Z.ltb_spec i 32).
  - apply Z.ones_spec_low. lia.
  - apply Z.ones_spec_high. lia.
Qed.
Lemma bit_not_bit a i : int64 a -> 0 <= i -> Z.testbit (bit_not a) i = xorb (Z.testbit a i) (i <? 32).
Proof.
  intros Ha Hi. destruct (Z.lt_ge_cases i 64).
  - unfold bit_not. rewrite (mod64_bits _ _ i (mod64_wrap _) ltac:(lia)), Z.lxor_spec, u64_bit, bits32 by lia. reflexivity.
  - assert (Hn : int64 (bit_not a)) by (apply (mod64_wrap (Z.lxor (to_u64 a) 4294967295))).
    rewrite (int64_high a i), (int64_high (bit_not a) i) by (assumption || lia).
    destruct (Z.ltb_spec i 32); [lia|]. rewrite xorb_false_r.
    rewrite <- (int64_high a 63), <- (int64_high (bit_not a) 63) by (assumption || lia).
    unfold bit_not. rewrite (mod64_bits _ _ 63 (mod64_wrap _) ltac:(lia)), Z.lxor_spec, u64_bit, bits32 by lia. apply xorb_false_r.
Qed.
Lemma shift_left_spec a n : int64 n -> 0 <= n -> mod64 (shift_left a n) (a * 2 ^ n).
Proof.
  intros Hn H0. unfold shift_left. assert (E : to_u64 n = n). { unfold to_u64, two64. apply Z.mod_small. unfold int64 in Hn. lia. }
  rewrite E. destruct (Z.ltb_spec n 64).
  - rewrite Z.shiftl_mul_pow2 by lia. destruct (mod64_wrap (to_u64 a * 2 ^ n)) as [I [k K]]. split; [exact I|].
    exists (k + a / 2 ^ 64 * 2 ^ n).
    assert (D : a = 2 ^ 64 * (a / 2 ^ 64) + to_u64 a) by (unfold to_u64; apply (Z.div_mod a (2 ^ 64)); lia).
    set (w := wrap64 (to_u64 a * 2 ^ n)) in *. rewrite D at 1. rewrite Z.mul_add_distr_r, K. ring.
  - split; [unfold int64; lia|]. exists (a * 2 ^ (n - 64)). replace n with ((n - 64) + 64) at 1 by lia.
    rewrite Z.pow_add_r by lia. ring.
Qed.
Lemma shift_right_spec a n : int64 n -> 0 <= n -> mod64 (shift_right a n) (a mod 2 ^ 64 / 2 ^ n).
Proof.
  intros Hn H0. unfold shift_right. assert (E : to_u64 n = n). { unfold to_u64, two64. apply Z.mod_small. unfold int64 in Hn. lia. }
  rewrite E. destruct (Z.ltb_spec n 64).
  - rewrite Z.shiftr_div_pow2 by lia. apply mod64_wrap.
  - rewrite Z.div_small. { apply mod64_same. unfold int64. lia. }
    pose proof (Z.mod_pos_bound a (2 ^ 64) ltac:(lia)). pose proof (Z.pow_le_mono_r 2 64 n ltac:(lia) ltac:(lia)). lia.
Qed.
Lemma run_bin2 name f a b env s : table name = Some (func name "2" (bin2_impl f)) ->
  applies name [VInt a; VInt b] env s (Done (Ok (VInt (f a b)))) (entering name env s).
Proof. intros H. eapply applies_of; [exact H|]. cbn. apply runs_ret. Qed.
Lemma run_and a b env s : int64 a -> int64 b -> exists r, int64 r /\
  (forall i, 0 <= i -> Z.testbit r i = Z.testbit a i && Z.testbit b i) /\
  applies "binary-and" [VInt a; VInt b] env s (Done (Ok (VInt r))) (entering "binary-and" env s).
Proof.
  intros Ha Hb. exists (Z.land a b). split; [apply land_int64; assumption|]. split; [intros; apply Z.land_spec|].
  rewrite <- bit_and_spec by assumption. apply run_bin2. reflexivity.
Qed.
Lemma run_or a b env s : int64 a -> int64 b -> exists r, int64 r /\
  (forall i, 0 <= i -> Z.testbit r i = Z.testbit a i || Z.testbit b i) /\
  applies "binary-or" [VInt a; VInt b] env s (Done (Ok (VInt r))) (entering "binary-or" env s).
Proof.
  intros Ha Hb. exists (Z.lor a b). split; [apply lor_int64; assumption|]. split; [intros; apply Z.lor_spec|].
  rewrite <- bit_or_spec by assumption. apply run_bin2. reflexivity.
Qed.
Lemma run_not a env s : int64 a -> exists r, int64 r /\
  (forall i, 0 <= i -> Z.testbit r i = if i <? 32 then negb (Z.testbit a i) else Z.testbit a i) /\
  applies "binary-not" [VInt a] env s (Done (Ok (VInt r))) (entering "binary-not" env s).
Proof.
  intros Ha. exists (bit_not a). split; [apply (mod64_wrap (Z.lxor (to_u64 a) 4294967295))|]. split.
  - intros i Hi. rewrite bit_not_bit by assumption. destruct (i <? 32); [apply xorb_true_r|apply xorb_false_r].
  - applies. cbn. apply runs_ret.
Qed.
Lemma run_shl a n env s : int64 n -> 0 <= n -> exists r, mod64 r (a * 2 ^ n) /\
  applies "left-shift" [VInt a; VInt n] env s (Done (Ok (VInt r))) (entering "left-shift" env s).
Proof. intros Hn H0. eexists. split; [apply shift_left_spec; assumption|]. apply run_bin2. reflexivity. Qed.
Lemma run_shr a n env s : int64 n -> 0 <= n -> exists r, mod64 r (a mod 2 ^ 64 / 2 ^ n) /\
  applies "right-shift" [VInt a; VInt n] env s (Done (Ok (VInt r))) (entering "right-shift" env s).
Proof. intros Hn H0. eexists. split; [apply shift_right_spec; assumption|]. apply run_bin2. reflexivity. Qed.
Lemma shift_negative a n : int64 n -> n < 0 -> shift_left a n = 0 /\ shift_right a n = 0.
Proof.
  intros Hn H0. unfold shift_left, shift_right.
  assert (E : 64 <= to_u64 n).
  { unfold to_u64, two64. replace (n mod 18446744073709551616) with (n + 18446744073709551616).
    - unfold int64 in Hn. lia.
    - rewrite <- (Z.mod_add n 1) by lia. rewrite Z.mod_small; unfold int64 in Hn; lia. }
  destruct (Z.ltb_spec (to_u64 n) 64); [lia|]. auto.
Qed.
Lemma run_shift_negative name a n env s : In name ["left-shift"; "right-shift"] -> int64 n -> n < 0 ->
  applies name [VInt a; VInt n] env s (Done (Ok (VInt 0))) (entering name env s).
Proof.
  intros Hn Hi H0. destruct (shift_negative a n Hi H0) as [E1 E2].
  destruct Hn as [<-|[<-|[]]].
  - rewrite <- E1. apply run_bin2. reflexivity.
  - rewrite <- E2. apply run_bin2. reflexivity.
Qed.

(** *** C27 *)
Lemma int64_abs a : int64 a -> Z.abs a <= 2 ^ 63.
Proof. unfold int64. lia. Qed.
Lemma run_compare name f a b env s : table name = Some (func name "2" (compare_impl f)) ->
  applies name [VInt a; VInt b] env s (Done (Ok (VBool (f (f32_of_Z a) (f32_of_Z b))))) (entering name env s).
Proof. intros H. eapply applies_of; [exact H|]. cbn. apply runs_ret. Qed.
Lemma run_lt a b env s :
  applies "<" [VInt a; VInt b] env s (Done (Ok (VBool (f32_ltb (f32_of_Z a) (f32_of_Z b))))) (entering "<" env s).
Proof. apply (run_compare "<" f32_ltb). reflexivity. Qed.
Lemma run_gt a b env s :
  applies ">" [VInt a; VInt b] env s (Done (Ok (VBool (f32_ltb (f32_of_Z b) (f32_of_Z a))))) (entering ">" env s).
Proof. apply (run_compare ">" (fun a b => f32_ltb b a)). reflexivity. Qed.
Lemma run_le a b env s :
  applies "<=" [VInt a; VInt b] env s (Done (Ok (VBool (f32_leb (f32_of_Z a) (f32_of_Z b))))) (entering "<=" env s).
Proof. apply (run_compare "<=" f32_leb). reflexivity. Qed.
Lemma run_ge a b env s :
  applies ">=" [VInt a; VInt b] env s (Done (Ok (VBool (f32_leb (f32_of_Z b) (f32_of_Z a))))) (entering ">=" env s).
Proof. apply (run_compare ">=" (fun a b => f32_leb b a)). reflexivity. Qed.
Lemma leb_exact a b : Z.abs a <= 2 ^ 24 -> Z.abs b <= 2 ^ 24 -> f32_leb (f32_of_Z a) (f32_of_Z b) = (a <=? b).
Proof. intros Ha Hb. rewrite leb_not_ltb, ltb_exact by lia. rewrite Z.ltb_antisym, negb_involutive. reflexivity. Qed.

(** *** C29 *)
Lemma prog_step i step n : progression i step (S n) = i :: progression (i + step) step n.
Proof.
  unfold progression. cbn [seq map]. f_equal; [lia|]. rewrite <- seq_shift, map_map. apply map_ext. intros k. lia.
Qed.
Lemma interval_items_run (up : bool) stop step n : forall i acc s,
  (forall k, (k < n)%nat -> (if up then i + Z.of_nat k * step <= stop else stop <= i + Z.of_nat k * step)
                      /\ int64 (i + Z.of_nat (S k) * step)) ->
  (if up then stop < i + Z.of_nat n * step else i + Z.of_nat n * step < stop) ->
  runs denote (loop (fun st : Z * list val =>
          let '(i, acc) := st in
          if (if up then i <=? stop else stop <=? i)
          then Ret (inl (wrap64 (i + step), VInt i :: acc))
          else Ret (inr (rev acc))) (i, acc)) s (Done (rev acc ++ map VInt (progression i step n))) s.
Proof.
  induction n as [|n IH]; intros i acc s H E.
  - apply runs_loop_stop. replace (if up then i <=? stop else stop <=? i) with false by (destruct up; lia).
    rewrite app_nil_r. apply runs_ret.
  - destruct (H 0%nat ltac:(lia)) as [H1 H2]. eapply runs_loop_step.
    + replace (if up then i <=? stop else stop <=? i) with true by (destruct up; lia). apply runs_ret.
    + rewrite prog_step. cbn [map]. rewrite wrap_same by (replace (i + step) with (i + Z.of_nat 1 * step) by lia; exact H2).
      replace (rev acc ++ VInt i :: map VInt (progression (i + step) step n))
        with (rev (VInt i :: acc) ++ map VInt (progression (i + step) step n)).
      2:{ cbn [rev]. rewrite <- app_assoc. reflexivity. }
      apply IH.
      * intros k Hk. specialize (H (S k) ltac:(lia)).
        replace (i + step + Z.of_nat k * step) with (i + Z.of_nat (S k) * step) by lia.
        replace (i + step + Z.of_nat (S k) * step) with (i + Z.of_nat (S (S k)) * step) by lia. exact H.
      * replace (i + step + Z.of_nat n * step) with (i + Z.of_nat (S n) * step) by lia. exact E.
Qed.
Lemma terms_bounds a b step : step <> 0 -> (if 0 <? step then a <= b else b <= a) ->
  let n := terms a b step in
  (if 0 <? step then b < a + Z.of_nat n * step else a + Z.of_nat n * step < b) /\
  (forall k, (k < n)%nat -> if 0 <? step then a + Z.of_nat k * step <= b else b <= a + Z.of_nat k * step).
Proof.
  intros Hs Hd n. unfold n, terms.
  assert (P : 0 <= (b - a) / step).
  { destruct (Z.ltb_spec 0 step).
    - apply Z.div_pos; lia.
    - rewrite <- Z.div_opp_opp by lia. apply Z.div_pos; lia. }
  rewrite Z2Nat.id by lia. pose proof (Z.div_mod (b - a) step Hs) as D.
  destruct (Z.ltb_spec 0 step).
  - pose proof (Z.mod_pos_bound (b - a) step ltac:(lia)). split; [nia|]. intros k Hk.
    assert (Z.of_nat k <= (b - a) / step) by lia. nia.
  - pose proof (Z.mod_neg_bound (b - a) step ltac:(lia)). split; [nia|]. intros k Hk.
    assert (Z.of_nat k <= (b - a) / step) by lia. nia.
Qed.
Lemma int_sgn_spec z : int64 z -> int_sgn z = Z.sgn z.
Proof.
  intros H. unfold int_sgn, sgn. change f32_zero with (f32_of_Z 0).
  destruct (ltb_small 0 z ltac:(cbn; lia) (int64_abs _ H)) as [-> ->].
  destruct (Z.ltb_spec z 0), (Z.ltb_spec 0 z); lia.
Qed.
Lemma vint_not_nil zs : Forall (fun x => x <> VNil) (map VInt zs).
Proof. induction zs; constructor; [discriminate|assumption]. Qed.
Lemma interval_list_run (up : bool) a b step s : wf_state s -> int64 (b - a) ->
  Z.abs (b - a) < 2 ^ 45 -> step <> 0 -> up = (0 <? step) -> (if up then a <= b else b <= a) ->
  int64 a -> int64 b -> int64 (a + Z.of_nat (terms a b step) * step) ->
  exists v s', runs denote (interval_list up a b step) s (Done (Ok v)) s' /\
    grows s s' /\ is_list s' v (map VInt (progression a step (terms a b step))).
Proof.
  intros W Hd Hz Hs -> Hu Ha Hb Hn. destruct (terms_bounds a b step Hs Hu) as [E1 E2].
  destruct (runs_array_to_list_exact (map VInt (progression a step (terms a b step))) s W (vint_not_nil _)) as (v & s' & R & G & L).
  exists v, s'. split; [|split; assumption]. unfold interval_list. rewrite wrap_same by exact Hd.
  destruct (Z.ltb_spec (2 ^ 45) (Z.abs (b - a) + 1)) as [C|C]; [lia|].
  eapply runs_bind.
  - apply (interval_items_run (0 <? step) b step (terms a b step) a []); [|exact E1].
    intros k Hk. split; [apply E2, Hk|].
    pose proof (E2 k Hk) as E3.
    assert (a + Z.of_nat (terms a b step) * step - a = Z.of_nat (terms a b step) * step) by lia.
    destruct (Z.ltb_spec 0 step); unfold int64 in *.
    + assert (Z.of_nat (S k) * step <= Z.of_nat (terms a b step) * step) by (apply Z.mul_le_mono_nonneg_r; lia). nia.
    + assert (Z.of_nat (terms a b step) * step <= Z.of_nat (S k) * step) by (apply Z.mul_le_mono_nonpos_r; lia). nia.
  - cbn [rev app]. eapply runs_bind; [exact R|]. apply runs_ret.
Qed.
Lemma run_interval3 a b step env s : wf_state s -> int64 a -> int64 b -> int64 step ->
  Z.sgn step = direction a b -> Z.abs (b - a) < 2 ^ 45 -> int64 (a + Z.of_nat (terms a b step) * step) ->
  exists v s', applies "interval" [VInt a; VInt b; VInt step] env s (Done (Ok v)) s' /\
    grows s s' /\ is_list s' v (map VInt (progression a step (terms a b step))).
Proof.
  intros W Ha Hb Hs Hd Hz Hn.
  assert (W' := wf_entering "interval" env s W).
  assert (U : (direction a b =? 1) = (0 <? step)) by (unfold direction in *; destruct (b <? a); lia).
  destruct (interval_list_run (direction a b =? 1) a b step _ W') as (v & s' & R & G & L); try assumption.
  - unfold int64; lia.
  - unfold direction in Hd. destruct (b <? a); lia.
  - unfold direction in *. destruct (Z.ltb_spec b a); cbn; lia.
  - exists v, s'. split; [|split; [eapply grows_trans; [apply grows_entering|exact G]|exact L]].
    applies. unfold interval_impl. cbn [arg nth int_value length Nat.eqb need_integer].
    fold (direction a b). rewrite int_sgn_spec, Hd, Z.eqb_refl by assumption. exact R.
Qed.
Lemma run_interval3_sign a b step env s : int64 step -> Z.sgn step <> direction a b ->
  exists m, applies "interval" [VInt a; VInt b; VInt step] env s (Done (Err m)) (entering "interval" env s).
Proof.
  intros Hs Hd. eexists. applies. unfold interval_impl. cbn [arg nth int_value length Nat.eqb need_integer].
  fold (direction a b). rewrite int_sgn_spec by assumption. destruct (Z.eqb_spec (Z.sgn step) (direction a b)); [contradiction|].
  apply runs_ret.
Qed.
Lemma terms_unit a b : terms a b (direction a b) = Z.to_nat (Z.abs (b - a) + 1).
Proof.
  unfold terms, direction. destruct (Z.ltb_spec b a).
  - f_equal. f_equal. symmetry. apply (Z.div_unique _ _ _ 0); lia.
  - rewrite Z.div_1_r. f_equal. lia.
Qed.
Lemma run_interval2 a b env s : wf_state s -> int64 a -> int64 b ->
  Z.abs (b - a) < 2 ^ 45 -> int64 (b + direction a b) ->
  exists v s', applies "interval" [VInt a; VInt b] env s (Done (Ok v)) s' /\
    grows s s' /\ is_list s' v (map VInt (progression a (direction a b) (Z.to_nat (Z.abs (b - a) + 1)))).
Proof.
  intros W Ha Hb Hz Hn.
  assert (W' := wf_entering "interval" env s W).
  rewrite <- terms_unit.
  destruct (interval_list_run (direction a b =? 1) a b (direction a b) _ W') as (v & s' & R & G & L); try assumption.
  - unfold int64; lia.
  - unfold direction. destruct (b <? a); lia.
  - unfold direction. destruct (b <? a); reflexivity.
  - unfold direction. destruct (Z.ltb_spec b a); cbn; lia.
  - rewrite terms_unit. rewrite Z2Nat.id by lia. unfold direction, int64 in *. destruct (Z.ltb_spec b a); lia.
  - exists v, s'. split; [|split; [eapply grows_trans; [apply grows_entering|exact G]|exact L]].
    applies. unfold interval_impl. cbn [arg nth int_value length Nat.eqb need_integer].
    fold (direction a b). exact R.
Qed.
Lemma run_interval1 b env s : wf_state s -> 0 <= b -> b < 2 ^ 45 ->
  exists v s', applies "interval" [VInt b] env s (Done (Ok v)) s' /\
    grows s s' /\ is_list s' v (map VInt (progression 1 1 (Z.to_nat b))).
Proof.
  intros W H0 Hb. assert (W' := wf_entering "interval" env s W).
  destruct (runs_array_to_list_exact (map VInt (progression 1 1 (Z.to_nat b))) _ W' (vint_not_nil _)) as (v & s' & R & G & L).
  exists v, s'. split; [|split; [eapply grows_trans; [apply grows_entering|exact G]|exact L]].
  applies. unfold interval_impl. cbn [arg nth int_value]. unfold interval_list. rewrite wrap_same by (unfold int64; lia).
  destruct (Z.ltb_spec (2 ^ 45) (Z.abs (b - 1) + 1)) as [C|C]; [lia|].
  eapply runs_bind.
  - apply (interval_items_run true b 1 (Z.to_nat b) 1 []); cbn [rev app].
    + intros k Hk. unfold int64. lia.
    + lia.
  - cbn [rev app]. eapply runs_bind; [exact R|]. apply runs_ret.
Qed.
(** A loop whose body always asks for another turn never ends. *)
Lemma loop_forever {S R} (body : S -> prog (S + R)) (I : S -> Prop) :
  (forall st, I st -> exists st', body st = Ret (inl st') /\ I st') ->
  forall st s, I st -> forall o s', ~ runs denote (loop body st) s o s'.
Proof.
  intros H st s HI o s' [n Hr]. revert st s HI Hr. induction n as [|n IH]; intros st s HI Hr; [discriminate|].
  destruct (H st HI) as (st' & E & HI'). unfold loop in Hr. rewrite run_iter in Hr. rewrite E in Hr.
  rewrite run_ret in Hr. apply (IH st' s HI'). unfold loop.
  destruct (run denote n (Iter body st' Ret) s) as [[[x|w] s2]|]; [rewrite run_ret in Hr; exact Hr|exact Hr|discriminate].
Qed.
Lemma run_interval_max a env s o s' : 2 ^ 63 - 2 ^ 45 <= a -> a <= 2 ^ 63 - 1 ->
  ~ applies "interval" [VInt a; VInt (2 ^ 63 - 1)] env s o s'.
Proof.
  intros H1 H2 H. apply (applies_inv "interval" (func "interval" "1|2|3" interval_impl) _ _ _ _ _ eq_refl) in H.
  cbn [p_body func] in H. unfold interval_impl in H. cbn [arg nth int_value length Nat.eqb] in H.
  destruct (Z.ltb_spec (2 ^ 63 - 1) a) as [C|C]; [lia|]. change (1 =? 1) with true in H.
  unfold interval_list in H. rewrite wrap_same in H by (unfold int64; lia).
  destruct (Z.ltb_spec (2 ^ 45) (Z.abs (2 ^ 63 - 1 - a) + 1)) as [D|D]; [lia|].
  assert (N : forall o s2, ~ runs denote (interval_items true a (2 ^ 63 - 1) 1) (entering "interval" env s) o s2).
  { unfold interval_items. apply (loop_forever _ (fun st => int64 (fst st))); [|unfold int64; cbn [fst]; lia].
    intros [i acc] Hi. cbn [fst] in Hi. eexists. destruct (Z.leb_spec i (2 ^ 63 - 1)) as [E|E]; [|unfold int64 in Hi; lia].
    split; [reflexivity|]. cbn [fst]. apply (mod64_wrap (i + 1)). }
  destruct H as [n H]. rewrite run_bind in H.
  destruct (run denote n (interval_items true a (2 ^ 63 - 1) 1) (entering "interval" env s)) as [[[x|w] s1]|] eqn:R; [| |discriminate].
  - apply (N (Done x) s1). exists n. exact R.
  - apply (N (Panicked w) s1). exists n. exact R.
Qed.

(** *** C30 *)
Lemma supported_base_spec base : In base [2; 8; 10; 16] -> supported_base base = true /\ 2 <= base <= 16.
Proof. intros [<-|[<-|[<-|[<-|[]]]]]; (split; [reflexivity|lia]). Qed.
Lemma in_int64_spec z : int64 z <-> in_int64 z = true.
Proof. unfold int64, in_int64, int64_min, int64_max, two63. rewrite andb_true_iff, !Z.leb_le. lia. Qed.
Lemma run_number_string z base env s : wf_state s -> In base [2; 8; 10; 16] -> int64 z -> exists l t s',
  applies "number->string" [VInt z; VInt base] env s (Done (Ok (VStr l))) s' /\ grows s s' /\
  s_strs s' !! l = Some t /\ sscanf_int base t = Ok z /\ t = string_of_Z_base base z.
Proof.
  intros W Hb Hz. destruct (supported_base_spec _ Hb) as [Hs Hr].
  eexists _, (string_of_Z_base base z), _. split.
  { applies. unfold number_to_string_impl. cbn [number_base length Nat.eqb arg nth int_value]. rewrite Hs.
    rsteps. }
  split; [|split; [cbn; apply lookup_insert|split; [|reflexivity]]].
  - eapply grows_trans; [apply grows_entering|]. eapply grows_str; [apply wf_entering, W|reflexivity].
  - apply sscanf_text; [lia|]. apply in_int64_spec, Hz.
Qed.
Lemma run_string_number l t z base env s : In base [2; 8; 10; 16] -> s_strs s !! (l : loc) = Some t -> sscanf_int base t = Ok z ->
  applies "string->number" [VStr l; VInt base] env s (Done (Ok (VInt z))) (entering "string->number" env s).
Proof.
  intros Hb Hl Ht. destruct (supported_base_spec _ Hb) as [Hs Hr]. applies.
  unfold string_to_number_impl. cbn [number_base length Nat.eqb arg nth int_value string_value].
  eapply runs_bind; [apply runs_op; reflexivity|]. rewrite Hs. rewrite (str_some (entering _ _ _) l t Hl), Ht. apply runs_ret.
Qed.
Lemma number_round_trip z base env s : wf_state s -> In base [2; 8; 10; 16] -> int64 z -> exists l t s',
  applies "number->string" [VInt z; VInt base] env s (Done (Ok (VStr l))) s' /\ grows s s' /\
  s_strs s' !! l = Some t /\
  forall env2 s2, s_strs s2 !! l = Some t ->
    applies "string->number" [VStr l; VInt base] env2 s2 (Done (Ok (VInt z))) (entering "string->number" env2 s2).
Proof.
  intros W Hb Hz. destruct (run_number_string z base env s W Hb Hz) as (l & t & s' & R & G & E & Sc & _).
  exists l, t, s'. split; [exact R|]. split; [exact G|]. split; [exact E|]. intros env2 s2 H2.
  eapply run_string_number; eassumption.
Qed.
(** With the base left out both use 10. *)
Lemma number_round_trip10 z env s : wf_state s -> int64 z -> exists l t s',
  applies "number->string" [VInt z] env s (Done (Ok (VStr l))) s' /\ grows s s' /\
  s_strs s' !! l = Some t /\
  forall env2 s2, s_strs s2 !! l = Some t ->
    applies "string->number" [VStr l] env2 s2 (Done (Ok (VInt z))) (entering "string->number" env2 s2).
Proof.
  intros W Hz. eexists _, (string_of_Z_base 10 z), _. split.
  { applies. unfold number_to_string_impl. cbn -[string_of_Z_base new_str bind]. rsteps. }
  split; [eapply grows_trans; [apply grows_entering|]; eapply grows_str; [apply wf_entering, W|reflexivity]|].
  split; [cbn; apply lookup_insert|]. intros env2 s2 H2. applies.
  unfold string_to_number_impl. cbn [number_base length Nat.eqb arg nth int_value string_value].
  eapply runs_bind; [apply runs_op; reflexivity|]. change (supported_base 10) with true. rewrite (str_some (entering _ _ _) _ _ H2).
  rewrite sscanf_text; [apply runs_ret|lia|apply in_int64_spec, Hz].
Qed.

(** *** C31 *)
Lemma best_ints_min zs : forall acc, exists m, best_ints Z.ltb acc (map VInt zs) = inr m /\
  In m (acc :: zs) /\ m <= acc /\ Forall (fun z => m <= z) zs.
Proof.
  induction zs as [|z zs IH]; intros acc; cbn [map best_ints].
  - exists acc. split; [reflexivity|]. split; [left; reflexivity|]. split; [lia|constructor].
  - destruct (IH (if z <? acc then z else acc)) as (m & E & I & L & F). exists m. split; [exact E|].
    destruct (Z.ltb_spec z acc).
    + split; [destruct I as [->|I]; [right; left; reflexivity|right; right; exact I]|]. split; [lia|]. constructor; [exact L|exact F].
    + split; [destruct I as [->|I]; [left; reflexivity|right; right; exact I]|]. split; [lia|]. constructor; [lia|exact F].
Qed.
Lemma best_ints_max zs : forall acc, exists m, best_ints Z.gtb acc (map VInt zs) = inr m /\
  In m (acc :: zs) /\ acc <= m /\ Forall (fun z => z <= m) zs.
Proof.
  induction zs as [|z zs IH]; intros acc; cbn [map best_ints].
  - exists acc. split; [reflexivity|]. split; [left; reflexivity|]. split; [lia|constructor].
  - destruct (IH (if z >? acc then z else acc)) as (m & E & I & L & F). exists m. split; [exact E|].
    rewrite Z.gtb_ltb in *. destruct (Z.ltb_spec acc z).
    + split; [destruct I as [->|I]; [right; left; reflexivity|right; right; exact I]|]. split; [lia|]. constructor; [exact L|exact F].
    + split; [destruct I as [->|I]; [left; reflexivity|right; right; exact I]|]. split; [lia|]. constructor; [lia|exact F].
Qed.
Lemma run_min l z zs env s : is_list s l (map VInt (z :: zs)) -> exists m, In m (z :: zs) /\ Forall (fun x => m <= x) (z :: zs) /\
  applies "min" [l] env s (Done (Ok (VInt m))) (entering "min" env s).
Proof.
  intros L. destruct (best_ints_min zs z) as (m & E & I & B & F). exists m. split; [exact I|]. split; [constructor; assumption|].
  apply (is_list_grows _ _ _ _ (grows_entering "min" env s)) in L.
  applies. unfold min_impl, best_impl. cbn [arg nth]. rewrite (is_list_listp _ _ _ L). cbn [negb].
  eapply runs_bind; [apply runs_to_array, L|]. cbn [map]. unfold with_floats.
  change (VInt z :: map VInt zs) with (map VInt (z :: zs)). rewrite any_floats_ints. cbn [int_value]. rewrite E. apply runs_ret.
Qed.
Lemma run_max l z zs env s : is_list s l (map VInt (z :: zs)) -> exists m, In m (z :: zs) /\ Forall (fun x => x <= m) (z :: zs) /\
  applies "max" [l] env s (Done (Ok (VInt m))) (entering "max" env s).
Proof.
  intros L. destruct (best_ints_max zs z) as (m & E & I & B & F). exists m. split; [exact I|]. split; [constructor; assumption|].
  apply (is_list_grows _ _ _ _ (grows_entering "max" env s)) in L.
  applies. unfold max_impl, best_impl. cbn [arg nth]. rewrite (is_list_listp _ _ _ L). cbn [negb].
  eapply runs_bind; [apply runs_to_array, L|]. cbn [map]. unfold with_floats.
  change (VInt z :: map VInt zs) with (map VInt (z :: zs)). rewrite any_floats_ints. cbn [int_value]. rewrite E. apply runs_ret.
Qed.

(** *** The ring laws of C25 *)
Lemma plus_result zs env s r s' : applies "+" (map VInt zs) env s (Done (Ok (VInt r))) s' -> mod64 r (sum zs).
Proof.
  intros H. destruct (run_plus zs env s) as (r' & M & H'). destruct (applies_det _ _ _ _ _ _ _ _ H H') as [E _].
  injection E as ->. exact M.
Qed.
Lemma times_result zs env s r s' : applies "*" (map VInt zs) env s (Done (Ok (VInt r))) s' -> mod64 r (product zs).
Proof.
  intros H. destruct (run_times zs env s) as (r' & M & H'). destruct (applies_det _ _ _ _ _ _ _ _ H H') as [E _].
  injection E as ->. exact M.
Qed.
Lemma sum_perm xs ys : Permutation xs ys -> sum xs = sum ys.
Proof. induction 1; cbn [sum fold_right]; unfold sum in *; cbn [fold_right]; lia. Qed.
Lemma product_perm xs ys : Permutation xs ys -> product xs = product ys.
Proof.
  induction 1 as [|x l l' _ IH|x y l|l l' l'' _ IH1 _ IH2]; unfold product in *; cbn [fold_right]; try congruence.
  ring.
Qed.
Lemma plus_perm xs ys env s : Permutation xs ys -> exists r,
  applies "+" (map VInt xs) env s (Done (Ok (VInt r))) (entering "+" env s) /\
  applies "+" (map VInt ys) env s (Done (Ok (VInt r))) (entering "+" env s).
Proof.
  intros P. destruct (run_plus xs env s) as (r & M & H), (run_plus ys env s) as (r' & M' & H').
  rewrite <- (sum_perm _ _ P) in M'. rewrite (mod64_unique _ _ _ M' M) in H'. eauto.
Qed.
Lemma times_perm xs ys env s : Permutation xs ys -> exists r,
  applies "*" (map VInt xs) env s (Done (Ok (VInt r))) (entering "*" env s) /\
  applies "*" (map VInt ys) env s (Done (Ok (VInt r))) (entering "*" env s).
Proof.
  intros P. destruct (run_times xs env s) as (r & M & H), (run_times ys env s) as (r' & M' & H').
  rewrite <- (product_perm _ _ P) in M'. rewrite (mod64_unique _ _ _ M' M) in H'. eauto.
Qed.
(** Three calls in a row. *)
Lemma plus2 a b env s : exists r, mod64 r (a + b) /\
  applies "+" [VInt a; VInt b] env s (Done (Ok (VInt r))) (entering "+" env s).
Proof. destruct (run_plus [a; b] env s) as (r & M & H). cbn in M. rewrite Z.add_0_r in M. eauto. Qed.
Lemma times2 a b env s : exists r, mod64 r (a * b) /\
  applies "*" [VInt a; VInt b] env s (Done (Ok (VInt r))) (entering "*" env s).
Proof. destruct (run_times [a; b] env s) as (r & M & H). cbn in M. rewrite Z.mul_1_r in M. eauto. Qed.
Lemma nested_laws a b c env s :
  (exists ab bc r, applies "+" [VInt a; VInt b] env s (Done (Ok (VInt ab))) (entering "+" env s) /\
     applies "+" [VInt b; VInt c] env s (Done (Ok (VInt bc))) (entering "+" env s) /\
     applies "+" [VInt ab; VInt c] env s (Done (Ok (VInt r))) (entering "+" env s) /\
     applies "+" [VInt a; VInt bc] env s (Done (Ok (VInt r))) (entering "+" env s)) /\
  (exists ab bc r, applies "*" [VInt a; VInt b] env s (Done (Ok (VInt ab))) (entering "*" env s) /\
     applies "*" [VInt b; VInt c] env s (Done (Ok (VInt bc))) (entering "*" env s) /\
     applies "*" [VInt ab; VInt c] env s (Done (Ok (VInt r))) (entering "*" env s) /\
     applies "*" [VInt a; VInt bc] env s (Done (Ok (VInt r))) (entering "*" env s)) /\
  (exists bc ab ac r, applies "+" [VInt b; VInt c] env s (Done (Ok (VInt bc))) (entering "+" env s) /\
     applies "*" [VInt a; VInt b] env s (Done (Ok (VInt ab))) (entering "*" env s) /\
     applies "*" [VInt a; VInt c] env s (Done (Ok (VInt ac))) (entering "*" env s) /\
     applies "*" [VInt a; VInt bc] env s (Done (Ok (VInt r))) (entering "*" env s) /\
     applies "+" [VInt ab; VInt ac] env s (Done (Ok (VInt r))) (entering "+" env s)).
Proof.
  assert (MA : forall x y z r, mod64 x y -> mod64 r (x + z) -> mod64 r (y + z)).
  { intros x y z r [_ [k ->]] [I [j E]]. split; [exact I|]. exists (j + k). lia. }
  assert (MM : forall x y z r, mod64 x y -> mod64 r (x * z) -> mod64 r (y * z)).
  { intros x y z r [_ [k ->]] [I [j E]]. split; [exact I|]. exists (j + k * z). rewrite Z.mul_add_distr_r, E. ring. }
  split; [|split].
  - destruct (plus2 a b env s) as (ab & M1 & H1), (plus2 b c env s) as (bc & M2 & H2).
    destruct (plus2 ab c env s) as (r & M3 & H3), (plus2 a bc env s) as (r' & M4 & H4).
    exists ab, bc, r. split; [exact H1|]. split; [exact H2|]. split; [exact H3|].
    apply (MA _ _ _ _ M1) in M3. rewrite Z.add_comm in M4. apply (MA _ _ _ _ M2) in M4.
    replace (b + c + a) with (a + b + c) in M4 by lia. rewrite (mod64_unique _ _ _ M3 M4). exact H4.
  - destruct (times2 a b env s) as (ab & M1 & H1), (times2 b c env s) as (bc & M2 & H2).
    destruct (times2 ab c env s) as (r & M3 & H3), (times2 a bc env s) as (r' & M4 & H4).
    exists ab, bc, r. split; [exact H1|]. split; [exact H2|]. split; [exact H3|].
    apply (MM _ _ _ _ M1) in M3. rewrite Z.mul_comm in M4. apply (MM _ _ _ _ M2) in M4.
    replace (b * c * a) with (a * b * c) in M4 by ring. rewrite (mod64_unique _ _ _ M3 M4). exact H4.
  - destruct (plus2 b c env s) as (bc & M1 & H1), (times2 a b env s) as (ab & M2 & H2), (times2 a c env s) as (ac & M3 & H3).
    destruct (times2 a bc env s) as (r & M4 & H4), (plus2 ab ac env s) as (r' & M5 & H5).
    exists bc, ab, ac, r. do 4 (split; [assumption|]).
    rewrite Z.mul_comm in M4. apply (MM _ _ _ _ M1) in M4. apply (MA _ _ _ _ M2) in M5. rewrite Z.add_comm in M5.
    apply (MA _ _ _ _ M3) in M5. replace (a * c + a * b) with ((b + c) * a) in M5 by ring.
    rewrite (mod64_unique _ _ _ M4 M5). exact H5.
Qed.
Lemma run_modulo_zero name a env s : In name ["%"; "modulo"] ->
  exists w, applies name [VInt a; VInt 0] env s (Panicked w) (entering name env s).
Proof.
  intros Hn. destruct Hn as [<-|[<-|[]]]; eexists; applies; unfold remainder_impl; cbn [arg nth need_integer];
  cbn; apply runs_panic.
Qed.
Lemma not_involution a env s : int64 a -> exists r,
  applies "binary-not" [VInt a] env s (Done (Ok (VInt r))) (entering "binary-not" env s) /\
  applies "binary-not" [VInt r] env s (Done (Ok (VInt a))) (entering "binary-not" env s).
Proof.
  intros Ha. destruct (run_not a env s Ha) as (r & I & B & H). exists r. split; [exact H|].
  destruct (run_not r env s I) as (r' & I' & B' & H'). replace a with r'; [exact H'|].
  apply int64_bits; [exact I'|exact Ha|]. intros i Hi. rewrite B', B by lia. destruct (i <? 32); [apply negb_involutive|reflexivity].
Qed.
