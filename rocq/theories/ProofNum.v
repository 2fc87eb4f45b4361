(** Proofs for C56 and C57. *)
From Coq Require Import Reals Lra.
From Flocq Require Import Core.Core IEEE754.BinarySingleNaN.
From Verif Require Import SpecNum ProofMath ProofFloat.
From Verif Require Import Data.
Local Open Scope string_scope.
Local Open Scope list_scope.
Local Open Scope Z_scope.
Local Existing Instance Hp.
Local Existing Instance Hm.

(** ** Floats and the integers they are worth *)
Notation S_finite := SpecFloat.S754_finite.
Notation S_zero := SpecFloat.S754_zero.

Lemma valid_shape s m e : float32 (S_finite s m e) ->
  (Zpos m < 2 ^ 23 /\ e = -149) \/ (2 ^ 23 <= Zpos m < 2 ^ 24 /\ -149 <= e <= 104).
Proof.
  unfold float32. cbn [SpecFloat.valid_binary]. unfold SpecFloat.bounded. intros H.
  apply andb_prop in H as [H1 H2]. unfold SpecFloat.canonical_mantissa in H1. apply Zeq_bool_eq in H1.
  apply Zle_bool_imp_le in H2. unfold SpecFloat.fexp, SpecFloat.emin in H1.
  rewrite Digits.Zpos_digits2_pos in H1.
  pose proof (Digits.Zdigits_correct radix2 (Zpos m)) as D. cbn [Z.abs] in D.
  change (Zaux.radix_val radix2) with 2 in D. set (d := Digits.Zdigits radix2 (Zpos m)) in *.
  assert (0 < d) by (apply Digits.Zdigits_gt_0; lia).
  destruct (Z.le_gt_cases d 23) as [L|G].
  - left. split; [|lia]. apply Z.lt_le_trans with (2 ^ d); [apply D|apply Z.pow_le_mono_r; lia].
  - right. assert (d = 24) by lia. subst d. replace (Digits.Zdigits radix2 (Zpos m)) with 24 in * by lia.
    cbn in D. split; lia.
Qed.
Lemma shape_valid s m e :
  (Zpos m < 2 ^ 23 /\ e = -149) \/ (2 ^ 23 <= Zpos m < 2 ^ 24 /\ -149 <= e <= 104) -> float32 (S_finite s m e).
Proof.
  intros H. unfold float32. cbn [SpecFloat.valid_binary]. unfold SpecFloat.bounded.
  unfold SpecFloat.canonical_mantissa, SpecFloat.fexp, SpecFloat.emin. rewrite Digits.Zpos_digits2_pos.
  destruct H as [[H1 H2]|[H1 H2]].
  - assert (Digits.Zdigits radix2 (Zpos m) <= 23) by (apply Digits.Zdigits_le_Zpower; change (Z.abs (Zpos m) < 2 ^ 23); lia).
    subst e. apply andb_true_intro. split; [apply Zeq_is_eq_bool; lia|apply Z.leb_le; lia].
  - assert (Digits.Zdigits radix2 (Zpos m) = 24) as ->.
    { apply (Digits.Zdigits_unique radix2). change (2 ^ 23 <= Z.abs (Zpos m) < 2 ^ 24). lia. }
    apply andb_true_intro. split; [apply Zeq_is_eq_bool; lia|apply Z.leb_le; lia].
Qed.

Lemma compares_eq n f : finite f -> (worth n f <-> SF2R radix2 f = IZR n).
Proof.
  intros F. unfold worth, compares. destruct f as [s|s| |s m e]; try contradiction.
  - cbn. split; [intros [_ H]; f_equal; lia|intros H; split; [exact Logic.I|apply eq_IZR in H; lia]].
  - cbn [significand exponent finite SF2R].
    change (if s then Z.neg m else Z.pos m) with (cond_Zopp s (Zpos m)). set (M := cond_Zopp s (Zpos m)).
    unfold F2R. cbn [Fnum Fexp]. destruct (Z.le_gt_cases 0 e) as [L|G].
    + rewrite (Z.max_r 0 e) by lia. rewrite (Z.max_l 0 (- e)) by lia. rewrite Z.mul_1_r.
      rewrite <- (IZR_Zpower radix2 e) by lia. rewrite <- mult_IZR. change (radix2 ^ e) with (2 ^ e).
      split; [intros [_ H]; f_equal; lia|intros H; split; [exact Logic.I|apply eq_IZR in H; lia]].
    + rewrite (Z.max_l 0 e) by lia. rewrite (Z.max_r 0 (- e)) by lia. rewrite Z.mul_1_r.
      assert (E : (IZR M * bpow radix2 e = IZR n <-> IZR M = IZR (n * 2 ^ (- e)))%R).
      { rewrite mult_IZR. change (2 ^ (- e)) with (radix2 ^ (- e)). rewrite IZR_Zpower by lia. rewrite bpow_opp.
        pose proof (bpow_gt_0 radix2 e). split; intros H'; [rewrite <- H'; field; lra|rewrite H'; field; lra]. }
      rewrite E. split; [intros [_ H]; f_equal; lia|intros H; split; [exact Logic.I|apply eq_IZR in H; lia]].
Qed.
Definition bfs (z : Z) (s : bool) : binary_float 24 128 := BinarySingleNaN.binary_normalize 24 128 Hp Hm mode_NE z 0 s.
Lemma f32_bfs z s : SpecFloat.binary_normalize 24 128 z 0 s = B2SF (bfs z s).
Proof. unfold bfs. destruct z as [|p|p]; cbn -[BinarySingleNaN.binary_round SpecFloat.binary_round]; rewrite ?B2SF_SF2B, ?round_equiv; reflexivity. Qed.
Lemma normal_worth z s : Z.abs z <= 2 ^ 24 -> worth z (SpecFloat.binary_normalize 24 128 z 0 s).
Proof.
  intros H. pose proof (binary_normalize_correct 24 128 Hp Hm mode_NE z 0 s) as C. cbv zeta in C.
  rewrite F2R_int in C. rewrite Rlt_bool_true in C.
  - destruct C as (C1 & C2 & _). fold (bfs z s) in C1, C2. rewrite rnd_exact in C1 by exact H.
    rewrite f32_bfs. apply compares_eq.
    + destruct (bfs z s); try discriminate; exact Logic.I.
    + rewrite SF2R_B2SF. exact C1.
  - eapply Rle_lt_trans; [apply rnd_bound; lia|]. apply bpow_lt. lia.
Qed.
Lemma of_Z_worth z : Z.abs z <= 2 ^ 24 -> worth z (f32_of_Z z).
Proof. apply normal_worth. Qed.
Lemma of_Z_valid z : float32 (f32_of_Z z).
Proof. unfold float32. rewrite f32_bf. apply valid_binary_B2SF. Qed.
Lemma of_Z_finite z : int64 z -> finite (f32_of_Z z).
Proof.
  intros H. destruct (bf_correct z (int64_abs z H)) as [_ F]. rewrite f32_bf.
  destruct (bf z); try discriminate; exact Logic.I.
Qed.
Lemma pow_pos k : 0 < 2 ^ Z.max 0 k.
Proof. apply Z.pow_pos_nonneg; lia. Qed.
(** Truncation. *)
Lemma trunc_quot f : f32_trunc f = Z.quot (significand f * 2 ^ Z.max 0 (exponent f)) (2 ^ Z.max 0 (- exponent f)).
Proof.
  destruct f as [s|s| |s m e]; try reflexivity. cbn [significand exponent f32_trunc].
  destruct (Z.leb_spec 0 e) as [L|G].
  - rewrite (Z.max_r 0 e), (Z.max_l 0 (- e)) by lia. rewrite Z.shiftl_mul_pow2 by lia.
    change (2 ^ 0) with 1. rewrite Z.quot_1_r. destruct s; lia.
  - rewrite (Z.max_l 0 e), (Z.max_r 0 (- e)) by lia. rewrite Z.shiftr_div_pow2 by lia.
    change (2 ^ 0) with 1. rewrite Z.mul_1_r. assert (0 < 2 ^ (- e)) by (apply Z.pow_pos_nonneg; lia).
    destruct s.
    + change (Z.neg m) with (- Z.pos m). rewrite Z.quot_opp_l by lia. rewrite Z.quot_div_nonneg by lia. reflexivity.
    + rewrite Z.quot_div_nonneg by lia. reflexivity.
Qed.
Lemma worth_trunc n f : worth n f -> f32_trunc f = n.
Proof.
  intros [F E]. rewrite trunc_quot, <- E. apply Z.quot_mul. pose proof (pow_pos (- exponent f)). lia.
Qed.
Lemma worth_int n f : worth n f -> int64 n -> int64_of_f32 f = n.
Proof.
  intros W I. pose proof (worth_trunc _ _ W) as T. destruct W as [F _]. unfold int64 in I.
  assert (B : in_int64 n = true).
  { unfold in_int64. apply andb_true_intro. split; apply Z.leb_le; [change int64_min with (- 2 ^ 63)|change int64_max with (2 ^ 63 - 1)]; lia. }
  destruct f; try contradiction; unfold int64_of_f32; cbv zeta; rewrite T, B; reflexivity.
Qed.
Lemma worth_abs n f : worth n f -> worth (Z.abs n) (f32_abs f).
Proof.
  intros [F E]. pose proof (pow_pos (- exponent f)). pose proof (pow_pos (exponent f)).
  destruct f as [s|s| |s m e]; try contradiction.
  - cbn in E. split; [exact Logic.I|]. cbn. lia.
  - cbn [significand exponent] in *. split; [exact Logic.I|]. cbn [f32_abs SpecFloat.SFabs significand exponent].
    destruct s; nia.
Qed.
Lemma abs_finite f : finite f -> finite (f32_abs f).
Proof. destruct f; exact (fun h => h). Qed.

(** ** Bits *)
Lemma bits_range f : float32 f -> 0 <= f32_bits f < 2 ^ 32.
Proof.
  destruct f as [s|s| |s m e]; intros V; try (destruct s; cbn; lia).
  - cbn. lia.
  - apply valid_shape in V. unfold f32_bits. destruct (Z.ltb_spec (Zpos m) 8388608), s; lia.
Qed.
Lemma of_bits_split (b : Z) (s : bool) ex mn : 0 <= ex < 256 -> 0 <= mn < 8388608 ->
  b = (if s then 2147483648 else 0) + ex * 8388608 + mn ->
  f32_of_bits b = if ex =? 255 then (if mn =? 0 then SpecFloat.S754_infinity s else SpecFloat.S754_nan)
    else if ex =? 0 then match mn with Zpos p => S_finite s p (-149) | _ => S_zero s end
    else match mn + 8388608 with Zpos p => S_finite s p (ex - 150) | _ => S_zero s end.
Proof.
  intros He Hm E. unfold f32_of_bits. cbv zeta.
  assert (R : 0 <= b < 4294967296) by (destruct s; lia).
  rewrite (Z.mod_small b) by exact R.
  assert (S : (2147483648 <=? b) = s) by (destruct s; [apply Z.leb_le|apply Z.leb_gt]; lia).
  assert (M : b mod 2147483648 = ex * 8388608 + mn).
  { symmetry. apply Z.mod_unique with (if s then 1 else 0); destruct s; lia. }
  rewrite S, M.
  assert (D : (ex * 8388608 + mn) / 8388608 = ex) by (symmetry; apply Z.div_unique with mn; lia).
  assert (D' : (ex * 8388608 + mn) mod 8388608 = mn) by (symmetry; apply Z.mod_unique with ex; lia).
  rewrite D, D'. reflexivity.
Qed.
Lemma bits_of f : float32 f -> f32_of_bits (f32_bits f) = f.
Proof.
  destruct f as [s|s| |s m e]; intros V.
  - rewrite (of_bits_split _ s 0 0); [reflexivity|lia|lia|cbn [f32_bits]; lia].
  - rewrite (of_bits_split _ s 255 0); [reflexivity|lia|lia|cbn [f32_bits]; lia].
  - reflexivity.
  - apply valid_shape in V. unfold f32_bits. destruct (Z.ltb_spec (Zpos m) 8388608).
    + rewrite (of_bits_split _ s 0 (Zpos m)); [|lia|lia|lia]. cbn. f_equal. lia.
    + rewrite (of_bits_split _ s (e + 150) (Zpos m - 8388608)); [|lia|lia|lia].
      destruct (Z.eqb_spec (e + 150) 255); [lia|]. destruct (Z.eqb_spec (e + 150) 0); [lia|].
      rewrite Z.sub_add. f_equal. lia.
Qed.
Lemma split_bits b : 0 <= b < 2 ^ 32 -> exists (s : bool) ex mn, 0 <= ex < 256 /\ 0 <= mn < 8388608 /\
  b = (if s then 2147483648 else 0) + ex * 8388608 + mn.
Proof.
  intros H. exists (2147483648 <=? b), (b mod 2147483648 / 8388608), (b mod 2147483648 mod 8388608).
  assert (B : 0 <= b mod 2147483648 < 2147483648) by (apply Z.mod_pos_bound; lia).
  split; [split; [apply Z.div_pos; lia|apply Z.div_lt_upper_bound; lia]|].
  split; [apply Z.mod_pos_bound; lia|].
  assert (E : b = (if 2147483648 <=? b then 2147483648 else 0) + b mod 2147483648).
  { destruct (Z.leb_spec 2147483648 b).
    - rewrite <- (Z.mod_unique b 2147483648 1 (b - 2147483648)); lia.
    - rewrite Z.mod_small by lia. lia. }
  rewrite E at 1. pose proof (Z.div_mod (b mod 2147483648) 8388608). lia.
Qed.
Lemma of_bits b : 0 <= b < 2 ^ 32 ->
  float32 (f32_of_bits b) /\ (f32_of_bits b = SpecFloat.S754_nan \/ f32_bits (f32_of_bits b) = b).
Proof.
  intros H. destruct (split_bits b H) as (s & ex & mn & He & Hn & E).
  rewrite (of_bits_split b s ex mn He Hn E).
  destruct (Z.eqb_spec ex 255) as [->|N1].
  - destruct (Z.eqb_spec mn 0) as [->|N2]; [|split; [reflexivity|left; reflexivity]].
    split; [reflexivity|right]. cbn [f32_bits]. lia.
  - destruct (Z.eqb_spec ex 0) as [->|N2].
    + destruct mn as [|p|p]; [| |lia].
      * split; [reflexivity|right]. cbn [f32_bits]. lia.
      * split; [apply shape_valid; left; lia|right]. unfold f32_bits. destruct (Z.ltb_spec (Zpos p) 8388608); lia.
    + destruct (mn + 8388608) as [|p|p] eqn:P; [lia| |lia].
      split; [apply shape_valid; right; lia|right]. unfold f32_bits. destruct (Z.ltb_spec (Zpos p) 8388608); lia.
Qed.

(** ** Floor and ceiling *)
Lemma floor_spec f : float32 f -> finite f -> exists n, worth n (f32_floor f) /\ compares Z.le n f /\ compares Z.gt (n + 1) f.
Proof.
  intros V F. destruct f as [s|s| |s m e]; try contradiction.
  - exists 0. cbn. unfold worth, compares. cbn. lia.
  - apply valid_shape in V. unfold f32_floor. destruct (Z.leb_spec 0 e) as [L|G].
    + exists (significand (S_finite s m e) * 2 ^ e). unfold worth, compares. cbn [exponent finite].
      rewrite (Z.max_r 0 e), (Z.max_l 0 (- e)) by lia. change (2 ^ 0) with 1.
      repeat apply conj; try exact Logic.I; lia.
    + set (M := if s then - Z.pos m else Z.pos m). exists (Z.shiftr M (- e)).
      rewrite Z.shiftr_div_pow2 by lia. assert (P : 0 < 2 ^ (- e)) by (apply Z.pow_pos_nonneg; lia).
      pose proof (Z.mul_div_le M (2 ^ (- e)) P). pose proof (Z.mul_succ_div_gt M (2 ^ (- e)) P).
      assert (SM : significand (S_finite s m e) = M) by (unfold M; destruct s; reflexivity).
      split; [|unfold compares; rewrite SM; cbn [exponent finite]; rewrite (Z.max_l 0 e), (Z.max_r 0 (- e)) by lia;
               repeat apply conj; try exact Logic.I; lia].
      apply normal_worth. assert (Z.abs M < 2 ^ 24) by (unfold M; destruct s; lia).
      set (q := M / 2 ^ (- e)) in *. destruct (Z.le_gt_cases 0 q); nia.
Qed.
Lemma neg_valid f : float32 f -> float32 (f32_neg f).
Proof. destruct f; exact (fun h => h). Qed.
Lemma neg_finite f : finite f -> finite (f32_neg f).
Proof. destruct f; exact (fun h => h). Qed.
Lemma neg_significand f : significand (f32_neg f) = - significand f.
Proof. destruct f as [| | |[] m e]; reflexivity. Qed.
Lemma neg_exponent f : exponent (f32_neg f) = exponent f.
Proof. destruct f; reflexivity. Qed.
Lemma neg_compares (R R' : Z -> Z -> Prop) n f : (forall x y, R (- x) (- y) -> R' x y) -> compares R (- n) (f32_neg f) -> compares R' n f.
Proof.
  intros HR [F H]. split; [destruct f; exact F|]. rewrite neg_significand, neg_exponent in H.
  rewrite !Z.mul_opp_l in H. apply HR. exact H.
Qed.
Lemma neg_neg f : f32_neg (f32_neg f) = f.
Proof. destruct f as [[]|[]| |[] m e]; reflexivity. Qed.
Lemma ceil_spec f : float32 f -> finite f -> exists n, worth n (f32_ceil f) /\ compares Z.ge n f /\ compares Z.lt (n - 1) f.
Proof.
  intros V F. destruct (floor_spec (f32_neg f) (neg_valid _ V) (neg_finite _ F)) as (n & W & A & B).
  exists (- n). unfold f32_ceil. split; [|split].
  - apply (neg_compares eq); [intros; lia|]. rewrite Z.opp_involutive, neg_neg. exact W.
  - apply (neg_compares Z.le); [intros; lia|]. rewrite Z.opp_involutive. exact A.
  - apply (neg_compares Z.gt); [intros; lia|]. replace (- (- n - 1)) with (n + 1) by lia. exact B.
Qed.

(** ** The built-ins *)
Ltac number_op := applies; cbv beta delta [succ_impl pred_impl even_impl odd_impl zero_impl positive_impl negative_impl
  sign_impl abs_impl to_int_impl to_float_impl floor_impl ceiling_impl inf_impl nan_impl float_to_bits_impl bits_to_float_impl
  float_test need_number need_integer lisp_bool]; cbn [arg nth need_integer numberp integerp floatp float_value int_value orb]; apply runs_ret.
Lemma run_succ z env s : exists r, mod64 r (z + 1) /\ applies "succ" [VInt z] env s (Done (Ok (VInt r))) (entering "succ" env s).
Proof. eexists. split; [apply mod64_wrap|]. number_op. Qed.
Lemma run_pred z env s : exists r, mod64 r (z - 1) /\ applies "pred" [VInt z] env s (Done (Ok (VInt r))) (entering "pred" env s).
Proof. eexists. split; [apply mod64_wrap|]. number_op. Qed.
Lemma run_even z env s : applies "even?" [VInt z] env s (Done (Ok (VBool (Z.even z)))) (entering "even?" env s).
Proof.
  replace (Z.even z) with (Z.rem z 2 =? 0); [number_op|].
  pose proof (Z.quot_rem' z 2). pose proof (Z.rem_bound_abs z 2 ltac:(lia)).
  destruct (Z.eqb_spec (Z.rem z 2) 0) as [E|N]; symmetry.
  - apply Z.even_spec. exists (Z.quot z 2). lia.
  - rewrite <- Z.negb_odd. apply negb_false_iff. apply Z.odd_spec.
    destruct (Z.eq_dec (Z.rem z 2) 1); [exists (Z.quot z 2); lia|exists (Z.quot z 2 - 1); lia].
Qed.
Lemma run_odd z env s : applies "odd?" [VInt z] env s (Done (Ok (VBool (Z.odd z)))) (entering "odd?" env s).
Proof.
  replace (Z.odd z) with (negb (Z.rem z 2 =? 0)); [number_op|].
  pose proof (Z.quot_rem' z 2). pose proof (Z.rem_bound_abs z 2 ltac:(lia)).
  destruct (Z.eqb_spec (Z.rem z 2) 0) as [E|N]; symmetry; cbn [negb].
  - rewrite <- Z.negb_even. apply negb_false_iff. apply Z.even_spec. exists (Z.quot z 2). lia.
  - apply Z.odd_spec. destruct (Z.eq_dec (Z.rem z 2) 1); [exists (Z.quot z 2); lia|exists (Z.quot z 2 - 1); lia].
Qed.
Lemma run_parity z env s : exists b : bool, (b = true <-> exists k, z = 2 * k) /\
  applies "even?" [VInt z] env s (Done (Ok (VBool b))) (entering "even?" env s) /\
  applies "odd?" [VInt z] env s (Done (Ok (VBool (negb b)))) (entering "odd?" env s).
Proof.
  exists (Z.even z). split; [apply Z.even_spec|]. split; [apply run_even|]. rewrite Z.negb_even. apply run_odd.
Qed.
Lemma zero_of_Z z : int64 z -> f32_eqb (f32_of_Z z) f32_zero = (z =? 0).
Proof.
  intros H. destruct (ltb_small 0 z ltac:(cbn; lia) (int64_abs _ H)) as [L1 L2].
  change (f32_of_Z 0) with (S_zero false) in L1, L2. unfold f32_zero.
  destruct (Z.eqb_spec z 0) as [->|N]; [reflexivity|].
  pose proof (of_Z_finite z H). destruct (f32_of_Z z) as [[]|[]| |[] m e]; try contradiction; try reflexivity;
    cbn in L1, L2; symmetry in L1, L2; apply Z.ltb_ge in L1, L2; lia.
Qed.
Lemma run_sign z env s : int64 z ->
  applies "sign" [VInt z] env s (Done (Ok (VInt (Z.sgn z)))) (entering "sign" env s) /\
  applies "zero?" [VInt z] env s (Done (Ok (VBool (z =? 0)))) (entering "zero?" env s) /\
  applies "positive?" [VInt z] env s (Done (Ok (VBool (0 <? z)))) (entering "positive?" env s) /\
  applies "negative?" [VInt z] env s (Done (Ok (VBool (z <? 0)))) (entering "negative?" env s).
Proof.
  intros H. destruct (ltb_small 0 z ltac:(cbn; lia) (int64_abs _ H)) as [L1 L2]. rewrite <- L1, <- L2.
  rewrite <- zero_of_Z, <- int_sgn_spec by exact H. repeat apply conj; number_op.
Qed.
Lemma small_int64 z : Z.abs z <= 2 ^ 24 -> int64 z.
Proof. unfold int64. lia. Qed.
Lemma run_abs z env s : Z.abs z <= 2 ^ 24 -> applies "abs" [VInt z] env s (Done (Ok (VInt (Z.abs z)))) (entering "abs" env s).
Proof.
  intros H. rewrite <- (worth_int (Z.abs z) (f32_abs (f32_of_Z z))); [number_op| |].
  - apply worth_abs, of_Z_worth, H.
  - apply small_int64. lia.
Qed.
Lemma run_abs_large : exists z r, int64 z /\ r <> Z.abs z /\ forall env s,
  applies "abs" [VInt z] env s (Done (Ok (VInt r))) (entering "abs" env s).
Proof. exists (-16777217), 16777216. split; [unfold int64; lia|]. split; [cbn; lia|]. intros env s. number_op. Qed.
Lemma run_abs_negative : exists z r, int64 z /\ r < 0 /\ forall env s,
  applies "abs" [VInt z] env s (Done (Ok (VInt r))) (entering "abs" env s).
Proof. exists (2 ^ 63 - 1), (- 2 ^ 63). split; [unfold int64; lia|]. split; [lia|]. intros env s. number_op. Qed.
Lemma run_integer z env s : applies "integer" [VInt z] env s (Done (Ok (VInt z))) (entering "integer" env s).
Proof. number_op. Qed.
Lemma run_float f env s : applies "float" [VFloat f] env s (Done (Ok (VFloat f))) (entering "float" env s).
Proof. number_op. Qed.
Lemma run_to_float z env s : Z.abs z <= 2 ^ 24 -> exists f, float32 f /\ worth z f /\
  applies "float" [VInt z] env s (Done (Ok (VFloat f))) (entering "float" env s) /\
  forall env2 s2, applies "integer" [VFloat f] env2 s2 (Done (Ok (VInt z))) (entering "integer" env2 s2).
Proof.
  intros H. exists (f32_of_Z z). split; [apply of_Z_valid|]. split; [apply of_Z_worth, H|]. split; [number_op|].
  intros env2 s2. rewrite <- (worth_int z (f32_of_Z z)) at 2; [number_op|apply of_Z_worth, H|apply small_int64, H].
Qed.
Lemma run_to_float_large : exists z f r, int64 z /\ r <> z /\ forall env s,
  applies "float" [VInt z] env s (Done (Ok (VFloat f))) (entering "float" env s) /\
  applies "integer" [VFloat f] env s (Done (Ok (VInt r))) (entering "integer" env s).
Proof.
  exists 16777217, (f32_of_Z 16777217), 16777216. split; [unfold int64; lia|]. split; [lia|]. intros env s. split; number_op.
Qed.
(** Truncation of a float: towards zero. *)
Lemma run_truncate f env s : finite f -> compares Z.ge (2 ^ 63 - 1) (f32_abs f) -> exists n,
  compares Z.le (Z.abs n) (f32_abs f) /\ compares Z.gt (Z.abs n + 1) (f32_abs f) /\ (n = 0 \/ Z.sgn n = Z.sgn (significand f)) /\
  applies "integer" [VFloat f] env s (Done (Ok (VInt n))) (entering "integer" env s).
Proof.
  intros F B. exists (f32_trunc f).
  pose proof (pow_pos (- exponent f)) as P1. pose proof (pow_pos (exponent f)) as P2.
  assert (E : exponent (f32_abs f) = exponent f) by (destruct f; reflexivity).
  assert (G : significand (f32_abs f) = Z.abs (significand f)) by (destruct f as [| | |[] m e]; reflexivity).
  unfold compares in *. rewrite E, G in *. destruct B as [_ B].
  rewrite trunc_quot. set (M := significand f) in *. set (a := 2 ^ Z.max 0 (- exponent f)) in *. set (b := 2 ^ Z.max 0 (exponent f)) in *.
  rewrite <- (Z.quot_abs _ a) by lia. rewrite (Z.abs_eq a) by lia. rewrite Z.abs_mul, (Z.abs_eq b) by lia.
  rewrite Z.quot_div_nonneg by nia.
  pose proof (Z.mul_div_le (Z.abs M * b) a P1). pose proof (Z.mul_succ_div_gt (Z.abs M * b) a P1).
  split; [split; [apply abs_finite, F|lia]|]. split; [split; [apply abs_finite, F|lia]|]. split.
  - pose proof (Z.quot_rem' (M * b) a) as QR. pose proof (Z.rem_bound_abs (M * b) a ltac:(lia)) as RB.
    pose proof (Z.rem_sign_nz (M * b) a ltac:(lia)) as RS.
    destruct (Z.eq_dec (Z.quot (M * b) a) 0) as [Z0|NZ]; [left; exact Z0|right].
    assert (S : Z.sgn (Z.quot (M * b) a) = Z.sgn (M * b)).
    { destruct (Z.lt_trichotomy (M * b) 0) as [L|[Q|L]].
      - assert (Z.quot (M * b) a <= 0). { replace (M * b) with (- - (M * b)) by lia. rewrite Z.quot_opp_l by lia. pose proof (Z.quot_pos (- (M * b)) a ltac:(lia) ltac:(lia)). lia. }
        lia.
      - rewrite Q, Z.quot_0_l in NZ by lia. lia.
      - pose proof (Z.quot_pos (M * b) a ltac:(lia) ltac:(lia)). lia. }
    rewrite S, Z.sgn_mul. destruct (Z.sgn_spec b) as [[_ X]|[[X _]|[X _]]]; try lia. 
  - assert (T : int64_of_f32 f = f32_trunc f).
    { assert (IN : in_int64 (f32_trunc f) = true).
      { rewrite trunc_quot. fold M a b. unfold in_int64. apply andb_true_intro.
        assert (Z.abs (Z.quot (M * b) a) <= 2 ^ 63 - 1).
        { rewrite <- Z.quot_abs by lia. rewrite (Z.abs_eq a) by lia. rewrite Z.abs_mul, (Z.abs_eq b) by lia.
          rewrite Z.quot_div_nonneg by nia. apply Z.lt_succ_r. apply Z.div_lt_upper_bound; lia. }
        split; apply Z.leb_le; [change int64_min with (- 2 ^ 63)|change int64_max with (2 ^ 63 - 1)]; lia. }
      destruct f; try contradiction; unfold int64_of_f32; cbv zeta; rewrite IN; reflexivity. }
    rewrite trunc_quot in T. fold M a b in T. rewrite <- T. number_op.
Qed.
Lemma run_floor f env s : float32 f -> finite f -> exists n g, worth n g /\ compares Z.le n f /\ compares Z.gt (n + 1) f /\
  applies "floor" [VFloat f] env s (Done (Ok (VFloat g))) (entering "floor" env s).
Proof.
  intros V F. destruct (floor_spec f V F) as (n & W & A & B). exists n, (f32_floor f). do 3 (split; [assumption|]). number_op.
Qed.
Lemma run_ceiling f env s : float32 f -> finite f -> exists n g, worth n g /\ compares Z.ge n f /\ compares Z.lt (n - 1) f /\
  applies "ceiling" [VFloat f] env s (Done (Ok (VFloat g))) (entering "ceiling" env s).
Proof.
  intros V F. destruct (ceil_spec f V F) as (n & W & A & B). exists n, (f32_ceil f). do 3 (split; [assumption|]). number_op.
Qed.
Lemma run_bits f env s : float32 f -> exists b, 0 <= b < 2 ^ 32 /\
  applies "float->bits" [VFloat f] env s (Done (Ok (VInt b))) (entering "float->bits" env s) /\
  forall env2 s2, applies "bits->float" [VInt b] env2 s2 (Done (Ok (VFloat f))) (entering "bits->float" env2 s2).
Proof.
  intros V. exists (f32_bits f). pose proof (bits_range f V) as R. split; [exact R|]. split; [number_op|].
  intros env2 s2. rewrite <- (bits_of f V) at 2. rewrite <- (Z.mod_small (f32_bits f) (2 ^ 32)) at 2 by exact R. number_op.
Qed.
Lemma run_from_bits b env s : exists f, float32 f /\
  applies "bits->float" [VInt b] env s (Done (Ok (VFloat f))) (entering "bits->float" env s) /\
  (f = SpecFloat.S754_nan \/ forall env2 s2,
   applies "float->bits" [VFloat f] env2 s2 (Done (Ok (VInt (b mod 2 ^ 32)))) (entering "float->bits" env2 s2)).
Proof.
  exists (f32_of_bits (b mod 2 ^ 32)). destruct (of_bits (b mod 2 ^ 32)) as [V H]; [apply Z.mod_pos_bound; lia|].
  split; [exact V|]. split; [number_op|]. destruct H as [H|H]; [left; exact H|right]. intros env2 s2.
  rewrite <- H at 2. number_op.
Qed.
Lemma run_sign_float f env s : exists (z p n : bool) g,
  applies "zero?" [VFloat f] env s (Done (Ok (VBool z))) (entering "zero?" env s) /\
  applies "positive?" [VFloat f] env s (Done (Ok (VBool p))) (entering "positive?" env s) /\
  applies "negative?" [VFloat f] env s (Done (Ok (VBool n))) (entering "negative?" env s) /\
  applies "sign" [VFloat f] env s (Done (Ok (VInt g))) (entering "sign" env s) /\
  g = (if p then 1 else 0) - (if n then 1 else 0) /\
  (f = SpecFloat.S754_nan -> z = false /\ p = false /\ n = false) /\
  (finite f -> (z = true <-> significand f = 0) /\ (p = true <-> 0 < significand f) /\ (n = true <-> significand f < 0)) /\
  (forall neg, f = SpecFloat.S754_infinity neg -> z = false /\ p = negb neg /\ n = neg).
Proof.
  exists (f32_eqb f f32_zero), (f32_ltb f32_zero f), (f32_ltb f f32_zero), (sgn f).
  do 4 (split; [number_op|]). split; [|split; [|split]].
  - destruct f as [[]|[]| |[] m e]; reflexivity.
  - intros ->. repeat apply conj; reflexivity.
  - intros F. destruct f as [[]|[]| |[] m e]; try contradiction; cbn; repeat apply conj; intros H; try reflexivity; try discriminate; lia.
  - intros neg ->. destruct neg; repeat apply conj; reflexivity.
Qed.
Lemma run_inf_nan f env s : exists i n : bool, (i = true <-> exists neg, f = SpecFloat.S754_infinity neg) /\ (n = true <-> f = SpecFloat.S754_nan) /\
  (finite f <-> i = false /\ n = false) /\
  applies "inf?" [VFloat f] env s (Done (Ok (VBool i))) (entering "inf?" env s) /\
  applies "nan?" [VFloat f] env s (Done (Ok (VBool n))) (entering "nan?" env s).
Proof.
  exists (f32_is_inf f), (f32_is_nan f). split; [|split; [|split; [|split; number_op]]].
  - destruct f as [x|x| |x m e]; cbn; split; intros H; try discriminate; try reflexivity; try (destruct H; discriminate). exists x. reflexivity.
  - destruct f; cbn; split; intros H; try discriminate; reflexivity.
  - destruct f; cbn; split; intros H; try tauto; destruct H; discriminate.
Qed.
Lemma run_inf_nan_int z env s :
  applies "inf?" [VInt z] env s (Done (Ok (VBool false))) (entering "inf?" env s) /\
  applies "nan?" [VInt z] env s (Done (Ok (VBool false))) (entering "nan?" env s).
Proof. split; number_op. Qed.
Lemma run_abs_float f env s : exists g, applies "abs" [VFloat f] env s (Done (Ok (VFloat g))) (entering "abs" env s) /\
  exponent g = exponent f /\ significand g = Z.abs (significand f) /\ (finite f <-> finite g) /\ (f = SpecFloat.S754_nan <-> g = SpecFloat.S754_nan).
Proof.
  exists (f32_abs f). split; [number_op|]. destruct f as [[]|[]| |[] m e]; cbn; repeat apply conj; try reflexivity; intros; first [exact Logic.I|assumption|discriminate|reflexivity].
Qed.
Lemma fail_recv_not_ok {A} who v s (r : A) s' : ~ runs denote (fail_recv who v) s (Done (Ok r)) s'.
Proof.
  unfold fail_recv. intros R. apply runs_bind_inv in R as [(x & s1 & _ & R)|(w & E & _)]; [|discriminate].
  destruct (runs_det _ _ _ _ _ _ _ _ R (runs_ret _ _ _ _)) as [E _]. discriminate.
Qed.
Lemma fail_not_ok {A} m s (r : A) s' : ~ runs denote (fail m) s (Done (Ok r)) s'.
Proof. intros R. destruct (runs_det _ _ _ _ _ _ _ _ R (runs_ret _ _ _ _)) as [E _]. discriminate. Qed.
Ltac number_only := eapply applies_inv; [reflexivity|eassumption].
Lemma only_numbers name v env s r s' : ~ is_number v ->
  In name ["succ"; "pred"; "integer"; "float"; "floor"; "ceiling"; "abs"; "zero?"; "positive?"; "negative?"; "even?"; "odd?"; "sign";
           "inf?"; "nan?"; "float->bits"; "bits->float"] -> ~ applies name [v] env s (Done (Ok r)) s'.
Proof.
  intros N Hn R.
  assert (NP : numberp v = false) by (destruct v; try reflexivity; exfalso; apply N; [left|right]; eexists; reflexivity).
  assert (NI : forall A who k, need_integer (A := A) who v k = fail_recv who v) by (intros; destruct v; try reflexivity; discriminate).
  repeat (destruct Hn as [<-|Hn]; [eapply applies_inv in R; [|reflexivity]; cbn [p_body func] in R;
    cbv beta delta [succ_impl pred_impl even_impl odd_impl zero_impl positive_impl negative_impl
      sign_impl abs_impl to_int_impl to_float_impl floor_impl ceiling_impl inf_impl nan_impl float_to_bits_impl bits_to_float_impl
      float_test need_number] in R; cbn [arg nth] in R; rewrite ?NP, ?NI in R; cbn iota in R;
    first [exact (fail_recv_not_ok _ _ _ _ _ R) | destruct v; try discriminate; first [exact (fail_recv_not_ok _ _ _ _ _ R)|exact (fail_not_ok _ _ _ _ R)]] |]).
  destruct Hn.
Qed.
Lemma only_integers name f env s r s' : In name ["succ"; "pred"; "even?"; "odd?"; "bits->float"] ->
  ~ applies name [VFloat f] env s (Done (Ok r)) s'.
Proof.
  intros Hn R. repeat (destruct Hn as [<-|Hn]; [eapply applies_inv in R; [|reflexivity]; cbn [p_body func] in R;
    cbv beta delta [succ_impl pred_impl even_impl odd_impl bits_to_float_impl] in R; cbn [arg nth need_integer] in R;
    first [exact (fail_recv_not_ok _ _ _ _ _ R)|exact (fail_not_ok _ _ _ _ R)]|]). destruct Hn.
Qed.
Lemma magnitude_abs R n f : compares R n (f32_abs f) <-> compares_magnitude R n f.
Proof.
  unfold compares, compares_magnitude.
  assert (exponent (f32_abs f) = exponent f) as -> by (destruct f; reflexivity).
  assert (significand (f32_abs f) = Z.abs (significand f)) as -> by (destruct f as [| | |[] m e]; reflexivity).
  assert (finite (f32_abs f) <-> finite f) as -> by (destruct f; reflexivity). reflexivity.
Qed.
Lemma run_to_integer f env s : compares_magnitude Z.ge (2 ^ 63 - 1) f -> exists n,
  compares_magnitude Z.le (Z.abs n) f /\ compares_magnitude Z.gt (Z.abs n + 1) f /\ (n = 0 \/ Z.sgn n = Z.sgn (significand f)) /\
  applies "integer" [VFloat f] env s (Done (Ok (VInt n))) (entering "integer" env s).
Proof.
  intros B. destruct (run_truncate f env s) as (n & H1 & H2 & H3 & H4); [apply B|apply magnitude_abs, B|].
  exists n. rewrite <- !magnitude_abs. auto.
Qed.
