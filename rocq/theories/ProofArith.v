(** Proofs of C66. *)
From Coq Require Import Reals Lra SpecFloat.
From Flocq Require Import Core.Core IEEE754.BinarySingleNaN.
From Verif Require Import Base SpecArith ProofFloat ProofMath.
From stdpp Require Import list.
From Verif Require Import Data SpecArith.
Local Open Scope string_scope.
Local Open Scope list_scope.
Local Open Scope Z_scope.
Local Existing Instance Hp.
Local Existing Instance Hm.
Local Existing Instance fe_valid.
Notation bin := (binary_float 24 128).

(** ** Floats as Flocq's binary floats *)
Lemma exact_B2R (b : bin) : exact (B2SF b) = B2R b.
Proof.
  destruct b as [s|s| |s m e H]; unfold exact; cbn [B2SF significand exponent B2R]; try (rewrite Rmult_0_l; reflexivity).
  unfold F2R. cbn [Fnum Fexp]. rewrite bpow_powerRZ. destruct s; reflexivity.
Qed.
Lemma as_bin f : float32 f -> exists b : bin, B2SF b = f.
Proof. intros H. exists (SF2B f H). apply B2SF_SF2B. Qed.
Lemma bin_float32 (b : bin) : float32 (B2SF b).
Proof. apply valid_binary_B2SF. Qed.
Lemma finite_bin (b : bin) : finite (B2SF b) <-> is_finite b = true.
Proof. destruct b; cbn; intuition discriminate. Qed.
Lemma sign_bin (b : bin) : is_nan b = false -> minus_sign (B2SF b) = Bsign b.
Proof. destruct b; cbn; intros; try reflexivity. Qed.
Lemma sign_value (b : bin) : is_finite b = true -> B2R b <> 0%R -> (Bsign b = true <-> (B2R b < 0)%R).
Proof.
  destruct b as [s|s| |s m e H]; cbn [is_finite B2R Bsign]; intros F N; try discriminate; try congruence.
  destruct s; split; intros A; try reflexivity; try discriminate.
  - apply F2R_lt_0. reflexivity.
  - exfalso. assert (0 < F2R (Float radix2 (cond_Zopp false (Z.pos m)) e))%R by (apply F2R_gt_0; reflexivity). lra.
Qed.

(** ** Rounding *)
Notation fmt := (generic_format radix2 fe).
Lemma ne_inst : Exists_NE radix2 fe.
Proof. apply (exists_NE_FLT radix2 (-149) 24). right. reflexivity. Qed.
Local Existing Instance ne_inst.
Lemma rnd_ne x : Rnd_NE_pt radix2 fe x (rnd x).
Proof. apply round_NE_pt; [exact fe_valid|exact ne_inst]. Qed.
Lemma ne_monotone : round_pred_monotone (Rnd_NE_pt radix2 fe).
Proof. apply Rnd_NE_pt_monotone; [exact fe_valid|exact ne_inst]. Qed.
Lemma rnd_fmt x : fmt (rnd x).
Proof. apply generic_format_round; [exact fe_valid|apply valid_rnd_N]. Qed.
Lemma rnd_near x g : fmt g -> (Rabs (rnd x - x) <= Rabs (g - x))%R.
Proof. intros F. exact (proj2 (proj1 (rnd_ne x)) g F). Qed.
Definition top : R := bpow radix2 128.
Definition largest : R := (bpow radix2 128 - bpow radix2 104)%R.
Lemma overflow_mid : overflow = ((top + largest) / 2)%R.
Proof. unfold overflow, top, largest. change (bpow radix2 128) with (IZR (2 ^ 128)). change (bpow radix2 104) with (IZR (2 ^ 104)).
  apply (Rmult_eq_reg_r 2); [|lra]. unfold Rdiv. rewrite Rmult_assoc, Rinv_l, Rmult_1_r by lra. rewrite <- minus_IZR, <- plus_IZR, <- mult_IZR. f_equal. Qed.
Lemma largest_top : (0 < largest < top)%R.
Proof. unfold largest, top. change (bpow radix2 128) with (IZR (2 ^ 128)). change (bpow radix2 104) with (IZR (2 ^ 104)). rewrite <- minus_IZR. split; apply IZR_lt; reflexivity. Qed.
Lemma largest_bounded : SpecFloat.bounded 24 128 16777215 104 = true.
Proof. reflexivity. Qed.
Definition largest_bin : bin := B754_finite false 16777215 104 largest_bounded.
Lemma largest_B2R : B2R largest_bin = largest.
Proof. unfold largest_bin, largest, B2R, F2R. cbn [Fnum Fexp cond_Zopp]. change (bpow radix2 128) with (IZR (2 ^ 128)). change (bpow radix2 104) with (IZR (2 ^ 104)). rewrite <- minus_IZR, <- mult_IZR. f_equal. Qed.
Lemma largest_fmt : fmt largest.
Proof. rewrite <- largest_B2R. apply generic_format_B2R. Qed.
Lemma top_fmt : fmt top.
Proof. apply generic_format_bpow. unfold fexp, emin. lia. Qed.
(** A number of the format below the top is a float. *)
Lemma fmt_bin r : fmt r -> (Rabs r < top)%R -> exists b : bin, is_finite b = true /\ B2R b = r.
Proof.
  intros F H. destruct (Req_dec r 0) as [->|N]; [exists (B754_zero false); split; reflexivity|].
  pose proof (binary_normalize_correct 24 128 Hp Hm mode_NE (Ztrunc (scaled_mantissa radix2 fe r)) (cexp radix2 fe r) false) as C. cbv zeta in C.
  assert (E : F2R (Float radix2 (Ztrunc (scaled_mantissa radix2 fe r)) (cexp radix2 fe r)) = r) by (symmetry; exact F).
  rewrite E in C. rewrite (round_generic radix2 fe (round_mode mode_NE) r F) in C. rewrite Rlt_bool_true in C by exact H.
  destruct C as (C1 & C2 & _). eexists. split; [exact C2|exact C1].
Qed.
Lemma rnd_small x : (Rabs x < overflow)%R -> (Rabs (rnd x) < top)%R.
Proof.
  intros H. rewrite overflow_mid in H. pose proof largest_top as L. destruct (Rlt_or_le (Rabs (rnd x)) top) as [A|A]; [exact A|exfalso].
  pose proof (rnd_near x _ largest_fmt) as N1. pose proof (rnd_near x _ (generic_format_opp radix2 fe _ largest_fmt)) as N2.
  revert A H N1 N2. unfold Rabs. repeat destruct Rcase_abs; intros; lra.
Qed.
Lemma even_even z : Z.even z = true -> Z.Even z.
Proof. apply Z.even_spec. Qed.
(** The significand of a float whose value has an even canonical form. *)
Lemma canon_bin (b : bin) g : is_finite b = true -> canonical radix2 fe g -> F2R g = B2R b -> B2R b <> 0%R -> significand (B2SF b) = Fnum g.
Proof.
  destruct b as [s|s| |s m e H]; intros F C E N; try discriminate; try (cbn in N; congruence).
  assert (g = Float radix2 (cond_Zopp s (Zpos m)) e) as ->.
  { apply (canonical_unique radix2 fe); [exact C|apply canonical_bounded; exact H|exact E]. }
  cbn. destruct s; reflexivity.
Qed.
Lemma rnd_large x : (overflow <= Rabs x)%R -> (top <= Rabs (rnd x))%R.
Proof.
  intros H. destruct (Rle_or_lt top (Rabs (rnd x))) as [A|A]; [exact A|exfalso].
  destruct (fmt_bin _ (rnd_fmt x) A) as (b & Fb & Eb). pose proof (abs_B2R_le_emax_minus_prec 24 128 Hp b) as L. rewrite Eb in L.
  change (bpow radix2 128 - bpow radix2 (128 - 24))%R with largest in L.
  rewrite overflow_mid in H. pose proof largest_top as LT.
  pose proof (rnd_near x _ top_fmt) as N1. pose proof (rnd_near x _ (generic_format_opp radix2 fe _ top_fmt)) as N2.
  (* x is exactly half-way, and the float below has an odd significand *)
  assert (Q : ((rnd x = largest /\ Rabs (top - x) = Rabs (rnd x - x)) \/ (rnd x = - largest /\ Rabs (- top - x) = Rabs (rnd x - x)))%R).
  { revert L H N1 N2. clear -LT. unfold Rabs. repeat destruct Rcase_abs; intros; lra. }
  destruct (rnd_ne x) as [_ [P|U]].
  - destruct P as (g & E & C & V).
    assert (Z.even (significand (B2SF b)) = true).
    { rewrite (canon_bin b g Fb C); [exact V|congruence|]. rewrite Eb. destruct Q as [[Q _]|[Q _]]; rewrite Q; lra. }
    assert (B : b = largest_bin \/ b = Bopp largest_bin).
    { destruct Q as [[Q _]|[Q _]]; [left|right]; apply B2R_inj.
      - rewrite Q in Eb. destruct b; try discriminate; try reflexivity. exfalso. cbn [B2R] in Eb. lra.
      - reflexivity.
      - rewrite Eb, Q. symmetry. apply largest_B2R.
      - rewrite Q in Eb. destruct b; try discriminate; try reflexivity. exfalso. cbn [B2R] in Eb. lra.
      - reflexivity.
      - rewrite B2R_Bopp, largest_B2R, Eb. exact Q. }
    destruct B as [-> | ->]; discriminate H0.
  - assert (N : forall y, fmt y -> Rabs (y - x) = Rabs (rnd x - x) -> y = rnd x).
    { intros y F E. apply U. split; [exact F|]. intros g Fg. rewrite E. apply rnd_near, Fg. }
    destruct Q as [[Q1 Q2]|[Q1 Q2]].
    + pose proof (N _ top_fmt Q2). lra.
    + pose proof (N _ (generic_format_opp radix2 fe _ top_fmt) Q2). lra.
Qed.
Lemma rounds_bin x (b : bin) : is_nan b = false -> (x <> 0%R -> (Bsign b = true <-> (x < 0)%R)) ->
  (if Rlt_bool (Rabs (rnd x)) (bpow radix2 128) then B2R b = rnd x /\ is_finite b = true else exists s, B2SF b = S754_infinity s) -> rounds x (B2SF b).
Proof.
  intros Nn S H. split; [apply bin_float32|]. split; [rewrite (sign_bin _ Nn); exact S|].
  revert H. case Rlt_bool_spec; intros L H.
  - left. destruct H as [E F]. assert (X : (Rabs x < overflow)%R).
    { destruct (Rlt_or_le (Rabs x) overflow) as [A|A]; [exact A|]. apply rnd_large in A. unfold top in A. lra. }
    split; [exact X|]. split; [apply finite_bin, F|]. rewrite exact_B2R, E. split.
    + intros g Vg Fg. destruct (as_bin g Vg) as (bg & <-). rewrite exact_B2R. apply rnd_near, generic_format_B2R.
    + intros g Vg Fg Ne Eq. destruct (as_bin g Vg) as (bg & <-). rewrite exact_B2R in Ne, Eq.
      destruct (rnd_ne x) as [_ [P|U]].
      * destruct P as (c & Ec & C & V). destruct (Req_dec (B2R b) 0) as [Z0|Z0].
        -- destruct b; cbn in Z0; try (exists 0; reflexivity). exfalso. revert Z0. destruct s; [apply Rlt_not_eq, F2R_lt_0|apply Rgt_not_eq, F2R_gt_0]; reflexivity.
        -- rewrite (canon_bin b c F C); [apply Z.even_spec, V|congruence|exact Z0].
      * exfalso. apply Ne, U. split; [apply generic_format_B2R|]. intros y Fy. rewrite Eq. apply rnd_near, Fy.
  - right. split; [|exact H]. destruct (Rle_or_lt overflow (Rabs x)) as [A|A]; [exact A|]. apply rnd_small in A. unfold top in A. lra.
Qed.

(** ** The operations *)
Lemma aux_equiv s m e l : SpecFloat.binary_round_aux 24 128 s m e l = BinarySingleNaN.binary_round_aux 24 128 mode_NE s m e l.
Proof.
  unfold SpecFloat.binary_round_aux, BinarySingleNaN.binary_round_aux.
  set (mrse' := shr_fexp _ _ _ _ _). case mrse'. intros mrs' e'. rewrite (nearest_even_equiv s). reflexivity.
Qed.
Lemma normalize_equiv m e z : SpecFloat.binary_normalize 24 128 m e z = B2SF (BinarySingleNaN.binary_normalize 24 128 Hp Hm mode_NE m e z).
Proof. destruct m as [|p|p]; [reflexivity| |]; cbn -[BinarySingleNaN.binary_round SpecFloat.binary_round]; rewrite B2SF_SF2B; apply round_equiv. Qed.
Lemma add_bin (a b : bin) : f32_add (B2SF a) (B2SF b) = B2SF (Bplus mode_NE a b).
Proof.
  unfold f32_add. destruct a as [s|s| |s m e Ha], b as [t|t| |t n k Hb]; try reflexivity; try (cbn; case Bool.eqb; reflexivity).
  apply normalize_equiv.
Qed.
Lemma mul_bin (a b : bin) : f32_mul (B2SF a) (B2SF b) = B2SF (Bmult mode_NE a b).
Proof.
  unfold f32_mul. destruct a as [s|s| |s m e Ha], b as [t|t| |t n k Hb]; try reflexivity.
  unfold SFmul, Bmult. cbn [B2SF]. rewrite B2SF_SF2B. apply aux_equiv.
Qed.
Lemma div_bin (a b : bin) : f32_div (B2SF a) (B2SF b) = B2SF (Bdiv mode_NE a b).
Proof.
  unfold f32_div. destruct a as [s|s| |s m e Ha], b as [t|t| |t n k Hb]; try reflexivity.
  unfold SFdiv, Bdiv. cbn [B2SF]. rewrite B2SF_SF2B. set (q := SFdiv_core_binary _ _ _ _ _ _). destruct q as [[mz ez] lz]. apply aux_equiv.
Qed.
Lemma opp_bin (b : bin) : opposite (B2SF b) = B2SF (Bopp b).
Proof. destruct b; reflexivity. Qed.
Lemma sub_bin (a b : bin) : f32_sub (B2SF a) (B2SF b) = B2SF (Bplus mode_NE a (Bopp b)).
Proof.
  unfold f32_sub. destruct a as [s|s| |s m e Ha], b as [t|t| |t n k Hb]; try reflexivity; try (cbn; destruct s, t; reflexivity).
  unfold SFsub, Bplus, Bopp. cbn [B2SF]. unfold Z.sub. rewrite <- cond_Zopp_negb. apply normalize_equiv.
Qed.
Lemma overflow_inf s : binary_overflow 24 128 mode_NE s = S754_infinity s.
Proof. reflexivity. Qed.
Lemma sign_weak (b : bin) : is_finite b = true -> if Bsign b then (B2R b <= 0)%R else (0 <= B2R b)%R.
Proof.
  destruct b as [s|s| |s m e H]; cbn [is_finite B2R Bsign]; intros F; try discriminate.
  - destruct s; apply Rle_refl.
  - destruct s; [apply F2R_le_0|apply F2R_ge_0]; cbn; lia.
Qed.
Lemma zero_value (b : bin) : is_finite b = true -> B2R b = 0%R -> B2SF b = S754_zero (Bsign b).
Proof.
  destruct b as [s|s| |s m e H]; cbn [is_finite B2R Bsign B2SF]; intros F Z; try discriminate; try reflexivity.
  exfalso. revert Z. destruct s; [apply Rlt_not_eq, F2R_lt_0|apply Rgt_not_eq, F2R_gt_0]; reflexivity.
Qed.
Lemma infinite_bin (b : bin) s : B2SF b = S754_infinity s -> is_nan b = false /\ Bsign b = s.
Proof. destruct b; cbn; intros [= ->]; split; reflexivity. Qed.
Lemma finite_not_nan (b : bin) : is_finite b = true -> is_nan b = false.
Proof. destruct b; try reflexivity; discriminate. Qed.
Lemma add_sum (a b : bin) : float_sum (B2SF a) (B2SF b) (B2SF (Bplus mode_NE a b)).
Proof.
  destruct (is_finite a) eqn:Fa, (is_finite b) eqn:Fb.
  - pose proof (Bplus_correct 24 128 Hp Hm mode_NE a b Fa Fb) as C.
    apply sum_finite; try (apply finite_bin; assumption); rewrite !exact_B2R.
    + revert C. case Rlt_bool_spec; intros L C.
      * destruct C as (C1 & C2 & C3). apply rounds_bin.
        -- apply finite_not_nan, C2.
        -- intros N. rewrite C3. case Rcompare_spec; intros Q; try (split; intros; try reflexivity; try discriminate; lra).
        -- rewrite Rlt_bool_true by exact L. split; assumption.
      * destruct C as (C1 & C2). rewrite overflow_inf in C1. destruct (infinite_bin _ _ C1) as [I1 I2].
        apply rounds_bin; [exact I1| |rewrite Rlt_bool_false by exact L; eexists; exact C1].
        intros N. rewrite I2. pose proof (sign_weak a Fa) as SA. pose proof (sign_weak b Fb) as SB. rewrite <- C2 in SB.
        destruct (Bsign a); split; intros; try reflexivity; try discriminate; lra.
    + intros Z0. rewrite Z0, round_0 in C by apply valid_rnd_N. rewrite Rabs_R0, Rlt_bool_true in C by apply bpow_gt_0.
      destruct C as (C1 & C2 & C3). rewrite Rcompare_Eq in C3 by reflexivity.
      rewrite (zero_value _ C2 C1), C3. rewrite !sign_bin by (apply finite_not_nan; assumption). reflexivity.
  - destruct b as [t|t| |t n k Hb]; try discriminate.
    + assert (B2SF (Bplus mode_NE a (B754_infinity t)) = S754_infinity t) as -> by (destruct a; try discriminate; reflexivity).
      apply sum_inf_r, finite_bin, Fa.
    + replace (Bplus mode_NE a B754_nan) with (B754_nan : bin) by (destruct a; reflexivity). apply sum_nan_r.
  - destruct a as [t|t| |t n k Hb]; try discriminate.
    + assert (B2SF (Bplus mode_NE (B754_infinity t) b) = S754_infinity t) as -> by (destruct b; try discriminate; reflexivity).
      apply sum_inf_l, finite_bin, Fb.
    + apply sum_nan_l.
  - destruct a as [s|s| |s m e Ha], b as [t|t| |t n k Hb]; try discriminate; try apply sum_nan_l; try apply sum_nan_r.
    destruct s, t; cbn; constructor; reflexivity || discriminate.
Qed.
Lemma sub_difference (a b : bin) : float_difference (B2SF a) (B2SF b) (f32_sub (B2SF a) (B2SF b)).
Proof. unfold float_difference. rewrite sub_bin, opp_bin. apply add_sum. Qed.
Lemma mul_sign (s t : bool) x y : (x <> 0 -> y <> 0 -> (if s then x <= 0 else 0 <= x) -> (if t then y <= 0 else 0 <= y) ->
  xorb s t = true <-> x * y < 0)%R.
Proof.
  intros NX NY SX SY. assert (P : forall u v, (0 < u -> 0 < v -> 0 < u * v)%R) by (intros; apply Rmult_lt_0_compat; assumption).
  pose proof (P x y). pose proof (P (- x) y)%R. pose proof (P x (- y))%R. pose proof (P (- x) (- y))%R.
  assert ((- x * y = - (x * y))%R /\ (x * - y = - (x * y))%R /\ (- x * - y = x * y)%R) as (E1 & E2 & E3) by (repeat split; ring).
  rewrite ?E1, ?E2, ?E3 in *. destruct s, t; cbn; (split; intros A; try reflexivity; try discriminate); first [lra|exfalso; lra].
Qed.
Lemma mul_product (a b : bin) : float_product (B2SF a) (B2SF b) (B2SF (Bmult mode_NE a b)).
Proof.
  destruct (is_finite a) eqn:Fa, (is_finite b) eqn:Fb.
  - pose proof (Bmult_correct 24 128 Hp Hm mode_NE a b) as C. pose proof (sign_weak a Fa) as SA. pose proof (sign_weak b Fb) as SB.
    assert (SG : (B2R a * B2R b <> 0)%R -> (xorb (Bsign a) (Bsign b) = true <-> (B2R a * B2R b < 0)%R)).
    { intros N. assert (B2R a <> 0 /\ B2R b <> 0)%R as [NA NB] by (split; intros Z; rewrite Z in N; lra).
      apply mul_sign; assumption. }
    assert (D : is_nan (Bmult mode_NE a b) = false /\ Bsign (Bmult mode_NE a b) = xorb (Bsign a) (Bsign b) /\
      if Rlt_bool (Rabs (rnd (B2R a * B2R b))) (bpow radix2 128) then B2R (Bmult mode_NE a b) = rnd (B2R a * B2R b) /\ is_finite (Bmult mode_NE a b) = true
      else exists s, B2SF (Bmult mode_NE a b) = S754_infinity s).
    { revert C. case Rlt_bool_spec; intros L C.
      - destruct C as (C1 & C2 & C3). rewrite Fa, Fb in C2. cbn in C2. pose proof (finite_not_nan _ C2) as Nn. auto.
      - rewrite overflow_inf in C. destruct (infinite_bin _ _ C) as [I1 I2]. eauto. }
    destruct D as (D1 & D2 & D3). apply product_finite; try (apply finite_bin; assumption); rewrite ?exact_B2R.
    + apply rounds_bin; [exact D1| |exact D3]. rewrite D2. exact SG.
    + rewrite !sign_bin by (exact D1 || apply finite_not_nan; assumption). exact D2.
  - destruct a as [s|s| |s m e Ha], b as [t|t| |t n k Hb]; try discriminate; cbn; constructor.
  - destruct a as [s|s| |s m e Ha], b as [t|t| |t n k Hb]; try discriminate; cbn; constructor.
  - destruct a as [s|s| |s m e Ha], b as [t|t| |t n k Hb]; try discriminate; cbn; constructor.
Qed.
Lemma div_quotient (a b : bin) : (forall s, b <> B754_zero s) -> float_quotient (B2SF a) (B2SF b) (B2SF (Bdiv mode_NE a b)).
Proof.
  intros NZ. destruct (is_finite a) eqn:Fa, (is_finite b) eqn:Fb.
  - assert (NB : B2R b <> 0%R).
    { intros Z. pose proof (zero_value b Fb Z) as V. destruct b; try discriminate. exact (NZ _ eq_refl). }
    pose proof (Bdiv_correct 24 128 Hp Hm mode_NE a b NB) as C. pose proof (sign_weak a Fa) as SA. pose proof (sign_weak b Fb) as SB.
    assert (SG : (B2R a / B2R b <> 0)%R -> (xorb (Bsign a) (Bsign b) = true <-> (B2R a / B2R b < 0)%R)).
    { intros N. assert (NA : (B2R a <> 0)%R) by (intros Z; rewrite Z in N; unfold Rdiv in N; lra).
      unfold Rdiv in *. apply mul_sign; [exact NA|apply Rinv_neq_0_compat, NB|exact SA|].
      destruct (Bsign b); apply Rlt_le; [apply Rinv_lt_0_compat|apply Rinv_0_lt_compat]; lra. }
    assert (D : is_nan (Bdiv mode_NE a b) = false /\ Bsign (Bdiv mode_NE a b) = xorb (Bsign a) (Bsign b) /\
      if Rlt_bool (Rabs (rnd (B2R a / B2R b))) (bpow radix2 128) then B2R (Bdiv mode_NE a b) = rnd (B2R a / B2R b) /\ is_finite (Bdiv mode_NE a b) = true
      else exists s, B2SF (Bdiv mode_NE a b) = S754_infinity s).
    { revert C. case Rlt_bool_spec; intros L C.
      - destruct C as (C1 & C2 & C3). rewrite Fa in C2. pose proof (finite_not_nan _ C2) as Nn. auto.
      - rewrite overflow_inf in C. destruct (infinite_bin _ _ C) as [I1 I2]. eauto. }
    destruct D as (D1 & D2 & D3). apply quotient_finite; try (apply finite_bin; assumption); rewrite ?exact_B2R; [exact NB| |].
    + apply rounds_bin; [exact D1| |exact D3]. rewrite D2. exact SG.
    + rewrite !sign_bin by (exact D1 || apply finite_not_nan; assumption). exact D2.
  - destruct a as [s|s| |s m e Ha], b as [t|t| |t n k Hb]; try discriminate; try apply quotient_nan_r.
    + apply (quotient_inf_r (S754_zero s) t Logic.I).
    + apply (quotient_inf_r (S754_finite s m e) t Logic.I).
  - destruct a as [s|s| |s m e Ha], b as [t|t| |t n k Hb]; try discriminate; try (exfalso; eapply NZ; reflexivity); cbn; constructor.
  - destruct a as [s|s| |s m e Ha], b as [t|t| |t n k Hb]; try discriminate; cbn; constructor.
Qed.
(** An integer counts as the nearest float. *)
Lemma int_rounds z : Z.abs z <= 2 ^ 63 -> rounds (IZR z) (f32_of_Z z).
Proof.
  intros H. rewrite f32_bf. pose proof (binary_normalize_correct 24 128 Hp Hm mode_NE z 0 false) as C. cbv zeta in C. fold (bf z) in C.
  rewrite F2R_int in C. rewrite Rlt_bool_true in C by (eapply Rle_lt_trans; [apply rnd_bound, H|apply bpow_lt; lia]).
  destruct C as (C1 & C2 & C3). apply rounds_bin.
  - apply finite_not_nan, C2.
  - intros N. rewrite C3. case Rcompare_spec; intros Q; try (split; intros; try reflexivity; try discriminate; lra).
  - rewrite Rlt_bool_true by (eapply Rle_lt_trans; [apply rnd_bound, H|apply bpow_lt; lia]). split; assumption.
Qed.

(** ** One answer, and the exact one when there is one *)
Lemma rounds_rnd x f : rounds x f -> finite f -> exact f = rnd x.
Proof.
  intros (V & S & [(X & F & Nr & Tie)|(X & s & ->)]) Fin; [|destruct Fin].
  destruct (as_bin f V) as (b & <-). rewrite exact_B2R in *.
  assert (N : Rnd_N_pt fmt x (B2R b)).
  { split; [apply generic_format_B2R|]. intros g Fg.
    destruct (Rlt_or_le (Rabs g) top) as [L|L].
    - destruct (fmt_bin g Fg L) as (bg & F1 & <-). specialize (Nr (B2SF bg) (bin_float32 bg) (proj2 (finite_bin bg) F1)).
      rewrite exact_B2R in Nr. exact Nr.
    - pose proof (Nr (B2SF largest_bin) (bin_float32 _) Logic.I) as N1. pose proof (Nr (B2SF (Bopp largest_bin)) (bin_float32 _) Logic.I) as N2.
      rewrite exact_B2R, largest_B2R in N1. rewrite exact_B2R, B2R_Bopp, largest_B2R in N2. pose proof largest_top as LT. rewrite overflow_mid in X.
      revert L X N1 N2. clear -LT. unfold Rabs. repeat destruct Rcase_abs; intros; lra. }
  destruct (Req_dec (B2R b) (rnd x)) as [E|E]; [exact E|exfalso].
  pose proof (rnd_small x X) as SM. destruct (fmt_bin _ (rnd_fmt x) SM) as (c & Fc & Ec).
  assert (EQ : Rabs (rnd x - x) = Rabs (B2R b - x)).
  { apply Rle_antisym; [apply rnd_near, generic_format_B2R|apply (proj2 N), rnd_fmt]. }
  assert (EV : Z.Even (significand (B2SF b))).
  { apply (Tie (B2SF c)); [apply bin_float32|apply finite_bin, Fc| |]; rewrite exact_B2R, Ec; [congruence|exact EQ]. }
  apply E. refine (round_unique (Rnd_NE_pt radix2 fe) _ x _ _ _ (rnd_ne x)); [exact ne_monotone|]. split; [exact N|]. left.
  destruct b as [s0|s0| |s0 m e Hb]; try (destruct F; fail).
  - eexists. split; [|split; [apply canonical_0|reflexivity]]. cbn [B2R]. unfold F2R. cbn [Fnum]. rewrite Rmult_0_l. reflexivity.
  - exists (Float radix2 (cond_Zopp s0 (Zpos m)) e). split; [reflexivity|]. split; [apply canonical_bounded; exact Hb|].
    apply Z.even_spec in EV. cbn [B2SF significand] in EV. cbn [Fnum]. destruct s0; exact EV.
Qed.
Lemma rounds_size x f : rounds x f -> (finite f <-> (Rabs x < overflow)%R).
Proof.
  intros (V & S & [(X & F & _)|(X & s & ->)]).
  - tauto.
  - split; intros A; [destruct A|lra].
Qed.
Lemma rounds_unique x f g : x <> 0%R -> rounds x f -> rounds x g -> f = g.
Proof.
  intros NX RF RG. assert (SG : minus_sign f = minus_sign g).
  { destruct RF as (_ & S1 & _), RG as (_ & S2 & _). specialize (S1 NX). specialize (S2 NX).
    destruct (minus_sign f), (minus_sign g); try reflexivity; intuition discriminate. }
  pose proof (rounds_size x f RF) as ZF. pose proof (rounds_size x g RG) as ZG.
  destruct (Rlt_or_le (Rabs x) overflow) as [L|L].
  - apply ZF in L as FF. apply ZG in L as FG. pose proof (rounds_rnd x f RF FF) as EF. pose proof (rounds_rnd x g RG FG) as EG.
    destruct (as_bin f (proj1 RF)) as (b & <-), (as_bin g (proj1 RG)) as (c & <-). rewrite exact_B2R in EF, EG. f_equal.
    apply finite_bin in FF, FG. rewrite !sign_bin in SG by (apply finite_not_nan; assumption).
    apply B2R_Bsign_inj; congruence.
  - destruct RF as (_ & _ & [(X & _)|(_ & s & ->)]); [lra|]. destruct RG as (_ & _ & [(X & _)|(_ & t & ->)]); [lra|]. cbn in SG. congruence.
Qed.
Lemma rounds_exact f g : float32 f -> finite f -> rounds (exact f) g -> exact g = exact f.
Proof.
  intros V F R. destruct (as_bin f V) as (b & <-). rewrite exact_B2R in *.
  assert (E : rnd (B2R b) = B2R b) by (apply round_generic; [apply valid_rnd_N|apply generic_format_B2R]).
  etransitivity; [|exact E]. apply rounds_rnd; [exact R|]. apply (rounds_size _ _ R).
  destruct (Rlt_or_le (Rabs (B2R b)) overflow) as [L|L]; [exact L|]. apply rnd_large in L. rewrite E in L.
  pose proof (abs_B2R_lt_emax 24 128 b) as A. unfold top in L. lra.
Qed.
Lemma rounds_zero f : rounds 0 f -> f = S754_zero (minus_sign f).
Proof.
  intros R. assert (F : finite f).
  { apply (rounds_size _ _ R). rewrite Rabs_R0, overflow_mid. pose proof largest_top. lra. }
  pose proof (rounds_rnd _ _ R F) as E. destruct (as_bin f (proj1 R)) as (b & <-). apply finite_bin in F.
  rewrite exact_B2R, round_0 in E by apply valid_rnd_N. rewrite (sign_bin b (finite_not_nan _ F)). apply zero_value; assumption.
Qed.
Lemma sum_unique a b c d : float_sum a b c -> float_sum a b d -> c = d.
Proof.
  intros H1 H2. inversion H1; subst; inversion H2; subst; try reflexivity; cbn in *; try tauto; try (match goal with H : negb ?s = ?s |- _ => destruct s; discriminate H end).
  all: try (match goal with H : ?s = negb ?s |- _ => destruct s; discriminate H end).
  destruct (Req_dec (exact a + exact b) 0) as [Z|N].
  - transitivity (S754_zero (minus_sign a && minus_sign b)); [|symmetry]; auto.
  - eapply rounds_unique; eassumption.
Qed.
Lemma product_unique a b c d : float_product a b c -> float_product a b d -> c = d.
Proof.
  intros H1 H2. inversion H1; subst; inversion H2; subst; try reflexivity; cbn in *; try tauto.
  destruct (Req_dec (exact a * exact b) 0) as [Z|N].
  - rewrite Z in *. rewrite (rounds_zero c), (rounds_zero d) by assumption. congruence.
  - eapply rounds_unique; eassumption.
Qed.
Lemma quotient_unique a b c d : float_quotient a b c -> float_quotient a b d -> c = d.
Proof.
  intros H1 H2. inversion H1; subst; inversion H2; subst; try reflexivity; cbn in *; try tauto.
  destruct (Req_dec (exact a / exact b) 0) as [Z|N].
  - rewrite Z in *. rewrite (rounds_zero c), (rounds_zero d) by assumption. congruence.
  - eapply rounds_unique; eassumption.
Qed.
Lemma through_unique (op : f32 -> f32 -> f32 -> Prop) : (forall a b c d, op a b c -> op a b d -> c = d) -> forall bs a r r', through op a bs r -> through op a bs r' -> r = r'.
Proof.
  intros U. induction bs as [|b bs IH]; intros a r r' H1 H2; inversion H1; subst; inversion H2; subst; [reflexivity|].
  match goal with A : op a b ?x, B : op a b ?y |- _ => pose proof (U _ _ _ _ A B); subst end. eapply IH; eassumption.
Qed.
Lemma counts_unique v f g : counts_as v f -> counts_as v g -> f = g.
Proof.
  intros [->|(z & -> & R & Z0)] [E|(z' & E & R' & Z0')]; try congruence.
  injection E as <-. destruct (Z.eq_dec z 0) as [->|N]; [rewrite Z0, Z0' by reflexivity; reflexivity|].
  apply (rounds_unique (IZR z)); [apply not_0_IZR, N|assumption|assumption].
Qed.

(** ** The built-ins *)
Lemma number_counts v : number v -> counts_as v (float_value v) /\ float32 (float_value v) /\ numberp v = true.
Proof.
  intros [(z & -> & I)|(f & -> & V)]; cbn [float_value numberp].
  - assert (R : rounds (IZR z) (f32_of_Z z)) by (apply int_rounds, int64_abs, I). split; [|split; [exact (proj1 R)|reflexivity]].
    right. exists z. split; [reflexivity|]. split; [exact R|]. intros ->. reflexivity.
  - split; [left; reflexivity|]. split; [exact V|reflexivity].
Qed.
Lemma numbers_count vs : Forall number vs -> Forall2 counts_as vs (map float_value vs) /\ Forall float32 (map float_value vs).
Proof.
  induction 1 as [|v vs N F IH]; [split; constructor|]. destruct (number_counts v N) as (C & V & _). destruct IH.
  split; constructor; assumption.
Qed.
Lemma numbers_cons v vs : Forall number (v :: vs) -> counts_as v (float_value v) /\ float32 (float_value v) /\
  Forall2 counts_as vs (map float_value vs) /\ Forall float32 (map float_value vs).
Proof. intros F. inversion F as [|? ? N1 N2]; subst. destruct (number_counts v N1) as (C & V & _). split; [exact C|]. split; [exact V|]. apply numbers_count, N2. Qed.
Lemma any_floats_true vs : Forall number vs -> Exists (fun v => exists f, v = VFloat f) vs -> any_floats vs = inr true.
Proof.
  induction 1 as [|v vs N F IH]; intros E; [inversion E|]. cbn [any_floats]. destruct (number_counts v N) as (_ & _ & ->). cbn [negb].
  destruct (floatp v) eqn:Fl; [reflexivity|]. apply IH. inversion E as [? ? (f & ->)|? ? E']; subst; [discriminate|exact E'].
Qed.
Lemma fold_through (op : f32 -> f32 -> f32 -> Prop) (g : f32 -> f32 -> f32) : (forall a b, float32 a -> float32 b -> op a b (g a b) /\ float32 (g a b)) ->
  forall vs a, float32 a -> Forall float32 (map float_value vs) ->
  through op a (map float_value vs) (fold_left (fun acc v => g acc (float_value v)) vs a) /\ float32 (fold_left (fun acc v => g acc (float_value v)) vs a).
Proof.
  intros O. induction vs as [|v vs IH]; intros a Va F; [split; [constructor|exact Va]|].
  cbn [map fold_left] in *. inversion F as [|? ? V1 V2]; subst. destruct (O a _ Va V1) as [O1 O2]. destruct (IH _ O2 V2). split; [econstructor|]; eassumption.
Qed.
Lemma add_op a b : float32 a -> float32 b -> float_sum a b (f32_add a b) /\ float32 (f32_add a b).
Proof. intros A B. destruct (as_bin a A) as (x & <-), (as_bin b B) as (y & <-). rewrite add_bin. split; [apply add_sum|apply bin_float32]. Qed.
Lemma sub_op a b : float32 a -> float32 b -> float_difference a b (f32_sub a b) /\ float32 (f32_sub a b).
Proof. intros A B. destruct (as_bin a A) as (x & <-), (as_bin b B) as (y & <-). split; [apply sub_difference|rewrite sub_bin; apply bin_float32]. Qed.
Lemma mul_op a b : float32 a -> float32 b -> float_product a b (f32_mul a b) /\ float32 (f32_mul a b).
Proof. intros A B. destruct (as_bin a A) as (x & <-), (as_bin b B) as (y & <-). rewrite mul_bin. split; [apply mul_product|apply bin_float32]. Qed.
Lemma div_op a b : float32 a -> float32 b -> ~ is_zero b -> float_quotient a b (f32_div a b) /\ float32 (f32_div a b).
Proof.
  intros A B NZ. destruct (as_bin a A) as (x & <-), (as_bin b B) as (y & <-). rewrite div_bin. split; [|apply bin_float32].
  apply div_quotient. intros s ->. apply NZ. exists s. reflexivity.
Qed.
Lemma run_plus_float vs env s : Forall number vs -> Exists (fun v => exists f, v = VFloat f) vs -> exists fs r,
  Forall2 counts_as vs fs /\ through float_sum (S754_zero false) fs r /\ float32 r /\
  applies "+" vs env s (Done (Ok (VFloat r))) (entering "+" env s).
Proof.
  intros N E. destruct (numbers_count vs N) as [C V]. destruct (fold_through float_sum f32_add add_op vs f32_zero eq_refl V) as [T W].
  eexists _, _. split; [exact C|]. split; [exact T|]. split; [exact W|].
  applies. unfold add_impl, with_floats. rewrite any_floats_true by assumption. apply runs_ret.
Qed.
Lemma run_minus_float v vs env s : Forall number (v :: vs) -> Exists (fun v => exists f, v = VFloat f) (v :: vs) -> exists f fs r,
  counts_as v f /\ Forall2 counts_as vs fs /\ through float_difference f fs r /\ float32 r /\
  applies "-" (v :: vs) env s (Done (Ok (VFloat r))) (entering "-" env s).
Proof.
  intros N E. destruct (numbers_cons _ _ N) as (H2 & H5 & H4 & H6).
  destruct (fold_through float_difference f32_sub sub_op vs (float_value v) H5 H6) as [T W].
  eexists _, _, _. split; [exact H2|]. split; [exact H4|]. split; [exact T|]. split; [exact W|].
  applies. unfold subtract_impl, with_floats. rewrite any_floats_true by assumption. apply runs_ret.
Qed.
Lemma run_times_float vs env s : Forall number vs -> Exists (fun v => exists f, v = VFloat f) vs -> exists fs r,
  Forall2 counts_as vs fs /\ through float_product one fs r /\ float32 r /\
  applies "*" vs env s (Done (Ok (VFloat r))) (entering "*" env s).
Proof.
  intros N E. destruct (numbers_count vs N) as [C V]. destruct (fold_through float_product f32_mul mul_op vs (f32_of_Z 1) eq_refl V) as [T W].
  eexists _, _. split; [exact C|]. split; [exact T|]. split; [exact W|].
  applies. unfold multiply_impl, with_floats. rewrite any_floats_true by assumption. apply runs_ret.
Qed.
Lemma eqb_zero f : float32 f -> (f32_eqb f f32_zero = true <-> is_zero f).
Proof.
  intros V. destruct f as [s|s| |s m e]; (split; [intros H|intros [t H]]); try discriminate H; try reflexivity.
  - exists s. reflexivity.
  - destruct s; discriminate H.
  - destruct s; discriminate H.
Qed.
Lemma quot_through vs : forall a, float32 a -> Forall float32 (map float_value vs) -> Forall (fun f => ~ is_zero f) (map float_value vs) ->
  exists r, quot_floats a vs = Some r /\ through float_quotient a (map float_value vs) r /\ float32 r.
Proof.
  induction vs as [|v vs IH]; intros a Va F NZ; [exists a; split; [reflexivity|split; [constructor|exact Va]]|].
  cbn [map] in *. inversion F as [|? ? V1 V2]; subst. inversion NZ as [|? ? Z1 Z2]; subst. cbn [quot_floats].
  destruct (f32_eqb (float_value v) f32_zero) eqn:E; [apply eqb_zero in E; [contradiction|exact V1]|].
  destruct (div_op a _ Va V1 Z1) as [O1 O2]. destruct (IH _ O2 V2 Z2) as (r & R1 & R2 & R3). exists r. split; [exact R1|]. split; [|exact R3].
  econstructor; eassumption.
Qed.
Lemma run_divide_float name v vs fs env s : In name ["/"; "quotient"] -> Forall number (v :: vs) -> Exists (fun v => exists f, v = VFloat f) (v :: vs) ->
  Forall2 counts_as vs fs -> Forall (fun f => ~ is_zero f) fs -> exists f r,
  counts_as v f /\ through float_quotient f fs r /\ float32 r /\
  applies name (v :: vs) env s (Done (Ok (VFloat r))) (entering name env s).
Proof.
  intros Hn N E C0 NZ. destruct (numbers_cons _ _ N) as (H2 & H5 & H4 & H6).
  assert (fs = map float_value vs) as ->.
  { clear -C0 H4. revert H4. generalize (map float_value vs). induction C0 as [|a f vs fs X Y IH]; intros l D; inversion D; subst; [reflexivity|].
    f_equal; [eapply counts_unique; eassumption|apply IH; assumption]. }
  destruct (quot_through vs (float_value v) H5 H6 NZ) as (r & R1 & R2 & R3).
  exists (float_value v), r. split; [exact H2|]. split; [exact R2|]. split; [exact R3|].
  destruct Hn as [<-|[<-|[]]]; applies; unfold quotient_impl, with_floats; rewrite any_floats_true by assumption; cbn [arg nth tl]; rewrite R1; apply runs_ret.
Qed.
Lemma quot_zero vs : Forall number vs -> Exists (fun v => exists f, counts_as v f /\ is_zero f) vs -> forall a, quot_floats a vs = None.
Proof.
  intros N E. induction E as [v vs (f & C & Z)|v vs E IH]; intros a; inversion N as [|? ? N1 N2]; subst; cbn [quot_floats].
  - destruct (number_counts v N1) as (C' & V & _). rewrite <- (counts_unique _ _ _ C C') in *. apply eqb_zero in Z; [|exact V]. rewrite Z. reflexivity.
  - destruct (f32_eqb _ _); [reflexivity|]. apply IH, N2.
Qed.
Lemma runs_string_number s v : number v -> exists t, runs denote (call (RString v)) s (Done t) s.
Proof. intros [(z & -> & _)|(f & -> & _)]; eexists; apply runs_do_call; apply runs_ret. Qed.
Lemma run_divide_zero name v vs env s : wf_state s -> In name ["/"; "quotient"] -> Forall number (v :: vs) -> Exists (fun v => exists f, v = VFloat f) (v :: vs) ->
  Exists (fun v => exists f, counts_as v f /\ is_zero f) vs -> exists m s',
  applies name (v :: vs) env s (Done (Err m)) s' /\ grows s s'.
Proof.
  intros W Hn N E Z.
  assert (Wn : wf_state (entering name env s)) by (apply wf_entering, W).
  destruct (runs_array_to_list_exact (v :: vs) (entering name env s) Wn) as (l & s' & R & G & L).
  { apply List.Forall_forall. intros x Hx. rewrite List.Forall_forall in N. destruct (N x Hx) as [(? & -> & _)|(? & -> & _)]; discriminate. }
  destruct (runs_string_list s' l _ L) as (t & Ht).
  { apply List.Forall_forall. intros x Hx. rewrite List.Forall_forall in N. apply runs_string_number, N, Hx. }
  exists ("Quotent: " +++ t +++ " -> Divide by zero."), s'.
  split; [|eapply grows_trans; [apply (grows_entering name env)|exact G]].
  inversion N; subst.
  destruct Hn as [<-|[<-|[]]]; applies; unfold quotient_impl, with_floats; rewrite any_floats_true by assumption; cbn [arg nth tl];
    rewrite (quot_zero vs) by assumption; unfold div_zero; (eapply runs_bind; [exact R|]); (eapply runs_bind; [exact Ht|]); apply runs_ret.
Qed.

(** ** Comparison *)
Lemma ltb_less a b : float32 a -> float32 b -> (f32_ltb a b = true <-> less a b).
Proof.
  intros A B. destruct (as_bin a A) as (x & <-), (as_bin b B) as (y & <-). unfold f32_ltb. fold (Bltb x y).
  destruct (is_finite x) eqn:Fx, (is_finite y) eqn:Fy.
  - rewrite Bltb_correct by assumption. assert (less (B2SF x) (B2SF y) <-> (B2R x < B2R y)%R) as ->.
    { rewrite <- !exact_B2R. destruct x, y; try discriminate; reflexivity. }
    case Rlt_bool_spec; intros; split; intros; try reflexivity; try discriminate; lra.
  - destruct x as [s|s| |s m e H], y as [t|t| |t n k H']; try discriminate; try destruct s; try destruct t; cbn; split; intros Q; try discriminate; try reflexivity; try destruct Q.
  - destruct x as [s|s| |s m e H], y as [t|t| |t n k H']; try discriminate; try destruct s; try destruct t; cbn; split; intros Q; try discriminate; try reflexivity; try destruct Q.
  - destruct x as [s|s| |s m e H], y as [t|t| |t n k H']; try discriminate; try destruct s; try destruct t; cbn; split; intros Q; try discriminate; try reflexivity; try (destruct Q; discriminate || contradiction); try (split; reflexivity).
Qed.
Lemma leb_less a b : float32 a -> float32 b -> (f32_leb a b = true <-> ~ unordered a b /\ ~ less b a).
Proof.
  intros A B. rewrite <- (ltb_less b a B A). unfold unordered.
  assert (C : f32_leb a b = match a, b with S754_nan, _ | _, S754_nan => false | _, _ => negb (f32_ltb b a) end).
  { unfold f32_leb, f32_ltb, SFleb, SFltb.
    destruct (as_bin a A) as (x & <-), (as_bin b B) as (y & <-).
    change (SFcompare (B2SF x) (B2SF y)) with (Bcompare x y). change (SFcompare (B2SF y) (B2SF x)) with (Bcompare y x). rewrite (Bcompare_swap 24 128 x y).
    destruct x, y; try reflexivity; match goal with |- context [Bcompare ?u ?v] => destruct (Bcompare u v) as [[]|] eqn:Q end; try reflexivity; cbn in Q; discriminate. }
  rewrite C. destruct a, b; try (destruct (f32_ltb _ _)); cbn; split; try (intros [U V]); intros; try reflexivity; try discriminate; try (split; [intros [?|?]; discriminate|congruence]); try (exfalso; tauto); congruence.
Qed.
Lemma run_compare_float name (t : f32 -> f32 -> bool) v w f g env s : table name = Some (func name "2" (compare_impl t)) -> number v -> number w ->
  counts_as v f -> counts_as w g -> applies name [v; w] env s (Done (Ok (VBool (t f g)))) (entering name env s) /\ float32 f /\ float32 g.
Proof.
  intros H Nv Nw Cv Cw. destruct (number_counts v Nv) as (C1 & V1 & P1), (number_counts w Nw) as (C2 & V2 & P2).
  rewrite (counts_unique _ _ _ Cv C1), (counts_unique _ _ _ Cw C2). split; [|split; assumption].
  eapply applies_of; [exact H|]. cbn -[numberp float_value]. unfold compare_impl, need_number. cbn [arg nth]. rewrite P1, P2. apply runs_ret.
Qed.
Lemma run_compares v w f g env s : number v -> number w -> counts_as v f -> counts_as w g ->
  (exists b, applies "<" [v; w] env s (Done (Ok (VBool b))) (entering "<" env s) /\ (b = true <-> less f g)) /\
  (exists b, applies ">" [v; w] env s (Done (Ok (VBool b))) (entering ">" env s) /\ (b = true <-> less g f)) /\
  (exists b, applies "<=" [v; w] env s (Done (Ok (VBool b))) (entering "<=" env s) /\ (b = true <-> ~ unordered f g /\ ~ less g f)) /\
  (exists b, applies ">=" [v; w] env s (Done (Ok (VBool b))) (entering ">=" env s) /\ (b = true <-> ~ unordered f g /\ ~ less f g)).
Proof.
  intros Nv Nw Cv Cw.
  assert (U : unordered f g <-> unordered g f) by (unfold unordered; tauto).
  repeat apply conj.
  - destruct (run_compare_float "<" f32_ltb v w f g env s eq_refl Nv Nw Cv Cw) as (A & Vf & Vg). eexists. split; [exact A|]. apply ltb_less; assumption.
  - destruct (run_compare_float ">" (fun a b => f32_ltb b a) v w f g env s eq_refl Nv Nw Cv Cw) as (A & Vf & Vg). eexists. split; [exact A|]. apply ltb_less; assumption.
  - destruct (run_compare_float "<=" f32_leb v w f g env s eq_refl Nv Nw Cv Cw) as (A & Vf & Vg). eexists. split; [exact A|]. apply leb_less; assumption.
  - destruct (run_compare_float ">=" (fun a b => f32_leb b a) v w f g env s eq_refl Nv Nw Cv Cw) as (A & Vf & Vg). eexists. split; [exact A|]. rewrite U. apply leb_less; assumption.
Qed.

(** ** min and max *)
Lemma less_trans_not a b c : ~ less b a -> ~ less c b -> b <> S754_nan -> ~ less c a.
Proof.
  destruct a as [s|s| |s m e], b as [t|t| |t n k], c as [u|u| |u p q]; unfold less; intros A B N C; try tauto; try congruence; try lra; try (destruct s); try (destruct t); try (destruct u); try tauto; try congruence; try intuition congruence; lra.
Qed.
Lemma less_self a : ~ less a a.
Proof. destruct a as [s|s| |s m e]; unfold less; try lra; try tauto. destruct s; intros [? ?]; congruence. Qed.
Lemma less_not_back a b : less a b -> ~ less b a.
Proof. destruct a as [s|s| |s m e], b as [t|t| |t n k]; unfold less; intros A B; try tauto; try lra; try (destruct s); try (destruct t); intuition congruence. Qed.
Lemma best_low (better : f32 -> f32 -> bool) (below : f32 -> f32 -> Prop) :
  (forall a b, float32 a -> float32 b -> (better a b = true <-> below a b)) ->
  (forall a b c, ~ below b a -> ~ below c b -> b <> S754_nan -> ~ below c a) -> (forall a, ~ below a a) -> (forall a b, below a b -> ~ below b a) ->
  forall vs acc, float32 acc -> acc <> S754_nan -> Forall number vs -> Forall (fun f => f <> S754_nan) (map float_value vs) ->
  exists r, best_floats better acc vs = inr r /\ In r (acc :: map float_value vs) /\ Forall (fun f => ~ below f r) (acc :: map float_value vs) /\ float32 r.
Proof.
  intros B T Z K. induction vs as [|v vs IH]; intros acc Va Na N NN; cbn [map best_floats] in *.
  - exists acc. split; [reflexivity|]. split; [left; reflexivity|]. split; [|exact Va]. constructor; [apply Z|constructor].
  - inversion N as [|? ? N1 N2]; subst. inversion NN as [|? ? M1 M2]; subst. destruct (number_counts v N1) as (_ & Vv & ->).
    destruct (better (float_value v) acc) eqn:E.
    + apply B in E; [|assumption|assumption]. destruct (IH (float_value v) Vv M1 N2 M2) as (r & R1 & R2 & R3 & R4).
      exists r. split; [exact R1|]. split; [right; exact R2|]. split; [|exact R4]. constructor; [|exact R3].
      inversion R3 as [|? ? R5 R6]; subst. apply (T r (float_value v) acc); [exact R5|apply K, E|exact M1].
    + assert (E' : ~ below (float_value v) acc) by (intros Q; apply B in Q; [congruence|assumption|assumption]).
      destruct (IH acc Va Na N2 M2) as (r & R1 & R2 & R3 & R4). exists r. split; [exact R1|].
      split; [destruct R2 as [R2|R2]; [left; exact R2|right; right; exact R2]|]. split; [|exact R4].
      inversion R3 as [|? ? R5 R6]; subst. constructor; [exact R5|]. constructor; [|exact R6].
      apply (T r acc (float_value v)); [exact R5|exact E'|exact Na].
Qed.
Lemma Forall2_det vs fs : Forall2 counts_as vs fs -> Forall number vs -> fs = map float_value vs.
Proof.
  induction 1 as [|v f vs fs C D IH]; intros N; [reflexivity|]. inversion N as [|? ? N1 N2]; subst. cbn [map]. f_equal; [|apply IH, N2].
  eapply counts_unique; [exact C|]. apply number_counts, N1.
Qed.
Lemma run_min_max l vs fs env s : is_list s l vs -> Forall number vs -> Exists (fun v => exists f, v = VFloat f) vs ->
  Forall2 counts_as vs fs -> Forall (fun f => f <> S754_nan) fs ->
  (exists r, In r fs /\ Forall (fun f => ~ less f r) fs /\ applies "min" [l] env s (Done (Ok (VFloat r))) (entering "min" env s)) /\
  (exists r, In r fs /\ Forall (fun f => ~ less r f) fs /\ applies "max" [l] env s (Done (Ok (VFloat r))) (entering "max" env s)).
Proof.
  intros L N E C NN. rewrite (Forall2_det _ _ C N) in *. clear C fs. destruct vs as [|v vs]; [inversion E|].
  destruct (numbers_cons _ _ N) as (H2 & H5 & H4 & H6). inversion N as [|? ? N1 N2]; subst. cbn [map] in *. inversion NN as [|? ? M1 M2]; subst.
  split.
  - destruct (best_low f32_ltb less) with (vs := vs) (acc := float_value v) as (r & R1 & R2 & R3 & R4); try assumption.
    { intros. apply ltb_less; assumption. } { exact less_trans_not. } { exact less_self. } { exact less_not_back. }
    exists r. split; [exact R2|]. split; [exact R3|].
    apply (is_list_grows _ _ _ _ (grows_entering "min" env s)) in L.
    applies. unfold min_impl, best_impl. cbn [arg nth]. rewrite (is_list_listp _ _ _ L). cbn [negb].
    eapply runs_bind; [apply runs_to_array, L|]. unfold with_floats. rewrite any_floats_true by assumption. rewrite R1. apply runs_ret.
  - destruct (best_low (fun a b => f32_ltb b a) (fun a b => less b a)) with (vs := vs) (acc := float_value v) as (r & R1 & R2 & R3 & R4); try assumption.
    { intros. apply ltb_less; assumption. } { intros a b c A B Nb. apply (less_trans_not c b a); assumption. } { exact less_self. } { intros a b A. apply less_not_back, A. }
    exists r. split; [exact R2|]. split; [exact R3|].
    apply (is_list_grows _ _ _ _ (grows_entering "max" env s)) in L.
    applies. unfold max_impl, best_impl. cbn [arg nth]. rewrite (is_list_listp _ _ _ L). cbn [negb].
    eapply runs_bind; [apply runs_to_array, L|]. unfold with_floats. rewrite any_floats_true by assumption. rewrite R1. apply runs_ret.
Qed.

(** ** Findings *)
Lemma run_not_a_number f w env s : float32 f -> (forall z, w <> VInt z) -> (forall g, w <> VFloat g) -> exists r,
  through float_sum (S754_zero false) [f; S754_zero false] r /\ applies "+" [VFloat f; w] env s (Done (Ok (VFloat r))) (entering "+" env s).
Proof.
  intros V NI NF. assert (float_value w = S754_zero false) as E by (destruct w; try reflexivity; exfalso; [eapply NI|eapply NF]; reflexivity).
  eexists. split; [|applies; unfold add_impl, with_floats; cbn [any_floats numberp floatp negb]; apply runs_ret].
  unfold add_floats. cbn [fold_left float_value]. rewrite E.
  destruct (add_op f32_zero f eq_refl V) as [A1 A2]. destruct (add_op _ (S754_zero false) A2 eq_refl) as [A3 A4].
  econstructor; [exact A1|]. econstructor; [exact A3|constructor].
Qed.
Lemma run_one_minus f env s : applies "-" [VFloat f] env s (Done (Ok (VFloat f))) (entering "-" env s).
Proof. applies. apply runs_ret. Qed.
