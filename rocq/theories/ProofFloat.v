(** float32 images of 64-bit integers: order and exactness, by way of Flocq's real-number semantics. *)
From Coq Require Import Reals Lra.
From Flocq Require Import Core.Core IEEE754.BinarySingleNaN.
From Verif Require Import Base.
Local Open Scope Z_scope.

Lemma Hp : FLX.Prec_gt_0 24.
Proof. reflexivity. Qed.
Lemma Hm : Prec_lt_emax 24 128.
Proof. reflexivity. Qed.
Local Existing Instance Hp.
Local Existing Instance Hm.

Lemma nearest_even_equiv s m l : SpecFloat.round_nearest_even m l = choice_mode mode_NE s m l.
Proof. case l; [reflexivity|intro c]. case c; [|reflexivity..]. cbn. unfold Round.cond_incr. case Z.even; reflexivity. Qed.
Lemma round_equiv s m e : SpecFloat.binary_round 24 128 s m e = BinarySingleNaN.binary_round 24 128 mode_NE s m e.
Proof.
  unfold SpecFloat.binary_round, BinarySingleNaN.binary_round, shl_align_fexp.
  set (mez := SpecFloat.shl_align _ _ _). case mez as [mz ez].
  unfold SpecFloat.binary_round_aux, BinarySingleNaN.binary_round_aux.
  set (mrse' := shr_fexp _ _ _ _ _). case mrse'. intros mrs' e'. rewrite (nearest_even_equiv s). reflexivity.
Qed.
Definition bf (z : Z) : binary_float 24 128 := BinarySingleNaN.binary_normalize 24 128 Hp Hm mode_NE z 0 false.
Lemma f32_bf z : f32_of_Z z = B2SF (bf z).
Proof. unfold f32_of_Z, bf. destruct z as [|p|p]; cbn -[BinarySingleNaN.binary_round SpecFloat.binary_round]; rewrite ?B2SF_SF2B, ?round_equiv; reflexivity. Qed.

Notation fe := (SpecFloat.fexp 24 128).
Notation rnd x := (round radix2 fe (round_mode mode_NE) x).
Lemma F2R_int z : F2R (Float radix2 z 0) = IZR z.
Proof. unfold F2R. cbn. lra. Qed.
Lemma fe_valid : Valid_exp fe.
Proof. apply FLT_exp_valid. reflexivity. Qed.
Local Existing Instance fe_valid.
Lemma bpow_format k : -126 <= k < 128 -> generic_format radix2 fe (bpow radix2 k).
Proof. intros H. apply generic_format_bpow. unfold SpecFloat.fexp, SpecFloat.emin. lia. Qed.
Lemma rnd_bound z : Z.abs z <= 2 ^ 63 -> (Rabs (rnd (IZR z)) <= bpow radix2 63)%R.
Proof.
  intros H. apply abs_round_le_generic; [apply fe_valid|apply valid_rnd_N| |].
  - apply bpow_format. lia.
  - rewrite <- abs_IZR. change (bpow radix2 63) with (IZR (2 ^ 63)). apply IZR_le. exact H.
Qed.
Lemma bf_correct z : Z.abs z <= 2 ^ 63 -> B2R (bf z) = rnd (IZR z) /\ is_finite (bf z) = true.
Proof.
  intros H. pose proof (binary_normalize_correct 24 128 Hp Hm mode_NE z 0 false) as C. cbv zeta in C.
  rewrite F2R_int in C. rewrite Rlt_bool_true in C.
  - destruct C as (C1 & C2 & _). split; assumption.
  - eapply Rle_lt_trans; [apply rnd_bound, H|]. apply bpow_lt. lia.
Qed.
Lemma rnd_exact z : Z.abs z <= 2 ^ 24 -> rnd (IZR z) = IZR z.
Proof.
  intros H. apply round_generic; [apply valid_rnd_N|].
  destruct (Z.eq_dec (Z.abs z) (2 ^ 24)) as [E|N].
  - assert (D : z = 2 ^ 24 \/ z = - 2 ^ 24) by lia. destruct D as [-> | ->].
    + apply (bpow_format 24). lia.
    + rewrite opp_IZR. apply generic_format_opp. apply (bpow_format 24). lia.
  - apply generic_format_FLT. exists (Float radix2 z 0).
    + rewrite F2R_int. reflexivity.
    + cbn [Fnum]. change (radix2 ^ 24) with (2 ^ 24). lia.
    + cbn. lia.
Qed.
Lemma ltb_real a b : Z.abs a <= 2 ^ 63 -> Z.abs b <= 2 ^ 63 ->
  f32_ltb (f32_of_Z a) (f32_of_Z b) = Rlt_bool (rnd (IZR a)) (rnd (IZR b)).
Proof.
  intros Ha Hb. destruct (bf_correct a Ha) as [A1 A2], (bf_correct b Hb) as [B1 B2].
  rewrite !f32_bf. unfold f32_ltb. fold (Bltb (bf a) (bf b)). rewrite Bltb_correct by assumption. rewrite A1, B1. reflexivity.
Qed.
Lemma leb_real a b : Z.abs a <= 2 ^ 63 -> Z.abs b <= 2 ^ 63 ->
  f32_leb (f32_of_Z a) (f32_of_Z b) = Rle_bool (rnd (IZR a)) (rnd (IZR b)).
Proof.
  intros Ha Hb. destruct (bf_correct a Ha) as [A1 A2], (bf_correct b Hb) as [B1 B2].
  rewrite !f32_bf. unfold f32_leb. fold (Bleb (bf a) (bf b)). rewrite Bleb_correct by assumption. rewrite A1, B1. reflexivity.
Qed.
Lemma leb_not_ltb a b : Z.abs a <= 2 ^ 63 -> Z.abs b <= 2 ^ 63 ->
  f32_leb (f32_of_Z a) (f32_of_Z b) = negb (f32_ltb (f32_of_Z b) (f32_of_Z a)).
Proof.
  intros Ha Hb. rewrite leb_real, ltb_real by assumption.
  case Rle_bool_spec; case Rlt_bool_spec; intros; try reflexivity; lra.
Qed.
Lemma leb_mono a b : Z.abs a <= 2 ^ 63 -> Z.abs b <= 2 ^ 63 -> a <= b -> f32_leb (f32_of_Z a) (f32_of_Z b) = true.
Proof.
  intros Ha Hb H. rewrite leb_real by assumption. apply Rle_bool_true. apply round_le; [apply fe_valid|apply valid_rnd_N|].
  apply IZR_le, H.
Qed.
Lemma ltb_sound a b : Z.abs a <= 2 ^ 63 -> Z.abs b <= 2 ^ 63 -> f32_ltb (f32_of_Z a) (f32_of_Z b) = true -> a < b.
Proof.
  intros Ha Hb H. destruct (Z.lt_ge_cases a b) as [L|G]; [exact L|].
  pose proof (leb_mono b a Hb Ha G) as M. rewrite leb_not_ltb, H in M by assumption. discriminate.
Qed.
Lemma ltb_exact a b : Z.abs a <= 2 ^ 24 -> Z.abs b <= 2 ^ 24 -> f32_ltb (f32_of_Z a) (f32_of_Z b) = (a <? b).
Proof.
  intros Ha Hb. rewrite ltb_real, !rnd_exact by lia. case Rlt_bool_spec; intros H; symmetry.
  - apply Z.ltb_lt, lt_IZR, H.
  - apply Z.ltb_ge, le_IZR, H.
Qed.
(** One of the two is small: the comparison is still right. *)
Lemma ltb_small a b : Z.abs a < 2 ^ 24 -> Z.abs b <= 2 ^ 63 ->
  f32_ltb (f32_of_Z a) (f32_of_Z b) = (a <? b) /\ f32_ltb (f32_of_Z b) (f32_of_Z a) = (b <? a).
Proof.
  intros Ha Hb. destruct (Z.le_gt_cases (Z.abs b) (2 ^ 24)).
  - rewrite !ltb_exact by lia. auto.
  - assert (M : forall x y, Z.abs x <= 2 ^ 63 -> Z.abs y <= 2 ^ 63 -> x < y -> (Z.abs x < 2 ^ 24 /\ y > 2 ^ 24) \/ (x < - 2 ^ 24 /\ Z.abs y < 2 ^ 24) ->
      f32_ltb (f32_of_Z x) (f32_of_Z y) = true).
    { intros x y Hx Hy L D. rewrite ltb_real by assumption. apply Rlt_bool_true. destruct D as [[D1 D2]|[D1 D2]].
      - apply Rlt_le_trans with (rnd (IZR (2 ^ 24))).
        + rewrite !rnd_exact by lia. apply IZR_lt. lia.
        + apply round_le; [apply fe_valid|apply valid_rnd_N|]. apply IZR_le. lia.
      - apply Rle_lt_trans with (rnd (IZR (- 2 ^ 24))).
        + apply round_le; [apply fe_valid|apply valid_rnd_N|]. apply IZR_le. lia.
        + rewrite !rnd_exact by lia. apply IZR_lt. lia. }
    assert (N : forall x y, Z.abs x <= 2 ^ 63 -> Z.abs y <= 2 ^ 63 -> y <= x -> f32_ltb (f32_of_Z x) (f32_of_Z y) = false).
    { intros x y Hx Hy L. destruct (f32_ltb (f32_of_Z x) (f32_of_Z y)) eqn:E; [|reflexivity]. apply ltb_sound in E; lia. }
    destruct (Z.ltb_spec a b), (Z.ltb_spec b a); try lia; split; first [apply M | apply N]; lia.
Qed.
