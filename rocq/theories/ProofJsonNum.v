(** Which quotients overflow a float64. *)
From Coq Require Import Reals Lra.
From Flocq Require Import Core.Core IEEE754.BinarySingleNaN.
From Verif Require Import Base Json.
From Verif Require Import ProofFloat.
Local Open Scope Z_scope.

Lemma Hp53 : FLX.Prec_gt_0 53.
Proof. reflexivity. Qed.
Lemma Hm53 : Prec_lt_emax 53 1024.
Proof. reflexivity. Qed.
Local Existing Instance Hp53.
Local Existing Instance Hm53.
Lemma round_equiv53 s m e : SpecFloat.binary_round 53 1024 s m e = BinarySingleNaN.binary_round 53 1024 mode_NE s m e.
Proof.
  unfold SpecFloat.binary_round, BinarySingleNaN.binary_round, shl_align_fexp.
  set (mez := SpecFloat.shl_align _ _ _). case mez as [mz ez].
  unfold SpecFloat.binary_round_aux, BinarySingleNaN.binary_round_aux.
  set (mrse' := shr_fexp _ _ _ _ _). case mrse'. intros mrs' e'. rewrite (nearest_even_equiv s). reflexivity.
Qed.
Definition b64 (m e : Z) (s : bool) : binary_float 53 1024 := BinarySingleNaN.binary_normalize 53 1024 Hp53 Hm53 mode_NE m e s.
Lemma f64_b64 m e s : f64_normalize m e s = B2SF (b64 m e s).
Proof. unfold f64_normalize, b64. destruct m as [|p|p]; cbn -[BinarySingleNaN.binary_round SpecFloat.binary_round]; rewrite ?B2SF_SF2B, ?round_equiv53; reflexivity. Qed.
Notation fe := (SpecFloat.fexp 53 1024).
Notation rnd x := (round radix2 fe (round_mode mode_NE) x).
Lemma fe_valid53 : Valid_exp fe.
Proof. apply FLT_exp_valid. reflexivity. Qed.
Local Existing Instance fe_valid53.
Lemma inf_iff m e s : f32_is_inf (f64_normalize m e s) = negb (Rlt_bool (Rabs (rnd (F2R (Float radix2 m e)))) (bpow radix2 1024)).
Proof.
  rewrite f64_b64. pose proof (binary_normalize_correct 53 1024 Hp53 Hm53 mode_NE m e s) as C. cbv zeta in C. fold (b64 m e s) in C.
  destruct (Rlt_bool _ _).
  - destruct C as (_ & F & _). destruct (b64 m e s); try discriminate F; reflexivity.
  - rewrite C. reflexivity.
Qed.
Definition limit : Z := 2 ^ 1024 - 2 ^ 970.
Lemma limit_over : (bpow radix2 1024 <= rnd (IZR limit))%R.
Proof.
  assert (E : f32_is_inf (f64_normalize limit 0 false) = true) by (vm_compute; reflexivity).
  rewrite inf_iff in E. apply negb_true_iff in E. rewrite F2R_int in E. destruct (Rlt_bool_spec (Rabs (rnd (IZR limit))) (bpow radix2 1024)) as [|H]; [discriminate|].
  rewrite Rabs_pos_eq in H; [exact H|]. apply round_ge_generic; [apply fe_valid53|apply valid_rnd_N|apply generic_format_0|]. apply IZR_le. vm_compute. discriminate.
Qed.
Definition greatest : Z := 2 ^ 1024 - 2 ^ 971.
Lemma greatest_format : generic_format radix2 fe (IZR greatest).
Proof.
  apply generic_format_FLT. exists (Float radix2 (2 ^ 53 - 1) 971).
  - unfold F2R. cbn [Fnum Fexp]. change (bpow radix2 971) with (IZR (2 ^ 971)). rewrite <- mult_IZR. f_equal.
  - cbn [Fnum]. vm_compute. reflexivity.
  - vm_compute. discriminate.
Qed.
Lemma rnd_below x : (0 <= x < IZR limit)%R -> (rnd x < bpow radix2 1024)%R.
Proof.
  intros [H0 H]. apply Rnot_le_lt. intros C.
  assert (G : (IZR greatest < bpow radix2 1024)%R). { change (bpow radix2 1024) with (IZR (2 ^ 1024)). apply IZR_lt. vm_compute. reflexivity. }
  destruct (Rlt_or_le x (IZR greatest)) as [L|L].
  - assert (rnd x <= IZR greatest)%R. { apply round_le_generic; [apply fe_valid53|apply valid_rnd_N|apply greatest_format|lra]. } lra.
  - destruct (round_N_pt radix2 fe (fun n => negb (Z.even n)) x) as [_ N]. specialize (N (IZR greatest) greatest_format).
    change (round radix2 fe (Znearest (fun n => negb (Z.even n))) x) with (rnd x) in N.
    assert (E1 : bpow radix2 1024 = (IZR limit + IZR (2 ^ 970))%R). { change (bpow radix2 1024) with (IZR (2 ^ 1024)). rewrite <- plus_IZR. f_equal. }
    assert (E2 : IZR limit = (IZR greatest + IZR (2 ^ 970))%R) by (rewrite <- plus_IZR; f_equal).
    rewrite Rabs_pos_eq in N by lra. rewrite (Rabs_left1 (IZR greatest - x)) in N by lra. lra.
Qed.
Lemma over_iff (neg : bool) m k s : 0 <= m -> 0 <= k -> f32_is_inf (f64_normalize (if neg then - m else m) (- k) s) = negb (m <? limit * 2 ^ k).
Proof.
  intros M K. rewrite inf_iff. f_equal.
  set (x := F2R (Float radix2 m (- k))). assert (Px : (0 <= x)%R) by (apply F2R_ge_0; exact M).
  assert (A : Rabs (rnd (F2R (Float radix2 (if neg then - m else m) (- k)))) = rnd x).
  { assert (P : (0 <= rnd x)%R) by (apply round_ge_generic; [apply fe_valid53|apply valid_rnd_N|apply generic_format_0|exact Px]).
    destruct neg; [|apply Rabs_pos_eq, P]. rewrite F2R_Zopp. fold x. change (round_mode mode_NE) with ZnearestE. rewrite round_NE_opp. rewrite Rabs_Ropp. apply Rabs_pos_eq, P. }
  rewrite A. assert (E : (x * IZR (2 ^ k) = IZR m)%R).
  { unfold x, F2R. cbn [Fnum Fexp]. rewrite Rmult_assoc. change (2 ^ k)%Z with (Zpower radix2 k). rewrite IZR_Zpower by exact K. rewrite <- bpow_plus. replace (- k + k) with 0 by lia. cbn. lra. }
  assert (P2 : (0 < IZR (2 ^ k))%R) by (apply IZR_lt, Z.pow_pos_nonneg; lia).
  destruct (Z.ltb_spec m (limit * 2 ^ k)) as [L|L].
  - apply Rlt_bool_true, rnd_below. split; [exact Px|]. apply IZR_lt in L. rewrite mult_IZR in L. rewrite <- E in L. apply Rmult_lt_reg_r in L; assumption.
  - apply Rlt_bool_false. apply IZR_le in L. rewrite mult_IZR in L. rewrite <- E in L. apply Rmult_le_reg_r in L; [|exact P2].
    eapply Rle_trans; [apply limit_over|]. apply round_le; [apply fe_valid53|apply valid_rnd_N|exact L].
Qed.
Lemma ratio_over (neg : bool) n d : 0 <= n -> 0 < d -> f32_is_inf (f64_of_ratio neg n d) = negb (n <? limit * d).
Proof.
  intros N D. unfold f64_of_ratio. destruct (Z.eqb_spec n 0) as [->|NZ].
  { cbn. assert (0 < limit * d) by (apply Z.mul_pos_pos; [vm_compute; reflexivity|exact D]). rewrite (proj2 (Z.ltb_lt _ _)) by assumption. reflexivity. }
  cbv zeta. set (k := Z.max 0 (56 + Z.log2 d - Z.log2 n)). assert (K : 0 <= k) by (unfold k; lia). clearbody k.
  assert (P : 0 < 2 ^ k) by (apply Z.pow_pos_nonneg; lia). pose proof (Z.div_mod (n * 2 ^ k) d ltac:(lia)) as Q. pose proof (Z.mod_pos_bound (n * 2 ^ k) d D) as R.
  set (q := n * 2 ^ k / d) in *. set (r := (n * 2 ^ k) mod d) in *. assert (0 <= q) by (unfold q; apply Z.div_pos; nia).
  set (m := 2 * q + (if r =? 0 then 0 else 1)). assert (M : 0 <= m) by (unfold m; destruct (r =? 0); lia).
  replace (- k - 1) with (- (k + 1)) by lia. rewrite over_iff by lia. f_equal. rewrite Z.pow_add_r, Z.pow_1_r by lia.
  set (T := limit) in *. clearbody T.
  destruct (Z.ltb_spec n (T * d)) as [L|L]; [apply Z.ltb_lt|apply Z.ltb_ge].
  - assert (q < T * 2 ^ k). { apply (Z.mul_lt_mono_pos_l d); [exact D|]. nia. } unfold m. destruct (r =? 0); lia.
  - assert (T * 2 ^ k <= q). { assert (T * 2 ^ k * d <= n * 2 ^ k) by nia. unfold q. apply Z.div_le_lower_bound; [exact D|lia]. } unfold m. destruct (r =? 0); lia.
Qed.
