(** * C56, C57: one-argument functions on numbers.  Statements only; see SpecMath.v and SpecNum.v for the vocabulary. *)
From Verif Require Import SpecNum ProofNum ProofMath.
From Verif Require Import Data.
Local Open Scope string_scope.
Local Open Scope list_scope.
Local Open Scope Z_scope.

(** ** C56 One-argument functions on integers *)
Theorem C56_succ : forall z env s, exists r, mod64 r (z + 1) /\
  applies "succ" [VInt z] env s (Done (Ok (VInt r))) (entering "succ" env s).
Proof. exact run_succ. Qed.
Theorem C56_pred : forall z env s, exists r, mod64 r (z - 1) /\
  applies "pred" [VInt z] env s (Done (Ok (VInt r))) (entering "pred" env s).
Proof. exact run_pred. Qed.
Theorem C56_parity : forall z env s, exists b : bool, (b = true <-> exists k, z = 2 * k) /\
  applies "even?" [VInt z] env s (Done (Ok (VBool b))) (entering "even?" env s) /\
  applies "odd?" [VInt z] env s (Done (Ok (VBool (negb b)))) (entering "odd?" env s).
Proof. exact run_parity. Qed.
(** The sign of every 64-bit integer is right, although the tests go through 32-bit floats. *)
Theorem C56_sign : forall z env s, int64 z ->
  applies "sign" [VInt z] env s (Done (Ok (VInt (Z.sgn z)))) (entering "sign" env s) /\
  applies "zero?" [VInt z] env s (Done (Ok (VBool (z =? 0)))) (entering "zero?" env s) /\
  applies "positive?" [VInt z] env s (Done (Ok (VBool (0 <? z)))) (entering "positive?" env s) /\
  applies "negative?" [VInt z] env s (Done (Ok (VBool (z <? 0)))) (entering "negative?" env s).
Proof. exact run_sign. Qed.
Theorem C56_abs : forall z env s, Z.abs z <= 2 ^ 24 ->
  applies "abs" [VInt z] env s (Done (Ok (VInt (Z.abs z)))) (entering "abs" env s).
Proof. exact run_abs. Qed.
(** An integer of at most 24 bits becomes the float of the same worth, and comes back. *)
Theorem C56_float_and_back : forall z env s, Z.abs z <= 2 ^ 24 -> exists f, float32 f /\ worth z f /\
  applies "float" [VInt z] env s (Done (Ok (VFloat f))) (entering "float" env s) /\
  forall env2 s2, applies "integer" [VFloat f] env2 s2 (Done (Ok (VInt z))) (entering "integer" env2 s2).
Proof. exact run_to_float. Qed.
Theorem C56_integer : forall z env s, applies "integer" [VInt z] env s (Done (Ok (VInt z))) (entering "integer" env s).
Proof. exact run_integer. Qed.
Theorem C56_never_inf_nan : forall z env s,
  applies "inf?" [VInt z] env s (Done (Ok (VBool false))) (entering "inf?" env s) /\
  applies "nan?" [VInt z] env s (Done (Ok (VBool false))) (entering "nan?" env s).
Proof. exact run_inf_nan_int. Qed.
(** Anything else is refused. *)
Theorem C56_only_numbers : forall name v env s r s', ~ is_number v ->
  In name ["succ"; "pred"; "integer"; "float"; "floor"; "ceiling"; "abs"; "zero?"; "positive?"; "negative?"; "even?"; "odd?"; "sign";
           "inf?"; "nan?"; "float->bits"; "bits->float"] -> ~ applies name [v] env s (Done (Ok r)) s'.
Proof. exact only_numbers. Qed.
Theorem C56_only_integers : forall name f env s r s', In name ["succ"; "pred"; "even?"; "odd?"; "bits->float"] ->
  ~ applies name [VFloat f] env s (Done (Ok r)) s'.
Proof. exact only_integers. Qed.
(** abs of an integer beyond 2^24 can be wrong, and even negative (findings). *)
Theorem C56_abs_large_refuted : exists z r, int64 z /\ r <> Z.abs z /\ forall env s,
  applies "abs" [VInt z] env s (Done (Ok (VInt r))) (entering "abs" env s).
Proof. exact run_abs_large. Qed.
Theorem C56_abs_negative_refuted : exists z r, int64 z /\ r < 0 /\ forall env s,
  applies "abs" [VInt z] env s (Done (Ok (VInt r))) (entering "abs" env s).
Proof. exact run_abs_negative. Qed.
(** Through float and back an integer beyond 2^24 can change. *)
Theorem C56_float_large_refuted : exists z f r, int64 z /\ r <> z /\ forall env s,
  applies "float" [VInt z] env s (Done (Ok (VFloat f))) (entering "float" env s) /\
  applies "integer" [VFloat f] env s (Done (Ok (VInt r))) (entering "integer" env s).
Proof. exact run_to_float_large. Qed.
Print Assumptions C56_succ. Print Assumptions C56_pred. Print Assumptions C56_parity. Print Assumptions C56_sign.
Print Assumptions C56_abs. Print Assumptions C56_float_and_back. Print Assumptions C56_integer. Print Assumptions C56_never_inf_nan.
Print Assumptions C56_only_numbers. Print Assumptions C56_only_integers. Print Assumptions C56_abs_large_refuted.
Print Assumptions C56_abs_negative_refuted. Print Assumptions C56_float_large_refuted.
Example C56_cases :
  show 60 "(list (succ 9223372036854775807) (pred 0) (even? -4) (odd? -3) (sign -9223372036854775808) (zero? 0) (positive? 1)
    (abs -16777216) (abs 16777217) (abs 9223372036854775807) (integer (float -77)))" start
    = Some (Done (Ok "(-9223372036854775808 -1 #t #t -1 #t #t 16777216 16777216 -9223372036854775808 -77)")) /\
  mod64 (-9223372036854775808) (9223372036854775807 + 1) /\ Z.abs (-16777216) <= 2 ^ 24 /\ worth (-77) (f32_of_Z (-77)) /\
  ~ is_number (VSym "x").
Proof.
  split; [vm_compute; reflexivity|]. split; [split; [unfold int64; lia|exists 1; reflexivity]|]. split; [cbn; lia|].
  split; [split; vm_compute; [exact Logic.I|reflexivity]|]. intros [[? ?]|[? ?]]; discriminate.
Qed.

(** ** C57 One-argument functions on floats *)
(** floor: the float worth the greatest integer not above the argument. *)
Theorem C57_floor : forall f env s, float32 f -> finite f -> exists n g, worth n g /\ compares Z.le n f /\ compares Z.gt (n + 1) f /\
  applies "floor" [VFloat f] env s (Done (Ok (VFloat g))) (entering "floor" env s).
Proof. exact run_floor. Qed.
Theorem C57_ceiling : forall f env s, float32 f -> finite f -> exists n g, worth n g /\ compares Z.ge n f /\ compares Z.lt (n - 1) f /\
  applies "ceiling" [VFloat f] env s (Done (Ok (VFloat g))) (entering "ceiling" env s).
Proof. exact run_ceiling. Qed.
(** integer: towards zero, for floats of magnitude below 2^63. *)
Theorem C57_integer : forall f env s, compares_magnitude Z.ge (2 ^ 63 - 1) f -> exists n,
  compares_magnitude Z.le (Z.abs n) f /\ compares_magnitude Z.gt (Z.abs n + 1) f /\ (n = 0 \/ Z.sgn n = Z.sgn (significand f)) /\
  applies "integer" [VFloat f] env s (Done (Ok (VInt n))) (entering "integer" env s).
Proof. exact run_to_integer. Qed.
Theorem C57_float : forall f env s, applies "float" [VFloat f] env s (Done (Ok (VFloat f))) (entering "float" env s).
Proof. exact run_float. Qed.
Theorem C57_abs : forall f env s, exists g, applies "abs" [VFloat f] env s (Done (Ok (VFloat g))) (entering "abs" env s) /\
  exponent g = exponent f /\ significand g = Z.abs (significand f) /\ (finite f <-> finite g) /\
  (f = SpecFloat.S754_nan <-> g = SpecFloat.S754_nan).
Proof. exact run_abs_float. Qed.
(** zero?, positive?, negative? and sign agree; exactly one of the three holds unless the float is not a number, and then none. *)
Theorem C57_sign : forall f env s, exists (z p n : bool) g,
  applies "zero?" [VFloat f] env s (Done (Ok (VBool z))) (entering "zero?" env s) /\
  applies "positive?" [VFloat f] env s (Done (Ok (VBool p))) (entering "positive?" env s) /\
  applies "negative?" [VFloat f] env s (Done (Ok (VBool n))) (entering "negative?" env s) /\
  applies "sign" [VFloat f] env s (Done (Ok (VInt g))) (entering "sign" env s) /\
  g = (if p then 1 else 0) - (if n then 1 else 0) /\
  (f = SpecFloat.S754_nan -> z = false /\ p = false /\ n = false) /\
  (finite f -> (z = true <-> significand f = 0) /\ (p = true <-> 0 < significand f) /\ (n = true <-> significand f < 0)) /\
  (forall neg, f = SpecFloat.S754_infinity neg -> z = false /\ p = negb neg /\ n = neg).
Proof. exact run_sign_float. Qed.
(** Every float has its own 32 bits, and every 32 bits that do not say "not a number" are those of one float. *)
Theorem C57_bits : forall f env s, float32 f -> exists b, 0 <= b < 2 ^ 32 /\
  applies "float->bits" [VFloat f] env s (Done (Ok (VInt b))) (entering "float->bits" env s) /\
  forall env2 s2, applies "bits->float" [VInt b] env2 s2 (Done (Ok (VFloat f))) (entering "bits->float" env2 s2).
Proof. exact run_bits. Qed.
Theorem C57_from_bits : forall b env s, exists f, float32 f /\
  applies "bits->float" [VInt b] env s (Done (Ok (VFloat f))) (entering "bits->float" env s) /\
  (f = SpecFloat.S754_nan \/ forall env2 s2,
   applies "float->bits" [VFloat f] env2 s2 (Done (Ok (VInt (b mod 2 ^ 32)))) (entering "float->bits" env2 s2)).
Proof. exact run_from_bits. Qed.
Theorem C57_inf_nan : forall f env s, exists i n : bool, (i = true <-> exists neg, f = SpecFloat.S754_infinity neg) /\
  (n = true <-> f = SpecFloat.S754_nan) /\ (finite f <-> i = false /\ n = false) /\
  applies "inf?" [VFloat f] env s (Done (Ok (VBool i))) (entering "inf?" env s) /\
  applies "nan?" [VFloat f] env s (Done (Ok (VBool n))) (entering "nan?" env s).
Proof. exact run_inf_nan. Qed.
Print Assumptions C57_floor. Print Assumptions C57_ceiling. Print Assumptions C57_integer. Print Assumptions C57_float.
Print Assumptions C57_abs. Print Assumptions C57_sign. Print Assumptions C57_bits. Print Assumptions C57_from_bits. Print Assumptions C57_inf_nan.
Example C57_cases :
  show 60 "(list (floor -2.5) (ceiling -2.5) (integer -2.5) (integer 3.99) (abs -0.5) (sign -0.25) (float->bits 1.0)
    (bits->float 3221225472) (inf? (bits->float 2139095040)) (nan? (bits->float 2143289344)) (zero? nan))" start
    = Some (Done (Ok "(-3.0 -2.0 -2 3 0.5 -1 1065353216 -2.0 #t #t #f)")) /\
  (let f := SpecFloat.S754_finite true 10485760 (-22) in
   float32 f /\ finite f /\ compares Z.le (-3) f /\ compares Z.gt (-2) f /\ compares_magnitude Z.ge (2 ^ 63 - 1) f).
Proof.
  split; [vm_compute; reflexivity|]. cbv zeta. split; [reflexivity|]. split; [exact Logic.I|].
  repeat split; vm_compute; discriminate || reflexivity.
Qed.
