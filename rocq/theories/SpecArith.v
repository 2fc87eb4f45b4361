(** What C66 means: arithmetic with floats is IEEE 754 binary32 arithmetic, rounding to the nearest, ties to even. *)
From Coq Require Import Reals SpecFloat.
From Verif Require Export SpecNum SpecCall.
Local Open Scope Z_scope.

(** The exact value of a finite float. *)
Definition exact (f : f32) : R := (IZR (significand f) * powerRZ 2 (exponent f))%R.
(** The sign bit. *)
Definition minus_sign (f : f32) : bool := match f with S754_zero s | S754_infinity s | S754_finite s _ _ => s | S754_nan => false end.
(** Half a step above the largest finite float: from here on results overflow. *)
Definition overflow : R := IZR ((2 ^ 25 - 1) * 2 ^ 103).
(** [f] is the float nearest to the real number [x]; of two equally near ones the one with the even significand; infinity
    when [x] is too large.  The sign is that of [x], also when [f] is a zero. *)
Definition rounds (x : R) (f : f32) : Prop :=
  float32 f /\ (x <> 0%R -> (minus_sign f = true <-> (x < 0)%R)) /\
  ((Rabs x < overflow)%R /\ finite f /\
   (forall g, float32 g -> finite g -> (Rabs (exact f - x) <= Rabs (exact g - x))%R) /\
   (forall g, float32 g -> finite g -> exact g <> exact f -> Rabs (exact g - x) = Rabs (exact f - x) -> Z.Even (significand f))
   \/ (overflow <= Rabs x)%R /\ exists s, f = S754_infinity s).

(** The four operations, with the special values. *)
Definition opposite (f : f32) : f32 :=
  match f with
  | S754_zero s => S754_zero (negb s)
  | S754_infinity s => S754_infinity (negb s)
  | S754_finite s m e => S754_finite (negb s) m e
  | S754_nan => S754_nan
  end.
Inductive float_sum : f32 -> f32 -> f32 -> Prop :=
| sum_nan_l b : float_sum S754_nan b S754_nan
| sum_nan_r a : float_sum a S754_nan S754_nan
| sum_inf s : float_sum (S754_infinity s) (S754_infinity s) (S754_infinity s)
| sum_undefined s : float_sum (S754_infinity s) (S754_infinity (negb s)) S754_nan
| sum_inf_l s b : finite b -> float_sum (S754_infinity s) b (S754_infinity s)
| sum_inf_r a s : finite a -> float_sum a (S754_infinity s) (S754_infinity s)
| sum_finite a b c : finite a -> finite b -> rounds (exact a + exact b) c ->
    ((exact a + exact b)%R = 0%R -> c = S754_zero (minus_sign a && minus_sign b)) -> float_sum a b c.
Definition float_difference (a b c : f32) : Prop := float_sum a (opposite b) c.
Inductive float_product : f32 -> f32 -> f32 -> Prop :=
| product_nan_l b : float_product S754_nan b S754_nan
| product_nan_r a : float_product a S754_nan S754_nan
| product_undefined_l s t : float_product (S754_infinity s) (S754_zero t) S754_nan
| product_undefined_r s t : float_product (S754_zero s) (S754_infinity t) S754_nan
| product_inf s t : float_product (S754_infinity s) (S754_infinity t) (S754_infinity (xorb s t))
| product_inf_l s t m e : float_product (S754_infinity s) (S754_finite t m e) (S754_infinity (xorb s t))
| product_inf_r s m e t : float_product (S754_finite s m e) (S754_infinity t) (S754_infinity (xorb s t))
| product_finite a b c : finite a -> finite b -> rounds (exact a * exact b) c -> minus_sign c = xorb (minus_sign a) (minus_sign b) ->
    float_product a b c.
(** Division, by what is not zero. *)
Inductive float_quotient : f32 -> f32 -> f32 -> Prop :=
| quotient_nan_l b : float_quotient S754_nan b S754_nan
| quotient_nan_r a : float_quotient a S754_nan S754_nan
| quotient_undefined s t : float_quotient (S754_infinity s) (S754_infinity t) S754_nan
| quotient_inf_l s t m e : float_quotient (S754_infinity s) (S754_finite t m e) (S754_infinity (xorb s t))
| quotient_inf_r a t : finite a -> float_quotient a (S754_infinity t) (S754_zero (xorb (minus_sign a) t))
| quotient_finite a b c : finite a -> finite b -> exact b <> 0%R -> rounds (exact a / exact b) c ->
    minus_sign c = xorb (minus_sign a) (minus_sign b) -> float_quotient a b c.
(** Working through the operands from left to right. *)
Inductive through (op : f32 -> f32 -> f32 -> Prop) : f32 -> list f32 -> f32 -> Prop :=
| through_end a : through op a [] a
| through_next a b c bs r : op a b c -> through op c bs r -> through op a (b :: bs) r.
(** The numbers of the language, and what float an operand counts as: an integer counts as the nearest float. *)
Definition number (v : val) : Prop := (exists z, v = VInt z /\ int64 z) \/ (exists f, v = VFloat f /\ float32 f).
Definition counts_as (v : val) (f : f32) : Prop :=
  v = VFloat f \/ exists z, v = VInt z /\ rounds (IZR z) f /\ (z = 0 -> f = S754_zero false).
Definition is_zero (f : f32) : Prop := exists s, f = S754_zero s.
Definition one : f32 := S754_finite false 8388608 (-23).
(** The order of the floats; NaN is not ordered with anything. *)
Definition less (a b : f32) : Prop :=
  match a, b with
  | S754_nan, _ | _, S754_nan => False
  | S754_infinity s, S754_infinity t => s = true /\ t = false
  | S754_infinity s, _ => s = true
  | _, S754_infinity t => t = false
  | _, _ => (exact a < exact b)%R
  end.
Definition unordered (a b : f32) : Prop := a = S754_nan \/ b = S754_nan.
