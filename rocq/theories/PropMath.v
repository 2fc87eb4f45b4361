(** * C25-C31: arithmetic.  Statements only; see SpecMath.v for the vocabulary. *)
From Verif Require Import ProofMath ProofFloat.
From Coq Require Import Permutation.
Local Open Scope string_scope.
Local Open Scope list_scope.
Local Open Scope Z_scope.

(** ** C25 Integer arithmetic is exact modulo 2^64 *)
Theorem C25_plus : forall zs env s, exists r, mod64 r (sum zs) /\
  applies "+" (map VInt zs) env s (Done (Ok (VInt r))) (entering "+" env s).
Proof. exact run_plus. Qed.
Theorem C25_minus : forall z zs env s, int64 z -> exists r, mod64 r (z - sum zs) /\
  applies "-" (map VInt (z :: zs)) env s (Done (Ok (VInt r))) (entering "-" env s).
Proof. exact run_minus. Qed.
Theorem C25_times : forall zs env s, exists r, mod64 r (product zs) /\
  applies "*" (map VInt zs) env s (Done (Ok (VInt r))) (entering "*" env s).
Proof. exact run_times. Qed.
Theorem C25_divide : forall name a zs env s,
  In name ["/"; "quotient"] -> Forall (fun z => z <> 0) zs -> exists r,
  quotients a zs r /\ applies name (map VInt (a :: zs)) env s (Done (Ok (VInt r))) (entering name env s).
Proof. exact run_quotient. Qed.
Theorem C25_divide_by_zero : forall name a zs env s,
  wf_state s -> In name ["/"; "quotient"] -> In 0 zs -> exists m s',
  applies name (map VInt (a :: zs)) env s (Done (Err m)) s' /\ grows s s'.
Proof. exact run_quotient_zero. Qed.
(** The remainder goes with the quotient of [divides_into] and has the sign of the dividend. *)
Theorem C25_remainder : forall name a b env s, In name ["%"; "modulo"] -> b <> 0 -> exists q r, divides_into a b q r /\
  applies name [VInt a; VInt b] env s (Done (Ok (VInt r))) (entering name env s).
Proof. exact run_rem. Qed.
(** Arguments may be given in any order. *)
Theorem C25_plus_commutes : forall xs ys env s, Permutation xs ys -> exists r,
  applies "+" (map VInt xs) env s (Done (Ok (VInt r))) (entering "+" env s) /\
  applies "+" (map VInt ys) env s (Done (Ok (VInt r))) (entering "+" env s).
Proof. exact plus_perm. Qed.
Theorem C25_times_commutes : forall xs ys env s, Permutation xs ys -> exists r,
  applies "*" (map VInt xs) env s (Done (Ok (VInt r))) (entering "*" env s) /\
  applies "*" (map VInt ys) env s (Done (Ok (VInt r))) (entering "*" env s).
Proof. exact times_perm. Qed.
(** Associativity of + and *, distributivity, for nested calls (each inner result is already wrapped). *)
Theorem C25_nested : forall a b c env s,
  (exists ab bc r, applies "+" [VInt a; VInt b] env s (Done (Ok (VInt ab))) (entering "+" env s) /\
     applies "+" [VInt b; VInt c] env s (Done (Ok (VInt bc))) (entering "+" env s) /\
     applies "+" [VInt ab; VInt c] env s (Done (Ok (VInt r))) (entering "+" env s) /\
     applies "+" [VInt a; VInt bc] env s (Done (Ok (VInt r))) (entering "+" env s)) /\
  (exists ab bc r, applies "*" [VInt a; VInt b] env s (Done (Ok (VInt ab))) (entering "*" env s) /\
     applies "*" [VInt b; VInt c] env s (Done (Ok (VInt bc))) (entering "*" env s) /\
     applies "*" [VInt ab; VInt c] env s (Done (Ok (VInt r))) (entering "*" env s) /\
     applies "*" [VInt a; VInt bc] env s (Done (Ok (VInt r))) (entering "*" env s)) /\
  (exists bc ab ac r, applies "+" [VInt b; VInt c] env s (Done (Ok (VInt bc))) (entering "+" env s) /\
     applies "*" [VInt a; VInt b] env s (Done (Ok (VInt ab))) (entering "*" env s) /\
     applies "*" [VInt a; VInt c] env s (Done (Ok (VInt ac))) (entering "*" env s) /\
     applies "*" [VInt a; VInt bc] env s (Done (Ok (VInt r))) (entering "*" env s) /\
     applies "+" [VInt ab; VInt ac] env s (Done (Ok (VInt r))) (entering "+" env s)).
Proof. exact nested_laws. Qed.
(** % and modulo by zero crash instead of reporting an error (finding). *)
Theorem C25_modulo_zero_refuted : forall name a env s, In name ["%"; "modulo"] ->
  exists w, applies name [VInt a; VInt 0] env s (Panicked w) (entering name env s).
Proof. exact run_modulo_zero. Qed.
Print Assumptions C25_plus. Print Assumptions C25_minus. Print Assumptions C25_times. Print Assumptions C25_divide.
Print Assumptions C25_divide_by_zero. Print Assumptions C25_remainder. Print Assumptions C25_plus_commutes.
Print Assumptions C25_times_commutes. Print Assumptions C25_nested. Print Assumptions C25_modulo_zero_refuted.
(** A sum and a product that wrap, a division with a negative dividend, a division by zero, through the evaluator. *)
Example C25_cases :
  show 60 "(list (+ 9223372036854775807 1) (* 4611686018427387904 6) (- 5) (/ -7 2) (% -7 2))" start
    = Some (Done (Ok "(-9223372036854775808 -9223372036854775808 5 -3 -1)")) /\
  mod64 (-9223372036854775808) (sum [9223372036854775807; 1]) /\ quotients (-7) [2] (-3) /\ wf_state start.
Proof.
  split; [vm_compute; reflexivity|]. split; [split; [unfold int64; lia|exists 1; reflexivity]|].
  split; [|apply wf_initial].
  apply (quotients_cons _ _ _ (-3) (-1) (-3)); [lia|unfold divides_into; lia|split; [unfold int64; lia|exists 0; reflexivity]|constructor].
Qed.

(** ** C26 pow *)
Theorem C26_pow : forall b e env s, int64 b -> 0 <= e -> exists r, mod64 r (b ^ e) /\
  applies "pow" [VInt b; VInt e] env s (Done (Ok (VInt r))) (entering "pow" env s).
Proof. exact run_pow. Qed.
(** With a negative exponent the answer is 1 whatever the base (finding). *)
Theorem C26_negative_refuted : forall b e env s, e < 0 ->
  applies "pow" [VInt b; VInt e] env s (Done (Ok (VInt 1))) (entering "pow" env s).
Proof. exact run_pow_negative. Qed.
Print Assumptions C26_pow. Print Assumptions C26_negative_refuted.
Example C26_cases :
  show 60 "(list (pow 3 41) (pow -2 63) (pow 7 0) (pow 2 -1))" start
    = Some (Done (Ok "(-420491770248316829 -9223372036854775808 1 1)")) /\
  int64 3 /\ mod64 (-420491770248316829) (3 ^ 41).
Proof. split; [vm_compute; reflexivity|]. split; [unfold int64; lia|]. split; [unfold int64; lia|]. exists 2. reflexivity. Qed.

(** ** C27 Comparisons *)
Theorem C27_exact : forall a b env s, Z.abs a <= 2 ^ 24 -> Z.abs b <= 2 ^ 24 ->
  applies "<" [VInt a; VInt b] env s (Done (Ok (VBool (a <? b)))) (entering "<" env s) /\
  applies ">" [VInt a; VInt b] env s (Done (Ok (VBool (b <? a)))) (entering ">" env s) /\
  applies "<=" [VInt a; VInt b] env s (Done (Ok (VBool (a <=? b)))) (entering "<=" env s) /\
  applies ">=" [VInt a; VInt b] env s (Done (Ok (VBool (b <=? a)))) (entering ">=" env s).
Proof.
  intros a b env s Ha Hb. rewrite <- !ltb_exact, <- !leb_exact by assumption.
  split; [apply run_lt|]. split; [apply run_gt|]. split; [apply run_le|apply run_ge].
Qed.
(** For all 64-bit integers the four comparisons answer consistently with each other (a<b is not b<=a, a>b is b<a),
    never claim a strict order that does not hold and never deny a weak order that holds. *)
Theorem C27_monotone : forall a b env s, int64 a -> int64 b -> exists lt gt : bool,
  applies "<" [VInt a; VInt b] env s (Done (Ok (VBool lt))) (entering "<" env s) /\
  applies ">" [VInt a; VInt b] env s (Done (Ok (VBool gt))) (entering ">" env s) /\
  applies "<=" [VInt a; VInt b] env s (Done (Ok (VBool (negb gt)))) (entering "<=" env s) /\
  applies ">=" [VInt a; VInt b] env s (Done (Ok (VBool (negb lt)))) (entering ">=" env s) /\
  (lt = true -> a < b) /\ (gt = true -> b < a).
Proof.
  intros a b env s Ha Hb. exists (f32_ltb (f32_of_Z a) (f32_of_Z b)), (f32_ltb (f32_of_Z b) (f32_of_Z a)).
  rewrite <- !leb_not_ltb by (apply int64_abs; assumption).
  split; [apply run_lt|]. split; [apply run_gt|]. split; [apply run_le|]. split; [apply run_ge|].
  split; apply ltb_sound; apply int64_abs; assumption.
Qed.
(** Beyond 2^24 different integers may compare as equal (finding). *)
Theorem C27_large_refuted : exists a b, int64 a /\ int64 b /\ a < b /\ forall env s,
  applies "<" [VInt a; VInt b] env s (Done (Ok (VBool false))) (entering "<" env s) /\
  applies ">=" [VInt a; VInt b] env s (Done (Ok (VBool true))) (entering ">=" env s).
Proof.
  exists 16777216, 16777217. split; [unfold int64; lia|]. split; [unfold int64; lia|]. split; [lia|].
  intros env s. split; [apply (run_lt 16777216 16777217)|apply (run_ge 16777216 16777217)].
Qed.
Print Assumptions C27_exact. Print Assumptions C27_monotone. Print Assumptions C27_large_refuted.
Example C27_cases :
  show 60 "(list (< -16777216 16777216) (> 5 7) (<= 16777215 16777216) (< 9000000000000000000 9000000000000000001))" start
    = Some (Done (Ok "(#t #f #t #f)")) /\ Z.abs (-16777216) <= 2 ^ 24 /\ int64 9000000000000000001.
Proof. split; [vm_compute; reflexivity|]. unfold int64. lia. Qed.

(** ** C28 Bit operations.  Bit i of an integer is bit i of its two's complement representation. *)
Theorem C28_and : forall a b env s, int64 a -> int64 b -> exists r, int64 r /\
  (forall i, 0 <= i -> Z.testbit r i = Z.testbit a i && Z.testbit b i) /\
  applies "binary-and" [VInt a; VInt b] env s (Done (Ok (VInt r))) (entering "binary-and" env s).
Proof. exact run_and. Qed.
Theorem C28_or : forall a b env s, int64 a -> int64 b -> exists r, int64 r /\
  (forall i, 0 <= i -> Z.testbit r i = Z.testbit a i || Z.testbit b i) /\
  applies "binary-or" [VInt a; VInt b] env s (Done (Ok (VInt r))) (entering "binary-or" env s).
Proof. exact run_or. Qed.
Theorem C28_not : forall a env s, int64 a -> exists r, int64 r /\
  (forall i, 0 <= i -> Z.testbit r i = if i <? 32 then negb (Z.testbit a i) else Z.testbit a i) /\
  applies "binary-not" [VInt a] env s (Done (Ok (VInt r))) (entering "binary-not" env s).
Proof. exact run_not. Qed.
Theorem C28_not_involution : forall a env s, int64 a -> exists r,
  applies "binary-not" [VInt a] env s (Done (Ok (VInt r))) (entering "binary-not" env s) /\
  applies "binary-not" [VInt r] env s (Done (Ok (VInt a))) (entering "binary-not" env s).
Proof. exact not_involution. Qed.
Theorem C28_left_shift : forall a n env s, int64 n -> 0 <= n -> exists r, mod64 r (a * 2 ^ n) /\
  applies "left-shift" [VInt a; VInt n] env s (Done (Ok (VInt r))) (entering "left-shift" env s).
Proof. exact run_shl. Qed.
(** Logical: the operand is taken as the unsigned number a mod 2^64. *)
Theorem C28_right_shift : forall a n env s, int64 n -> 0 <= n -> exists r, mod64 r (a mod 2 ^ 64 / 2 ^ n) /\
  applies "right-shift" [VInt a; VInt n] env s (Done (Ok (VInt r))) (entering "right-shift" env s).
Proof. exact run_shr. Qed.
(** A negative count shifts everything out. *)
Theorem C28_negative_count : forall name a n env s, In name ["left-shift"; "right-shift"] -> int64 n -> n < 0 ->
  applies name [VInt a; VInt n] env s (Done (Ok (VInt 0))) (entering name env s).
Proof. exact run_shift_negative. Qed.
Print Assumptions C28_and. Print Assumptions C28_or. Print Assumptions C28_not. Print Assumptions C28_not_involution.
Print Assumptions C28_left_shift. Print Assumptions C28_right_shift. Print Assumptions C28_negative_count.
Example C28_cases :
  show 60 "(list (binary-and -2 255) (binary-or -256 15) (binary-not -1) (left-shift 3 62) (right-shift -1 60))" start
    = Some (Done (Ok "(254 -241 -4294967296 -4611686018427387904 15)")) /\
  mod64 15 (-1 mod 2 ^ 64 / 2 ^ 60) /\ int64 (-256).
Proof.
  split; [vm_compute; reflexivity|]. split; [|unfold int64; lia].
  split; [unfold int64; lia|]. exists 0. reflexivity.
Qed.

(** ** C29 interval *)
Theorem C29_interval_step : forall a b step env s,
  wf_state s -> int64 a -> int64 b -> int64 step ->
  Z.sgn step = direction a b -> Z.abs (b - a) < 2 ^ 45 -> int64 (a + Z.of_nat (terms a b step) * step) ->
  exists v s', applies "interval" [VInt a; VInt b; VInt step] env s (Done (Ok v)) s' /\
    grows s s' /\ is_list s' v (map VInt (progression a step (terms a b step))).
Proof. exact run_interval3. Qed.
Theorem C29_interval : forall a b env s, wf_state s -> int64 a -> int64 b ->
  Z.abs (b - a) < 2 ^ 45 -> int64 (b + direction a b) ->
  exists v s', applies "interval" [VInt a; VInt b] env s (Done (Ok v)) s' /\
    grows s s' /\ is_list s' v (map VInt (progression a (direction a b) (Z.to_nat (Z.abs (b - a) + 1)))).
Proof. exact run_interval2. Qed.
Theorem C29_interval_from_one : forall b env s, wf_state s -> 0 <= b -> b < 2 ^ 45 ->
  exists v s', applies "interval" [VInt b] env s (Done (Ok v)) s' /\
    grows s s' /\ is_list s' v (map VInt (progression 1 1 (Z.to_nat b))).
Proof. exact run_interval1. Qed.
(** [terms] counts exactly the values that do not pass the bound. *)
Theorem C29_terms : forall a b step, step <> 0 -> (if 0 <? step then a <= b else b <= a) ->
  let n := terms a b step in
  (if 0 <? step then b < a + Z.of_nat n * step else a + Z.of_nat n * step < b) /\
  (forall k, (k < n)%nat -> if 0 <? step then a + Z.of_nat k * step <= b else b <= a + Z.of_nat k * step).
Proof. exact terms_bounds. Qed.
Theorem C29_wrong_direction : forall a b step env s, int64 step -> Z.sgn step <> direction a b ->
  exists m, applies "interval" [VInt a; VInt b; VInt step] env s (Done (Err m)) (entering "interval" env s).
Proof. exact run_interval3_sign. Qed.
(** Ending at the largest integer the loop never stops (finding). *)
Theorem C29_max_refuted : forall a env s o s', 2 ^ 63 - 2 ^ 45 <= a -> a <= 2 ^ 63 - 1 ->
  ~ applies "interval" [VInt a; VInt (2 ^ 63 - 1)] env s o s'.
Proof. exact run_interval_max. Qed.
Print Assumptions C29_interval_step. Print Assumptions C29_interval. Print Assumptions C29_interval_from_one.
Print Assumptions C29_terms. Print Assumptions C29_wrong_direction. Print Assumptions C29_max_refuted.
Example C29_cases :
  show 60 "(list (interval 2 11 3) (interval 5 1 -2) (interval 3) (interval 4 2))" start
    = Some (Done (Ok "((2 5 8 11) (5 3 1) (1 2 3) (4 3 2))")) /\
  Z.sgn 3 = direction 2 11 /\ progression 2 3 (terms 2 11 3) = [2; 5; 8; 11] /\ int64 (2 + Z.of_nat (terms 2 11 3) * 3).
Proof. split; [vm_compute; reflexivity|]. split; [reflexivity|]. split; [reflexivity|]. vm_compute. split; discriminate || reflexivity. Qed.

(** ** C30 number->string and string->number are inverse *)
Theorem C30_round_trip : forall z base env s, wf_state s -> In base [2; 8; 10; 16] -> int64 z -> exists l t s',
  applies "number->string" [VInt z; VInt base] env s (Done (Ok (VStr l))) s' /\ grows s s' /\
  s_strs s' !! l = Some t /\
  forall env2 s2, s_strs s2 !! l = Some t ->
    applies "string->number" [VStr l; VInt base] env2 s2 (Done (Ok (VInt z))) (entering "string->number" env2 s2).
Proof. exact number_round_trip. Qed.
Theorem C30_round_trip_decimal : forall z env s, wf_state s -> int64 z -> exists l t s',
  applies "number->string" [VInt z] env s (Done (Ok (VStr l))) s' /\ grows s s' /\
  s_strs s' !! l = Some t /\
  forall env2 s2, s_strs s2 !! l = Some t ->
    applies "string->number" [VStr l] env2 s2 (Done (Ok (VInt z))) (entering "string->number" env2 s2).
Proof. exact number_round_trip10. Qed.
Print Assumptions C30_round_trip. Print Assumptions C30_round_trip_decimal.
Example C30_cases :
  show 60 "(list (number->string -255 16) (string->number (number->string -9223372036854775808 2) 2) (string->number ""777"" 8))" start
    = Some (Done (Ok "(""-ff"" -9223372036854775808 511)")) /\ int64 (-9223372036854775808) /\ In 16 [2; 8; 10; 16].
Proof. split; [vm_compute; reflexivity|]. split; [unfold int64; lia|]. cbn. auto. Qed.

(** ** C31 min and max *)
Theorem C31_min : forall l z zs env s, is_list s l (map VInt (z :: zs)) -> exists m,
  In m (z :: zs) /\ Forall (fun x => m <= x) (z :: zs) /\
  applies "min" [l] env s (Done (Ok (VInt m))) (entering "min" env s).
Proof. exact run_min. Qed.
Theorem C31_max : forall l z zs env s, is_list s l (map VInt (z :: zs)) -> exists m,
  In m (z :: zs) /\ Forall (fun x => x <= m) (z :: zs) /\
  applies "max" [l] env s (Done (Ok (VInt m))) (entering "max" env s).
Proof. exact run_max. Qed.
Print Assumptions C31_min. Print Assumptions C31_max.
Definition c31_state : state := set_cells (<[s_next start := (VInt 4, VCell TCons (s_next start + 1)%positive)]>
  (<[(s_next start + 1)%positive := (VInt (-3), VNil)]> (s_cells start))) (set_next (s_next start + 2)%positive start).
Example C31_cases :
  show 60 "(list (min '(16777217 16777216 16777218)) (max '(3 9223372036854775807 -5)))" start
    = Some (Done (Ok "(16777216 9223372036854775807)")) /\
  is_list c31_state (VCell TCons (s_next start)) (map VInt [4; -3]).
Proof.
  split; [vm_compute; reflexivity|].
  apply (il_cons _ _ _ (VCell TCons (s_next start + 1)%positive)); [vm_compute; reflexivity|left; discriminate|].
  apply (il_cons _ _ _ VNil); [vm_compute; reflexivity|left; discriminate|constructor].
Qed.
