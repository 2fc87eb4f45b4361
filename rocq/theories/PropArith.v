(** * C66 Arithmetic and comparison with floats *)
From Coq Require Import Reals SpecFloat.
From Verif Require Import ProofArith ProofOut ProofList ProofWf.
From Verif Require Import Data SpecArith.
Local Open Scope string_scope.
Local Open Scope list_scope.
Local Open Scope Z_scope.

(** One float among the operands makes it float arithmetic, from left to right, each step rounded. *)
Theorem C66_plus : forall vs env s, Forall number vs -> Exists (fun v => exists f, v = VFloat f) vs -> exists fs r,
  Forall2 counts_as vs fs /\ through float_sum (S754_zero false) fs r /\ float32 r /\
  applies "+" vs env s (Done (Ok (VFloat r))) (entering "+" env s).
Proof. exact run_plus_float. Qed.
Theorem C66_minus : forall v vs env s, Forall number (v :: vs) -> Exists (fun v => exists f, v = VFloat f) (v :: vs) -> exists f fs r,
  counts_as v f /\ Forall2 counts_as vs fs /\ through float_difference f fs r /\ float32 r /\
  applies "-" (v :: vs) env s (Done (Ok (VFloat r))) (entering "-" env s).
Proof. exact run_minus_float. Qed.
Theorem C66_times : forall vs env s, Forall number vs -> Exists (fun v => exists f, v = VFloat f) vs -> exists fs r,
  Forall2 counts_as vs fs /\ through float_product one fs r /\ float32 r /\
  applies "*" vs env s (Done (Ok (VFloat r))) (entering "*" env s).
Proof. exact run_times_float. Qed.
Theorem C66_divide : forall name v vs fs env s, In name ["/"; "quotient"] -> Forall number (v :: vs) -> Exists (fun v => exists f, v = VFloat f) (v :: vs) ->
  Forall2 counts_as vs fs -> Forall (fun f => ~ is_zero f) fs -> exists f r,
  counts_as v f /\ through float_quotient f fs r /\ float32 r /\
  applies name (v :: vs) env s (Done (Ok (VFloat r))) (entering name env s).
Proof. exact run_divide_float. Qed.
Theorem C66_divide_zero : forall name v vs env s, wf_state s -> In name ["/"; "quotient"] -> Forall number (v :: vs) ->
  Exists (fun v => exists f, v = VFloat f) (v :: vs) -> Exists (fun v => exists f, counts_as v f /\ is_zero f) vs -> exists m s',
  applies name (v :: vs) env s (Done (Err m)) s' /\ grows s s'.
Proof. exact run_divide_zero. Qed.
(** The comparisons; with NaN every one of them is false. *)
Theorem C66_compare : forall v w f g env s, number v -> number w -> counts_as v f -> counts_as w g ->
  (exists b, applies "<" [v; w] env s (Done (Ok (VBool b))) (entering "<" env s) /\ (b = true <-> less f g)) /\
  (exists b, applies ">" [v; w] env s (Done (Ok (VBool b))) (entering ">" env s) /\ (b = true <-> less g f)) /\
  (exists b, applies "<=" [v; w] env s (Done (Ok (VBool b))) (entering "<=" env s) /\ (b = true <-> ~ unordered f g /\ ~ less g f)) /\
  (exists b, applies ">=" [v; w] env s (Done (Ok (VBool b))) (entering ">=" env s) /\ (b = true <-> ~ unordered f g /\ ~ less f g)).
Proof. exact run_compares. Qed.
(** min and max of a list with a float and no NaN: one of the numbers, as a float, with none beyond it. *)
Theorem C66_min_max : forall l vs fs env s, is_list s l vs -> Forall number vs -> Exists (fun v => exists f, v = VFloat f) vs ->
  Forall2 counts_as vs fs -> Forall (fun f => f <> S754_nan) fs ->
  (exists r, In r fs /\ Forall (fun f => ~ less f r) fs /\ applies "min" [l] env s (Done (Ok (VFloat r))) (entering "min" env s)) /\
  (exists r, In r fs /\ Forall (fun f => ~ less r f) fs /\ applies "max" [l] env s (Done (Ok (VFloat r))) (entering "max" env s)).
Proof. exact run_min_max. Qed.
(** These relations leave no choice: the results above are the only ones they allow. *)
Theorem C66_unique : (forall v f g, counts_as v f -> counts_as v g -> f = g) /\
  (forall fs a r r', through float_sum a fs r -> through float_sum a fs r' -> r = r') /\
  (forall fs a r r', through float_difference a fs r -> through float_difference a fs r' -> r = r') /\
  (forall fs a r r', through float_product a fs r -> through float_product a fs r' -> r = r') /\
  (forall fs a r r', through float_quotient a fs r -> through float_quotient a fs r' -> r = r').
Proof.
  exact (conj counts_unique (conj (through_unique float_sum sum_unique) (conj (through_unique float_difference (fun a b => sum_unique a (opposite b)))
    (conj (through_unique float_product product_unique) (through_unique float_quotient quotient_unique))))).
Qed.
(** A result that is a float is exact. *)
Theorem C66_exact : forall f g, float32 f -> finite f -> rounds (exact f) g -> exact g = exact f.
Proof. exact rounds_exact. Qed.
(** After the first float what is not a number counts as 0 instead of being an error. *)
Theorem C66_not_a_number_refuted : forall f w env s, float32 f -> (forall z, w <> VInt z) -> (forall g, w <> VFloat g) -> exists r,
  through float_sum (S754_zero false) [f; S754_zero false] r /\ applies "+" [VFloat f; w] env s (Done (Ok (VFloat r))) (entering "+" env s).
Proof. exact run_not_a_number. Qed.
(** With one operand minus does not negate. *)
Theorem C66_negate_refuted : forall f env s, applies "-" [VFloat f] env s (Done (Ok (VFloat f))) (entering "-" env s).
Proof. exact run_one_minus. Qed.
Print Assumptions C66_plus. Print Assumptions C66_minus. Print Assumptions C66_times. Print Assumptions C66_divide. Print Assumptions C66_divide_zero.
Print Assumptions C66_compare. Print Assumptions C66_min_max. Print Assumptions C66_unique. Print Assumptions C66_exact.
Print Assumptions C66_not_a_number_refuted. Print Assumptions C66_negate_refuted.
Definition half : f32 := S754_finite false 8388608 (-24).
Definition c66_list : state := set_cells (<[s_next start := (VInt 4, VCell TCons (s_next start + 1)%positive)]>
  (<[(s_next start + 1)%positive := (VFloat half, VNil)]> (s_cells start))) (set_next (s_next start + 2)%positive start).
Example C66_cases :
  show 60 "(list (+ 1 0.5) (+ 0.1 0.2) (- 1 0.25 0.5) (* 2 0.75) (/ 1 2.0) (+ 16777216.0 1) (+ 16777216.0 1 2) (< 1 1.5) (>= 1.5 1) (min '(3 0.5 2)) (max '(3 0.5 7)))" start
    = Some (Done (Ok "(1.5 0.3 0.25 1.5 0.5 1.6777216e+07 1.6777218e+07 #t #t 0.5 7.0)")) /\
  show 60 "(list (- 1.5) (+ 1.5 ""x"") (* 4000000000000000000.0 4000000000000000000 4000000000) (- (bits->float 2139095040) (bits->float 2139095040)))" start = Some (Done (Ok "(1.5 1.5 +inf nan)")) /\
  show 60 "(on-error (/ 1.5 0) (lambda (e) 'error))" start = Some (Done (Ok "error")) /\
  Forall number [VInt 4; VFloat half] /\ Exists (fun v => exists f, v = VFloat f) [VInt 4; VFloat half] /\
  is_list c66_list (VCell TCons (s_next start)) [VInt 4; VFloat half] /\ wf_state start.
Proof.
  split; [vm_compute; reflexivity|]. split; [vm_compute; reflexivity|]. split; [vm_compute; reflexivity|].
  split; [apply List.Forall_cons; [left; exists 4; split; [reflexivity|unfold int64; lia]|apply List.Forall_cons; [right; exists half; split; reflexivity|constructor]]|].
  split; [right; left; eexists; reflexivity|].
  split; [|exact wf_start].
  eapply il_cons; [unfold c66_list, set_cells; cbn [s_cells]; apply lookup_insert|left; discriminate|].
  eapply il_cons; [unfold c66_list, set_cells; cbn [s_cells]; rewrite lookup_insert_ne by lia; apply lookup_insert|left; discriminate|constructor].
Qed.
