(** Vocabulary of C56 and C57: what a 32-bit float is worth, compared with integers. *)
From Verif Require Export SpecMath.
Local Open Scope Z_scope.

(** The floats of the Go program: IEEE 754 binary32 (24-bit significands, exponents below 128). *)
Definition float32 (f : f32) : Prop := SpecFloat.valid_binary 24 128 f = true.
(** The exact value of a finite float is an integer times a power of two. *)
Definition finite (f : f32) : Prop := match f with SpecFloat.S754_zero _ | SpecFloat.S754_finite _ _ _ => True | _ => False end.
Definition significand (f : f32) : Z :=
  match f with SpecFloat.S754_finite s m _ => if s then Zneg m else Zpos m | _ => 0 end.
Definition exponent (f : f32) : Z := match f with SpecFloat.S754_finite _ _ e => e | _ => 0 end.
(** [n] stands in relation [R] to the exact value of [f]: both are multiplied by the power of two that makes the
    value of [f] an integer. *)
Definition compares (R : Z -> Z -> Prop) (n : Z) (f : f32) : Prop :=
  finite f /\ R (n * 2 ^ Z.max 0 (- exponent f)) (significand f * 2 ^ Z.max 0 (exponent f)).
(** The float is worth exactly the integer [n]. *)
Definition worth (n : Z) (f : f32) : Prop := compares eq n f.
(** The two kinds of number. *)
Definition is_number (v : val) : Prop := (exists z, v = VInt z) \/ (exists f, v = VFloat f).
(** The same, with the value of [f] without its sign. *)
Definition compares_magnitude (R : Z -> Z -> Prop) (n : Z) (f : f32) : Prop :=
  finite f /\ R (n * 2 ^ Z.max 0 (- exponent f)) (Z.abs (significand f) * 2 ^ Z.max 0 (exponent f)).
