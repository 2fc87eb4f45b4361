(** What C25-C31 mean: integers, 64-bit wrap-around, bits. *)
From Verif Require Export SpecCall.
Local Open Scope Z_scope.

(** The 64-bit signed integers. *)
Definition int64 (z : Z) : Prop := - 2 ^ 63 <= z < 2 ^ 63.
(** [r] is the 64-bit signed integer congruent to [z] modulo 2^64. *)
Definition mod64 (r z : Z) : Prop := int64 r /\ exists k, z = r + k * 2 ^ 64.

Definition sum (zs : list Z) : Z := fold_right Z.add 0 zs.
Definition product (zs : list Z) : Z := fold_right Z.mul 1 zs.

(** [a] divided by [b], truncating: quotient [q] and remainder [r] with the sign of [a]. *)
Definition divides_into (a b q r : Z) : Prop :=
  a = q * b + r /\ Z.abs r < Z.abs b /\ (0 <= r * a).
(** Left-to-right division by several numbers; each quotient is reduced to 64 bits. *)
Inductive quotients : Z -> list Z -> Z -> Prop :=
| quotients_nil a : quotients a [] a
| quotients_cons a b bs q r q' z :
    b <> 0 -> divides_into a b q r -> mod64 q' q -> quotients q' bs z -> quotients a (b :: bs) z.

(** The arithmetic progression a, a+step, ... with [n] terms. *)
Definition progression (a step : Z) (n : nat) : list Z := map (fun i => a + Z.of_nat i * step) (seq 0 n).
(** Number of terms from [a] to [b] inclusive, in steps of [step]. *)
Definition terms (a b step : Z) : nat := Z.to_nat ((b - a) / step + 1).
(** 1 when counting from [a] to [b] goes up, -1 when it goes down. *)
Definition direction (a b : Z) : Z := if b <? a then -1 else 1.
