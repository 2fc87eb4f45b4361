(** A further part of C67: ways of writing the same thing. *)
From Verif Require Export SpecCore.
From Verif Require Import Data SpecCore.
Local Open Scope string_scope.
Local Open Scope list_scope.
Local Open Scope Z_scope.

(** [same_thing e e']: a programmer may write [e'] for [e], and [e] for [e']. *)
Inductive same_thing : expr -> expr -> Prop :=
(** (let ((x a) ...) body) and ((lambda (x ...) body) a ...) *)
| same_let bs body : same_thing (Let bs body) (Call (Lambda (map fst bs) body) (map snd bs))
(** (cond (t e) clause ...) and (if t e (cond clause ...)) *)
| same_cond t e cs o : same_thing (Cond ((t, e) :: cs) o) (If t e (Cond cs o))
(** (cond (else e)) and e *)
| same_else e : same_thing (Cond [] (Some e)) e
(** (if (not c) t e) and (if c e t) *)
| same_not c t e : same_thing (If (Builtin "not" [c]) t e) (If c e t)
(** (if (and a b ...) t e) and (if a (if (and b ...) t e) e) *)
| same_and a b es t e : same_thing (If (And (a :: b :: es)) t e) (If a (If (And (b :: es)) t e) e)
(** (if (or a b ...) t e) and (if a t (if (or b ...) t e)) *)
| same_or a b es t e : same_thing (If (Or (a :: b :: es)) t e) (If a t (If (Or (b :: es)) t e))
| same_and_one e : same_thing (And [e]) e
| same_or_one e : same_thing (Or [e]) e
| same_begin_one e : same_thing (Begin [e]) e
| same_back e e' : same_thing e e' -> same_thing e' e
| same_trans e e' e'' : same_thing e e' -> same_thing e' e'' -> same_thing e e''.
