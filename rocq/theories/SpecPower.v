(** A further sample of C67: powers by repeated squaring. *)
From Verif Require Export SpecCore.
From Verif Require Import Data SpecCore.
Local Open Scope string_scope.
Local Open Scope list_scope.
Local Open Scope Z_scope.

(** (define (power b n) (if (zero? n) 1 (if (even? n) (power (star b b) (quotient n 2)) (star b (power b (pred n)))))), where star is the symbol of multiplication *)
Definition power : globals :=
  [("power", (["b"; "n"], If (Builtin "zero?" [Name "n"]) (Num 1)
     (If (Builtin "even?" [Name "n"]) (Call (Name "power") [Builtin "*" [Name "b"; Name "b"]; Builtin "quotient" [Name "n"; Num 2]])
       (Builtin "*" [Name "b"; Call (Name "power") [Name "b"; Builtin "pred" [Name "n"]]]))))].
