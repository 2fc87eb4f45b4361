(** A further sample of C67: map and fold-left written by the programmer. *)
From Verif Require Export SpecCore.
From Verif Require Import Data SpecCore.
Local Open Scope string_scope.
Local Open Scope list_scope.
Local Open Scope Z_scope.

(** (define (each f l) (if (null? l) (list) (cons (f (car l)) (each f (cdr l))))) and
    (define (gather f a l) (if (null? l) a (gather f (f a (car l)) (cdr l)))) *)
Definition own : globals :=
  [("each", (["f"; "l"], If (Builtin "null?" [Name "l"]) (Builtin "list" [])
     (Builtin "cons" [Call (Name "f") [Builtin "car" [Name "l"]]; Call (Name "each") [Name "f"; Builtin "cdr" [Name "l"]]])));
   ("gather", (["f"; "a"; "l"], If (Builtin "null?" [Name "l"]) (Name "a")
     (Call (Name "gather") [Name "f"; Call (Name "f") [Name "a"; Builtin "car" [Name "l"]]; Builtin "cdr" [Name "l"]])))].
(** A call of a built-in and the call of the function that should do the same. *)
Inductive instead : expr -> expr -> Prop :=
| own_map f l : instead (Builtin "map" [f; l]) (Call (Name "each") [f; l])
| own_fold f i l : instead (Builtin "fold-left" [f; i; l]) (Call (Name "gather") [f; i; l]).
