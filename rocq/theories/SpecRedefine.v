(** What C76 means: global functions are defined again, and everything that calls them uses the new definition. *)
From Verif Require Export SpecSession.
Local Open Scope string_scope.
Local Open Scope list_scope.
Local Open Scope Z_scope.

(** The answers one expects when a name may be defined any number of times: [G] has the definitions made so far, the
    latest first, and the meaning of a name is the first one found. *)
Inductive up_to_date : globals -> list input -> list answer -> Prop :=
| u_done G : up_to_date G [] []
| u_define G x xs body is answers : plain_name x -> Forall plain_name xs -> List.NoDup xs -> proper body ->
    up_to_date ((x, (xs, body)) :: G) is answers -> up_to_date G (Define x xs body :: is) (Defined :: answers)
| u_value G e v is answers : proper e -> means G [] e v -> up_to_date G is answers -> up_to_date G (Enter e :: is) (Value v :: answers)
| u_failed G e is answers : proper e -> goes_wrong G [] e -> up_to_date G is answers -> up_to_date G (Enter e :: is) (Failed :: answers).
(** (define (base n) (+ n 1)), (define (twice n) (base (base n))), (twice k), (define (base n) (star n n)), (twice k),
    (define (base n m) n), (twice k) *)
Definition changing (k : Z) : list input :=
  [Define "base" ["n"] (Builtin "+" [Name "n"; Num 1]);
   Define "twice" ["n"] (SpecCore.Call (Name "base") [SpecCore.Call (Name "base") [Name "n"]]);
   Enter (SpecCore.Call (Name "twice") [Num k]);
   Define "base" ["n"] (Builtin "*" [Name "n"; Name "n"]);
   Enter (SpecCore.Call (Name "twice") [Num k]);
   Define "base" ["n"; "m"] (Name "n");
   Enter (SpecCore.Call (Name "twice") [Num k])].
