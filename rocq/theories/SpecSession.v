(** What C73 means: texts run one after the other, some of which fail. *)
From Verif Require Export SpecCore SpecFail.
Local Open Scope string_scope.
Local Open Scope list_scope.
Local Open Scope Z_scope.

(** What is entered, one text each: the definition of a new global function, or an expression. *)
Inductive input := Define (x : string) (xs : list string) (body : expr) | Enter (e : expr).
Definition entered (i : input) : tree :=
  match i with Define x xs body => definition (x, (xs, body)) | Enter e => written e end.
Definition new_names (is : list input) : list string := flat_map (fun i => match i with Define x _ _ => [x] | Enter _ => [] end) is.
(** The answers one expects. *)
Inductive answer := Defined | Value (v : value) | Failed.
Inductive expected : globals -> list input -> list answer -> Prop :=
| x_done G : expected G [] []
| x_define G x xs body is answers : plain_name x -> Forall plain_name xs -> List.NoDup xs -> proper body -> ~ In x (map fst G) ->
    expected (G ++ [(x, (xs, body))]) is answers -> expected G (Define x xs body :: is) (Defined :: answers)
| x_value G e v is answers : proper e -> means G [] e v -> expected G is answers -> expected G (Enter e :: is) (Value v :: answers)
| x_failed G e is answers : proper e -> goes_wrong G [] e -> expected G is answers -> expected G (Enter e :: is) (Failed :: answers).
(** Running the texts in turn gives these answers; expressions, those that fail too, leave all that was there unchanged. *)
Definition answered (s : state) (o : outcome (res val)) (s' : state) (a : answer) : Prop :=
  match a with
  | Defined => exists w, o = Done (Ok w)
  | Value v => exists w, o = Done (Ok w) /\ stands_for s' w v /\ keeps [] s s'
  | Failed => exists m, o = Done (Err m) /\ keeps [] s s'
  end.
Fixpoint as_expected (texts : list string) (answers : list answer) (s : state) : Prop :=
  match texts, answers with
  | [], [] => True
  | t :: ts, a :: rest =>
      (exists o s', run_text t (s_global s) s o s') /\
      forall o s', run_text t (s_global s) s o s' -> answered s o s' a /\ as_expected ts rest s'
  | _, _ => False
  end.
(** (define (fact n) ...), then expressions that fail, then (fact n) *)
Definition persevering (bad : list expr) (n : nat) : list input :=
  Define "fact" ["n"] (If (Builtin "<" [Name "n"; Num 1]) (Num 1) (Builtin "*" [Name "n"; Call (Name "fact") [Builtin "-" [Name "n"; Num 1]]]))
  :: map Enter bad ++ [Enter (Call (Name "fact") [Num (Z.of_nat n)])].
