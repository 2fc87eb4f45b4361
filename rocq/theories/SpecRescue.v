(** What C75 means: errors that are raised with error and handled with on-error. *)
From Verif Require Export SpecCore SpecFail SpecObject.
Local Open Scope string_scope.
Local Open Scope list_scope.
Local Open Scope Z_scope.

(** An expression of the functional core; (error e); or (on-error g (lambda (p) h)), to any depth. *)
Inductive guarded := Plain (e : expr) | Throw (e : expr) | Guard (g : guarded) (p : string) (h : expr).
Fixpoint guarded_text (g : guarded) : tree :=
  match g with
  | Plain e => written e
  | Throw e => XList [XSym "error"; written e]
  | Guard g p h => XList [XSym "on-error"; guarded_text g; XList [XSym "lambda"; XList [XSym p]; written h]]
  end.
Fixpoint proper_guarded (g : guarded) : Prop :=
  match g with
  | Plain e | Throw e => proper e
  | Guard g p h => proper_guarded g /\ plain_name p /\ proper h
  end.
(** [ends_in G g P]: [g] has a value, one of [P].  [breaks G g M]: it ends with an error, with one of the messages [M].
    A handler is called with the message, and only if there was an error; an error in the handler is an error of the
    whole.  (error 'x) has the message x; nothing is said about other messages. *)
Inductive ends_in (G : globals) : guarded -> (value -> Prop) -> Prop :=
| g_plain e v (P : value -> Prop) : means G [] e v -> P v -> ends_in G (Plain e) P
| g_fine g p h P : ends_in G g P -> ends_in G (Guard g p h) P
| g_rescued g p h M P : breaks G g M -> (forall t, M t -> exists v, means G [(p, Characters t)] h v /\ P v) -> ends_in G (Guard g p h) P
with breaks (G : globals) : guarded -> (string -> Prop) -> Prop :=
| b_plain e (M : string -> Prop) : goes_wrong G [] e -> (forall t, M t) -> breaks G (Plain e) M
| b_argument e (M : string -> Prop) : goes_wrong G [] e -> (forall t, M t) -> breaks G (Throw e) M
| b_symbol e x (M : string -> Prop) : means G [] e (Symbol x) -> M x -> breaks G (Throw e) M
| b_text e t (M : string -> Prop) : means G [] e (Characters t) -> (forall m, M m) -> breaks G (Throw e) M
| b_again g p h M (M' : string -> Prop) : breaks G g M -> (forall t, M t -> goes_wrong G [(p, Characters t)] h) -> (forall t, M' t) -> breaks G (Guard g p h) M'.

(** What is entered, one text each, and what one expects. *)
Inductive entry := Introduce (x : string) (xs : list string) (body : expr) | Try (g : guarded).
Definition entry_text (i : entry) : tree :=
  match i with Introduce x xs body => definition (x, (xs, body)) | Try g => guarded_text g end.
Definition introduced (is : list entry) : list string := flat_map (fun i => match i with Introduce x _ _ => [x] | Try _ => [] end) is.
Inductive reply := Accepted | One_of (P : value -> Prop) | Refused (M : string -> Prop).
Inductive foreseen : globals -> list entry -> list reply -> Prop :=
| fs_done G : foreseen G [] []
| fs_define G x xs body is rs : plain_name x -> x <> "error" -> x <> "on-error" -> Forall plain_name xs -> List.NoDup xs -> proper body -> ~ In x (map fst G) ->
    foreseen (G ++ [(x, (xs, body))]) is rs -> foreseen G (Introduce x xs body :: is) (Accepted :: rs)
| fs_value G g P is rs : proper_guarded g -> ends_in G g P -> foreseen G is rs -> foreseen G (Try g :: is) (One_of P :: rs)
| fs_error G g M is rs : proper_guarded g -> breaks G g M -> foreseen G is rs -> foreseen G (Try g :: is) (Refused M :: rs).
(** Errors and their handling, too, leave all that was there unchanged. *)
Definition replied (s : state) (o : outcome (res val)) (s' : state) (a : reply) : Prop :=
  match a with
  | Accepted => exists w, o = Done (Ok w)
  | One_of P => exists w v, o = Done (Ok w) /\ stands_for s' w v /\ P v /\ keeps [] s s'
  | Refused M => exists m, o = Done (Err m) /\ M m /\ keeps [] s s'
  end.
Fixpoint as_foreseen (texts : list string) (rs : list reply) (s : state) : Prop :=
  match texts, rs with
  | [], [] => True
  | t :: ts, a :: rest =>
      (exists o s', run_text t (s_global s) s o s') /\
      forall o s', run_text t (s_global s) s o s' -> replied s o s' a /\ as_foreseen ts rest s'
  | _, _ => False
  end.
(** (on-error (on-error (on-error (error 'oops) (lambda (m) (+ m 1))) (lambda (m) (fact 1 2))) (lambda (m) (fact 5))) *)
Definition rescuing : guarded :=
  Guard (Guard (Guard (Throw (Quote (XSym "oops"))) "m" (Builtin "+" [Name "m"; Num 1])) "m" (SpecCore.Call (Name "fact") [Num 1; Num 2])) "m" (SpecCore.Call (Name "fact") [Num 5]).
