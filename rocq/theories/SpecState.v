(** What C71 means: functions with private state. *)
From Verif Require Export SpecCore.
Local Open Scope string_scope.
Local Open Scope list_scope.
Local Open Scope Z_scope.

(** (define x (let ((y z)) (lambda (p) (begin (set! y (+ y p)) y)))): an account with the balance [z], known to nobody
    but the function; calling it pays in an amount and gives the new balance. *)
Definition paying_in (y p : string) : tree :=
  XList [XSym "begin"; XList [XSym "set!"; XSym y; XList [XSym "+"; XSym y; XSym p]]; XSym y].
Definition account (x y p : string) (z : Z) : tree :=
  XList [XSym "define"; XSym x; XList [XSym "let"; XList [XList [XSym y; XInt z]]; XList [XSym "lambda"; XList [XSym p]; paying_in y p]]].
(** What a program with two accounts does: it pays the value of an expression into one of them, or computes something else. *)
Inductive action :=
| Deposit (first : bool) (e : expr)
| Compute (e : expr).
Definition proper_action (a : action) : Prop := match a with Deposit _ e | Compute e => proper e end.
Definition action_text (x1 x2 : string) (a : action) : tree :=
  match a with
  | Deposit first e => XList [XSym (if first then x1 else x2); written e]
  | Compute e => written e
  end.
(** [pays G first a d]: the action [a] adds [d] to the first (second) account. *)
Inductive pays (G : globals) (first : bool) : action -> Z -> Prop :=
| pays_in e d : means G [] e (Number d) -> pays G first (Deposit first e) d
| pays_other e d : means G [] e (Number d) -> pays G first (Deposit (negb first) e) 0
| pays_nothing e v : means G [] e v -> pays G first (Compute e) 0.
(** The whole program: definitions of functions, the two accounts, actions. *)
Definition banking (G : globals) (x1 x2 y p : string) (z1 z2 : Z) (acts : list action) : list tree :=
  map definition G ++ [account x1 y p z1; account x2 y p z2] ++ map (action_text x1 x2) acts.
