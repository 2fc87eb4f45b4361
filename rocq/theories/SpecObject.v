(** What C74 means: objects that share a prototype. *)
From Verif Require Export SpecState SpecFrame.
Local Open Scope string_scope.
Local Open Scope list_scope.
Local Open Scope Z_scope.

(** (define c (make-frame m: (lambda (p) (set! y (+ y p))) y: z)): a prototype with one method, which pays into the slot
    [y] of its receiver, and the balance [z] that every object has at first. *)
Definition paying (y p : string) : tree := XList [XSym "set!"; XSym y; XList [XSym "+"; XSym y; XSym p]].
Definition prototype (c m y p : string) (z : Z) : tree :=
  XList [XSym "define"; XSym c; XList [XSym "make-frame"; XSym (m +++ ":"); XList [XSym "lambda"; XList [XSym p]; paying y p]; XSym (y +++ ":"); XInt z]].
(** (define x (make-frame class*: c)): an object with no slots of its own but the one that names its prototype. *)
Definition object (x c : string) : tree := XList [XSym "define"; XSym x; XList [XSym "make-frame"; XSym "class*:"; XSym c]].
(** (send x m: e) to one of the two objects, or another computation. *)
Definition message (x1 x2 m : string) (a : action) : tree :=
  match a with
  | Deposit first e => XList [XSym "send"; XSym (if first then x1 else x2); XSym (m +++ ":"); written e]
  | Compute e => written e
  end.
Definition objects (G : globals) (c x1 x2 m y p : string) (z : Z) (acts : list action) : list tree :=
  map definition G ++ [prototype c m y p z; object x1 c; object x2 c] ++ map (message x1 x2 m) acts.
(** The built-in [n] is bound to its name. *)
Definition offers (s : state) (n : string) : Prop :=
  exists b be, local_binding s (s_global s) n = Some b /\ s_binds s !! (b : loc) = Some be /\ b_val be = VPrim n.
(** The name [n] can be the name of an ordinary slot: n*: would name a prototype. *)
Definition slot_word (n : string) : Prop := plain_name n /\ ~ names_parent (n +++ ":").
