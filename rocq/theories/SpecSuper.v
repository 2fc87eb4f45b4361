(** Vocabulary for C68: apply-slot, send-super and apply-slot-super. *)
From Verif Require Export SpecFrame.
Local Open Scope string_scope.
Local Open Scope list_scope.

(** Evaluating [es] in [env] from left to right gives the values [vs]. *)
Inductive evals_all (env : loc) : list val -> state -> list val -> state -> Prop :=
| evals_none s : evals_all env [] s [] s
| evals_next e es s v s1 vs s2 : evals e env s (Done (Ok v)) s1 -> evals_all env es s1 vs s2 -> evals_all env (e :: es) s (v :: vs) s2.
(** [f] gets [v] for [k] from one of its prototypes, passing over its own slots. *)
Definition inherits_above (s : state) (k : string) (f : loc) (v : val) : Prop := exists p g, parent s f p /\ inherits s k p g v.
(** Every prototype of [f], and every prototype met from there, is a frame. *)
Definition proper_above (s : state) (f : loc) : Prop :=
  (forall k v, In (k, v) (frame_at s f) -> names_parent k -> v = VNil \/ exists h, v = VFrame h) /\
  forall p, parent s f p -> proper_parents s p.
(** The environment a method of a prototype is called from: below [env], where self is [f]. *)
Definition super_env (env f : loc) (s : state) : state :=
  add_binding (s_next s) (VSym "self") (VFrame f) (open_env (e_name (env_at s env) +++ "'") env (Some f) s).
(** The two errors about what was selected. *)
Definition not_selector (v : val) : string := "Selector must be a naked symbol but was " +++ type_name v +++ ".".
Definition not_message (v : val) : string := "Message sent must select a function slot but was " +++ type_name v +++ ".".
Definition last_not_list : string := "The last argument to apply must be a list".
