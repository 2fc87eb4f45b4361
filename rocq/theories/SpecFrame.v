(** Vocabulary for the frame properties (C23, C24, C49). *)
From Verif Require Export SpecEval.
Local Open Scope string_scope.
Local Open Scope list_scope.

(** The frame at [f] itself stores [v] under [k]. *)
Definition slot (s : state) (f : loc) (k : string) : option val := alookup k (frame_at s f).
(** A slot whose name ends in "*:" names a prototype. *)
Definition names_parent (k : string) : Prop := exists p, k = p +++ "*:".
Definition parent (s : state) (f g : loc) : Prop := exists k, In (k, VFrame g) (frame_at s f) /\ names_parent k.
(** [g] is [f] or one of its prototypes, their prototypes, ... *)
Inductive reaches (s : state) : loc -> loc -> Prop :=
| reaches_self f : reaches s f f
| reaches_up f p g : parent s f p -> reaches s p g -> reaches s f g.
(** Every prototype slot met from [f] holds a frame or nil. *)
Definition proper_parents (s : state) (f : loc) : Prop :=
  forall g, reaches s f g -> forall k v, In (k, v) (frame_at s g) -> names_parent k -> v = VNil \/ exists h, v = VFrame h.
(** [f] gets the value [v] of [k] from [g]: on the way up to [g] nobody has a slot [k] of its own. *)
Inductive inherits (s : state) (k : string) : loc -> loc -> val -> Prop :=
| inherits_own f v : slot s f k = Some v -> inherits s k f f v
| inherits_up f p g v : slot s f k = None -> parent s f p -> inherits s k p g v -> inherits s k f g v.
(** The two states differ only in the scheduler and map order choices still to be made. *)
Definition only_choices (s s' : state) : Prop := s' = set_oracle (s_oracle s') s.
(** Only the frame at [f] differs. *)
Definition only_frame (f : loc) (s s' : state) : Prop :=
  s' = set_frames (s_frames s') s /\ forall g, g <> f -> frame_at s' g = frame_at s g.
(** A key a frame can have. *)
Definition naked (k : string) : Prop := exists n, k = n +++ ":".
