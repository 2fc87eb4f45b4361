(** What C10 means. *)
From Verif Require Export SpecTree.
Local Open Scope list_scope.

(** [ys] is [xs] without repetitions, each element at its first place; elements in [seen] do not count. *)
Inductive firsts {A} : list A -> list A -> list A -> Prop :=
| firsts_nil seen : firsts seen [] []
| firsts_seen seen x xs ys : In x seen -> firsts seen xs ys -> firsts seen (x :: xs) ys
| firsts_new seen x xs ys : ~ In x seen -> firsts (x :: seen) xs ys -> firsts seen (x :: xs) (x :: ys).
(** [ys] is the elements of [xs] that satisfy [P], in order. *)
Inductive keeps {A} (P : A -> Prop) : list A -> list A -> Prop :=
| keeps_nil : keeps P [] []
| keeps_yes x xs ys : P x -> keeps P xs ys -> keeps P (x :: xs) (x :: ys)
| keeps_no x xs ys : ~ P x -> keeps P xs ys -> keeps P (x :: xs) ys.

(** [v] is a list of the trees [ds]: no frames inside, no Go nil among its elements. *)
Definition set_arg (s : state) (v : val) (ds : list datum) : Prop :=
  exists xs, is_list s v xs /\ no_nils xs /\ Forall2 (rep s) xs ds /\ Forall frameless ds.
