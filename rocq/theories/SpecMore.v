(** Vocabulary of C62: flattening, access paths, looking up by value, building and listing frames. *)
From Verif Require Export SpecList SpecData SpecFrame.
Local Open Scope string_scope.
Local Open Scope list_scope.
Local Open Scope Z_scope.

(** ** Access paths *)
(** The number that stands for the letters of an accessor: read a as the binary digit 1 and d as 0, and put a 1 in front.
    (cadr has the letters ad, its number is 110 in binary, 6.) *)
Inductive path_code : list ascii -> Z -> Prop :=
| code_here : path_code [] 1
| code_car p n : path_code p n -> path_code (p ++ ["a"%char]) (2 * n + 1)
| code_cdr p n : path_code p n -> path_code (p ++ ["d"%char]) (2 * n).

(** ** Flattening *)
(** What Go takes for a list: nil, and everything with the type of a list or of an association list. *)
Definition list_typed (v : val) : Prop := v = VNil \/ v = VNoCell \/ exists l, v = VCell TCons l \/ v = VCell TAlist l.
(** The heads met following the tails until a Go nil. *)
Inductive chained (s : state) : val -> list val -> Prop :=
| chained_end : chained s VNil []
| chained_more v vs : v <> VNil -> chained s (rest_of s v) vs -> chained s v (head_of s v :: vs).
(** What an element contributes to the flattened list. *)
Inductive contributes (s : state) : val -> list val -> Prop :=
| con_atom x : ~ list_typed x -> contributes s x [x]
| con_list x vs : list_typed x -> chained s x vs -> contributes s x vs.
Definition at_least_one (ys : list val) : list val := match ys with [] => [VNil] | _ => ys end.
(** What it contributes when sublists are flattened too: a list other than the Go nil contributes at least one element,
    the empty list. *)
Inductive spreads (s : state) : val -> list val -> Prop :=
| spr_nil : spreads s VNil []
| spr_atom x : ~ list_typed x -> spreads s x [x]
| spr_list x xs yss : x <> VNil -> is_list s x xs -> Forall2 (spreads s) xs yss ->
    spreads s x (at_least_one (List.concat yss)).

(** ** Frames from keys and values *)
Inductive keyed : list val -> list (string * val) -> Prop :=
| keyed_none : keyed [] []
| keyed_more k v vs ps : naked k -> keyed vs ps -> keyed (VSym k :: v :: vs) ((k, v) :: ps).
(** The value given last for a key. *)
Definition given_last (ps : list (string * val)) (k : string) (v : val) : Prop :=
  exists pre post, ps = pre ++ (k, v) :: post /\ ~ In k (map fst post).
