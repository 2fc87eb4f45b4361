(** What C65 means: equality of data with floats and frames. *)
From Coq Require Import SpecFloat.
From Verif Require Export SpecTree SpecFrame.
Local Open Scope string_scope.
Local Open Scope list_scope.
Local Open Scope Z_scope.

(** Trees of data.  [NRef] stands for the values that are compared by identity. *)
Inductive node :=
| NInt (z : Z)
| NFloat (f : f32)
| NBool (b : bool)
| NStr (t : string)
| NSym (t : string)
| NBytes (bs : list Z)
| NRef (v : val)
| NList (ns : list node)
| NFrame (slots : list (string * node)).
(** In state [s], [v] represents the tree. *)
Inductive stands (s : state) : val -> node -> Prop :=
| st_int z : stands s (VInt z) (NInt z)
| st_float f : stands s (VFloat f) (NFloat f)
| st_bool b : stands s (VBool b) (NBool b)
| st_sym t : stands s (VSym t) (NSym t)
| st_str l t : s_strs s !! (l : loc) = Some t -> stands s (VStr l) (NStr t)
| st_bytes l bs : s_bytes s !! (l : loc) = Some bs -> stands s (VBytes l) (NBytes bs)
| st_ref v : opaque v = true -> stands s v (NRef v)
| st_list v xs ns : is_list s v xs -> Forall2 (stands s) xs ns -> stands s v (NList ns)
| st_frame l m slots :
    s_frames s !! (l : loc) = Some m -> NoDup (map fst m) ->
    Forall2 (fun p q => fst p = fst q /\ stands s (snd p) (snd q)) m slots -> stands s (VFrame l) (NFrame slots).
(** The same number: identical, or zeros of either sign; NaN is no number. *)
Definition same_number (f g : f32) : Prop := (f = g /\ f <> S754_nan) \/ exists a b, f = S754_zero a /\ g = S754_zero b.
(** The same data: frames are the same when they have the same slots, in any order, with the same data in each. *)
Inductive same : node -> node -> Prop :=
| same_int z : same (NInt z) (NInt z)
| same_float f g : same_number f g -> same (NFloat f) (NFloat g)
| same_bool b : same (NBool b) (NBool b)
| same_sym t : same (NSym t) (NSym t)
| same_str t : same (NStr t) (NStr t)
| same_bytes bs : same (NBytes bs) (NBytes bs)
| same_ref v : same (NRef v) (NRef v)
| same_list ns ms : Forall2 same ns ms -> same (NList ns) (NList ms)
| same_frame a b : (forall k, In k (map fst a) <-> In k (map fst b)) -> (forall k x y, In (k, x) a -> In (k, y) b -> same x y) ->
    same (NFrame a) (NFrame b).
(** No NaN anywhere and no slot that holds an empty list. *)
Inductive clear : node -> Prop :=
| clear_int z : clear (NInt z)
| clear_float f : f <> S754_nan -> clear (NFloat f)
| clear_bool b : clear (NBool b)
| clear_sym t : clear (NSym t)
| clear_str t : clear (NStr t)
| clear_bytes bs : clear (NBytes bs)
| clear_ref v : clear (NRef v)
| clear_list ns : Forall clear ns -> clear (NList ns)
| clear_frame slots : Forall (fun q => clear (snd q) /\ snd q <> NList []) slots -> clear (NFrame slots).
