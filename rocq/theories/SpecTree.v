(** What C10-C12 mean: values that represent finite trees of data. *)
From Verif Require Export SpecCall.
From Coq Require Export Permutation.
Local Open Scope string_scope.
Local Open Scope list_scope.
Local Open Scope Z_scope.

(** Trees.  [DRef] stands for values that are compared and copied by identity (functions, macros, built-ins,
    channels, processes, atomics, environments, ports). *)
Inductive datum :=
| DInt (z : Z)
| DBool (b : bool)
| DStr (t : string)
| DSym (t : string)
| DBytes (bs : list Z)
| DRef (v : val)
| DList (ds : list datum)
| DFrame (slots : list (string * datum)).

Definition opaque (v : val) : bool :=
  match v with
  | VFun _ | VMacro _ | VPrim _ | VChan _ | VProc _ | VAtomic _ | VEnv _ | VPort _ => true
  | _ => false
  end.

(** In state [s], [v] represents the tree [d].  Slots of a frame have no order. *)
Inductive rep (s : state) : val -> datum -> Prop :=
| rep_int z : rep s (VInt z) (DInt z)
| rep_bool b : rep s (VBool b) (DBool b)
| rep_sym t : rep s (VSym t) (DSym t)
| rep_str l t : s_strs s !! (l : loc) = Some t -> rep s (VStr l) (DStr t)
| rep_bytes l bs : s_bytes s !! (l : loc) = Some bs -> rep s (VBytes l) (DBytes bs)
| rep_ref v : opaque v = true -> rep s v (DRef v)
| rep_list v xs ds : is_list s v xs -> Forall2 (rep s) xs ds -> rep s v (DList ds)
| rep_frame l m m' ds :
    s_frames s !! (l : loc) = Some m -> NoDup (map fst m) -> Permutation m m' ->
    Forall2 (fun p q => fst p = fst q /\ rep s (snd p) (snd q)) m' ds -> rep s (VFrame l) (DFrame ds).

(** No frame anywhere in the tree. *)
Inductive frameless : datum -> Prop :=
| fl_int z : frameless (DInt z)
| fl_bool b : frameless (DBool b)
| fl_str t : frameless (DStr t)
| fl_sym t : frameless (DSym t)
| fl_bytes bs : frameless (DBytes bs)
| fl_ref v : frameless (DRef v)
| fl_list ds : Forall frameless ds -> frameless (DList ds).

(** The list cells, bytearrays and frames a value is made of. *)
Inductive part (s : state) : val -> loc -> Prop :=
| part_cell t l : part s (VCell t l) l
| part_bytes l : part s (VBytes l) l
| part_frame l : part s (VFrame l) l
| part_car t l a d k : s_cells s !! (l : loc) = Some (a, d) -> part s a k -> part s (VCell t l) k
| part_cdr t l a d k : s_cells s !! (l : loc) = Some (a, d) -> part s d k -> part s (VCell t l) k
| part_slot l m name x k : s_frames s !! (l : loc) = Some m -> In (name, x) m -> part s x k -> part s (VFrame l) k.

(** The two states have the same cell, bytearray and frame at [k]. *)
Definition same_at (s s2 : state) (k : loc) : Prop :=
  s_cells s2 !! k = s_cells s !! k /\ s_bytes s2 !! k = s_bytes s !! k /\ s_frames s2 !! k = s_frames s !! k.
