(** What C32-C35 and C50 mean: strings, bytearrays, association lists and type predicates. *)
From Verif Require Export SpecTree SpecEval.
Local Open Scope string_scope.
Local Open Scope list_scope.
Local Open Scope Z_scope.

(** ** C50 *)
(** The kinds of values a program can tell apart.  A dotted pair made by alist or acons has a kind of its own. *)
Inductive kind :=
  KNil | KList | KAlist | KAlistPair | KInteger | KFloat | KBoolean | KString | KSymbol | KFunction | KMacro | KFrame
| KEnvironment | KBytearray | KPort | KObject.
Definition kind_of (v : val) : kind :=
  match v with
  | VNil => KNil
  | VNoCell | VCell TCons _ => KList
  | VCell TAlist _ => KAlist
  | VCell TAlistCell _ => KAlistPair
  | VInt _ => KInteger | VFloat _ => KFloat | VBool _ => KBoolean | VStr _ => KString | VSym _ => KSymbol
  | VFun _ | VPrim _ => KFunction | VMacro _ => KMacro | VFrame _ => KFrame | VEnv _ => KEnvironment
  | VBytes _ => KBytearray | VPort _ => KPort
  | VChan _ | VProc _ | VAtomic _ => KObject
  end.
(** The predicates that are meant to be exclusive, and the kind of each. *)
Definition kind_predicates : list (string * kind) :=
  [ ("integer?", KInteger); ("float?", KFloat); ("boolean?", KBoolean); ("string?", KString); ("symbol?", KSymbol);
    ("function?", KFunction); ("macro?", KMacro); ("frame?", KFrame); ("environment?", KEnvironment);
    ("bytearray?", KBytearray); ("port?", KPort) ].
(** The others: each covers several kinds. *)
Definition group_predicates : list (string * list kind) :=
  [ ("number?", [KInteger; KFloat]); ("atom?", [KInteger; KFloat; KSymbol; KString; KBoolean]);
    ("list?", [KNil; KList]); ("pair?", [KNil; KList]); ("alist?", [KNil; KAlist]) ].
Definition type_predicates : list (string * list kind) := map (fun x => (fst x, [snd x])) kind_predicates ++ group_predicates.
(** The call answers a boolean, and nothing else happens. *)
Definition decides (name : string) (vs : list val) (env : loc) (s : state) (b : bool) : Prop :=
  forall o s', applies name vs env s o s' <-> o = Done (Ok (VBool b)) /\ s' = entering name env s.

(** ** Strings (C33, C34).  Strings are sequences of bytes. *)
(** The value [v] is a string object with the text [t]. *)
Definition is_str (s : state) (v : val) (t : string) : Prop := exists l : loc, v = VStr l /\ s_strs s !! l = Some t.
(** The text made of [ts] with [sep] in between. *)
Fixpoint joined (sep : string) (ts : list string) : string :=
  match ts with
  | [] => ""
  | t :: r => match r with [] => t | _ => t +++ sep +++ joined sep r end
  end.
Definition occurs (p t : string) : Prop := exists a b, t = a +++ p +++ b.
(** Cutting [t] at each occurrence of [sep], from the left. *)
Inductive cut (sep : string) : string -> list string -> Prop :=
| cut_end t : ~ occurs sep t -> cut sep t [t]
| cut_first a b ps : (forall a' b', a +++ sep +++ b = a' +++ sep +++ b' -> str_len a <= str_len a') ->
    cut sep b ps -> cut sep (a +++ sep +++ b) (a :: ps).
(** The order of texts: byte by byte, a beginning comes first. *)
Inductive before : string -> string -> Prop :=
| before_end c t : before "" (String c t)
| before_byte c d t u : (N_of_ascii c < N_of_ascii d)%N -> before (String c t) (String d u)
| before_rest c t u : before t u -> before (String c t) (String c u).
(** The comparisons. *)
Definition string_orders : list (string * (string -> string -> Prop)) :=
  [ ("string=?", fun t u => t = u); ("string<?", before); ("string>?", fun t u => before u t);
    ("string<=?", fun t u => before t u \/ t = u); ("string>=?", fun t u => before u t \/ t = u) ].
(** The ones that ignore case, and what they compare once both texts are in lower case. *)
Definition ci_orders : list (string * string * (string -> string -> Prop)) :=
  [ ("string=?", "string-ci=?", fun t u => t = u); ("string<?", "string-ci<?", before); ("string>?", "string-ci>?", fun t u => before u t);
    ("string<=?", "string-ci<=?", fun t u => before t u \/ t = u); ("string>=?", "string-ci>=?", fun t u => before u t \/ t = u) ].

(** ** C32: bytearrays *)
Definition is_byte (z : Z) : Prop := 0 <= z <= 255.
(** What an element of a list contributes to a bytearray: a byte, or the contents of another bytearray. *)
Inductive byte_item (s : state) : val -> list Z -> Prop :=
| item_byte z : is_byte z -> byte_item s (VInt z) [z]
| item_bytes (l : loc) bs : s_bytes s !! l = Some bs -> byte_item s (VBytes l) bs.
(** The value is not a dangling bytearray. *)
Definition known_bytes (s : state) (v : val) : Prop := match v with VBytes l => s_bytes s !! l <> None | _ => True end.
Definition bytearray_makers : list string := ["list->bytearray"; "list-to-bytearray"].
(** [v] is a new bytearray in [s'], compared to [s]. *)
Definition new_bytes (s s' : state) (v : val) (bs : list Z) : Prop :=
  exists l : loc, v = VBytes l /\ s_bytes s !! l = None /\ s_bytes s' !! l = Some bs.
(** [bs] with [b] at position [i]. *)
Definition byte_replaced (bs : list Z) (i : Z) (b : Z) (bs' : list Z) : Prop :=
  exists pre x post, bs = pre ++ x :: post /\ Z.of_nat (length pre) = i /\ bs' = pre ++ b :: post.
(** What append-bytes adds: one non-empty list, or the arguments themselves. *)
Inductive added_bytes (s : state) : list val -> list Z -> Prop :=
| added_list v xs bss : is_list s v xs -> xs <> [] -> Forall2 (byte_item s) xs bss -> added_bytes s [v] (List.concat bss)
| added_args vs bss : vs <> [] -> Forall2 (byte_item s) vs bss -> added_bytes s vs (List.concat bss).

(** ** C35: association lists *)
(** Keys that are not lists or frames. *)
Definition atomic (d : datum) : Prop := match d with DList _ | DFrame _ => False | _ => True end.
(** An entry: the pair that holds it, its key, its value. *)
Record entry := Entry { e_pair : loc; e_key : datum; e_val : val }.
(** [v] is an association list with these entries: a list, or what acons and alist build, of pairs. *)
Inductive is_alist (s : state) : val -> list entry -> Prop :=
| al_end v : is_list s v [] -> is_alist s v []
| al_entry t l tp p k d x rest es :
    t = TCons \/ t = TAlist -> tp = TCons \/ tp = TAlistCell -> s_cells s !! (l : loc) = Some (VCell tp p, rest) ->
    s_cells s !! (p : loc) = Some (k, x) -> rep s k d -> atomic d -> is_alist s rest es ->
    is_alist s (VCell t l) (Entry p d x :: es).
(** The entry a key leads to: the first one that has it. *)
Definition leads (es : list entry) (d : datum) (e : entry) : Prop :=
  exists pre post, es = pre ++ e :: post /\ e_key e = d /\ ~ In d (map e_key pre).
Definition lookups : list string := ["assq"; "assv"; "assoc"].
(** [s] with another content in the cell [l]. *)
Definition put_cell (s : state) (l : loc) (x : val * val) : state := set_cells (<[l := x]> (s_cells s)) s.
(** The map an association list stands for. *)
Definition maps (es : list entry) (d : datum) (x : val) : Prop := exists e, leads es d e /\ e_val e = x.
(** The value [d] has last in a sequence of keys and values. *)
Definition last_value (kvs : list (datum * val)) (d : datum) (x : val) : Prop :=
  exists pre post, kvs = pre ++ (d, x) :: post /\ ~ In d (map fst post).
