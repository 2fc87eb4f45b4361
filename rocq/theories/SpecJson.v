(** What C43 means: JSON documents, their texts, and the Lisp values that stand for them. *)
From Verif Require Export SpecRead.
Local Open Scope string_scope.
Local Open Scope list_scope.
Local Open Scope Z_scope.

(** A JSON value made of integers, booleans, strings, arrays and objects. *)
Inductive doc :=
| DInt (z : Z)
| DBool (b : bool)
| DStr (t : string)
| DArr (ds : list doc)
| DObj (ms : list (string * doc)).

(** [e] is [d] or a part of it. *)
Inductive within (e : doc) : doc -> Prop :=
| within_self : within e e
| within_arr d ds : In d ds -> within e d -> within e (DArr ds)
| within_obj k d ms : In (k, d) ms -> within e d -> within e (DObj ms).
Definition everywhere (P : doc -> Prop) (d : doc) : Prop := forall e, within e d -> P e.

(** The same document, up to the order of the members of objects. *)
Inductive alike : doc -> doc -> Prop :=
| alike_int z : alike (DInt z) (DInt z)
| alike_bool b : alike (DBool b) (DBool b)
| alike_str t : alike (DStr t) (DStr t)
| alike_arr ds es : Forall2 alike ds es -> alike (DArr ds) (DArr es)
| alike_obj ms ns ns' : Forall2 (fun m n => fst m = fst n /\ alike (snd m) (snd n)) ms ns' -> Permutation ns' ns ->
    alike (DObj ms) (DObj ns).

(** In state [s], the Lisp value [v] stands for the document: arrays are lists (an empty one is not the nil pointer),
    objects are frames with one slot "name:" per member. *)
Inductive depicts (s : state) : val -> doc -> Prop :=
| dp_int z : depicts s (VInt z) (DInt z)
| dp_bool b : depicts s (VBool b) (DBool b)
| dp_str l t : s_strs s !! (l : loc) = Some t -> depicts s (VStr l) (DStr t)
| dp_arr v vs ds : v <> VNil -> is_list s v vs -> Forall2 (depicts s) vs ds -> depicts s v (DArr ds)
| dp_obj l slots ms ms' : s_frames s !! (l : loc) = Some slots -> Permutation ms' ms ->
    Forall2 (fun kv m => fst kv = fst m +++ ":" /\ depicts s (snd kv) (snd m)) slots ms' ->
    depicts s (VFrame l) (DObj ms).

(** ** Texts of documents (RFC 8259) *)
Inductive space : string -> Prop :=
| space_none : space ""
| space_more c t : In c [" "; "009"; "010"; "013"]%char -> space t -> space (String c t).
(** An integer: no leading zero, possibly a minus sign. *)
Inductive integer_text : string -> Z -> Prop :=
| it_plain t n : written 10 t n -> (forall r, t = String "0" r -> r = "") -> integer_text t n
| it_minus t n : written 10 t n -> (forall r, t = String "0" r -> r = "") -> integer_text ("-" +++ t) (- n).
(** The letter after a backslash, and the character it stands for. *)
Definition escapes : list (ascii * Z) :=
  [("""", 34); ("\", 92); ("/", 47); ("b", 8); ("f", 12); ("n", 10); ("r", 13); ("t", 9)]%char.
(** [body] is a way to write the characters [rs] between quotes. *)
Inductive spelled : list rune -> string -> Prop :=
| spelled_end : spelled [] ""
| spelled_plain c rs t : scalar c -> 32 <= c -> c <> 34 -> c <> 92 -> spelled rs t -> spelled (c :: rs) (string_of_runes [c] +++ t)
| spelled_escape e c rs t : In (e, c) escapes -> spelled rs t -> spelled (c :: rs) ("\" +++ String e t)
| spelled_code h c rs t : written 16 h c -> str_len h = 4 -> scalar c -> spelled rs t -> spelled (c :: rs) ("\u" +++ h +++ t)
| spelled_pair h1 h2 u v rs t :
    written 16 h1 u -> str_len h1 = 4 -> 55296 <= u < 56320 -> written 16 h2 v -> str_len h2 = 4 -> 56320 <= v < 57344 ->
    spelled rs t -> spelled (65536 + (u - 55296) * 1024 + (v - 56320) :: rs) ("\u" +++ h1 +++ "\u" +++ h2 +++ t).
Definition string_text (t : string) (q : string) : Prop :=
  exists rs body, text_of t rs /\ spelled rs body /\ q = """" +++ body +++ """".
(** [t] says [d]. *)
Inductive says : doc -> string -> Prop :=
| says_bool (b : bool) : says (DBool b) (if b then "true" else "false")
| says_int z t : integer_text t z -> says (DInt z) t
| says_str t q : string_text t q -> says (DStr t) q
| says_arr_empty w : space w -> says (DArr []) ("[" +++ w +++ "]")
| says_arr ds ts : ds <> [] ->
    Forall2 (fun d t => exists a u b, space a /\ says d u /\ space b /\ t = a +++ u +++ b) ds ts ->
    says (DArr ds) ("[" +++ joined "," ts +++ "]")
| says_obj_empty w : space w -> says (DObj []) ("{" +++ w +++ "}")
| says_obj ms ms' ts : ms <> [] -> Permutation ms' ms -> NoDup (map fst ms) ->
    Forall2 (fun m t => exists a q b c u e, space a /\ string_text (fst m) q /\ space b /\ space c /\ says (snd m) u /\ space e /\
      t = a +++ q +++ b +++ ":" +++ c +++ u +++ e) ms' ts ->
    says (DObj ms) ("{" +++ joined "," ts +++ "}").
(** A whole text. *)
Definition json_text (d : doc) (t : string) : Prop := exists a u b, space a /\ says d u /\ space b /\ t = a +++ u +++ b.

(** ** The documents that survive *)
(** Numbers are read as float64: integers up to 2^53. *)
Definition small_numbers : doc -> Prop := everywhere (fun d => match d with DInt z => - 2 ^ 53 <= z <= 2 ^ 53 | _ => True end).
(** Strings are UTF-8, names are UTF-8 and distinct. *)
Definition utf8 (t : string) : Prop := exists rs, text_of t rs.
Definition proper : doc -> Prop := everywhere (fun d =>
  match d with DStr t => utf8 t | DObj ms => NoDup (map fst ms) /\ Forall utf8 (map fst ms) | _ => True end).
(** No name ends in a colon. *)
Definition plain_names : doc -> Prop := everywhere (fun d =>
  match d with DObj ms => Forall (fun k => forall p, k <> p +++ ":") (map fst ms) | _ => True end).
