(** What C13-C15 mean: reading and printing. *)
From Verif Require Export SpecTree SpecData.
From Verif Require Export Reader.
Local Open Scope string_scope.
Local Open Scope list_scope.
Local Open Scope Z_scope.

(** ** C15: numbers as they are written *)
Definition digit_table : list (ascii * Z) :=
  [("0", 0); ("1", 1); ("2", 2); ("3", 3); ("4", 4); ("5", 5); ("6", 6); ("7", 7); ("8", 8); ("9", 9);
   ("a", 10); ("b", 11); ("c", 12); ("d", 13); ("e", 14); ("f", 15);
   ("A", 10); ("B", 11); ("C", 12); ("D", 13); ("E", 14); ("F", 15)]%char.
(** The digits [t], of any length, denote [n] in the base. *)
Inductive written (base : Z) : string -> Z -> Prop :=
| written_one c d : In (c, d) digit_table -> d < base -> written base (String c "") d
| written_more t n c d : written base t n -> In (c, d) digit_table -> d < base -> written base (t +++ String c "") (n * base + d).
Inductive literal : string -> Z -> Prop :=
| lit_decimal t n : written 10 t n -> literal t n
| lit_negative t n : written 10 t n -> literal ("-" +++ t) (- n)
| lit_hex t n : written 16 t n -> literal ("#x" +++ t) n
| lit_hex0 t n : written 16 t n -> literal ("0x" +++ t) n
| lit_binary t n : written 2 t n -> literal ("#b" +++ t) n.
(** What can follow an atom: nothing, or a blank, a parenthesis, a bracket, a brace, a quote or a comment. *)
Definition stopper (c : ascii) : Prop := In c [" "; "("; ")"; "["; "]"; "{"; "}"; "'"; ";"; ","; "`"; """"; "010"; "013"; "009"]%char.
Definition stops (rest : string) : Prop := match rest with "" => True | String c _ => stopper c end.
Definition int64 (z : Z) : Prop := - 2 ^ 63 <= z < 2 ^ 63.

(** ** C14: what is left of the input *)
Definition opens (k : token) : Z := match k with KLparen => 1 | _ => 0 end.
Definition closes (k : token) : Z := match k with KRparen => 1 | _ => 0 end.
Definition total (f : token -> Z) (ts : list token) : Z := fold_right (fun k n => f k + n) 0 ts.
(** Tokens after which something has to come. *)
Definition dangling (k : token) : Prop := In k [KQuote; KBackquote; KComma; KCommaAt; KPeriod].

(** ** C13: trees of data that have a text *)
(** A character that UTF-8 can carry. *)
Definition scalar (c : rune) : Prop := 0 <= c < 55296 \/ 57344 <= c <= 1114111.
Inductive tree :=
| XInt (z : Z)
| XBool (b : bool)
| XStr (t : string)
| XSym (t : string)
| XBytes (bs : list Z)
| XList (ds : list tree)              (* a proper list *)
| XDot (ds : list tree) (y : tree).   (* a list that ends in [y] *)

(** In state [s], [v] is the tree. *)
Inductive holds (s : state) : val -> tree -> Prop :=
| holds_int z : holds s (VInt z) (XInt z)
| holds_bool b : holds s (VBool b) (XBool b)
| holds_str l t : s_strs s !! (l : loc) = Some t -> holds s (VStr l) (XStr t)
| holds_sym t : holds s (VSym t) (XSym t)
| holds_bytes l bs : s_bytes s !! (l : loc) = Some bs -> holds s (VBytes l) (XBytes bs)
| holds_list v xs ds : is_list s v xs -> Forall2 (holds s) xs ds -> holds s v (XList ds)
| holds_dot l a d x y : s_cells s !! (l : loc) = Some (a, d) -> holds s a x -> holds s d y -> holds s (VCell TCons l) (XDot [x] y)
| holds_dots l a d x xs y :
    s_cells s !! (l : loc) = Some (a, d) -> holds s a x -> holds s d (XDot xs y) -> holds s (VCell TCons l) (XDot (x :: xs) y).

(** Text in UTF-8 made of the characters [rs]. *)
Definition text_of (t : string) (rs : list rune) : Prop := t = string_of_runes rs /\ Forall scalar rs.
(** A symbol as it can be written: characters that are graphic, not blank and none of the delimiters, not the single
    point, and not starting like a number ([u] is the Unicode table). *)
Definition symbol_text (u : uni_table) (t : string) : Prop :=
  exists c rs, text_of t (c :: rs) /\ Forall (fun c => symbol_char u c = true) (c :: rs) /\ t <> "." /\
    rune_number u c = false /\ (c = 45 -> match rs with d :: _ => rune_number u d = false | [] => True end).
Definition atomic (d : tree) : Prop := match d with XList _ | XDot _ _ => False | _ => True end.
(** Trees the text of which can be read: integers are int64, strings are UTF-8 without backslash (character 92),
    bytes are bytes, a proper list that starts with the symbol quote has exactly two elements. *)
Inductive readable (u : uni_table) : tree -> Prop :=
| rd_int z : int64 z -> readable u (XInt z)
| rd_bool b : readable u (XBool b)
| rd_str t rs : text_of t rs -> ~ In 92 rs -> readable u (XStr t)
| rd_sym t : symbol_text u t -> readable u (XSym t)
| rd_bytes bs : Forall (fun b => 0 <= b < 256) bs -> readable u (XBytes bs)
| rd_list ds : Forall (readable u) ds -> (forall r, ds = XSym "quote" :: r -> length r = 1%nat) -> readable u (XList ds)
| rd_dot ds y : ds <> [] -> Forall (readable u) ds -> atomic y -> readable u y -> readable u (XDot ds y).

(** No dotted list in it. *)
Inductive undotted : tree -> Prop :=
| ud_int z : undotted (XInt z)
| ud_bool b : undotted (XBool b)
| ud_str t : undotted (XStr t)
| ud_sym t : undotted (XSym t)
| ud_bytes bs : undotted (XBytes bs)
| ud_list ds : Forall undotted ds -> undotted (XList ds).

(** [t] is what String gives for [v]; printing changes nothing. *)
Definition prints (v : val) (s : state) (t : string) : Prop := runs denote (call (RString v)) s (Done t) s.
