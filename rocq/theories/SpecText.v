(** What C63 means: the text of a program. *)
From Verif Require Export SpecRead SpecEval.
Local Open Scope string_scope.
Local Open Scope list_scope.
Local Open Scope Z_scope.

(** ** How expressions are written *)
Definition blank (c : ascii) : Prop := In c [" "; "010"; "013"; "009"]%char.
(** What may stand between expressions: blanks, and comments from a semicolon to the end of the line. *)
Inductive gap : string -> Prop :=
| gap_none : gap ""
| gap_blank c g : blank c -> gap g -> gap (String c g)
| gap_comment body rs g : text_of body rs -> ~ In 10 rs -> gap g -> gap (";" +++ body +++ String "010" g).
(** What stands between the double quotes (character 34) of a string, and the characters of that string.  A backslash
    (character 92) makes the next character plain, except that \n is a line feed. *)
Inductive inside : string -> list rune -> Prop :=
| in_none : inside "" []
| in_char c t rs : scalar c -> c <> 34 -> c <> 92 -> inside t rs -> inside (string_of_runes [c] +++ t) (c :: rs)
| in_newline t rs : inside t rs -> inside ("\n" +++ t) (10 :: rs)
| in_escape c t rs : scalar c -> c <> 110 -> inside t rs -> inside ("\" +++ string_of_runes [c] +++ t) (c :: rs).
Definition prefixes : list (string * string) := [("'", "quote"); ("`", "quasiquote"); (",@", "unquote-splicing")].
(** [spells u d t]: the text [t] is a way to write the tree [d] ([u] is the Unicode table).
    [items u ds t]: the text [t] is those trees one after the other, with gaps. *)
Inductive spells (u : uni_table) : tree -> string -> Prop :=
| sp_int t z : literal t z -> int64 z -> spells u (XInt z) t
| sp_bool (b : bool) : spells u (XBool b) (if b then "#t" else "#f")
| sp_str t rs : inside t rs -> spells u (XStr (string_of_runes rs)) ("""" +++ t +++ """")
| sp_sym t : symbol_text u t -> spells u (XSym t) t
| sp_prefix p name g d t : In (p, name) prefixes -> gap g -> spells u d t -> spells u (XList [XSym name; d]) (p +++ g +++ t)
| sp_comma g d t : gap g -> spells u d t -> (forall r, g +++ t <> "@" +++ r) -> spells u (XList [XSym "unquote"; d]) ("," +++ g +++ t)
| sp_list ds t : items u ds t -> spells u (XList ds) ("(" +++ t +++ ")")
| sp_dot ds t c d r : ds <> [] -> items u ds t -> blank c -> items u [d] r -> spells u (XDot ds d) ("(" +++ t +++ String c (". " +++ r +++ ")"))
| sp_bytes bs t : Forall (fun b => 0 <= b < 256) bs -> items u (map XInt bs) t -> spells u (XBytes bs) ("[" +++ t +++ "]")
| sp_frame ds t : items u ds t -> spells u (XList (XSym "make-frame" :: ds)) ("{" +++ t +++ "}")
with items (u : uni_table) : list tree -> string -> Prop :=
| items_none g : gap g -> items u [] g
| items_more g d t ds r : gap g -> spells u d t -> items u ds r -> stops r -> items u (d :: ds) (g +++ t +++ r).
(** A program: expressions, and perhaps a comment that is not ended by a line feed. *)
Definition program (u : uni_table) (ds : list tree) (src : string) : Prop :=
  exists t last, items u ds t /\ src = t +++ last /\
    (last = "" \/ exists body rs, text_of body rs /\ ~ In 10 rs /\ last = ";" +++ body).
(** A program that breaks off inside a list. *)
Definition broken_off (u : uni_table) (ds : list tree) (src : string) : Prop :=
  exists t es r, items u ds t /\ items u es r /\ src = t +++ "(" +++ r.

(** ** What running a program does *)
(** Something that puts an expression into memory. *)
Definition planting : Type := state -> val * state.
(** It puts the tree [d] into fresh memory and does nothing else. *)
Definition plants (d : tree) (put : planting) : Prop := forall s, wf_state s ->
  grows s (snd (put s)) /\ wf_state (snd (put s)) /\ holds (snd (put s)) (fst (put s)) d.
(** The expressions are put into memory and evaluated in turn, each after the one before is done.  An error or a crash
    ends it.  The empty list ends it too, with the value of the expression before.  [finish] is what happens after the
    last one. *)
Fixpoint in_turn (env : loc) (finish : val -> state -> behaviour) (es : list (tree * planting)) (last : val) (s : state) : behaviour :=
  match es with
  | [] => finish last s
  | (XList [], put) :: _ => gives last (snd (put s))
  | (_, put) :: r => after (evals (fst (put s)) env (snd (put s))) (in_turn env finish r)
  end.
(** ParseAndEvalAll and ParseAndEval on a text. *)
Definition run_text (src : string) (env : loc) (s : state) : behaviour := runs denote (parse_and_eval_all src env) s.
Definition run_first (src : string) (env : loc) (s : state) : behaviour := runs denote (parse_and_eval src env) s.
(** The outside world answers the next load with a file that contains [src]; afterwards it answers as [r]. *)
Definition next_file (src : string) (r : list Z) (s : state) : Prop :=
  s_oracle s = 0 :: Z.of_nat (String.length src) :: bytes_of_string src ++ r.
(** The state in which that file is run: it has been recorded that load was called, and the world was asked. *)
Definition loading (env : loc) (r : list Z) (s : state) : state := set_oracle r (set_log (EExt "load" :: EPrim "load" env :: s_log s) s).
