(** Model of tokenizer.go and parser.go.

    The reader is pure: text is decoded to runes (bufrr.Reader.ReadRune), the runes to tokens, the
    tokens to an s-expression [sexp]; [alloc_sexp] then builds the data structure in the heap.
    Simplification: Go interleaves these steps (the token after next is read only when needed, cells
    are allocated while parsing); nothing can observe the difference. *)
From Verif Require Export PrimFrame.
Local Open Scope string_scope.
Local Open Scope list_scope.
Local Open Scope Z_scope.

(** ** Character classes.  ASCII is spelt out; the rest is the state's Unicode table. *)
Definition rune_space (u : uni_table) (c : rune) : bool :=
  if c <? 128 then ((9 <=? c) && (c <=? 13)) || (c =? 32) else u_space u c.
Definition rune_graphic (u : uni_table) (c : rune) : bool :=
  if c <? 128 then (32 <=? c) && (c <=? 126) else u_graphic u c.
Definition rune_number (u : uni_table) (c : rune) : bool :=
  if c <? 128 then (48 <=? c) && (c <=? 57) else u_number u c.
(** The characters ( ) ; double-quote ' ` | [ ] { } # , *)
Definition delimiter (c : rune) : bool :=
  existsb (Z.eqb c) [40; 41; 59; 34; 39; 96; 124; 91; 93; 123; 125; 35; 44].
(** tokenizer.go:99 isSymbolCharacter *)
Definition symbol_char (u : uni_table) (c : rune) : bool :=
  rune_graphic u c && negb (rune_space u c) && negb (delimiter c).
(** tokenizer.go:112, 123 *)
Definition hex_char (c : rune) : bool :=
  ((48 <=? c) && (c <=? 57)) || ((97 <=? c) && (c <=? 102)) || ((65 <=? c) && (c <=? 70)).
Definition binary_char (c : rune) : bool := (c =? 48) || (c =? 49).

(** ** Tokens (tokenizer.go:19-42).  End of input is the end of the token list. *)
Inductive token :=
| KIllegal (lit : string) | KSymbol (lit : string) | KNumber (lit : string) | KHex (lit : string)
| KBinary (lit : string) | KFloat (lit : string) | KString (lit : string)
| KQuote | KBackquote | KComma | KCommaAt | KLparen | KRparen | KLbracket | KRbracket
| KLbrace | KRbrace | KPeriod | KTrue | KFalse.

(** tokenizer.go:103, 132, 147: the longest run of characters of a class. *)
Fixpoint span_runes (f : rune -> bool) (l : list rune) : list rune * list rune :=
  match l with
  | [] => ([], [])
  | c :: t => if f c then let '(a, b) := span_runes f t in (c :: a, b) else ([], l)
  end.
(** tokenizer.go:162 readNumber (after a leading '-'): digits with at most one point. *)
Fixpoint number_runes (u : uni_table) (l : list rune) (saw : bool) : list rune * bool * list rune :=
  match l with
  | [] => ([], saw, [])
  | c :: t =>
      if (c =? 46) && negb saw then let '(a, f, r) := number_runes u t true in (c :: a, f, r)
      else if rune_number u c then let '(a, f, r) := number_runes u t saw in (c :: a, f, r)
      else ([], saw, l)
  end.
Definition read_number (u : uni_table) (l : list rune) : token * list rune :=
  let '(sign, rest) := match l with 45 :: t => ([45], t) | _ => ([], l) end in
  let '(ds, fl, r) := number_runes u rest false in
  let lit := string_of_runes (sign ++ ds) in
  (if fl then KFloat lit else KNumber lit, r).
(** tokenizer.go:195 readString, after the opening quote; None = end of input inside the string. *)
Fixpoint string_runes (l : list rune) : option (list rune * list rune) :=
  match l with
  | [] => None
  | 34 :: t => Some ([], t)
  | 92 :: c :: t =>
      match string_runes t with
      | Some (a, r) => Some ((if c =? 110 then 10 else c) :: a, r)
      | None => None
      end
  | [92] => None
  | c :: t => match string_runes t with Some (a, r) => Some (c :: a, r) | None => None end
  end.

(** Blanks and comments before a token: tokenizer.go:231-236, 301-311 and the retry in 318-323.
    [cm] = inside a comment, which runs to the end of the line. *)
Fixpoint skip_blank (u : uni_table) (cm : bool) (l : list rune) : list rune :=
  match l with
  | [] => []
  | c :: t =>
      if cm then (if c =? 10 then skip_blank u false t else skip_blank u true t)
      else if rune_space u c then skip_blank u false t
      else if c =? 59 then skip_blank u true t
      else l
  end.

(** tokenizer.go:227 readNextToken, from a character that is neither blank nor ';'.
    None = end of input (only inside an unterminated string). *)
Definition read_token (u : uni_table) (c : rune) (t : list rune) : option (token * list rune) :=
  let next := match t with d :: _ => d | [] => 0 end in
  if (c =? 48) && (next =? 120) then
    let '(a, r) := span_runes hex_char (tl t) in Some (KHex (string_of_runes a), r)
  else if rune_number u c then Some (read_number u (c :: t))
  else if (c =? 45) && rune_number u next then Some (read_number u (c :: t))
  else if c =? 34 then
    match string_runes t with Some (a, r) => Some (KString (string_of_runes a), r) | None => None end
  else if c =? 39 then Some (KQuote, t)
  else if c =? 96 then Some (KBackquote, t)
  else if (c =? 44) && (next =? 64) then Some (KCommaAt, tl t)
  else if c =? 44 then Some (KComma, t)
  else if c =? 40 then Some (KLparen, t)
  else if c =? 41 then Some (KRparen, t)
  else if c =? 91 then Some (KLbracket, t)
  else if c =? 93 then Some (KRbracket, t)
  else if c =? 123 then Some (KLbrace, t)
  else if c =? 125 then Some (KRbrace, t)
  else if (c =? 46) && (next =? 32) then Some (KPeriod, t)
  else if symbol_char u c then
    let '(a, r) := span_runes (symbol_char u) (c :: t) in Some (KSymbol (string_of_runes a), r)
  else if c =? 35 then
    match t with
    | 116 :: r => Some (KTrue, r)
    | 102 :: r => Some (KFalse, r)
    | 120 :: r => let '(a, r') := span_runes hex_char r in Some (KHex (string_of_runes a), r')
    | 98 :: r => let '(a, r') := span_runes binary_char r in Some (KBinary (string_of_runes a), r')
    | _ => Some (KIllegal ("#" +++ string_of_runes [match tl t with d :: _ => d | [] => 0 end]), t)
    end
  else Some (KIllegal (string_of_Z next), t).

(** All tokens of the input.  Every token takes at least one character, so the input's length is
    enough fuel. *)
Fixpoint tokens_go (fuel : nat) (u : uni_table) (l : list rune) : list token :=
  match fuel with
  | O => []
  | S f =>
      match skip_blank u false l with
      | [] => []
      | c :: t =>
          match read_token u c t with
          | Some (k, r) => k :: tokens_go f u r
          | None => []
          end
      end
  end.
Definition tokenize (u : uni_table) (src : string) : list token :=
  let rs := runes_of_string src in tokens_go (length rs) u rs.

(** ** Expressions *)
Inductive sexp :=
| SEnd                         (* the nil pointer that ends a list *)
| SNil                         (* EmptyCons *)
| SCell (a d : sexp)
| SInt (z : Z)
| SFloat (f : f32)
| SStr (s : string)
| SSym (s : string)
| SBool (b : bool)
| SBytes (l : list Z)
| SFrame.                      (* an empty frame *)

Fixpoint slist_tail (l : list sexp) (tl : sexp) : sexp :=
  match l with [] => tl | x :: r => SCell x (slist_tail r tl) end.
(** util.go:10 ArrayToList *)
Definition slist (l : list sexp) : sexp := match l with [] => SNil | _ => slist_tail l SEnd end.

Inductive presult := PSexp (x : sexp) | PEof | PErr (msg : string).

(** parser.go:20-58: fmt.Sscanf with %d, %b, %x and %f. *)
Definition make_integer (base : Z) (lit : string) : presult :=
  match sscanf_int base lit with Ok z => PSexp (SInt z) | Err m => PErr m end.
(** fmt's floatToken on the literals the tokenizer makes: an optional sign, then ASCII digits with at
    most one point; it stops at the first other character. *)
Fixpoint float_token (s : string) (saw : bool) : string :=
  match s with
  | EmptyString => EmptyString
  | String c t =>
      let b := byte_of c in
      if (48 <=? b) && (b <=? 57) then String c (float_token t saw)
      else if (b =? 46) && negb saw then String c (float_token t true)
      else EmptyString
  end.
Definition make_float (lit : string) : presult :=
  let tok := match lit with
             | String "-" t => String "-" (float_token t false)
             | _ => float_token lit false
             end in
  match parse_f32 tok with Some f => PSexp (SFloat f) | None => PErr "bad float literal" end.

Definition s_int (x : sexp) : option Z := match x with SInt z => Some z | _ => None end.
Fixpoint all_ints (l : list sexp) : option (list Z) :=
  match l with
  | [] => Some []
  | SInt z :: r => match all_ints r with Some zs => Some (z mod 256 :: zs) | None => None end
  | _ => None
  end.
(** parser.go:148-155.  Simplification: the element is not printed in the message. *)
Definition byte_element (x : sexp) : option string :=
  match x with
  | SInt z => if 255 <? z then Some "Numeric literals in a bytearray must be bytes." else None
  | SSym _ | SNil | SCell _ _ | SEnd => None
  | _ => Some "Bytearray elements must be numbers, symbols, or lists (function calls)."
  end.
(** parser.go:161-165 *)
Definition bytearray_sexp (cells : list sexp) : sexp :=
  match all_ints cells with
  | Some bs => SBytes bs
  | None => slist [SSym "list->bytearray"; SCell (SSym "list") (slist cells)]
  end.

(** parser.go:256-259 and the like. *)
Definition wrap_quote (name : string) (p : presult * list token) : presult * list token :=
  match p with
  | (PSexp x, r) => (PSexp (SCell (SSym name) (SCell x SEnd)), r)
  | q => q
  end.

(** parser.go:91-94, 141-144, 182-185: the end of the text inside an element is reported as the end of the text inside this
    list, bytearray or frame ([mine]); other errors of an element are passed on. *)
Definition eof_message (mine theirs : string) : string :=
  if prefix "Unexpected EOF" theirs then mine else theirs.

(** parser.go:70 parseConsCell, 128 parseBytearray, 169 parseFrame, 199 parseExpression.
    The fuel decreases at every call; [parse_fuel] is always enough (ProofRead.v). *)
Fixpoint parse_expr (fuel : nat) (ts : list token) {struct fuel} : presult * list token :=
  match fuel with
  | O => (PErr "out of fuel", ts)
  | S f =>
      match ts with
      | [] => (PEof, [])
      | k :: r =>
          match k with
          | KNumber lit => (make_integer 10 lit, r)
          | KHex lit => (make_integer 16 lit, r)
          | KBinary lit => (make_integer 2 lit, r)
          | KFloat lit => (make_float lit, r)
          | KString lit => (PSexp (SStr lit), r)
          | KLparen => parse_cons f r []
          | KLbracket =>
              match r with
              | KRbracket :: r' => (PSexp (SBytes []), r')
              | _ => parse_bytes f r []
              end
          | KLbrace =>
              match r with
              | KRbracket :: r' => (PSexp SFrame, r')
              | _ => parse_frame f r []
              end
          | KSymbol lit => (PSexp (SSym lit), r)
          | KFalse => (PSexp (SBool false), r)
          | KTrue => (PSexp (SBool true), r)
          | KQuote => wrap_quote "quote" (parse_expr f r)
          | KBackquote => wrap_quote "quasiquote" (parse_expr f r)
          | KComma => wrap_quote "unquote" (parse_expr f r)
          | KCommaAt => wrap_quote "unquote-splicing" (parse_expr f r)
          | KIllegal lit => (PErr ("Illegal character: " +++ lit), ts)
          | KRparen => (PSexp (SSym ")"), r)
          | KRbracket => (PSexp (SSym "]"), r)
          | KRbrace => (PSexp (SSym "}"), r)
          | KPeriod => (PSexp (SSym "."), r)
          end
      end
  end
with parse_cons (fuel : nat) (ts : list token) (cells : list sexp) {struct fuel} : presult * list token :=
  match fuel with
  | O => (PErr "out of fuel", ts)
  | S f =>
      match ts with
      | KRparen :: r => (PSexp (slist (rev cells)), r)
      | KPeriod :: r =>
          match parse_expr f r with
          | (PSexp d, KRparen :: r') => (PSexp (slist_tail (rev cells) d), r')
          | (PSexp _, r') => (PErr "Expected ')'", r')
          | q => q
          end
      | _ =>
          match parse_expr f ts with
          | (PSexp x, r) => parse_cons f r (x :: cells)
          | (PEof, r) => (PErr "Unexpected EOF (expected closing parenthesis)", r)
          | (PErr m, r) => (PErr (eof_message "Unexpected EOF (expected closing parenthesis)" m), r)
          end
      end
  end
with parse_bytes (fuel : nat) (ts : list token) (cells : list sexp) {struct fuel} : presult * list token :=
  match fuel with
  | O => (PErr "out of fuel", ts)
  | S f =>
      match ts with
      | KRbracket :: r => (PSexp (bytearray_sexp (rev cells)), r)
      | _ =>
          match parse_expr f ts with
          | (PSexp x, r) =>
              match byte_element x with
              | Some m => (PErr m, r)
              | None => parse_bytes f r (x :: cells)
              end
          | (PEof, r) => (PErr "Unexpected EOF (expected closing bracket)", r)
          | (PErr m, r) => (PErr (eof_message "Unexpected EOF (expected closing bracket)" m), r)
          end
      end
  end
with parse_frame (fuel : nat) (ts : list token) (cells : list sexp) {struct fuel} : presult * list token :=
  match fuel with
  | O => (PErr "out of fuel", ts)
  | S f =>
      match ts with
      | KRbrace :: r => (PSexp (SCell (SSym "make-frame") (slist (rev cells))), r)
      | _ =>
          match parse_expr f ts with
          | (PSexp x, r) => parse_frame f r (x :: cells)
          | (PEof, r) => (PErr "Unexpected EOF (expected closing brace)", r)
          | (PErr m, r) => (PErr (eof_message "Unexpected EOF (expected closing brace)" m), r)
          end
      end
  end.

Definition parse_fuel (ts : list token) : nat := 2 * length ts + 2.
Definition parse_tokens (ts : list token) : presult * list token := parse_expr (parse_fuel ts) ts.
(** parser.go:293 Parse *)
Definition parse (u : uni_table) (src : string) : presult := fst (parse_tokens (tokenize u src)).
(** parser.go:299 ParseAll: the expressions read, and the error that stopped it if any. *)
Fixpoint parse_all_go (fuel : nat) (ts : list token) (acc : list sexp) : list sexp * option string :=
  match fuel with
  | O => (rev acc, Some "out of fuel")
  | S f =>
      match parse_tokens ts with
      | (PSexp x, r) => parse_all_go f r (x :: acc)
      | (PEof, _) => (rev acc, None)
      | (PErr m, _) => (rev acc, Some m)
      end
  end.
Definition parse_all (u : uni_table) (src : string) : list sexp * option string :=
  let ts := tokenize u src in parse_all_go (S (length ts)) ts [].

(** Building the expression in the heap. *)
Fixpoint alloc_sexp (x : sexp) : prog val :=
  match x with
  | SEnd => Ret VNil
  | SNil => empty_cons
  | SCell a d => v <- alloc_sexp a ;; w <- alloc_sexp d ;; cons v w
  | SInt z => Ret (VInt z)
  | SFloat f => Ret (VFloat f)
  | SStr s => new_str s
  | SSym s => Ret (VSym s)
  | SBool b => Ret (VBool b)
  | SBytes l => b <- do_op (OBytesNew l) ;; Ret (VBytes b)
  | SFrame => f <- do_op (OFrameNew []) ;; Ret (VFrame f)
  end.

(** prim_string.go:433 ParseImpl.  At end of input the expression is nil and there is no error. *)
Definition parse_impl (args : list val) (env : loc) : prog (res val) :=
  match arg 0 args with
  | VStr l =>
      s <- do_op (OStrGet l) ;; u <- do_op OUni ;;
      match parse u s with
      | PSexp x => v <- alloc_sexp x ;; ok v
      | PEof => ok VNil
      | PErr m => fail m
      end
  | v => fail_recv "parse requires its argument to be a string but it was " v
  end.

(** parser.go:344 ParseAndEvalAllInEnvironment: stops silently at an expression that is nil. *)
Definition eval_all_tokens (env : loc) (ts : list token) : prog (res val) :=
  loop (fun st : list token * val =>
          let '(ts, last) := st in
          match parse_tokens ts with
          | (PErr m, _) => Ret (inr (Err m))
          | (PEof, _) => Ret (inr (Ok last))
          | (PSexp x, r) =>
              v <- alloc_sexp x ;; n <- nilp v ;;
              if n : bool then Ret (inr (Ok last))
              else
                e <- eval v env ;;
                match e with Ok w => Ret (inl (r, w)) | Err m => Ret (inr (Err m)) end
          end) (ts, VNil).
Definition parse_and_eval_all (src : string) (env : loc) : prog (res val) :=
  u <- do_op OUni ;; eval_all_tokens env (tokenize u src).
(** parser.go:366 ParseAndEvalInEnvironment *)
Definition parse_and_eval (src : string) (env : loc) : prog (res val) :=
  u <- do_op OUni ;;
  match parse u src with
  | PErr m => fail m
  | PEof => ok VNil
  | PSexp x => v <- alloc_sexp x ;; n <- nilp v ;; if n : bool then ok VNil else eval v env
  end.
