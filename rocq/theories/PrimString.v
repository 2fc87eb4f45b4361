(** Model of prim_string.go, prim_system.go, prim_io.go (format) and prim_debug.go. *)
From Verif Require Export Reader.
Local Open Scope string_scope.
Local Open Scope list_scope.
Local Open Scope Z_scope.

(** ** prim_string.go *)

(** The checks `if !StringP(x) { err = "... was given <x>." }`. *)
Definition need_string {A} (who : string) (v : val) (k : loc -> string -> prog (res A)) : prog (res A) :=
  match v with VStr l => s <- do_op (OStrGet l) ;; k l s | _ => fail_got who v end.

(** A string cut into the byte sequences of its runes (an invalid byte is a piece of its own). *)
Fixpoint rune_pieces_go (bs : list Z) (skip : nat) (cur : list Z) : list (list Z) :=
  match bs with
  | [] => match cur with [] => [] | _ => [rev cur] end
  | b :: r =>
      match skip with
      | S k => rune_pieces_go r k (b :: cur)
      | O =>
          let w := match decode_rune bs with Some (_, w) => w | None => 1%nat end in
          match cur with
          | [] => rune_pieces_go r (w - 1) [b]
          | _ => rev cur :: rune_pieces_go r (w - 1) [b]
          end
      end
  end.
Definition rune_pieces (s : string) : list string :=
  map string_of_bytes (rune_pieces_go (bytes_of_string s) 0 []).
(** strings.Split: with an empty separator, one piece per rune. *)
Definition str_split (s sep : string) : list string :=
  match sep with EmptyString => rune_pieces s | _ => split_go sep s 0 EmptyString end.

Fixpoint new_strs (l : list string) : prog (list val) :=
  match l with [] => Ret [] | s :: r => v <- new_str s ;; vs <- new_strs r ;; Ret (v :: vs) end.
(** prim_string.go:54 StringSplitImpl *)
Definition string_split_impl (args : list val) (env : loc) : prog (res val) :=
  need_string "trim requires a string but was given " (arg 0 args) (fun _ s =>
  need_string "string-split requires a string separater but was given " (arg 1 args) (fun _ sep =>
  vs <- new_strs (str_split s sep) ;; r <- array_to_list vs ;; ok r)).
(** prim_string.go:75 StringJoinImpl *)
Definition string_join_impl (args : list val) (env : loc) : prog (res val) :=
  if negb (listp (arg 0 args)) then
    fail_got "string-join requires a list of strings to be joined but was given " (arg 0 args)
  else
    n <- nilp (arg 1 args) ;;
    sep <-? (if n : bool then ok ""
             else need_string "string-join requires a string separater but was given " (arg 1 args)
                    (fun _ s => ok s)) ;;
    strs <-? for_cells (fun acc c =>
                x <- car c ;;
                match x with
                | VStr l => s <- do_op (OStrGet l) ;; Ret (inl (s :: acc))
                | _ => t <- call (RString x) ;;
                       Ret (inr (Err ("string-join requires a list of strings but " +++ t +++
                                      " was in the list.")))
                end)
              (fun acc => ok (rev acc)) (arg 0 args) [] ;;
    r <- new_str (str_join sep strs) ;; ok r.

(** strings.TrimLeft/TrimRight.  With an ASCII cut set this is bytewise; otherwise runes are removed
    whole (for invalid UTF-8 the model cuts the string from the front, Go's TrimRight from the back). *)
Fixpoint drop_pieces (cut l : list string) : list string :=
  match l with
  | [] => []
  | x :: r => if existsb (str_eqb x) cut then drop_pieces cut r else l
  end.
Fixpoint concat_strings (l : list string) : string :=
  match l with [] => "" | x :: r => x +++ concat_strings r end.
Definition cut_left (set s : string) : string :=
  if is_ascii set then trim_left set s
  else concat_strings (drop_pieces (rune_pieces set) (rune_pieces s)).
Definition cut_right (set s : string) : string :=
  if is_ascii set then trim_right set s
  else concat_strings (rev (drop_pieces (rune_pieces set) (rev (rune_pieces s)))).
Inductive trim_side := TrimL | TrimB | TrimR.
Definition default_trim_set : string := string_of_bytes [32; 9; 13; 10; 11; 12].
Definition str_trim (side : trim_side) (set s : string) : string :=
  match side with
  | TrimL => cut_left set s
  | TrimR => cut_right set s
  | TrimB => cut_right set (cut_left set s)
  end.
(** prim_string.go:105 doTrim *)
Definition trim_impl (side : trim_side) (args : list val) (env : loc) : prog (res val) :=
  need_string "string-trim requires a string but was given " (arg 0 args) (fun _ s =>
  set <-? (match args with
           | [_; x] => need_string "string-trim requires a string set of trim characters but was given " x
                         (fun _ t => ok t)
           | _ => ok default_trim_set
           end) ;;
  r <- new_str (str_trim side set s) ;; ok r).

(** strings.ToUpper / ToLower: ASCII bytewise; otherwise rune by rune with Go's case tables
    (a parameter of the state).  Invalid bytes become U+FFFD. *)
Definition rune_upper (u : uni_table) (c : rune) : rune :=
  if c <? 128 then (if (97 <=? c) && (c <=? 122) then c - 32 else c) else u_upper u c.
Definition rune_lower (u : uni_table) (c : rune) : rune :=
  if c <? 128 then (if (65 <=? c) && (c <=? 90) then c + 32 else c) else u_lower u c.
Definition str_upper (u : uni_table) (s : string) : string :=
  if is_ascii s then str_map ascii_upper s else string_of_runes (map (rune_upper u) (runes_of_string s)).
Definition str_lower (u : uni_table) (s : string) : string :=
  if is_ascii s then str_map ascii_lower s else string_of_runes (map (rune_lower u) (runes_of_string s)).
(** prim_string.go:185 capitalize: s[0:1] of an empty string panics (None). *)
Definition capitalize (u : uni_table) (s : string) : option string :=
  match s with
  | EmptyString => None
  | String c t => Some (str_upper u (String c EmptyString) +++ str_lower u t)
  end.
(** prim_string.go:149-183, 194-212: [bang] stores the result in the string itself. *)
Definition case_impl_of (name : string) (bang : bool) (f : uni_table -> string -> option string)
  (args : list val) (env : loc) : prog (res val) :=
  need_string (name +++ " requires a string but was given ") (arg 0 args) (fun l s =>
  u <- do_op OUni ;;
  match f u s with
  | None => Panic slice_panic
  | Some t => if bang then do_op (OStrSet l t) ;;; ok (arg 0 args) else r <- new_str t ;; ok r
  end).
(** prim_string.go:214 StringLengthImpl, 224 StringNullImpl *)
Definition string_length_impl (args : list val) (env : loc) : prog (res val) :=
  need_string "string-length requires a string but was given " (arg 0 args) (fun _ s => ok (VInt (str_len s))).
Definition string_null_impl (args : list val) (env : loc) : prog (res val) :=
  need_string "string-null? requires a string but was given " (arg 0 args)
    (fun _ s => lisp_bool (str_len s =? 0)).
(** prim_string.go:234 SubstringImpl *)
Definition substring_impl (args : list val) (env : loc) : prog (res val) :=
  need_string "substring requires a string but was given " (arg 0 args) (fun _ s =>
  match arg 1 args with
  | VInt i =>
      if str_len s <? i then fail "substring requires start < length of the string."
      else
        match arg 2 args with
        | VInt j =>
            if str_len s <? j then fail "substring requires end < length of the string."
            else if j <? i then fail "substring requires start <= end."
            else if i <? 0 then Panic slice_panic
            else r <- new_str (str_slice s i j) ;; ok r
        | v => fail_got "substring requires integer end but was given " v
        end
  | v => fail_got "substring requires integer start but was given " v
  end).
(** prim_string.go:272, 290, 308: the candidate part is the first argument. *)
Definition two_strings (who : string) (k : string -> string -> prog (res val)) (args : list val)
  : prog (res val) :=
  need_string who (arg 0 args) (fun _ a => need_string who (arg 1 args) (fun _ b => k a b)).
Definition part_test (who : string) (t : string -> string -> bool) (args : list val) (env : loc)
  : prog (res val) :=
  two_strings who (fun p s => lisp_bool (t p s)) args.
Definition substringp_impl :=
  part_test "substring? requires strings but was given " (fun p s => str_contains s p).
Definition string_prefix_impl := part_test "string-prefix? requires a string but was given " has_prefix.
Definition string_suffix_impl := part_test "string-suffix? requires a string but was given " has_suffix.
(** prim_string.go:326 stringProcessArgs and the comparisons of 353-431 *)
Definition str_leb (a b : string) : bool := negb (str_ltb b a).
Definition string_compare_impl (name : string) (ci : bool) (t : string -> string -> bool)
  (args : list val) (env : loc) : prog (res val) :=
  u <- do_op OUni ;;
  two_strings (name +++ " requires a string but was given ")
    (fun a b => lisp_bool (if ci then t (str_lower u a) (str_lower u b) else t a b)) args.

(** prim_string.go:21-52 *)
Definition string_prims : list prim :=
  [ func "string-split" "2" string_split_impl; func "string-join" "1|2" string_join_impl;
    func "string-trim" "1|2" (trim_impl TrimB); func "string-trim-left" "1|2" (trim_impl TrimL);
    func "string-trim-right" "1|2" (trim_impl TrimR);
    func "string-upcase" "1" (case_impl_of "string-upcase" false (fun u s => Some (str_upper u s)));
    func "string-upcase!" "1" (case_impl_of "string-upcase!" true (fun u s => Some (str_upper u s)));
    func "string-downcase" "1" (case_impl_of "string-downcase" false (fun u s => Some (str_lower u s)));
    func "string-downcase!" "1" (case_impl_of "string-downcase!" true (fun u s => Some (str_lower u s)));
    func "string-capitalize" "1" (case_impl_of "string-capitalize" false capitalize);
    func "string-capitalize!" "1" (case_impl_of "string-capitalize!" true capitalize);
    func "string-length" "1" string_length_impl; func "string-null?" "1" string_null_impl;
    func "substring" "3" substring_impl; func "substring?" "2" substringp_impl;
    func "string-prefix?" "2" string_prefix_impl; func "string-suffix?" "2" string_suffix_impl;
    func "string=?" "2" (string_compare_impl "string=?" false str_eqb);
    func "string-ci=?" "2" (string_compare_impl "string-ci=?" true str_eqb);
    func "string<?" "2" (string_compare_impl "string<?" false str_ltb);
    func "string-ci<?" "2" (string_compare_impl "string-ci<?" true str_ltb);
    func "string>?" "2" (string_compare_impl "string>?" false (fun a b => str_ltb b a));
    func "string-ci>?" "2" (string_compare_impl "string-ci>?" true (fun a b => str_ltb b a));
    func "string<=?" "2" (string_compare_impl "string<=?" false str_leb);
    func "string-ci<=?" "2" (string_compare_impl "string-ci<=?" true str_leb);
    func "string>=?" "2" (string_compare_impl "string>=?" false (fun a b => str_leb b a));
    func "string-ci>=?" "2" (string_compare_impl "string-ci>=?" true (fun a b => str_leb b a));
    func "parse" "1" parse_impl ].

(** ** prim_system.go *)

(** Operations outside the model (the terminal debugger, subprocesses): they are recorded, and the
    oracle chooses between an error and the nil result. *)
Definition external (name : string) (args : list val) (env : loc) : prog (res val) :=
  do_op (OEvent (EExt name)) ;;; z <- do_op OChoose ;;
  if Z.odd z then fail ("external error in " +++ name) else ok VNil.
(** What a file contains is not modelled: the oracle supplies an arbitrary text. *)
Fixpoint oracle_bytes (n : nat) : prog string :=
  match n with
  | O => Ret ""
  | S k => z <- do_op OChoose ;; t <- oracle_bytes k ;; Ret (String (ascii_of_byte z) t)
  end.
Definition oracle_text : prog string := n <- do_op OChoose ;; oracle_bytes (Z.to_nat n).
Fixpoint oracle_texts (n : nat) : prog (list val) :=
  match n with
  | O => Ret []
  | S k => s <- oracle_text ;; v <- new_str s ;; r <- oracle_texts k ;; Ret (v :: r)
  end.

(** prim_system.go:124 SleepImpl (time does not pass in the model) *)
Definition sleep_impl (args : list val) (env : loc) : prog (res val) :=
  match arg 0 args with VInt _ => ok VNil | v => fail_recv "Number expected, received " v end.
(** prim_system.go:135 MillisImpl: the clock is the oracle. *)
Definition millis_impl (args : list val) (env : loc) : prog (res val) :=
  z <- do_op OChoose ;; ok (VInt (wrap64 z)).
(** prim_system.go:140 concatStringForms *)
Fixpoint concat_forms (l : list val) : prog string :=
  match l with
  | [] => Ret ""
  | x :: r => s <- print_string x ;; t <- concat_forms r ;; Ret (s +++ t)
  end.
Definition concat_string_forms (args : list val) : prog string :=
  match args with [] => Ret "()" | _ => concat_forms args end.
(** prim_system.go:151 WriteLineImpl, 156 WriteLogImpl, 161 MakeStringImpl.  The event [EOut] stands for the console: it does
    not tell standard output from standard error, where write-line (Go's built-in println) writes, nor from the loggers
    write-log also serves. *)
Definition nl : string := string_of_bytes [10].
Definition write_line_impl (args : list val) (env : loc) : prog (res val) :=
  s <- concat_string_forms args ;; do_op (OEvent (EOut (s +++ nl))) ;;; ok VNil.
Definition write_log_impl (args : list val) (env : loc) : prog (res val) :=
  s <- concat_string_forms args ;; do_op (OEvent (EOut (s +++ string_of_bytes [13; 10]))) ;;; ok VNil.
Definition str_impl (args : list val) (env : loc) : prog (res val) :=
  s <- concat_string_forms args ;; r <- new_str s ;; ok r.
(** prim_system.go:181 InternImpl.  Interned symbols are symbols (see Intern.v for the table). *)
Definition intern_impl (args : list val) (env : loc) : prog (res val) :=
  need_string "intern expects a string, but received " (arg 0 args) (fun _ s => ok (VSym s)).
(** prim_system.go:114 QuitImpl, not run interactively *)
Definition quit_impl (args : list val) (env : loc) : prog (res val) := ok VNil.
(** prim_system.go:191 gensymHelper, 217 GensymImpl, 226 GensymNakedImpl *)
Definition gensym_name (prefix : string) (n : Z) : string := prefix +++ "-" +++ string_of_Z n.
Definition gensym_impl (name : string) (naked : bool) (args : list val) (env : loc) : prog (res val) :=
  match args with
  | _ :: _ :: _ =>
      fail (name +++ " expects 0 or 1 argument, but received " +++ string_of_Z (Z.of_nat (length args)) +++ ".")
  | _ =>
      prefix <-? (match args with
                  | [] => ok "GENSYM"
                  | v :: _ => if stringp v || symbolp v then s <- string_value v ;; ok s
                              else fail_got (name +++ " expects a string or symbol, but recieved ") v
                  end) ;;
      n <- do_op (OGensym prefix) ;;
      ok (VSym (gensym_name prefix n +++ (if naked then ":" else "")))
  end.
(** prim_system.go:235 EvalImpl *)
Definition eval_impl (args : list val) (env : loc) : prog (res val) :=
  match args with
  | [x; e] =>
      match e with
      | VEnv l => eval x l
      | _ => fail_got "eval expects an environment as it's second argument, but recieved " e
      end
  | _ => eval (arg 0 args) env
  end.
(** prim_system.go:250 GlobalEvalImpl *)
Definition global_eval_impl (args : list val) (env : loc) : prog (res val) :=
  g <- do_op OGlobal ;; eval (arg 0 args) g.
(** prim_system.go:73 PanicImpl, 77 ErrorImpl *)
Definition panic_impl (args : list val) (env : loc) : prog (res val) :=
  s <- call (RString (arg 0 args)) ;; Panic s.
Definition error_impl (args : list val) (env : loc) : prog (res val) :=
  s <- call (RString (arg 0 args)) ;; fail s.
(** prim_system.go:81 OnErrorImpl *)
Definition on_error_impl (args : list val) (env : loc) : prog (res val) :=
  r <- eval (arg 0 args) env ;;
  match r with
  | Ok v =>
      match args with
      | [_; _; h] =>
          f <-? eval h env ;;
          match f with
          | VFun fl => fun_apply fl VNil env None true
          | _ => fail "on-error requires a function as it's third argument"
          end
      | _ => ok v
      end
  | Err m =>
      f <-? eval (arg 1 args) env ;;
      match f with
      | VFun fl => s <- new_str m ;; l <- array_to_list [s] ;; fun_apply fl l env None true
      | _ => fail "on-error requires a function as it's second argument"
      end
  end.
(** prim_system.go:165 TimeImpl: the elapsed time is the oracle's. *)
Definition time_impl (args : list val) (env : loc) : prog (res val) :=
  _ <-? eval (arg 0 args) env ;; z <- do_op OChoose ;; ok (VInt (wrap64 z)).
(** prim_system.go:254 ProfileImpl (the profile itself is not modelled) *)
Definition profile_impl (args : list val) (env : loc) : prog (res val) :=
  do_op (OEvent (EExt "profile")) ;;; eval (arg 0 args) env.
(** prim_system.go:47 LoadFileImpl, parser.go:323, 335 ProcessFile: an arbitrary text, or a file error. *)
Definition load_impl (args : list val) (env : loc) : prog (res val) :=
  match arg 0 args with
  | VStr _ =>
      _ <-? external "load" args env ;;
      s <- oracle_text ;; g <- do_op OGlobal ;; parse_and_eval_all s g
  | _ => fail "Filename must be a string"
  end.

(** prim_system.go:23-45 *)
Definition system_prims : list prim :=
  [ func "sleep" "1" sleep_impl; func "millis" "0" millis_impl; func "write-line" "*" write_line_impl;
    func "write-log" "*" write_log_impl; func "str" "*" str_impl; func "intern" "1" intern_impl;
    func "quit" "0" quit_impl; func "gensym" "0|1" (gensym_impl "gensym" false);
    func "gensym-naked" "0|1" (gensym_impl "gensym-naked" true); func "eval" "1|2" eval_impl;
    rfunc "load" "1" load_impl; rfunc "global-eval" "1" global_eval_impl;
    rfunc "panic!" "1" panic_impl; func "error" "1" error_impl;
    special "on-error" "2|3" on_error_impl; special "time" "1" time_impl;
    special "profile" "1|2" profile_impl; rfunc "exec" ">=1" (external "exec") ].

(** ** prim_io.go *)

(** os.File.WriteString, Write: the operating system (the oracle) may refuse; how much of the text got out then is not
    modelled, only that the attempt was made. *)
Definition port_write (who : string) (p : loc) (text : string) : prog (res val) :=
  z <- do_op OChoose ;;
  if Z.odd z then do_op (OEvent (EExt who)) ;;; fail ("external error in " +++ who) else do_op (OEvent (EWritten p text)) ;;; ok VNil.
(** prim_io.go:98, 121, 139: without a port the text goes to standard output. *)
Definition write_to (who : string) (port : option val) (text : prog string) : prog (res val) :=
  match port with
  | None => s <- text ;; do_op (OEvent (EOut s)) ;;; ok VNil
  | Some (VPort p) => s <- text ;; port_write who p s
  | Some _ => fail (who +++ " expects its argument be a port")
  end.
Definition write_string_impl (args : list val) (env : loc) : prog (res val) :=
  match arg 0 args with
  | VStr l => write_to "write-string" (nth_error args 1) (do_op (OStrGet l))
  | _ => fail "write-string expects its first argument to be a string"
  end.
Definition write_impl (args : list val) (env : loc) : prog (res val) :=
  write_to "write" (nth_error args 1) (call (RString (arg 0 args))).
Definition newline_impl (args : list val) (env : loc) : prog (res val) :=
  write_to "newline" (nth_error args 0) (Ret nl).
(** prim_io.go:175 EofObjectImpl (parser.go:18 EofObject) *)
Definition eof_object_impl (args : list val) (env : loc) : prog (res val) :=
  e <- call (REqual (arg 0 args) (VSym "__EOF__")) ;; lisp_bool e.
(** prim_io.go:36 OpenOutputFileImpl, 55 OpenInputFileImpl: a new port, or an error.  The address of a port holds the name of
    its file. *)
Definition open_impl (name msg : string) (input : bool) (args : list val) (env : loc) : prog (res val) :=
  match arg 0 args with
  | VStr f =>
      (* lines 43-46: a second argument that counts as true asks for appending *)
      appending <- (match args with [_; a] => boolean_value a | _ => Ret false end) ;;
      _ <-? external name args env ;; t <- do_op (OStrGet f) ;; l <- do_op (OStrNew t) ;;
      do_op (OEvent (EOpened l t (if input then Reading else if appending then Appending else Replacing))) ;;; ok (VPort l)
  | _ => fail msg
  end.
(** prim_io.go:69 ClosePortImpl (the error of Close is dropped), 81 WriteBytesImpl *)
Definition close_port_impl (args : list val) (env : loc) : prog (res val) :=
  match arg 0 args with
  | VPort p => do_op (OEvent (EClosed p)) ;;; ok VNil
  | _ => fail "close-port expects its argument be a port"
  end.
Definition write_bytes_impl (args : list val) (env : loc) : prog (res val) :=
  match arg 0 args, arg 1 args with
  | VBytes l, VPort p => bs <- do_op (OBytesGet l) ;; port_write "write-bytes" p (string_of_bytes bs)
  | VBytes _, _ => fail "write expects its second argument be a port"
  | _, _ => fail "write expects its first argument to be a bytearray"
  end.
(** tokenizer.go:68 NewTokenizerFromFile: the tokenizer of the last read, if that was of this port, otherwise a new one on
    the text that the port delivers: the text and how many expressions have been read from it.  Simplification: the whole
    text is taken at once (Go takes it in pieces of 4096 bytes), so a file that grows while it is being read is not seen to. *)
Definition port_reader (p : loc) : prog (string * nat) :=
  k <- do_op (OReader p) ;;
  match k with
  | Some (t, n) => do_op (OEvent (EMore p)) ;;; Ret (t, n)
  | None => t <- oracle_text ;; do_op (OEvent (EGot p t)) ;;; Ret (t, 0%nat)
  end.
(** What the next read gives after [n] reads (parser.go:199 parseExpression, which goes on where the last one stopped). *)
Fixpoint parse_after (n : nat) (ts : list token) : presult :=
  match n with O => fst (parse_tokens ts) | S m => parse_after m (snd (parse_tokens ts)) end.
(** prim_io.go:157 ReadImpl, parser.go:382: the next expression; at end of file the EOF symbol. *)
Definition read_impl (args : list val) (env : loc) : prog (res val) :=
  match arg 0 args with
  | VPort p =>
      r <- port_reader p ;; u <- do_op OUni ;;
      match parse_after (snd r) (tokenize u (fst r)) with
      | PErr m => fail m
      | PEof => ok (VSym "__EOF__")
      | PSexp x => v <- alloc_sexp x ;; ok v
      end
  | _ => fail "read expects its argument be a port"
  end.
(** prim_io.go:179 ListDirectoryImpl: an arbitrary list of names, or an error. *)
Definition list_directory_impl (args : list val) (env : loc) : prog (res val) :=
  _ <-? external "list-directory" args env ;;
  n <- do_op OChoose ;; vs <- oracle_texts (Z.to_nat n) ;; r <- array_to_list vs ;; ok r.

(** prim_io.go:199 FormatImpl.  The control string is read from left to right; [pos] is the index i.
    Go's `controlString[i]` past the end is an index panic. *)
Definition byte_space (b : Z) : bool := ((9 <=? b) && (b <=? 13)) || (b =? 32) || (b =? 133) || (b =? 160).
Fixpoint span_bytes (f : Z -> bool) (s : string) : string * string :=
  match s with
  | EmptyString => (EmptyString, EmptyString)
  | String c t => if f (byte_of c) then let '(a, b) := span_bytes f t in (String c a, b) else (EmptyString, s)
  end.
Definition digit_byte (b : Z) : bool := (48 <=? b) && (b <=? 57).
(** lines 258-263, 277-281: pad to the left when '@' was given. *)
Definition pad_to (n : Z) (at_mod : bool) (s : string) : string :=
  let p := str_repeat " " (Z.to_nat (n - str_len s)) in if at_mod then p +++ s else s +++ p.
Inductive fmt_result := FmtDone (parts : string) (rest : list val) | FmtErr (m : string) | FmtPanic.
(** lines 229-249: the numeric argument: digits, '#', 'v' or nothing.  Answer: the number, the rest of
    the control string and the remaining arguments. *)
Definition format_number (s : string) (pos : Z) (args : list val)
  : prog (res (option (Z * string * Z * list val))) :=
  let '(ds, rest) := span_bytes digit_byte s in
  match ds, rest with
  | _, EmptyString => Ret (Ok None)
  | EmptyString, String c t =>
      if byte_of c =? 35 then Ret (Ok (Some (Z.of_nat (length args), t, pos + 1, args)))
      else if (byte_of c =? 86) || (byte_of c =? 118) then
        match args with
        | VInt n :: r => Ret (Ok (Some (n, t, pos + 1, r)))
        | _ => Ret (Err ("format encountered a size argument mismatch at index " +++ string_of_Z pos))
        end
      else Ret (Ok (Some (0, rest, pos, args)))
  | _, _ =>
      match scan_int ds with
      | Some n => Ret (Ok (Some (n, rest, pos + str_len ds, args)))
      | None => Ret (Err "value out of range")
      end
  end.
(** [at_mod] is never reset (line 251).  [fuel] bounds the directives: one per byte is enough. *)
Fixpoint format_go (fuel : nat) (s : string) (pos : Z) (args : list val) (at_mod : bool) (acc : string)
  : prog (res (string * list val)) :=
  match fuel with
  | O => fail "out of fuel"
  | S fuel' =>
      match s with
      | EmptyString => ok (acc, args)
      | String c t =>
          if negb (byte_of c =? 126) then format_go fuel' t (pos + 1) args at_mod (acc +++ String c EmptyString)
          else
            r <-? format_number t (pos + 1) args ;;
            match r with
            | None => Panic index_panic
            | Some (n, rest, p, args) =>
                let '(at_mod, rest, p) :=
                  match rest with
                  | String "@" t' => (true, t', p + 1)
                  | _ => (at_mod, rest, p)
                  end in
                match rest with
                | EmptyString => Panic index_panic
                | String d t' =>
                    let b := byte_of d in
                    if (b =? 65) || (b =? 97) || (b =? 83) || (b =? 115) then
                      sub <- (if (b =? 65) || (b =? 97) then print_string (arg 0 args)
                              else call (RString (arg 0 args))) ;;
                      format_go fuel' t' (p + 1) (tl args) at_mod (acc +++ pad_to n at_mod sub)
                    else if b =? 37 then
                      format_go fuel' t' (p + 1) args at_mod (acc +++ str_repeat nl (Z.to_nat (Z.max 1 n)))
                    else if b =? 126 then
                      format_go fuel' t' (p + 1) args at_mod (acc +++ str_repeat "~" (Z.to_nat (Z.max 1 n)))
                    else if b =? 10 then
                      let '(sp, t'') := span_bytes byte_space rest in
                      format_go fuel' t'' (p + str_len sp) args at_mod (acc +++ (if at_mod then nl else ""))
                    else fail ("format encountered an unsupported substitution at index " +++ string_of_Z p)
                end
            end
      end
  end.
Fixpoint nat_len (s : string) : nat := match s with EmptyString => O | String _ t => S (nat_len t) end.
Definition format_impl (args : list val) (env : loc) : prog (res val) :=
  if negb (booleanp (arg 0 args)) && negb (portp (arg 0 args)) then
    fail_recv "format expects its second argument be a boolean or port, but was " (arg 0 args)
  else
    match arg 1 args with
    | VStr l =>
        s <- do_op (OStrGet l) ;;
        r <-? format_go (S (nat_len s)) s 0 (skipn 2 args) false "" ;;
        let '(text, extra) := r in
        match extra with
        | _ :: _ => fail "number of replacements in the control string and number of arguments must be equal"
        | [] =>
            match arg 0 args with
            | VBool false => v <- new_str text ;; ok v
            | VBool true => do_op (OEvent (EOut text)) ;;; ok VNil
            | VPort p => port_write "format" p text
            | _ => ok VNil
            end
        end
    | _ => fail "format expects its second argument be a string"
    end.

(** prim_io.go:19-34 *)
Definition io_prims : list prim :=
  [ rfunc "open-input-file" "1"
      (open_impl "open-input-file" "open-input-port expects its argument to be a string" true);
    rfunc "open-output-file" "1|2"
      (open_impl "open-output-file" "open-output-port expects its argument to be a string" false);
    rfunc "close-port" "1" close_port_impl; rfunc "write-bytes" "2" write_bytes_impl;
    func "write-string" "1|2" write_string_impl; func "newline" "0|1" newline_impl;
    func "write" "1|2" write_impl; func "read" "1" read_impl;
    func "eof-object?" "1" eof_object_impl; func "list-directory" "1|2" list_directory_impl;
    func "format" ">=2" format_impl ].

(** ** prim_debug.go:19-29 *)
Definition debug_prims : list prim :=
  map (fun '(n, a) => func n a (external n))
    [ ("debug-trace", "0|1"); ("lisp-trace", "0|1"); ("debug-on-entry", "0");
      ("remove-debug-on-entry", "1"); ("dump", "0") ]
  ++ map (fun '(n, a) => rfunc n a (external n))
    [ ("debug", "0"); ("debug-on-error", "0|1"); ("add-debug-on-entry", "1") ].
