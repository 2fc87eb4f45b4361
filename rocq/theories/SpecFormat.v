(** What C44 means: the control string of format. *)
From Verif Require Export SpecRead.
Local Open Scope string_scope.
Local Open Scope list_scope.
Local Open Scope Z_scope.

(** What stands between the tilde and the letter: a width, which is a number, "#" for the count of arguments that are
    left, "v" for the next argument, or nothing; then possibly an "@". *)
Inductive width := WNone | WNumber (n : Z) | WCount | WArgument.
Inductive width_text : width -> string -> Prop :=
| wt_none : width_text WNone ""
| wt_number t n : written 10 t n -> width_text (WNumber n) t
| wt_count : width_text WCount "#"
| wt_argument t : In t ["v"; "V"] -> width_text WArgument t.
Definition decimal_digits : list ascii := ["0"; "1"; "2"; "3"; "4"; "5"; "6"; "7"; "8"; "9"]%char.
(** The text does not go on like the width. *)
Definition width_over (w : width) (t : string) : Prop :=
  match t with
  | "" => True
  | String c _ =>
      match w with
      | WNone => ~ In c (decimal_digits ++ ["#"; "v"; "V"]%char)
      | WNumber _ => ~ In c decimal_digits
      | WCount | WArgument => True
      end
  end.
Definition starts_with (t : string) (c : ascii) : Prop := exists r, t = String c r.
Inductive directive : string -> width -> bool -> string -> Prop :=
| directive_at w wt t : width_text w wt -> directive (wt +++ "@" +++ t) w true t
| directive_plain w wt t : width_text w wt -> width_over w t -> ~ starts_with t "@" -> directive (wt +++ t) w false t.
(** The number a width stands for, and the arguments that are left. *)
Inductive width_value : width -> list val -> Z -> list val -> Prop :=
| wv_none args : width_value WNone args 0 args
| wv_number n args : int64 n -> width_value (WNumber n) args n args
| wv_count args : width_value WCount args (Z.of_nat (length args)) args
| wv_argument n args : width_value WArgument (VInt n :: args) n args.
(** A width without a value: too large a number, or the argument is not an integer. *)
Inductive width_bad : width -> list val -> Prop :=
| wb_number n args : ~ int64 n -> width_bad (WNumber n) args
| wb_argument args : (forall n r, args <> VInt n :: r) -> width_bad WArgument args.

(** The control string is over right after the digits (which then are not looked at). *)
Definition cut_short (w : width) (b : bool) (t : string) : Prop := t = "" /\ b = false /\ exists n, w = WNumber n.

(** The letters. *)
Inductive letter := Display | Written | Newline | Tilde | Continue.
Definition letters : list (ascii * letter) :=
  [("a", Display); ("A", Display); ("s", Written); ("S", Written); ("%", Newline); ("~", Tilde); ("010", Continue)]%char.
(** ~a shows a string as it is, ~s as it is written in a program; everything else is the same for both. *)
Definition shown (k : letter) (v : val) (s : state) (t : string) : Prop :=
  match k, v with
  | Display, VStr l => s_strs s !! (l : loc) = Some t
  | _, _ => prints v s t
  end.
(** [c] repeated. *)
Inductive copies (c : ascii) : Z -> string -> Prop :=
| copies_none n : n <= 0 -> copies c n ""
| copies_more n t : 0 < n -> copies c (n - 1) t -> copies c n (String c t).
(** The text in [n] columns: blanks are added after it, or before it. *)
Definition in_columns (n : Z) (before : bool) (t r : string) : Prop :=
  exists p, copies " " (n - str_len t) p /\ r = if before then p +++ t else t +++ p.
(** Blank bytes: tab to carriage return, space, and the two of Latin-1. *)
Definition blank (c : ascii) : Prop :=
  In c [" "; "009"; "010"; "011"; "012"; "013"; "133"; "160"]%char.
Inductive blanks : string -> Prop :=
| blanks_none : blanks ""
| blanks_more c t : blank c -> blanks t -> blanks (String c t).

(** What comes out of a control string. *)
Inductive verdict := Text (t : string) (left_over : list val) | Refused | Crashed.
Definition preceded (t : string) (v : verdict) : verdict :=
  match v with Text u r => Text (t +++ u) r | _ => v end.
(** [formatted s at c args v]: the control string [c] with arguments [args]; [at] tells whether an "@" was seen before.
    A missing argument counts as (). *)
Inductive formatted (s : state) : bool -> string -> list val -> verdict -> Prop :=
| fm_end a args : formatted s a "" args (Text "" args)
| fm_copied a c t args v : c <> "~"%char -> formatted s a t args v ->
    formatted s a (String c t) args (preceded (String c "") v)
| fm_shown (a : bool) d w (b : bool) c k t args n args' u r v :
    directive d w b (String c t) -> width_value w args n args' ->
    In (c, k) letters -> k = Display \/ k = Written -> shown k (hd VNil args') s u -> in_columns n (a || b) u r ->
    formatted s (a || b) t (tl args') v -> formatted s a (String "~" d) args (preceded r v)
| fm_repeated (a : bool) d w (b : bool) c k x t args n args' r v :
    directive d w b (String c t) -> width_value w args n args' ->
    In (c, k) letters -> (k = Newline /\ x = "010"%char) \/ (k = Tilde /\ x = "~"%char) -> copies x (Z.max 1 n) r ->
    formatted s (a || b) t args' v -> formatted s a (String "~" d) args (preceded r v)
| fm_continued (a : bool) d w (b : bool) c sp t args n args' v :
    directive d w b (String c (sp +++ t)) -> width_value w args n args' ->
    In (c, Continue) letters -> blanks sp -> (forall x r, t = String x r -> ~ blank x) ->
    formatted s (a || b) t args' v -> formatted s a (String "~" d) args (preceded (if (a || b)%bool then nl else "") v)
(* errors *)
| fm_width a d w b t args : directive d w b t -> width_bad w args -> ~ cut_short w b t ->
    formatted s a (String "~" d) args Refused
| fm_unknown a d w b c t args n args' : directive d w b (String c t) -> width_value w args n args' ->
    (forall k, ~ In (c, k) letters) -> formatted s a (String "~" d) args Refused
(* the control string is over in the middle *)
| fm_cut a d w b args : directive d w b "" -> ~ width_bad w args \/ cut_short w b "" ->
    formatted s a (String "~" d) args Crashed.

(** The outside world (the operating system) will refuse the next request. *)
Definition refusing (s : state) : Prop := exists z r, s_oracle s = z :: r /\ Z.odd z = true.
(** [t] is written to the port [p], once, and nothing else happens; or the world refuses, which is an error. *)
Definition sent (who : string) (p : loc) (t : string) (s : state) (o : outcome (res val)) (s' : state) : Prop :=
  (~ refusing s /\ o = Done (Ok VNil) /\ s' = set_oracle (tl (s_oracle s)) (set_log (EWritten p t :: s_log s) s)) \/
  (refusing s /\ (exists m, o = Done (Err m)) /\ s' = set_oracle (tl (s_oracle s)) (set_log (EExt who :: s_log s) s)).
(** What the call does: the text is the answer (#f), or printed (#t), or written to the port; leftover arguments are an error. *)
Definition results (dest : val) (v : verdict) (s : state) (o : outcome (res val)) (s' : state) : Prop :=
  match v with
  | Text t rest =>
      match rest with
      | [] =>
          match dest with
          | VBool false => exists w, o = Done (Ok w) /\ is_str s' w t /\ grows s s'
          | VBool true => o = Done (Ok VNil) /\ s' = set_log (EOut t :: s_log s) s
          | VPort p => sent "format" p t s o s'
          | _ => False
          end
      | _ => (exists m, o = Done (Err m)) /\ s' = s
      end
  | Refused => (exists m, o = Done (Err m)) /\ s' = s
  | Crashed => (exists m, o = Panicked m) /\ s' = s
  end.
Definition destination (v : val) : Prop := (exists b, v = VBool b) \/ (exists l, v = VPort l).
(** A value that can be shown. *)
Definition printable (s : state) (v : val) : Prop := forall k, k = Display \/ k = Written -> exists t, shown k v s t.
(** The same control string used to show one argument after the other: [ts] is the text between the arguments. *)
Fixpoint interleaved (ts us : list string) : string :=
  match ts, us with
  | t :: ts', u :: us' => t +++ u +++ interleaved ts' us'
  | t :: _, [] => t
  | [], _ => ""
  end.
Definition no_tilde (t : string) : Prop := ~ occurs "~" t.
