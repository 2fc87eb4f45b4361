(** * C61: output and the text of values.  Statements only; see SpecOut.v for the vocabulary. *)
From Verif Require Import SpecOut ProofOut ProofData ProofList ProofWf.
From Coq Require Import Sorting.Sorted.
From Verif Require Import Data.
Local Open Scope string_scope.
Local Open Scope list_scope.
Local Open Scope Z_scope.

(** write-line and write-log write the display forms of the arguments, one after the other, and an end of line: once,
    and nothing else happens. *)
Theorem C61_write_line : forall vs t env s, run_together vs (entering "write-line" env s) t ->
  applies "write-line" vs env s (Done (Ok VNil)) (wrote (t +++ string_of_bytes [10]) (entering "write-line" env s)).
Proof. exact write_line_run. Qed.
Theorem C61_write_log : forall vs t env s, run_together vs (entering "write-log" env s) t ->
  applies "write-log" vs env s (Done (Ok VNil)) (wrote (t +++ string_of_bytes [13; 10]) (entering "write-log" env s)).
Proof. exact write_log_run. Qed.
(** str gives the same text as a new string and writes nothing. *)
Theorem C61_str : forall vs t env s, wf_state s -> run_together vs (entering "str" env s) t ->
  exists l s', applies "str" vs env s (Done (Ok (VStr l))) s' /\ grows s s' /\ s_strs s !! (l : loc) = None /\ is_str s' (VStr l) t.
Proof. exact str_run. Qed.
(** write-string writes the string, write the text of the value (a string with its quotes), newline an end of line. *)
Theorem C61_write_string : forall (l : loc) t env s, s_strs s !! l = Some t ->
  applies "write-string" [VStr l] env s (Done (Ok VNil)) (wrote t (entering "write-string" env s)).
Proof. exact write_string_run. Qed.
Theorem C61_write : forall v t env s, prints v (entering "write" env s) t ->
  applies "write" [v] env s (Done (Ok VNil)) (wrote t (entering "write" env s)).
Proof. exact write_run. Qed.
Theorem C61_newline : forall env s, applies "newline" [] env s (Done (Ok VNil)) (wrote (string_of_bytes [10]) (entering "newline" env s)).
Proof. exact newline_run. Qed.
(** With a port nothing goes to the console: the text is written to the port, once (or the operating system refuses). *)
Theorem C61_to_port : forall (l : loc) t v u p env s, s_strs s !! l = Some t -> prints v (entering "write" env s) u ->
  (exists o s', applies "write-string" [VStr l; VPort p] env s o s' /\ sent "write-string" p t (entering "write-string" env s) o s') /\
  (exists o s', applies "write" [v; VPort p] env s o s' /\ sent "write" p u (entering "write" env s) o s') /\
  (exists o s', applies "newline" [VPort p] env s o s' /\ sent "newline" p (string_of_bytes [10]) (entering "newline" env s) o s').
Proof.
  exact (fun l t v u p env s H P => conj (write_string_port l t p env s H) (conj (write_port v u p env s P) (newline_port p env s))).
Qed.
(** Something that is not a string given to write-string, or not a port where a port is expected: an error, and nothing
    is written. *)
Theorem C61_refused : forall name vs env s,
  (name = "write-string" /\ exists v, vs = [v] /\ forall l, v <> VStr l) \/
  (exists v x, vs = [v; x] /\ (forall p, x <> VPort p) /\ (name = "write-string" \/ name = "write")) \/
  (exists x, vs = [x] /\ (forall p, x <> VPort p) /\ name = "newline") ->
  exists m, applies name vs env s (Done (Err m)) (entering name env s).
Proof. exact output_refused. Qed.
(** intern: the symbol of that name, for strings only. *)
Theorem C61_intern : forall (l : loc) t env s, s_strs s !! l = Some t -> applies "intern" [VStr l] env s (Done (Ok (VSym t))) (entering "intern" env s).
Proof. exact intern_run. Qed.
Theorem C61_intern_only_strings : forall v t env s, (forall l, v <> VStr l) -> prints v (entering "intern" env s) t ->
  exists m, applies "intern" [v] env s (Done (Err m)) (entering "intern" env s).
Proof. exact intern_refused. Qed.

(** The text of integers, booleans, strings, symbols, bytearrays and of lists of any depth of them; there is only one,
    and all the readable trees have one. *)
Theorem C61_text : forall s v d t, holds s v d -> text_form d t -> prints v s t.
Proof. exact form_prints. Qed.
Theorem C61_text_unique : forall d t u, text_form d t -> text_form d u -> t = u.
Proof. exact form_unique. Qed.
Theorem C61_text_exists : forall u d, readable u d -> exists t, text_form d t.
Proof. exact readable_form. Qed.
(** The text of a frame: the slots in the order of their names, whatever order they were made in. *)
Theorem C61_frame : forall s (l : loc) slots ps ts, s_frames s !! l = Some slots -> Permutation ps slots -> StronglySorted before (map fst ps) ->
  Forall2 (fun p t => exists u, prints (snd p) s u /\ t = fst p +++ " " +++ u) ps ts ->
  prints (VFrame l) s ("{" +++ joined " " ts +++ "}").
Proof. exact frame_prints. Qed.
(** Functions, macros, built-ins and environments show their kind and name. *)
Theorem C61_opaque : forall s v t, (exists n, v = VPrim n /\ t = "<prim: " +++ n +++ ">") \/
  (exists (l : loc) f, v = VFun l /\ s_funs s !! l = Some f /\ t = "<function: " +++ f_name (fn_code f) +++ ">") \/
  (exists (l : loc) m, v = VMacro l /\ s_macros s !! l = Some m /\ t = "<macro: " +++ m_name m +++ ">") \/
  (exists (l : loc) r, v = VEnv l /\ s_envs s !! l = Some r /\ t = "<environment: " +++ e_name r +++ ">") -> prints v s t.
Proof. exact opaque_prints. Qed.
Print Assumptions C61_write_line. Print Assumptions C61_write_log. Print Assumptions C61_str. Print Assumptions C61_write_string.
Print Assumptions C61_write. Print Assumptions C61_newline. Print Assumptions C61_to_port. Print Assumptions C61_refused.
Print Assumptions C61_intern. Print Assumptions C61_intern_only_strings. Print Assumptions C61_text. Print Assumptions C61_text_unique.
Print Assumptions C61_text_exists. Print Assumptions C61_frame. Print Assumptions C61_opaque.

Example C61_cases :
  show 60 "(list (str) (str ""a"" 1 '(""b"" c)) (str car) (str {b: 2 a: ""x""}) (str (lambda (x) x)) (intern ""q r"") (write-line 1 ""z""))" start
    = Some (Done (Ok "(""()"" ""a1(\""b\"" c)"" ""<prim: car>"" ""{a: \""x\"" b: 2}"" ""<function: unnamed>"" q r ())")) /\
  outputs 60 "(write-line 1 ""z"" '(""y"")) (write-string ""s"") (write ""s"") (newline) (write-log) (on-error (write-string 'a) (lambda (m) 1)) (str 2)" start
    = Some ["()" +++ string_of_bytes [13; 10]; string_of_bytes [10]; """s"""; "s"; "1z(""y"")" +++ string_of_bytes [10]] /\
  (forall s, run_together [VInt 1; VSym "a"; VBool true] s "1a#t") /\
  text_form (XList [XInt (-5); XList [XSym "quote"; XSym "a"]; XDot [XStr "x ""y"] (XSym "tail"); XBytes [0; 255]; XList []]) "(-5 'a (""x \""y"" . tail) [0 255] ())" /\
  StronglySorted before ["a:"; "b1:"; "b:"].
Proof.
  split; [vm_compute; reflexivity|]. split; [vm_compute; reflexivity|]. split; [|split].
  - intros s. right. split; [discriminate|]. exists ["1"; "a"; "#t"]. split; [|reflexivity].
    constructor; [|constructor; [|constructor; [|constructor]]]; cbn [shown].
    + apply (form_prints s _ (XInt 1)); [constructor|]. apply (tf_int 1 "1"); [|discriminate]. exact (write_int 1).
    + apply (form_prints s _ (XSym "a")); constructor.
    + apply (form_prints s _ (XBool true)); [constructor|]. exact (tf_bool true).
  - assert (N : forall z, string_of_Z z <> "-0" -> text_form (XInt z) (string_of_Z z)) by (intros z; apply tf_int, write_int).
    apply (tf_list _ _ ["-5"; "'a"; "(""x \""y"" . tail)"; "[0 255]"; "()"]); [discriminate|].
    constructor; [apply (N (-5)); discriminate|]. constructor; [apply (tf_quote _ "a"); constructor|]. constructor.
    { apply (tf_dot _ ["""x \""y"""] _ "tail"); [discriminate| |exact Logic.I|constructor]. constructor; [|constructor].
      apply (tf_str _ [120; 32; 34; 121] [120; 32; 92; 34; 121]); [split; [reflexivity|]|].
      + repeat (constructor; [unfold scalar; cbn; lia|]). constructor.
      + apply marked_other; [discriminate|]. apply marked_other; [discriminate|]. apply marked_quote. apply marked_other; [discriminate|]. constructor. }
    constructor; [|constructor; [constructor|constructor]]. apply (tf_bytes _ ["0"; "255"]).
    constructor; [split; [exact (write_int 0)|discriminate]|]. constructor; [split; [exact (write_int 255)|discriminate]|constructor].
  - assert (B : before "a:" "b1:" /\ before "a:" "b:" /\ before "b1:" "b:").
    { split; [|split]; [apply before_byte; reflexivity..|]. apply before_rest, before_byte. reflexivity. }
    destruct B as (B1 & B2 & B3). repeat (constructor; auto).
Qed.
