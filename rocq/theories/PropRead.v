(** * C13-C15: reading and printing.  Statements only; see SpecRead.v for the vocabulary, Reader.v for the model of the
    tokenizer and parser. *)
From Verif Require Import ProofRead ProofPrint ProofList.
From Verif Require Import SpecRead.
Local Open Scope string_scope.
Local Open Scope list_scope.
Local Open Scope Z_scope.

(** ** C13 Printing then reading returns the same data *)
(** Whatever was printed, wherever and whenever the text is read, the result is the same tree. *)
Theorem C13_round_trip : forall d v s, readable (s_uni s) d -> holds s v d -> exists t, prints v s t /\
  forall w env s1, wf_state s1 -> s_uni s1 = s_uni s -> is_str s1 w t ->
  exists v' s', applies "parse" [w] env s1 (Done (Ok v')) s' /\ grows s1 s' /\ holds s' v' d.
Proof. exact (fun d v s => round_trip (s_uni s) d v s eq_refl). Qed.
(** equal? sees no difference (dotted lists are left out: equal? ignores their tails, see C11). *)
Theorem C13_equal : forall d v s, readable (s_uni s) d -> undotted d -> holds s v d -> exists t, prints v s t /\
  forall w env s1, grows s s1 -> wf_state s1 -> is_str s1 w t -> exists v' s',
  applies "parse" [w] env s1 (Done (Ok v')) s' /\ applies "equal?" [v; v'] env s' (Done (Ok (VBool true))) (entering "equal?" env s').
Proof. exact (fun d v s => round_trip_equal (s_uni s) d v s eq_refl). Qed.
(** A string with a backslash never comes back (finding): the printer does not escape it, the reader takes it as an escape. *)
Theorem C13_backslash : forall v t rs s, is_str s v t -> text_of t rs -> In 92 rs -> exists p, prints v s p /\
  forall w env s1 v' s', wf_state s1 -> is_str s1 w p -> applies "parse" [w] env s1 (Done (Ok v')) s' -> ~ is_str s' v' t.
Proof. exact backslash_trip. Qed.
Theorem C13_backslash_refuted :
  show 60 "(let ((s ""a\\nb"")) (list s (equal? s (parse (format #f ""~s"" s)))))" start = Some (Done (Ok "(""a\nb"" #f)")).
Proof. vm_compute. reflexivity. Qed.
(** (quote a b) prints as 'a, and a symbol made from odd characters prints as itself (findings). *)
Theorem C13_quote_refuted :
  show 60 "(list (length (parse (format #f ""~s"" '(quote a b)))) (equal? '(quote a b) (parse (format #f ""~s"" '(quote a b)))))" start = Some (Done (Ok "(2 #f)")).
Proof. vm_compute. reflexivity. Qed.
Theorem C13_symbol_refuted :
  show 60 "(let ((x (intern ""1 2""))) (list (symbol? x) (parse (format #f ""~s"" x))))" start = Some (Done (Ok "(#t 1)")).
Proof. vm_compute. reflexivity. Qed.
Print Assumptions C13_round_trip. Print Assumptions C13_equal. Print Assumptions C13_backslash. Print Assumptions C13_backslash_refuted.
Print Assumptions C13_quote_refuted. Print Assumptions C13_symbol_refuted.
Example C13_cases :
  show 60 "(let ((x '(-5 'a (""x \""y"" #t . tail) [0 255] ()))) (list (format #f ""~s"" x) (equal? x (parse (format #f ""~s"" x)))))" start
    = Some (Done (Ok "(""(-5 'a (\""x \\""y\"" #t . tail) [0 255] ())"" #t)")) /\
  exists s v w q, wf_state s /\ s_uni s = s_uni start /\
    holds s v (XList [XInt (-5); XList [XSym "quote"; XSym "a"]; XDot [XStr "x y"; XBool true] (XSym "tail"); XBytes [0; 255]; XList []]) /\
    is_str s w "x\y" /\ is_str s q "#x7f)".
Proof. split; [vm_compute; reflexivity|]. exact (read_sample start wf_start). Qed.

(** ** C14 The reader is total *)
(** Before a token blanks and comments are taken off; a token takes its first character and some of the following ones.
    So tokens come to an end, and no amount of computation allowed changes them. *)
Theorem C14_blank : forall u l, exists used, l = used ++ skip_blank u false l.
Proof. exact (fun u l => skip_suffix u l false). Qed.
Theorem C14_token : forall u c t k r, read_token u c t = Some (k, r) -> exists used, c :: t = (c :: used) ++ r.
Proof. exact token_takes. Qed.
Theorem C14_tokens_end : forall u t n, (length (runes_of_string t) <= n)%nat -> tokens_go n u (runes_of_string t) = tokenize u t.
Proof. exact (fun u t n L => tokens_fuel u n _ _ L (le_n _)). Qed.
Theorem C14_parse_end : forall ts n, (parse_fuel ts <= n)%nat -> parse_expr n ts = parse_tokens ts.
Proof. exact parse_enough. Qed.
Theorem C14_parse_all_end : forall ts n acc, (length ts < n)%nat -> parse_all_go n ts acc = parse_all_go (S (length ts)) ts acc.
Proof. exact (fun ts n acc L => read_all_fuel n _ ts acc L (le_n _)). Qed.
(** parse answers or fails on every text: no crash, no endless loop, and nothing that existed changes. *)
Theorem C14_total : forall v t env s, wf_state s -> is_str s v t -> exists r s', applies "parse" [v] env s (Done r) s' /\ grows s s'.
Proof. exact parse_total. Qed.
(** An expression takes at least one token, off the front, and closes the parentheses it opens. *)
Theorem C14_expression : forall ts x r, parse_tokens ts = (PSexp x, r) ->
  exists used, ts = used ++ r /\ used <> [] /\ total opens used <= total closes used.
Proof. exact read_balanced. Qed.
(** End of input is only reported if there is no token, or the last token wants another one. *)
Theorem C14_end_of_input : forall ts r, parse_tokens ts = (PEof, r) -> ts = [] \/ exists pre k, ts = pre ++ [k] /\ dangling k.
Proof. exact read_eof. Qed.
(** Text with an unclosed parenthesis is an error, for parse and for reading all of a text, unless its last token is
    dangling. *)
Theorem C14_unclosed : forall v t env s, wf_state s -> is_str s v t -> tokenize (s_uni s) t <> [] ->
  (forall used r, used <> [] -> tokenize (s_uni s) t = used ++ r -> total closes used < total opens used) ->
  (forall pre k, tokenize (s_uni s) t = pre ++ [k] -> ~ dangling k) ->
  exists m, applies "parse" [v] env s (Done (Err m)) (entering "parse" env s).
Proof. exact parse_unclosed. Qed.
Theorem C14_unclosed_all : forall u src, total closes (tokenize u src) < total opens (tokenize u src) ->
  (forall pre k, tokenize u src = pre ++ [k] -> ~ dangling k) -> exists xs m, parse_all u src = (xs, Some m).
Proof. exact read_all_error. Qed.
(** Findings: after a dangling token, and inside an unterminated string, the end of the text is no error; closing
    parentheses without an opening one are symbols; a frame may be closed by a bracket. *)
Theorem C14_dangling_refuted :
  show 60 "(list (parse ""(1 . "") (parse ""'"") (parse ""\""abc""))" start = Some (Done (Ok "(() () ())")).
Proof. vm_compute. reflexivity. Qed.
Theorem C14_closing_refuted : show 60 "(list (parse "")"") (symbol? (parse ""]"")))" start = Some (Done (Ok "() #t)")).
Proof. vm_compute. reflexivity. Qed.
Print Assumptions C14_blank. Print Assumptions C14_token. Print Assumptions C14_tokens_end. Print Assumptions C14_parse_end.
Print Assumptions C14_parse_all_end. Print Assumptions C14_total. Print Assumptions C14_expression. Print Assumptions C14_end_of_input.
Print Assumptions C14_unclosed. Print Assumptions C14_unclosed_all. Print Assumptions C14_dangling_refuted. Print Assumptions C14_closing_refuted.
Example C14_cases :
  show 60 "(list (on-error (parse ""(a (b c)"") (lambda (m) 'failed)) (parse ""(a (b) . c) rest""))" start = Some (Done (Ok "(failed (a (b) . c))")) /\
  (forall u, tokenize u "((a)" = [KLparen; KLparen; KSymbol "a"; KRparen]) /\
  (forall used r : list token, used <> [] -> [KLparen; KLparen; KSymbol "a"; KRparen] = used ++ r -> total closes used < total opens used).
Proof.
  split; [vm_compute; reflexivity|]. split; [reflexivity|]. intros used r N E.
  do 5 (destruct used as [|? used]; [try congruence; cbn; lia|injection E as <- E || discriminate E]).
Qed.

(** ** C15 Reading numbers *)
(** A literal of any length, followed by whatever may follow it, denotes the written number or is an error. *)
Theorem C15_literal : forall v t z rest env s, wf_state s -> literal t z -> stops rest -> is_str s v (t +++ rest) ->
  (int64 z -> exists s', applies "parse" [v] env s (Done (Ok (VInt z))) s') /\
  (~ int64 z -> exists m s', applies "parse" [v] env s (Done (Err m)) s').
Proof. exact run_parse_literal. Qed.
Print Assumptions C15_literal.
Example C15_cases :
  show 60 "(list (parse ""-9223372036854775808"") (parse ""0xfF) x"") (parse ""#b101 "") (on-error (parse ""9223372036854775808"") (lambda (m) 'failed)))" start
    = Some (Done (Ok "(-9223372036854775808 255 5 failed)")) /\
  literal "#x7f" 127 /\ literal "-12" (-12) /\ stops ")" /\ int64 127 /\
  exists s v, wf_state s /\ is_str s v ("#x7f" +++ ")").
Proof.
  split; [vm_compute; reflexivity|].
  split; [apply (lit_hex "7f" 127), (written_more 16 "7" 7 "f" 15); [apply written_one| |]; try lia; cbn; auto 20|].
  split; [apply (lit_negative "12" 12), (written_more 10 "1" 1 "2" 2); [apply written_one| |]; try lia; cbn; auto 20|].
  split; [cbn; auto|]. split; [unfold int64; lia|].
  destruct (read_sample start wf_start) as (s & v & w & q & W & _ & _ & _ & Q). exists s, q. split; [exact W|exact Q].
Qed.
