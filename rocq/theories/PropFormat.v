(** * C44: format.  Statements only; see SpecFormat.v for the vocabulary, PrimString.v for the model. *)
From Verif Require Import ProofFormat ProofList.
From Verif Require Import SpecFormat.
Local Open Scope string_scope.
Local Open Scope list_scope.
Local Open Scope Z_scope.

(** ** C44 format *)
(** The control string decides: the call finishes, and does what the verdict says. *)
Theorem C44_format : forall dest c t args v env s, wf_state s -> destination dest -> is_str s c t ->
  formatted (entering "format" env s) false t args v ->
  (exists o s', applies "format" (dest :: c :: args) env s o s') /\
  forall o s', applies "format" (dest :: c :: args) env s o s' -> results dest v (entering "format" env s) o s'.
Proof. exact format_does. Qed.
(** Every control string with any number of arguments that can be shown has a verdict. *)
Theorem C44_total : forall s t a args, Forall (printable s) args -> exists v, formatted s a t args v.
Proof. exact formatted_total. Qed.
(** Data that can be read back can be shown. *)
Theorem C44_printable : forall d v s, readable (s_uni s) d -> holds s v d -> printable s v.
Proof. exact tree_printable. Qed.
(** The common case: literal text around ~a (or ~s), any number of times, gives the text around the arguments, in order. *)
Theorem C44_each : forall dest c k d args us ts env s, wf_state s -> destination dest ->
  In (k, d) [(Display, "~a"); (Written, "~s")] ->
  is_str s c (interleaved ts (map (fun _ => d) args)) -> length ts = S (length args) -> Forall no_tilde ts ->
  Forall2 (fun v u => shown k v (entering "format" env s) u) args us ->
  exists o s', applies "format" (dest :: c :: args) env s o s' /\ results dest (Text (interleaved ts us) []) (entering "format" env s) o s'.
Proof. exact format_each. Qed.
(** Without a destination or a control string it is an error. *)
Theorem C44_arguments : forall dest c args env s t, ~ destination dest \/ (forall l, c <> VStr l) ->
  prints dest (entering "format" env s) t -> exists m, applies "format" (dest :: c :: args) env s (Done (Err m)) (entering "format" env s).
Proof. exact format_refuses. Qed.
(** A control string that ends in a tilde crashes the program (finding). *)
Theorem C44_cut_refuted : forall dest c t args env s, wf_state s -> destination dest -> is_str s c (t +++ "~") -> no_tilde t ->
  exists w, applies "format" (dest :: c :: args) env s (Panicked w) (entering "format" env s).
Proof. exact format_cut. Qed.
(** An "@" also holds for the directives after it (finding). *)
Theorem C44_at_refuted :
  show 60 "(list (format #f ""~3a|"" 'x) (format #f ""~3@a|~3a|"" 'y 'x))" start = Some (Done (Ok "(""x  |"" ""  y|  x|"")")).
Proof. vm_compute. reflexivity. Qed.
Print Assumptions C44_format. Print Assumptions C44_total. Print Assumptions C44_printable. Print Assumptions C44_each. Print Assumptions C44_arguments.
Print Assumptions C44_cut_refuted. Print Assumptions C44_at_refuted.
Example C44_cases :
  show 60 "(list (format #f ""x~5@a~%~s~~"" ""ab"" 7) (format #f ""~va"" 3 'q) (format #f ""~#a-~a"" ""c"") (on-error (format #f ""~a"" 1 2) (lambda (e) 'left)) (on-error (format #f ""~q"" 1) (lambda (e) 'unknown)) (on-error (format 1 ""x"") (lambda (e) 'dest)))" start
    = Some (Done (Ok "(""x   ab
7~"" ""q  "" ""c-()"" left unknown dest)")) /\
  show 60 "(format #f ""x~"")" start = Some (Panicked "runtime error: index out of range") /\
  (exists s' c v, wf_state s' /\ is_str s' c "x~5@a~%~s" /\ is_str s' v "ab" /\ printable (entering "format" 2%positive s') v /\ printable (entering "format" 2%positive s') (VInt 7)) /\
  (exists w b d, directive "5@a~%~s" w b d /\ w = WNumber 5 /\ b = true /\ d = "a~%~s") /\ no_tilde "x" /\ destination (VBool false).
Proof.
  split; [vm_compute; reflexivity|]. split; [vm_compute; reflexivity|]. split; [exact (format_sample start wf_start)|]. split; [|split].
  - exists (WNumber 5), true, "a~%~s". split; [|auto]. refine (directive_at (WNumber 5) "5" "a~%~s" _). constructor. apply written_one; [cbn; auto 10|lia].
  - intros (a & b & E). destruct a as [|x [|y a]]; discriminate E.
  - left. eauto.
Qed.
