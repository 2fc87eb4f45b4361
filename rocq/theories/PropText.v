(** * C63: running the text of a program.  Statements only; see SpecText.v for the vocabulary. *)
From Verif Require Import SpecText ProofText ProofList ProofWf.
From Verif Require Import Data.
Local Open Scope string_scope.
Local Open Scope list_scope.
Local Open Scope Z_scope.

(** However its expressions are laid out (blanks, comments, spellings of literals, quote marks, brackets, braces), a program
    text is read into fresh memory and its expressions are evaluated one after the other; the result is the last value, or
    the first error or crash. *)
Theorem C63_program : forall u ds src, program u ds src -> exists puts, Forall2 plants ds puts /\
  forall env s, s_uni s = u -> forall o s', run_text src env s o s' <-> in_turn env gives (combine ds puts) VNil s o s'.
Proof. exact run_program. Qed.
(** A text that breaks off inside a list: every complete expression before it has been evaluated, then there is an error. *)
Theorem C63_broken_off : forall u ds src, broken_off u ds src -> exists puts, Forall2 plants ds puts /\
  forall env s, s_uni s = u -> forall o s', run_text src env s o s' <->
    in_turn env (fun _ => fails "Unexpected EOF (expected closing parenthesis)") (combine ds puts) VNil s o s'.
Proof. exact run_broken. Qed.
(** An empty list between the expressions silently ends the program: what comes after it is not run (finding). *)
Theorem C63_empty_refuted : forall u ds es src, program u (ds ++ XList [] :: es) src -> exists puts put, Forall2 plants ds puts /\ plants (XList []) put /\
  forall env s, s_uni s = u -> forall o s', run_text src env s o s' <-> in_turn env (fun last s1 => gives last (snd (put s1))) (combine ds puts) VNil s o s'.
Proof. exact run_stopped. Qed.
(** ParseAndEval evaluates the first expression only. *)
Theorem C63_first : forall u d ds src, program u (d :: ds) src -> exists put, plants d put /\
  forall env s, s_uni s = u -> forall o s', run_first src env s o s' <-> in_turn env gives [(d, put)] VNil s o s'.
Proof. exact run_first_program. Qed.
(** parse gives the first expression of the text as data, in fresh memory. *)
Theorem C63_parse : forall u d ds src, program u (d :: ds) src -> forall v env s, wf_state s -> s_uni s = u -> is_str s v src ->
  exists r s', applies "parse" [v] env s (Done (Ok r)) s' /\ grows s s' /\ holds s' r d.
Proof. exact parse_program. Qed.
(** load runs the text of the file in the global environment, wherever it is called. *)
Theorem C63_load : forall src r (l : loc) env s, next_file src r s -> forall o s',
  applies "load" [VStr l] env s o s' <-> run_text src (s_global s) (loading env r s) o s'.
Proof. exact load_file. Qed.
Theorem C63_load_name : forall v env s, (forall l, v <> VStr l) -> applies "load" [v] env s (Done (Err "Filename must be a string")) (entering "load" env s).
Proof. exact load_other. Qed.
Print Assumptions C63_program. Print Assumptions C63_broken_off. Print Assumptions C63_empty_refuted. Print Assumptions C63_first.
Print Assumptions C63_parse. Print Assumptions C63_load. Print Assumptions C63_load_name.
Example C63_cases :
  show 60 (sample_text +++ String "010" " (cdr x)") start = Some (Done (Ok "#t")) /\
  show 60 "1 () (car 2 3 4)" start = Some (Done (Ok "1")) /\
  show 60 "(define q 5) (car (list q" start = Some (Done (Err "Unexpected EOF (expected closing parenthesis)")) /\
  (forall u, program u sample_trees sample_text) /\ (forall u, broken_off u [XInt 7] "7 (7 ") /\
  next_file "q" [9] (set_oracle [0; 1; 113; 9] start) /\ wf_state start.
Proof.
  split; [vm_compute; reflexivity|]. split; [vm_compute; reflexivity|]. split; [vm_compute; reflexivity|]. split; [exact sample_program|]. split; [exact sample_broken|].
  split; [reflexivity|exact wf_start].
Qed.
