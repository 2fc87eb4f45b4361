(** * C17, not and its other name.  Statements only; see SpecEval.v. *)
From Verif Require Import ProofNot ProofWf.
From Verif Require Import Data SpecEval.
Local Open Scope string_scope.
Local Open Scope list_scope.

(** (not v) and (! v) give #t for what counts as false (false, nil and the empty list), else #f; nothing is changed. *)
Theorem C17_not : forall name v env s o s', In name ["not"; "!"] ->
  applies name [v] env s o s' <-> gives (VBool (negb (truthy s v))) (entering name env s) o s'.
Proof. exact not_iff. Qed.
Print Assumptions C17_not.
Example C17_not_cases : show 60 "(list (not 0) (! '()) (not #f) (! #t) (! ""a"") (not '(())))" start = Some (Done (Ok "(#f #t #t #f #f #f)")).
Proof. vm_compute. reflexivity. Qed.
