(** Proofs of C17 for not and its other name. *)
From Verif Require Export ProofApply.
From stdpp Require Import list.
From Verif Require Import Data SpecEval.
Local Open Scope string_scope.
Local Open Scope list_scope.

Lemma not_iff name v env s o s' : In name ["not"; "!"] -> applies name [v] env s o s' <-> gives (VBool (negb (truthy s v))) (entering name env s) o s'.
Proof.
  intros [<-|[<-|[]]]; (body_of; unfold not_impl; cbn [arg nth]; etransitivity; [apply then_iff, truthy_value|]; unfold lisp_bool; rewrite ok_iff;
    match goal with |- gives (VBool (negb ?a)) _ _ _ <-> gives (VBool (negb ?b)) _ _ _ => change a with b end; reflexivity).
Qed.
