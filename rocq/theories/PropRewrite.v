(** * C67, ways of writing the same thing.  Statements only; see SpecRewrite.v and SpecCore.v. *)
From Verif Require Import SpecRewrite ProofRewrite ProofWf.
From Verif Require Import Data SpecMath SpecCore SpecRewrite.
Local Open Scope string_scope.
Local Open Scope list_scope.
Local Open Scope Z_scope.

(** Two ways of writing the same thing have the same values, whatever their parts are and wherever they stand. *)
Theorem C67_same_value : forall e e', same_thing e e' -> forall G ns v, means G ns e v <-> means G ns e' v.
Proof. exact same_value. Qed.
Print Assumptions C67_same_value.
(** Programs that differ in this way give the same value when they are run. *)
Theorem C67_same_program : forall u G e e' v src src', same_thing e e' -> proper e -> proper e' -> proper_globals G -> means G [] e v ->
  program u (map definition G ++ [written e]) src -> program u (map definition G ++ [written e']) src' ->
  forall s, wf_state s -> s_uni s = u -> has_builtins s -> (forall x, In x (map fst G) -> local_binding s (s_global s) x = None) ->
  (exists w t w' t', run_text src (s_global s) s (Done (Ok w)) t /\ run_text src' (s_global s) s (Done (Ok w')) t') /\
  forall o t o' t', run_text src (s_global s) s o t -> run_text src' (s_global s) s o' t' ->
    exists w w', o = Done (Ok w) /\ o' = Done (Ok w') /\ stands_for t w v /\ stands_for t' w' v.
Proof. exact same_runs. Qed.
Print Assumptions C67_same_program.
Example C67_same_cases :
  same_thing sign sign' /\ proper sign /\ proper sign' /\ means [] [] sign (Number (-1)) /\
  (forall u e, e = sign \/ e = sign' -> program u [written e] (all_laid_out [written e])) /\
  wf_state start /\ has_builtins start /\
  show 200 (all_laid_out [written sign]) start = show 200 (all_laid_out [written sign']) start /\
  show 200 (all_laid_out [written sign]) start = Some (Done (Ok "-1")).
Proof.
  split; [apply same_let|]. split; [exact (proj1 sign_proper)|]. split; [exact (proj2 sign_proper)|]. split; [exact sign_means|].
  split; [exact sign_program|]. split; [exact wf_start|]. split; [exact start_has_builtins|]. split; vm_compute; reflexivity.
Qed.
