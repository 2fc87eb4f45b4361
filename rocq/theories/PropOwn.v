(** * C67, further sample: map and fold-left written by the programmer.  Statements only; see SpecOwn.v and SpecCore.v. *)
From Verif Require Import SpecOwn ProofOwn ProofWf.
From Verif Require Import Data SpecMath SpecCore SpecOwn.
Local Open Scope string_scope.
Local Open Scope list_scope.
Local Open Scope Z_scope.

(** For every function and every list: replacing a call of the built-in map or fold-left by a call of the programmer's own
    recursive version leaves the value as it is, beside any further definitions. *)
Theorem C67_own_functions : forall u G e e' v src src', instead e e' -> proper e -> proper e' -> proper_globals (own ++ G) -> means (own ++ G) [] e v ->
  program u (map definition (own ++ G) ++ [written e]) src -> program u (map definition (own ++ G) ++ [written e']) src' ->
  forall s, wf_state s -> s_uni s = u -> has_builtins s -> (forall x, In x (map fst (own ++ G)) -> local_binding s (s_global s) x = None) ->
  (exists w t w' t', run_text src (s_global s) s (Done (Ok w)) t /\ run_text src' (s_global s) s (Done (Ok w')) t') /\
  forall o t o' t', run_text src (s_global s) s o t -> run_text src' (s_global s) s o' t' ->
    exists w w', o = Done (Ok w) /\ o' = Done (Ok w') /\ stands_for t w v /\ stands_for t' w' v.
Proof. exact own_runs. Qed.
Print Assumptions C67_own_functions.
Example C67_own_cases :
  instead doubled doubled' /\ proper doubled /\ proper doubled' /\ proper_globals (own ++ []) /\ means (own ++ []) [] doubled (Items [Number 8; Number (-10)]) /\
  (forall u e, e = doubled \/ e = doubled' -> let ds := map definition own ++ [written e] in program u ds (all_laid_out ds)) /\
  wf_state start /\ has_builtins start /\ (forall x, In x (map fst own) -> local_binding start (s_global start) x = None) /\
  show 300 (all_laid_out (map definition own ++ [written doubled])) start = Some (Done (Ok "(8 -10)")) /\
  show 300 (all_laid_out (map definition own ++ [written doubled'])) start = Some (Done (Ok "(8 -10)")) /\
  show 300 (all_laid_out (map definition own ++ [written (SpecCore.Call (Name "gather") [Lambda ["a"; "x"] (Builtin "-" [Name "a"; Name "x"]); Num 10; Builtin "list" [Num 4; Num 3]])])) start = Some (Done (Ok "3")).
Proof.
  split; [constructor|]. split; [exact (proj1 doubled_proper)|]. split; [exact (proj2 doubled_proper)|]. split; [exact own_proper|]. split; [exact doubled_means|].
  split; [exact doubled_program|]. split; [exact wf_start|]. split; [exact start_has_builtins|]. split; [exact own_unbound|].
  split; [vm_compute; reflexivity|]. split; vm_compute; reflexivity.
Qed.
