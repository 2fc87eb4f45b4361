(** * C76: a function defined again is replaced everywhere.  Statements only; see SpecRedefine.v, SpecSession.v, SpecFail.v and SpecCore.v. *)
From Verif Require Import SpecRedefine ProofRedefine ProofWf.
From Verif Require Import Data SpecCore SpecFail SpecSession SpecRedefine.
Local Open Scope string_scope.
Local Open Scope list_scope.
Local Open Scope Z_scope.

(** Texts run one after the other, which define functions, some of them again and again, or evaluate expressions, some of
    which fail: every expression gives the answer that the latest definitions give it. *)
Theorem C76_session : forall u is answers texts s, up_to_date [] is answers -> Forall2 (fun i t => program u [entered i] t) is texts ->
  wf_state s -> s_uni s = u -> has_builtins s -> (forall x, In x (new_names is) -> local_binding s (s_global s) x = None) -> as_expected texts answers s.
Proof. exact redefining. Qed.
(** For instance: (twice k), which calls base, gives k + 2, then k^4, then an error, as base is defined again and again. *)
Theorem C76_callers : forall u k r1 r2 texts s, int64 k -> mod64 r1 (k + 2) -> mod64 r2 (k ^ 4) -> Forall2 (fun i t => program u [entered i] t) (changing k) texts ->
  wf_state s -> s_uni s = u -> has_builtins s -> (forall x, In x ["base"; "twice"] -> local_binding s (s_global s) x = None) ->
  as_expected texts [Defined; Defined; Value (Number r1); Defined; Value (Number r2); Defined; Failed] s.
Proof. exact changing_runs. Qed.
Print Assumptions C76_session. Print Assumptions C76_callers.
Example C76_cases :
  (forall u, Forall2 (fun i t => program u [entered i] t) (changing 5) (map (fun i => all_laid_out [entered i]) (changing 5))) /\
  up_to_date [] (changing 5) [Defined; Defined; Value (Number 7); Defined; Value (Number 625); Defined; Failed] /\
  wf_state start /\ has_builtins start /\ (forall x, In x (new_names (changing 5)) -> local_binding start (s_global start) x = None) /\
  show 300 (all_laid_out (map entered (firstn 5 (changing 5)))) start = Some (Done (Ok "625")).
Proof.
  split; [intros u; apply changing_texts; split; [discriminate|reflexivity]|].
  split; [apply changing_expected; [split; [discriminate|reflexivity]|split; [split; [discriminate|reflexivity]|exists 0; reflexivity]|split; [split; [discriminate|reflexivity]|exists 0; reflexivity]]|].
  split; [exact wf_start|]. split; [exact start_has_builtins|]. split; [intros x I; apply changing_unbound; cbn in *; tauto|]. vm_compute. reflexivity.
Qed.
