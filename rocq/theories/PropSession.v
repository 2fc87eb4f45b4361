(** * C73: after an error the interpreter goes on as if nothing had happened.  Statements only; see SpecSession.v, SpecFail.v and SpecCore.v. *)
From Verif Require Import SpecSession ProofSession ProofWf.
From Verif Require Import Data SpecCore SpecFail SpecSession.
Local Open Scope string_scope.
Local Open Scope list_scope.
Local Open Scope Z_scope.

(** An expression that fails leaves everything that was there unchanged, in whatever environment it is evaluated and however deep the error is. *)
Theorem C73_unchanged : forall G ns e c env s, goes_wrong G ns e -> proper e -> wf_state s -> ready G s -> sees s env ns -> holds s c (written e) ->
  (exists m s', evals c env s (Done (Err m)) s') /\ forall o s', evals c env s o s' -> exists m, o = Done (Err m) /\ keeps [] s s' /\ ready G s'.
Proof. exact expression_unchanged. Qed.
(** Texts run one after the other: every one gives the answer one expects, whatever failed before it. *)
Theorem C73_session : forall u is answers texts s, expected [] is answers -> Forall2 (fun i t => program u [entered i] t) is texts ->
  wf_state s -> s_uni s = u -> has_builtins s -> (forall x, In x (new_names is) -> local_binding s (s_global s) x = None) -> as_expected texts answers s.
Proof. exact fresh_session. Qed.
(** The same with functions defined before. *)
Theorem C73_session_later : forall u G is answers, expected G is answers -> forall texts s, Forall2 (fun i t => program u [entered i] t) is texts ->
  wf_state s -> s_uni s = u -> ready G s -> (forall x, In x (new_names is) -> local_binding s (s_global s) x = None) -> as_expected texts answers s.
Proof. exact session. Qed.
(** For instance: the factorial function is defined, any number of expressions fail, and (fact n) gives n! all the same. *)
Theorem C73_factorial : forall u bad n r texts s, Forall (fun e => proper e /\ goes_wrong factorial [] e) bad -> small (Z.of_nat n) -> mod64 r (Z.of_nat (fact n)) ->
  Forall2 (fun i t => program u [entered i] t) (persevering bad n) texts -> wf_state s -> s_uni s = u -> has_builtins s -> local_binding s (s_global s) "fact" = None ->
  as_expected texts (Defined :: map (fun _ => Failed) bad ++ [Value (Number r)]) s.
Proof. exact persevering_recovers. Qed.
Print Assumptions C73_unchanged. Print Assumptions C73_session. Print Assumptions C73_session_later. Print Assumptions C73_factorial.
Example C73_cases :
  let wrong := [too_many; SpecCore.Call (Name "fact") [Num 1; Num 2]] in let is := persevering wrong 5 in
  Forall (fun e => proper e /\ goes_wrong factorial [] e) wrong /\ (forall u, Forall2 (fun i t => program u [entered i] t) is (map (fun i => all_laid_out [entered i]) is)) /\
  expected [] is [Defined; Failed; Failed; Value (Number 120)] /\ small (Z.of_nat 5) /\ mod64 120 (Z.of_nat (fact 5)) /\
  wf_state start /\ has_builtins start /\ local_binding start (s_global start) "fact" = None /\ goes_wrong factorial [] too_many /\ proper too_many.
Proof.
  cbv zeta. assert (F : Forall (fun e => proper e /\ goes_wrong factorial [] e) [too_many; SpecCore.Call (Name "fact") [Num 1; Num 2]]).
  { constructor; [split; [exact too_many_proper|exact too_many_wrong]|]. constructor; [|constructor]. split; [exact one_too_many_proper|exact one_too_many]. }
  assert (H : small (Z.of_nat 5)) by (unfold small; cbn; repeat constructor; discriminate).
  assert (M : mod64 120 (Z.of_nat (fact 5))) by (split; [split; [discriminate|reflexivity]|exists 0; reflexivity]).
  split; [exact F|]. split; [exact persevering_texts|]. split; [exact (persevering_expected _ 5 120 F H M)|]. split; [exact H|]. split; [exact M|].
  split; [exact wf_start|]. split; [exact start_has_builtins|]. split; [exact (start_unbound "fact" ltac:(cbn; tauto))|]. split; [exact too_many_wrong|exact too_many_proper].
Qed.
