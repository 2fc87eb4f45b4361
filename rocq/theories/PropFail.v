(** * C72: errors in programs of the functional core.  Statements only; see SpecFail.v and SpecCore.v for the vocabulary. *)
From Verif Require Import SpecFail ProofFailRun ProofWf.
From Verif Require Import Data SpecCore SpecFail.
Local Open Scope string_scope.
Local Open Scope list_scope.
Local Open Scope Z_scope.

(** An expression in which something that is reached goes wrong evaluates to an error: not to a value, and there is no crash. *)
Theorem C72_expression : forall G ns e c env s, goes_wrong G ns e -> proper e -> wf_state s -> ready G s -> sees s env ns -> holds s c (written e) ->
  (exists m s', evals c env s (Done (Err m)) s') /\ forall o s', evals c env s o s' -> exists m, o = Done (Err m).
Proof. exact expression_wrong. Qed.
(** A program stops with an error at the first expression that goes wrong, whatever comes after it. *)
Theorem C72_program : forall u G e ts src, program u (map definition G ++ written e :: ts) src -> proper_globals G -> proper e -> goes_wrong G [] e ->
  forall s, wf_state s -> s_uni s = u -> has_builtins s -> (forall x, In x (map fst G) -> local_binding s (s_global s) x = None) ->
  (exists m s', run_text src (s_global s) s (Done (Err m)) s') /\ forall o s', run_text src (s_global s) s o s' -> exists m, o = Done (Err m).
Proof. exact program_stops. Qed.
(** What goes wrong has no value. *)
Theorem C72_no_value : forall G ns e v c env s, goes_wrong G ns e -> means G ns e v -> proper e -> wf_state s -> ready G s -> sees s env ns -> holds s c (written e) -> False.
Proof. exact value_or_error. Qed.
(** Adding up a list with fold-left fails if one element is not a number, wherever it is and whatever the others are. *)
Theorem C72_sum : forall u zs d v rest vs ts src, quoted_value d = Some v -> no_number v -> quoted_value (XList rest) = Some (Items vs) ->
  program u (written (adding (map XInt zs ++ d :: rest)) :: ts) src ->
  forall s, wf_state s -> s_uni s = u -> has_builtins s ->
  (exists m s', run_text src (s_global s) s (Done (Err m)) s') /\ forall o s', run_text src (s_global s) s o s' -> exists m, o = Done (Err m).
Proof. exact adding_stops. Qed.
Print Assumptions C72_expression. Print Assumptions C72_program. Print Assumptions C72_no_value. Print Assumptions C72_sum.
Example C72_cases :
  show 300 (all_laid_out failing) start = Some (Done (Err "fact expected 1 parameters, received 2.")) /\
  (forall u, program u failing (all_laid_out failing)) /\ proper_globals factorial /\ proper too_many /\ goes_wrong factorial [] too_many /\
  failing = map definition factorial ++ written too_many :: [written (SpecCore.Call (Name "fact") [Num 3])] /\
  show 300 (all_laid_out [written (adding [XInt 1; XInt 2; XBool true; XInt 4])]) start = Some (Done (Err "In 'unnamed': Number expected, received #t")) /\
  (forall u zs b, Forall int64 zs -> let ds := [written (adding (map XInt zs ++ [XBool b]))] in program u ds (all_laid_out ds)) /\
  quoted_value (XBool true) = Some (Boolean true) /\ no_number (Boolean true) /\ quoted_value (XList []) = Some (Items []) /\
  wf_state start /\ has_builtins start /\ ready [] start /\ sees start (s_global start) [] /\ local_binding start (s_global start) "fact" = None.
Proof.
  split; [vm_compute; reflexivity|]. split; [exact failing_program|]. split; [exact factorial_proper|]. split; [exact too_many_proper|]. split; [exact too_many_wrong|]. split; [reflexivity|].
  split; [vm_compute; reflexivity|]. split; [exact adding_program|]. split; [reflexivity|]. split; [exact Logic.I|]. split; [reflexivity|].
  split; [exact wf_start|]. split; [exact start_has_builtins|]. split; [split; [exact start_has_builtins|discriminate]|]. split; [constructor|exact (start_unbound "fact" ltac:(cbn; tauto))].
Qed.
