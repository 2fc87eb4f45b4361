(** * C74: objects with a shared prototype.  Statements only; see SpecObject.v, SpecState.v and SpecCore.v for the vocabulary. *)
From Verif Require Import SpecObject ProofObject ProofState ProofWf.
From Verif Require Import Data SpecCore SpecState SpecObject.
Local Open Scope string_scope.
Local Open Scope list_scope.
Local Open Scope Z_scope.

(** Two objects, frames with no slots but the one that names their common prototype, which has the method and the balance
    that objects have at first: after any sequence of messages to either object, mixed with other computations, paying
    into an object gives the prototype's balance plus everything that was paid into this object (modulo 2^64) and nothing
    else.  So the method of the prototype acts on its receiver, reads what the receiver inherits until the receiver has a
    value of its own, and writes to the receiver, not to the prototype, so that the other object is not affected. *)
Theorem C74_objects : forall u G c x1 x2 m y p z acts first e ds r src,
  program u (objects G c x1 x2 m y p z (acts ++ [Deposit first e])) src -> proper_globals G ->
  plain_name c -> plain_name x1 -> plain_name x2 -> slot_word m -> slot_word y -> plain_name p -> List.NoDup (c :: x1 :: x2 :: map fst G) -> y <> m -> y <> p ->
  (forall n, In n ["make-frame"; "send"] -> ~ In n (c :: x1 :: x2 :: map fst G)) ->
  Forall proper_action (acts ++ [Deposit first e]) -> Forall2 (pays G first) (acts ++ [Deposit first e]) ds -> mod64 r (z + sum ds) ->
  forall s, wf_state s -> s_uni s = u -> has_builtins s -> offers s "make-frame" -> offers s "send" ->
  (forall x, In x (c :: x1 :: x2 :: map fst G) -> local_binding s (s_global s) x = None) ->
  (exists s', run_text src (s_global s) s (Done (Ok (VInt r))) s') /\ forall o s', run_text src (s_global s) s o s' -> o = Done (Ok (VInt r)).
Proof. exact objects_run. Qed.
Print Assumptions C74_objects.
Example C74_cases :
  show 600 (all_laid_out objects_sample) start = Some (Done (Ok "39")) /\
  objects_sample = objects factorial "account" "savings" "other" "pay" "balance" "k" 10 (removelast sample_actions ++ [Deposit true (SpecCore.Call (Name "fact") [Num 4])]) /\
  (forall u, program u objects_sample (all_laid_out objects_sample)) /\ proper_globals factorial /\
  (plain_name "account" /\ slot_word "pay" /\ slot_word "balance") /\ (plain_name "savings" /\ plain_name "other" /\ plain_name "balance" /\ plain_name "k") /\
  Forall proper_action sample_actions /\ Forall2 (pays factorial true) sample_actions [5; 0; 0; 24] /\
  wf_state start /\ has_builtins start /\ (offers start "make-frame" /\ offers start "send") /\
  (forall x, In x ["account"; "savings"; "other"; "fact"] -> local_binding start (s_global start) x = None).
Proof.
  split; [vm_compute; reflexivity|]. split; [reflexivity|]. split; [exact objects_sample_program|]. split; [exact factorial_proper|]. split; [exact objects_sample_names|]. split; [exact sample_names|].
  split; [exact sample_proper|]. split; [exact sample_pays|]. split; [exact wf_start|]. split; [exact start_has_builtins|]. split; [exact start_offers|exact objects_sample_unbound].
Qed.
