(** * C71: functions with private state.  Statements only; see SpecState.v and SpecCore.v for the vocabulary. *)
From Verif Require Import SpecState ProofState ProofWf.
From Verif Require Import Data SpecCore SpecState.
Local Open Scope string_scope.
Local Open Scope list_scope.
Local Open Scope Z_scope.

(** Two accounts made by the same expression, each a function that keeps its balance in a variable of its own let: after
    any sequence of payments into either account, mixed with other computations, paying into an account gives its initial
    balance plus everything that was paid into it (modulo 2^64) and nothing else. *)
Theorem C71_accounts : forall u G x1 x2 y p z1 z2 acts first e ds r src,
  program u (banking G x1 x2 y p z1 z2 (acts ++ [Deposit first e])) src -> proper_globals G ->
  plain_name x1 -> plain_name x2 -> plain_name y -> plain_name p -> x1 <> x2 -> y <> p -> ~ In x1 (map fst G) -> ~ In x2 (map fst G) ->
  Forall proper_action (acts ++ [Deposit first e]) -> Forall2 (pays G first) (acts ++ [Deposit first e]) ds -> mod64 r ((if first then z1 else z2) + sum ds) ->
  forall s, wf_state s -> s_uni s = u -> has_builtins s -> (forall x, In x (x1 :: x2 :: map fst G) -> local_binding s (s_global s) x = None) ->
  (exists s', run_text src (s_global s) s (Done (Ok (VInt r))) s') /\ forall o s', run_text src (s_global s) s o s' -> o = Done (Ok (VInt r)).
Proof. exact accounts_run. Qed.
Print Assumptions C71_accounts.
Example C71_cases :
  show 600 (all_laid_out sample) start = Some (Done (Ok "39")) /\
  sample = banking factorial "savings" "other" "balance" "k" 10 100 (removelast sample_actions ++ [Deposit true (SpecCore.Call (Name "fact") [Num 4])]) /\
  (forall u, program u sample (all_laid_out sample)) /\ proper_globals factorial /\
  (plain_name "savings" /\ plain_name "other" /\ plain_name "balance" /\ plain_name "k") /\
  Forall proper_action sample_actions /\ Forall2 (pays factorial true) sample_actions [5; 0; 0; 24] /\
  wf_state start /\ has_builtins start /\ (forall x, In x ["savings"; "other"; "fact"] -> local_binding start (s_global start) x = None).
Proof.
  split; [vm_compute; reflexivity|]. split; [reflexivity|]. split; [exact sample_program|]. split; [exact factorial_proper|]. split; [exact sample_names|].
  split; [exact sample_proper|]. split; [exact sample_pays|]. split; [exact wf_start|]. split; [exact start_has_builtins|exact sample_unbound].
Qed.
