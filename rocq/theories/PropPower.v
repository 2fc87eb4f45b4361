(** * C67, further sample: powers by repeated squaring.  Statements only; see SpecPower.v and SpecCore.v. *)
From Verif Require Import SpecPower ProofPower ProofWf.
From Verif Require Import Data SpecMath SpecCore SpecPower.
Local Open Scope string_scope.
Local Open Scope list_scope.
Local Open Scope Z_scope.

(** Repeated squaring gives the power modulo 2^64, for all bases and all exponents from 0 to 2^63 - 1. *)
Theorem C67_power : forall u b n r src, int64 b -> int64 n -> 0 <= n -> mod64 r (b ^ n) ->
  program u (map definition power ++ [written (SpecCore.Call (Name "power") [Num b; Num n])]) src ->
  forall s, wf_state s -> s_uni s = u -> has_builtins s -> local_binding s (s_global s) "power" = None ->
  (exists s', run_text src (s_global s) s (Done (Ok (VInt r))) s') /\ forall o s', run_text src (s_global s) s o s' -> o = Done (Ok (VInt r)).
Proof. exact power_runs. Qed.
Print Assumptions C67_power.
Example C67_power_cases :
  (forall u b n, int64 b -> int64 n -> let ds := map definition power ++ [written (SpecCore.Call (Name "power") [Num b; Num n])] in program u ds (all_laid_out ds)) /\
  wf_state start /\ has_builtins start /\ local_binding start (s_global start) "power" = None /\
  show 300 (all_laid_out (map definition power ++ [written (SpecCore.Call (Name "power") [Num (-3); Num 13])])) start = Some (Done (Ok "-1594323")).
Proof. split; [exact power_program|]. split; [exact wf_start|]. split; [exact start_has_builtins|]. split; [exact power_unbound|]. vm_compute. reflexivity. Qed.
