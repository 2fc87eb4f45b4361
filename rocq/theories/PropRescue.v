(** * C75: errors and their handlers.  Statements only; see SpecRescue.v, SpecFail.v and SpecCore.v for the vocabulary. *)
From Verif Require Import SpecRescue ProofRescue ProofWf.
From Verif Require Import Data SpecCore SpecFail SpecObject SpecRescue.
Local Open Scope string_scope.
Local Open Scope list_scope.
Local Open Scope Z_scope.

(** on-error gives the value of the expression it guards, or, if something goes wrong in it however deep, what its
    handler gives for the message; everything that was there before is unchanged. *)
Theorem C75_value : forall G g P c s, ends_in G g P -> proper_guarded g -> wf_state s -> ready G s -> offers s "error" -> offers s "on-error" -> holds s c (guarded_text g) ->
  (exists w s', evals c (s_global s) s (Done (Ok w)) s') /\
  forall o s', evals c (s_global s) s o s' -> exists w v, o = Done (Ok w) /\ stands_for s' w v /\ P v /\ keeps [] s s'.
Proof. exact rescue_value. Qed.
(** Without a handler that succeeds the result is an error. *)
Theorem C75_error : forall G g M c s, breaks G g M -> proper_guarded g -> wf_state s -> ready G s -> offers s "error" -> offers s "on-error" -> holds s c (guarded_text g) ->
  (exists m s', evals c (s_global s) s (Done (Err m)) s') /\
  forall o s', evals c (s_global s) s o s' -> exists m, o = Done (Err m) /\ M m /\ keeps [] s s'.
Proof. exact rescue_error. Qed.
(** Texts run one after the other, which define functions, raise errors and handle them. *)
Theorem C75_session : forall u is rs texts s, foreseen [] is rs -> Forall2 (fun i t => program u [entry_text i] t) is texts ->
  wf_state s -> s_uni s = u -> has_builtins s -> offers s "error" -> offers s "on-error" ->
  (forall x, In x (introduced is) -> local_binding s (s_global s) x = None) -> as_foreseen texts rs s.
Proof. exact rescue_fresh. Qed.
Print Assumptions C75_value. Print Assumptions C75_error. Print Assumptions C75_session.
Example C75_cases :
  show 600 (all_laid_out (map entry_text (firstn 2 rescue_sample))) start = Some (Done (Ok "120")) /\
  show 600 (all_laid_out (map entry_text rescue_sample)) start = Some (Done (Err "oops")) /\
  foreseen [] rescue_sample [Accepted; One_of (fun v => v = Number 120); Refused (fun m => m = "oops")] /\
  (forall u, Forall2 (fun i t => program u [entry_text i] t) rescue_sample (map (fun i => all_laid_out [entry_text i]) rescue_sample)) /\
  ends_in factorial rescuing (fun v => v = Number 120) /\ proper_guarded rescuing /\
  wf_state start /\ has_builtins start /\ (offers start "error" /\ offers start "on-error") /\ local_binding start (s_global start) "fact" = None.
Proof.
  split; [vm_compute; reflexivity|]. split; [vm_compute; reflexivity|]. split; [exact rescue_foreseen|]. split; [exact rescue_texts|]. split; [exact rescuing_value|]. split; [exact rescuing_proper|].
  split; [exact wf_start|]. split; [exact start_has_builtins|]. split; [exact rescue_offers|exact (start_unbound "fact" ltac:(cbn; tauto))].
Qed.
