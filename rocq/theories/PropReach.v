(** C52, C53: evaluation changes only what it can get at, and no reference ever dangles. *)
From Verif Require Import ProofReach ProofList.
Local Open Scope string_scope.
Local Open Scope list_scope.

(** * C52 *)
(** [sandboxed_thread roots t]: goroutine [t] of the host evaluates source text, evaluates an expression or applies
    a function, given only objects in [roots]. *)
Theorem C52_unreached : forall ts s ts' s' roots l, wf_state s -> s_pending s = [] -> incl (shared_roots s) roots ->
  Forall (sandboxed_thread roots) ts -> psteps (ts, s) (ts', s') ->
  handed_out s l -> ~ accessible s roots l -> unchanged s s' l.
Proof. intros. eapply unreached; eassumption. Qed.
Print Assumptions C52_unreached.
Example C52_cases : exists s l, wf_state s /\ s_pending s = [] /\ incl (shared_roots s) (s_global s :: shared_roots s) /\
  sandboxed_thread (s_global s :: shared_roots s) (eval_text_thread "(define x (list 1 2)) (set-car! x 7)" (s_global s)) /\
  handed_out s l /\ ~ accessible s (s_global s :: shared_roots s) l /\ s_strs s !! l = Some "kept by the host".
Proof. apply (hidden_case start); [exact wf_start|apply closedb_spec; vm_compute; reflexivity|vm_compute; reflexivity]. Qed.

(** * C53 *)
(** [existing_thread s t]: goroutine [t] was given only objects that exist in [s]. *)
Theorem C53_no_dangling : forall ts s ts' s', wf_state s -> no_dangling s -> s_pending s = [] ->
  Forall (existing_thread s) ts -> psteps (ts, s) (ts', s') -> no_dangling s'.
Proof. intros ts s ts' s' W C P Ht Hs. refine (proj1 (closed_psteps ts s ts' s' W (conj C _) Ht Hs)). rewrite P. constructor. Qed.
Theorem C53_result : forall e env s o s', wf_state s -> no_dangling s -> s_pending s = [] -> below s e -> (env < s_next s)%positive ->
  evals e env s o s' -> no_dangling s' /\ forall v, o = Done (Ok v) -> below s' v.
Proof. intros e env s o s' W C P B L H. destruct (evals_closed e env s o s' W) as [[C' _] V]; try assumption; [|auto]. split; [exact C|rewrite P; constructor]. Qed.
Print Assumptions C53_no_dangling. Print Assumptions C53_result.
Example C53_cases : wf_state start /\ no_dangling start /\ s_pending start = [] /\
  existing_thread start (eval_text_thread "(define x (list 1 2)) (fork (lambda (p) x))" (s_global start)).
Proof.
  assert (C : closed start) by (apply closedb_spec; vm_compute; reflexivity).
  split; [exact wf_start|]. split; [exact (proj1 C)|]. split; [vm_compute; reflexivity|apply existing_case, C].
Qed.
