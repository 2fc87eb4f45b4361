(** C01-C04: protected bindings, sandboxes, the restricted flag, unchanged data. *)
From Verif Require Import ProofAccess.
Local Open Scope string_scope.
Local Open Scope list_scope.

(** ** C01 Protected bindings never change *)
Theorem C01_protected_bindings_never_change :
  forall ts s ts' s' e n r,
    wf_state s -> Forall host_thread ts -> psteps (ts, s) (ts', s') ->
    ~ entered s s' "environment-assign!" ->
    binds_protected s e n r -> binds_protected s' e n r.
Proof. intros ts s ts' s' e n r wf. exact (protected_kept s wf ts ts' s' e n r). Qed.
Print Assumptions C01_protected_bindings_never_change.

(** In particular each built-in stays bound to itself in the global environment. *)
Theorem C01_builtins_stay_bound :
  forall u oracle ts ts' s' p,
    Forall host_thread ts -> psteps (ts, initial u oracle) (ts', s') ->
    ~ entered (initial u oracle) s' "environment-assign!" ->
    In p all_prims ->
    binds_protected s' (s_global (initial u oracle)) (p_name p)
      (Binding (VSym (p_name p)) (VPrim (p_name p)) true).
Proof.
  intros u o ts ts' s' p Ht Hs Hn Hp.
  exact (protected_kept _ (wf_initial u o) _ _ _ _ _ _ Ht Hs Hn (builtins_ok_bound _ _ (builtins_initial u o) Hp)).
Qed.
Print Assumptions C01_builtins_stay_bound.

(** Three goroutines that try to change built-ins; all of them run to their end. *)
Definition c01_threads : list thread :=
  [eval_text_thread "(define (f x) (* x 2)) (set! car 5)" 2%positive;
   eval_text_thread "(let ((cdr 1)) (define (cons a b) 7) cdr)" 2%positive;
   eval_text_thread "(fork (lambda (p) (define pi 3)))" 2%positive].
Definition c01_end : pool := sched (rounds 30 4 60) (c01_threads, start).
Example C01_nonvacuous :
  wf_state start /\ Forall host_thread c01_threads /\ psteps (c01_threads, start) c01_end /\
  ~ entered start (snd c01_end) "environment-assign!" /\
  entered start (snd c01_end) "set!" /\ entered start (snd c01_end) "define" /\
  binds_protected start 2%positive "car" (Binding (VSym "car") (VPrim "car") true).
Proof.
  split; [apply wf_initial|]. split.
  { repeat first [apply List.Forall_nil|apply List.Forall_cons; [left; eexists _, _; reflexivity|]]. }
  split; [destruct c01_end eqn:E; rewrite <- E; apply sched_psteps|].
  split; [apply not_entered_check; vm_compute; reflexivity|].
  split; [apply entered_check; vm_compute; reflexivity|].
  split; [apply entered_check; vm_compute; reflexivity|].
  split; [eexists; split; vm_compute; reflexivity|reflexivity].
Qed.

(** environment-assign! ignores the protection (finding). *)
Theorem C01_environment_assign_refuted :
  exists src c, psteps ([eval_text_thread src 2%positive], start) c /\
    binds_protected start 2%positive "car" (Binding (VSym "car") (VPrim "car") true) /\
    binds (snd c) 2%positive "car" (Binding (VSym "car") (VInt 5) true).
Proof.
  exists "(environment-assign! (the-environment) 'car 5)".
  exists (sched (rounds 1 1 200) ([eval_text_thread "(environment-assign! (the-environment) 'car 5)" 2%positive], start)).
  split; [apply sched_psteps|]. split; [split; [eexists; split; vm_compute; reflexivity|reflexivity]|].
  eexists; split; vm_compute; reflexivity.
Qed.

(** ** C02 Restricted environments are confined *)
Theorem C02_sandbox_confined :
  forall s roots ts ts' s' n,
    wf_state s -> s_pending s = [] -> confined s roots ->
    Forall (sandboxed_thread roots) ts -> psteps (ts, s) (ts', s') ->
    In n restricted_names -> ~ entered s s' n.
Proof. exact sandbox_kept. Qed.
Print Assumptions C02_sandbox_confined.
(** The names are those the table marks as restricted. *)
Theorem C02_restricted_names :
  forall p, In p all_prims -> (p_restricted p = true <-> In (p_name p) restricted_names).
Proof. exact restricted_iff. Qed.

(** A fresh restricted environment below the global one, in which only built-ins and constants are visible. *)
Definition c02_start : loc * state := after make_sandbox start.
Definition c02_below : list loc :=
  map (fun k => Pos.of_nat (k + 3)) (seq 0 (Pos.to_nat (s_next (snd c02_start)) - 3)).
Definition c02_threads : list thread :=
  [eval_text_thread "(define (f x) (global-eval x)) (on-error (f '(load 1)) (lambda (e) e))" (fst c02_start);
   eval_text_thread "(let ((m (lambda () (exec 1)))) (fork (lambda (p) (m))))" (fst c02_start);
   eval_text_thread "(eval '(panic! 1) (the-environment))" (fst c02_start)].
Definition c02_end : pool := sched (rounds 30 4 60) (c02_threads, snd c02_start).
Example C02_nonvacuous :
  wf_state (snd c02_start) /\ s_pending (snd c02_start) = [] /\
  is_restricted (snd c02_start) (fst c02_start) /\
  confined (snd c02_start) [fst c02_start] /\
  Forall (sandboxed_thread [fst c02_start]) c02_threads /\
  psteps (c02_threads, snd c02_start) c02_end /\
  entered (snd c02_start) (snd c02_end) "on-error" /\ entered (snd c02_start) (snd c02_end) "fork".
Proof.
  split; [apply wf_after, wf_initial|].
  split; [vm_compute; reflexivity|].
  split; [eexists; split; vm_compute; reflexivity|].
  split; [apply (confined_check _ _ c02_below (2%positive :: c02_below)); vm_compute; reflexivity|].
  split; [repeat first [apply List.Forall_nil|apply List.Forall_cons; [constructor; left; reflexivity|]]|].
  split; [destruct c02_end eqn:E; rewrite <- E; apply sched_psteps|].
  split; apply entered_check; vm_compute; reflexivity.
Qed.

(** With an unrestricted function in reach a restricted environment confines nothing (finding). *)
Definition c02_leaky : loc * state :=
  after make_sandbox
    (set_log [] (snd (sched (rounds 1 1 200) ([eval_text_thread "(define (f) 1)" 2%positive], start)))).
Theorem C02_unrestricted_function_refuted :
  exists s env src c, wf_state s /\ is_restricted s env /\
    psteps ([eval_text_thread src env], s) c /\ entered s (snd c) "panic!".
Proof.
  exists (snd c02_leaky), (fst c02_leaky), "(eval '(panic! 1) (procedure-environment f))".
  exists (sched (rounds 1 1 200)
           ([eval_text_thread "(eval '(panic! 1) (procedure-environment f))" (fst c02_leaky)], snd c02_leaky)).
  split; [apply wf_after, wf_set_log, wf_sched, wf_initial|].
  split; [eexists; split; vm_compute; reflexivity|].
  split; [apply sched_psteps|]. apply entered_check; vm_compute; reflexivity.
Qed.

(** ** C03 The restricted flag is monotone *)
Theorem C03_restriction_permanent :
  forall ts s ts' s' l,
    wf_state s -> psteps (ts, s) (ts', s') -> is_restricted s l -> is_restricted s' l.
Proof.
  intros ts s ts' s' l wf Hs (e & He & Hr).
  destruct (envs_psteps (ts, s) (ts', s') wf Hs _ _ He) as (e' & He' & _ & Hr'). exists e'. auto.
Qed.
Print Assumptions C03_restriction_permanent.
(** An environment created while its parent is restricted is restricted. *)
Theorem C03_restriction_inherited :
  forall ts s ts' s' l e p,
    wf_state s -> pstep (ts, s) (ts', s') ->
    s_envs s !! l = None -> s_envs s' !! l = Some e -> e_parent e = Some p -> is_restricted s p ->
    is_restricted s' l.
Proof.
  intros ts s ts' s' l e p wf Hs H1 H2 H3 H4. exists e. split; [exact H2|].
  exact (inherit_pstep (ts, s) (ts', s') wf Hs _ _ _ H1 H2 H3 H4).
Qed.
Print Assumptions C03_restriction_inherited.
(** Environments are never moved below another parent. *)
Theorem C03_parent_permanent :
  forall ts s ts' s' l e,
    wf_state s -> psteps (ts, s) (ts', s') -> s_envs s !! l = Some e ->
    exists e', s_envs s' !! l = Some e' /\ e_parent e' = e_parent e.
Proof.
  intros ts s ts' s' l e wf Hs He. destruct (envs_psteps (ts, s) (ts', s') wf Hs _ _ He) as (e' & He' & Hp & _). eauto.
Qed.
Print Assumptions C03_parent_permanent.
(** Well-formedness, assumed above, holds at start-up and is kept by every execution. *)
Theorem C03_states_well_formed :
  (forall u o, wf_state (initial u o)) /\
  (forall ts s ts' s', wf_state s -> psteps (ts, s) (ts', s') -> wf_state s').
Proof. split; [exact wf_initial|]. intros ts s ts' s' H Hs. exact (wf_psteps (ts, s) (ts', s') H Hs). Qed.
Print Assumptions C03_states_well_formed.
Example C03_nonvacuous :
  is_restricted (snd c02_start) (fst c02_start) /\
  psteps (c02_threads, snd c02_start) c02_end /\
  exists l e, s_envs (snd c02_start) !! (l : loc) = None /\ s_envs (snd c02_end) !! l = Some e /\
    e_parent e = Some (fst c02_start).
Proof.
  split; [eexists; split; vm_compute; reflexivity|].
  split; [destruct c02_end eqn:E; rewrite <- E; apply sched_psteps|].
  exists (s_next (snd c02_start) + 29)%positive.
  eexists; split; [vm_compute; reflexivity|]. split; vm_compute; reflexivity.
Qed.

(** ** C04 Non-destructive code never changes existing data *)
Theorem C04_data_unchanged :
  forall ts s ts' s',
    wf_state s -> Forall host_thread ts -> psteps (ts, s) (ts', s') ->
    (forall n, In n writes_data -> ~ entered s s' n) ->
    (forall l x, s_cells s !! l = Some x -> s_cells s' !! l = Some x) /\
    (forall l x, s_strs s !! l = Some x -> s_strs s' !! l = Some x) /\
    (forall l x, s_bytes s !! l = Some x -> s_bytes s' !! l = Some x).
Proof.
  intros ts s ts' s' wf Ht Hs Hn.
  destruct (data_unchanged False True writes_data s ts ts' s' (or_intror (fun n h => h)) (or_introl I) wf Ht Hs Hn) as (H & _).
  exact (H (fun x => x)).
Qed.
Print Assumptions C04_data_unchanged.
Theorem C04_frames_unchanged :
  forall ts s ts' s',
    wf_state s -> Forall host_thread ts -> psteps (ts, s) (ts', s') ->
    (forall n, In n writes_frames -> ~ entered s s' n) ->
    forall l x, s_frames s !! l = Some x -> s_frames s' !! l = Some x.
Proof.
  intros ts s ts' s' wf Ht Hs Hn.
  destruct (data_unchanged True False writes_frames s ts ts' s' (or_introl I) (or_intror (fun n h => h)) wf Ht Hs Hn) as (_ & H & _).
  exact (H (fun x => x)).
Qed.
Print Assumptions C04_frames_unchanged.

(** Existing lists and frames, then code that sorts, maps, appends and redefines variables. *)
Definition c04_start : state :=
  set_log [] (snd (sched (rounds 1 1 1200)
    ([eval_text_thread "(define l '(3 1 2)) (define s ""abc"") (define fr {a: 1 b: '(4 5)})" 2%positive], start))).
Definition c04_threads : list thread :=
  [eval_text_thread "(map (lambda (x) (cons x l)) (append l (reverse l)))" 2%positive;
   eval_text_thread "(define l (sort l <)) (string-upcase s) (clone fr) (get-slot fr a:)" 2%positive].
Definition c04_end : pool := sched (rounds 40 2 60) (c04_threads, c04_start).
Example C04_nonvacuous :
  wf_state c04_start /\ Forall host_thread c04_threads /\ psteps (c04_threads, c04_start) c04_end /\
  (forall n, In n writes_data -> ~ entered c04_start (snd c04_end) n) /\
  (forall n, In n writes_frames -> ~ entered c04_start (snd c04_end) n) /\
  entered c04_start (snd c04_end) "sort" /\ entered c04_start (snd c04_end) "append" /\
  entered c04_start (snd c04_end) "clone" /\
  map_size (s_cells c04_start) <> 0%nat /\ map_size (s_frames c04_start) <> 0%nat.
Proof.
  split; [apply wf_set_log, wf_sched, wf_initial|]. split.
  { repeat first [apply List.Forall_nil|apply List.Forall_cons; [left; eexists _, _; reflexivity|]]. }
  split; [destruct c04_end eqn:E; rewrite <- E; apply sched_psteps|].
  split; [apply none_entered; vm_compute; reflexivity|]. split; [apply none_entered; vm_compute; reflexivity|].
  do 3 (split; [apply entered_check; vm_compute; reflexivity|]).
  split; vm_compute; discriminate.
Qed.

(** complement and intersection remove elements from a copy that shares the pairs of association lists, so they can
    change an existing one (finding): here [al] is bound to [((a . (2 3)))] and loses the 2. *)
Definition c04_alist : state :=
  set_log [] (snd (sched (rounds 1 1 1200)
    ([eval_text_thread "(define al (acons 'a '(2 3))) (define l (cons 1 (car al)))" 2%positive], start))).
Theorem C04_complement_refuted :
  exists s src c (l : loc) x, wf_state s /\ psteps ([eval_text_thread src 2%positive], s) c /\
    (forall n, In n writes_data -> n <> "complement" -> ~ entered s (snd c) n) /\
    s_cells s !! l = Some x /\ s_cells (snd c) !! l <> Some x.
Proof.
  exists c04_alist, "(complement l '(2))".
  exists (sched (rounds 1 1 1200) ([eval_text_thread "(complement l '(2))" 2%positive], c04_alist)).
  exists 379%positive. eexists.
  split; [apply wf_set_log, wf_sched, wf_initial|].
  split; [apply sched_psteps|].
  split.
  { intros n Hn Hc. revert n Hn Hc.
    assert (H : forall n, In n (List.filter (fun n => negb (String.eqb n "complement")) writes_data) ->
      ~ entered c04_alist (snd (sched (rounds 1 1 1200) ([eval_text_thread "(complement l '(2))" 2%positive], c04_alist))) n).
    { apply none_entered. vm_compute. reflexivity. }
    intros n Hn Hc. apply H. apply filter_In. split; [exact Hn|]. destruct (String.eqb_spec n "complement"); [contradiction|reflexivity]. }
  split; [vm_compute; reflexivity|]. vm_compute. discriminate.
Qed.
