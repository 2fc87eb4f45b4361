(** C37-C41: channels, processes, atomic integers and generated symbols under every interleaving.  [history c h c'] and
    the views [on_chan], [on_atom], [joins], ... of a history are in SpecConc, with the machines they are compared to. *)
From Verif Require Import ProofWf ProofList ProofConc ProofProc ProofChan ProofPerform ProofSchedule.
From stdpp Require Import list.
From Verif Require Import Data SpecConc.
Local Open Scope string_scope.
Local Open Scope list_scope.
Local Open Scope Z_scope.

(** * C37 *)
(** Whatever goroutines do, what they see of a channel is what the machine [chan_step] allows, and a waiting call
    can return as soon as the machine lets it. *)
Theorem C37_machine : forall cap l c h c', history c h c' -> wf_state (snd c) -> fresh_channel (snd c) l cap ->
  exists v, chan_steps cap new_channel (on_chan l h) v /\
  (forall i x t, nth_error (written v) i = Some (x, Some t) -> ~ In t (returned v) ->
     (i < length (asked v) + cap)%nat \/ kept_writes v <> None -> exists b s', step_op (OChanSendWait l t) (snd c') = Some (b, s')) /\
  (forall i t, nth_error (asked v) i = Some (Some t) -> ~ In t (returned v) ->
     (i < length (written v))%nat \/ kept_writes v <> None -> exists b s', step_op (OChanRecvWait l t) (snd c') = Some (b, s')).
Proof. exact chan_machine. Qed.
(** The i-th read gets the i-th accepted value: in order, and each once. *)
Theorem C37_fifo : forall cap l c h c' i r x, history c h c' -> wf_state (snd c) -> fresh_channel (snd c) l cap ->
  nth_error (requests (on_chan l h)) i = Some r -> served (on_chan l h) r x -> nth_error (accepted (on_chan l h)) i = Some x.
Proof. exact fifo_from. Qed.
Theorem C37_tickets : forall cap l c h c' i j t, history c h c' -> wf_state (snd c) -> fresh_channel (snd c) l cap ->
  nth_error (requests (on_chan l h)) i = Some (inr t) -> nth_error (requests (on_chan l h)) j = Some (inr t) -> i = j.
Proof. exact tickets_once. Qed.
(** A call that had to wait returns at most once. *)
Theorem C37_once : forall cap l c h c' es1 e es2 t, history c h c' -> wf_state (snd c) -> fresh_channel (snd c) l cap ->
  on_chan l h = es1 ++ e :: es2 -> (exists b, e = CWriteEnd t b) \/ (exists x, e = CReadEnd t x) ->
  forall e', In e' es1 -> (forall b, e' <> CWriteEnd t b) /\ (forall x, e' <> CReadEnd t x).
Proof. exact ends_once. Qed.
(** At most [cap] more writes have returned than reads were made. *)
Theorem C37_capacity : forall cap l c h c', history c h c' -> wf_state (snd c) -> fresh_channel (snd c) l cap ->
  (completed (on_chan l h) <= length (requests (on_chan l h)) + cap)%nat.
Proof. exact capacity_kept. Qed.
(** After the close, writes and closes fail and no read waits. *)
Theorem C37_after_close : forall cap l c h c' es1 es2, history c h c' -> wf_state (snd c) -> fresh_channel (snd c) l cap ->
  on_chan l h = es1 ++ CClose true :: es2 -> forall e, In e es2 -> closed_answer e.
Proof. exact after_close. Qed.
(** A read is told there is nothing more only after the close, and only when everything written has been asked for. *)
Theorem C37_end_of_stream : forall cap l c h c' es1 es2 x e, history c h c' -> wf_state (snd c) -> fresh_channel (snd c) l cap ->
  on_chan l h = es1 ++ e :: es2 -> (exists b, e = CRead b (Some (inl (x, false)))) \/ (exists t, e = CReadEnd t (x, false)) ->
  x = VNil /\ In (CClose true) es1 /\ (completed es1 <= length (requests es1))%nat.
Proof. exact over_read. Qed.
(** What each built-in does with these actions, whatever happens in between. *)
Theorem C37_make : forall n env h o, 0 <= n <= max_chan -> performs "make-channel" [VInt n] env h o ->
  exists l, h = [Did (OChanNew n) l] /\ o = Done (Ok (VChan l)).
Proof. exact make_channel_acts. Qed.
Theorem C37_make_default : forall env h o, performs "make-channel" [] env h o -> exists l, h = [Did (OChanNew 0) l] /\ o = Done (Ok (VChan l)).
Proof. exact make_channel_default. Qed.
Theorem C37_made_fresh : forall cap s l s', step_op (OChanNew (Z.of_nat cap)) s = Some (l, s') -> fresh_channel s' l cap.
Proof. exact new_channel_fresh. Qed.
Theorem C37_write : forall l v env h o, performs "channel-write" [VChan l; v] env h o ->
  (exists b, on_chan l h = [CWrite v true (Some (inl b))] /\ o = write_outcome b) \/
  (exists t b, on_chan l h = [CWrite v true (Some (inr t)); CWriteEnd t b] /\ o = write_outcome b).
Proof. exact channel_write_acts. Qed.
Theorem C37_read : forall l env h o, performs "channel-read" [VChan l] env h o ->
  exists x more r h', pair_made x more h' r /\ o = Done (Ok r) /\
   (h = Did (OChanRecv l true) (Some (inl (x, more))) :: h' \/
    exists t, h = Did (OChanRecv l true) (Some (inr t)) :: Did (OChanRecvWait l t) (x, more) :: h').
Proof. exact channel_read_acts. Qed.
Theorem C37_try_write : forall l v env h o, performs "channel-try-write" [VChan l; v] env h o ->
  (on_chan l h = [CWrite v false (Some (inl true))] /\ o = Done (Ok (VBool true))) \/
  (on_chan l h = [CWrite v false None] /\ o = Done (Ok (VBool false))) \/
  (on_chan l h = [CWrite v false (Some (inl false))] /\ o = Done (Err "channel-try-write tried to write to a closed channel.")).
Proof. exact channel_try_write_acts. Qed.
Theorem C37_try_read : forall l env h o, performs "channel-try-read" [VChan l] env h o ->
  exists got x more r h', triple_made got x more h' r /\ o = Done (Ok r) /\
   ((got = true /\ h = Did (OChanRecv l false) (Some (inl (x, more))) :: h') \/
    (got = false /\ x = VNil /\ more = true /\ h = Did (OChanRecv l false) None :: h')).
Proof. exact channel_try_read_acts. Qed.
Theorem C37_close : forall l env h o, performs "close-channel" [VChan l] env h o ->
  exists b, on_chan l h = [CClose b] /\ o = Done (if b : bool then Ok VNil else Err "channel-close tried to close a channel twice.").
Proof. exact channel_close_acts. Qed.

(** A writer and a reader sharing a channel of capacity 1: waiting writes, waiting reads, a close, a refused write. *)
Definition c37_pool : pool := ([eval_text_thread "(define c (make-channel 1)) (fork (lambda (p) (list (channel-read c) (channel-read c) (channel-read c) (channel-read c)))) (channel-write c 1) (channel-write c 2) (channel-try-write c 3) (close-channel c) (on-error (channel-write c 4) (lambda (e) e))" 2%positive], start).
Definition c37_begin : pool := until (fun s => match map_to_list (s_chans s) with [] => false | _ => true end) 400 c37_pool.
Definition c37_schedule : list nat := repeat 0%nat 800 ++ repeat 1%nat 600 ++ repeat 0%nat 500 ++ repeat 1%nat 500.
Example C37_cases :
  (wf_state (snd c37_begin) /\ fresh_channel (snd c37_begin) 372%positive 1) /\
  history c37_begin (trace c37_schedule c37_begin) (sched c37_schedule c37_begin) /\
  on_chan 372%positive (trace c37_schedule c37_begin) =
   [CWrite (VInt 1) true (Some (inl true)); CWrite (VInt 2) true (Some (inr 403%positive));
    CRead true (Some (inl (VInt 1, true))); CRead true (Some (inl (VInt 2, true))); CRead true (Some (inr 414%positive));
    CWriteEnd 403%positive true; CWrite (VInt 3) false (Some (inl true)); CClose true; CWrite (VInt 4) true (Some (inl false));
    CReadEnd 414%positive (VInt 3, true); CRead true (Some (inl (VNil, false)))] /\
  (exists h, performs "channel-read" [VChan 372%positive] 2%positive h (Done (Ok (VCell TCons 406%positive)))) /\
  (exists h, performs "channel-write" [VChan 372%positive; VInt 5] 2%positive h (write_outcome true)).
Proof.
  split; [eapply chan_sample; [reflexivity|vm_compute; reflexivity]|]. split; [apply trace_history|]. split; [vm_compute; reflexivity|]. split.
  - eexists. apply (performed_performs 50 _ _ _ (snd (sched (repeat 0%nat 800) c37_begin))). vm_compute. reflexivity.
  - eexists. apply (performed_performs 50 _ _ _ (snd c37_begin)). vm_compute. reflexivity.
Qed.

(** * C38 *)
(** A pool of host goroutines is orderly, stays so, and starting a process creates one that nobody joined yet. *)
Theorem C38_orderly : forall ps s, s_pending s = [] -> orderly (map TEval ps, s).
Proof. exact orderly_hosts. Qed.
Theorem C38_stays_orderly : forall c h c', history c h c' -> orderly c -> orderly c'.
Proof. exact orderly_history. Qed.
Theorem C38_forked : forall pre t post s t' s' p f args env, orderly (pre ++ t :: post, s) -> step_thread t s = Some (t', s') ->
  starts (thread_act t s) = [SpawnFork p f args env] ->
  just_started p (spawn_work (SpawnFork p f args env)) (pre ++ t' :: post ++ spawned s', set_pending [] s').
Proof. exact fork_started. Qed.
Theorem C38_fork : forall f args env h v, performs "fork" (VFun f :: args) env h (Done (Ok v)) ->
  exists p rest, v = VProc p /\ starts h = [SpawnFork p f rest env].
Proof. exact fork_acts. Qed.
(** Only the first of all attempts to join is let through. *)
Theorem C38_first_join : forall c h c' p w, history c h c' -> wf_state (snd c) -> just_started p w c ->
  joins p h = [] \/ exists n, joins p h = true :: repeat false n.
Proof. exact joins_shape. Qed.
(** At most one result is left, it is what the function of the process returned (nil after an error or a panic), and
    it is delivered at most once and unchanged. *)
Theorem C38_result : forall c h c' p f args env, history c h c' -> wf_state (snd c) -> just_started p (spawn_work (SpawnFork p f args env)) c ->
  (results p h = [] /\ delivered p h = []) \/
  exists v h', results p h = [v] /\ process_result p f args env h' v /\ (delivered p h = [] \/ delivered p h = [v]).
Proof. exact fork_result. Qed.
(** The final send of a process never blocks. *)
Theorem C38_send_free : forall c h c' p w v, history c h c' -> wf_state (snd c) -> just_started p w c -> In (TPut p v) (fst c') ->
  exists s', put_ret p v (snd c') = Some s'.
Proof. exact send_free. Qed.
(** Once the result is there, the join that was let through can take it. *)
Theorem C38_ready : forall c h c' p w v, history c h c' -> wf_state (snd c) -> just_started p w c -> results p h = [v] -> delivered p h = [] ->
  exists s', step_op (OProcTakeRet p) (snd c') = Some (v, s').
Proof. exact result_ready. Qed.
(** join returns the value delivered to it, or refuses; on the caller's own process it answers nil at once. *)
Theorem C38_join : forall p env h o, performs "join" [VProc p] env h o ->
  (joins p h = [] /\ delivered p h = [] /\ (o = Done (Ok VNil) \/ exists w, o = Panicked w)) \/
  (joins p h = [false] /\ delivered p h = [] /\ o = Done (Err "tried to join on a task twice")) \/
  (exists v, joins p h = [true] /\ delivered p h = [v] /\ o = Done (Ok v)).
Proof. exact join_acts. Qed.

Definition c38_begin : pool := sched_step 0 (sched (repeat 0%nat 111) (map TEval
  [parse_and_eval_all "(define p (fork (lambda (p n) (* n 2)) 21)) (list (join p) (on-error (join p) (lambda (e) e)))" 2%positive], initial ascii_uni [])).
Definition c38_schedule : list nat := repeat 0%nat 300 ++ repeat 1%nat 300 ++ repeat 0%nat 300.
Example C38_cases :
  (orderly c38_begin /\ wf_state (snd c38_begin) /\
   just_started 384%positive (spawn_work (SpawnFork 384%positive 382%positive (VCell TCons 383%positive) 2%positive)) c38_begin) /\
  history c38_begin (trace c38_schedule c38_begin) (sched c38_schedule c38_begin) /\
  (let h := trace c38_schedule c38_begin in
   joins 384%positive h = [true; false] /\ results 384%positive h = [VInt 42] /\ delivered 384%positive h = [VInt 42]) /\
  (let c := sched c38_schedule c38_begin in map (fun t => show_thread t (snd c)) (firstn 1 (fst c)) = ["(42 ""tried to join on a task twice"")"]) /\
  (let h := trace (repeat 0%nat 300 ++ repeat 1%nat 300) c38_begin in results 384%positive h = [VInt 42] /\ delivered 384%positive h = []).
Proof.
  split; [eapply (proc_sample _ _ _ _ (SpawnFork _ _ _ _)); vm_compute; reflexivity|].
  split; [apply trace_history|]. repeat apply conj; vm_compute; reflexivity.
Qed.

(** * C39 *)
Theorem C39_started : forall pre t post s t' s' p f args env, orderly (pre ++ t :: post, s) -> step_thread t s = Some (t', s') ->
  starts (thread_act t s) = [SpawnSched p f args env] ->
  just_started p (spawn_work (SpawnSched p f args env)) (pre ++ t' :: post ++ spawned s', set_pending [] s').
Proof. exact scheduled_started. Qed.
Theorem C39_schedule : forall n f args env h v, performs "schedule" (VInt n :: VFun f :: args) env h (Done (Ok v)) ->
  exists p rest, v = VProc p /\ starts h = [SpawnSched p f rest env].
Proof. exact schedule_acts. Qed.
(** All a scheduled process ever does: it starts waiting again some number of times; then it either received the abort,
    and the result is nil without the function being called, or the timer fired, and the function is called once. *)
Theorem C39_at_most_once : forall c h c' p f args env, history c h c' -> wf_state (snd c) -> just_started p (spawn_work (SpawnSched p f args env)) c ->
  (results p h = [] /\ delivered p h = []) \/
  exists v n rest, results p h = [v] /\ (delivered p h = [] \/ delivered p h = [v]) /\
    prog_run (spawn_work (SpawnSched p f args env)) (repeat (Did (OProcSelect p) 1) n ++ rest) v /\
    ((rest = [Did (OProcSelect p) 0] /\ v = VNil) \/
     exists c h', c <> 0 /\ c <> 1 /\ rest = Did (OProcSelect p) c :: h' /\ process_result p f args env h' v).
Proof. exact scheduled_result. Qed.
(** Also while it is still at work: after the timer it behaves like a forked call of the function. *)
Theorem C39_progress : forall p f args env h q, prog_path (spawn_work (SpawnSched p f args env)) h q ->
  exists n rest, h = repeat (Did (OProcSelect p) 1) n ++ rest /\
   ((rest = [] /\ finished q = None) \/
    (rest = [Did (OProcSelect p) 0] /\ finished q = Some (Done VNil)) \/
    (exists c h' q', c <> 0 /\ c <> 1 /\ rest = Did (OProcSelect p) c :: h' /\ prog_path (spawn_work (SpawnFork p f args env)) h' q' /\ finished q = finished q')).
Proof. exact scheduled_progress. Qed.
(** A signal is only received after it was sent, and signals that were not received yet count as one. *)
Theorem C39_signal_sent : forall c h c' p w, history c h c' -> wf_state (snd c) -> just_started p w c ->
  forall k es1 es2, on_proc p h = es1 ++ Got k :: es2 -> In (Sent k) es1.
Proof. exact signal_first. Qed.
Theorem C39_coalesce : forall c h c' p r, history c h c' -> wf_state (snd c) -> s_procs (snd c) !! p = Some r ->
  forall k es1 es2 es3, on_proc p h = es1 ++ Got k :: es2 ++ Got k :: es3 -> In (Sent k) es2.
Proof. exact signal_between. Qed.
Theorem C39_wake : forall p env h o, performs "wake" [VProc p] env h o -> on_proc p h = [Sent Wake] /\ exists l, o = Done (Ok (VStr l)).
Proof. exact wake_acts. Qed.
Theorem C39_sleep : forall p n env h o, performs "proc-sleep" [VProc p; VInt n] env h o ->
  exists b : bool, on_proc p h = (if b then [Got Wake] else []) /\ o = Done (Ok (VBool b)).
Proof. exact sleep_acts. Qed.
Theorem C39_abandon : forall p env h o, performs "abandon" [VProc p] env h o ->
  (on_proc p h = [Sent Abandon] /\ exists l, o = Done (Ok (VStr l))) \/ (on_proc p h = [] /\ o = Done (Err "tried to adandon a Process that isn't scheduled")).
Proof. exact abandon_acts. Qed.
Theorem C39_reset : forall p env h o, performs "reset-timeout" [VProc p] env h o ->
  (on_proc p h = [Sent Restart] /\ exists l, o = Done (Ok (VStr l))) \/ (on_proc p h = [] /\ o = Done (Err "tried to reset a Process that isn't scheduled")).
Proof. exact reset_acts. Qed.

(** What the code does not keep: reset-timeout answers OK, "the task is waiting again", after the task has already run
    and been joined (prim_concurrency.go:241: the restart channel has room for one signal that nobody will receive). *)
Definition c39_begin : pool := sched_step 0 (sched (repeat 0%nat 99) (map TEval
  [parse_and_eval_all "(define p (schedule 10 (lambda (p) 7))) (list (join p) (reset-timeout p))" 2%positive], initial ascii_uni [])).
Definition c39_schedule : list nat := repeat 0%nat 300 ++ repeat 1%nat 300 ++ repeat 0%nat 300.
Definition c39_abandoned : pool := sched_step 0 (sched (repeat 0%nat 99) (map TEval
  [parse_and_eval_all "(define p (schedule 10 (lambda (p) 7))) (reset-timeout p) (abandon p) (join p)" 2%positive], initial ascii_uni [1; 0])).
Theorem C39_reset_refuted : exists h c, history c39_begin h c /\ just_started 379%positive (spawn_work (SpawnSched 379%positive 378%positive VNil 2%positive)) c39_begin /\
  results 379%positive h = [VInt 7] /\ delivered 379%positive h = [VInt 7] /\
  map (fun t => show_thread t (snd c)) (firstn 1 (fst c)) = ["(7 ""OK"")"].
Proof.
  exists (trace c39_schedule c39_begin), (sched c39_schedule c39_begin). split; [apply trace_history|].
  split; [eapply (proc_sample _ _ _ _ (SpawnSched _ _ _ _)); vm_compute; reflexivity|]. repeat apply conj; vm_compute; reflexivity.
Qed.
Example C39_cases :
  (orderly c39_abandoned /\ wf_state (snd c39_abandoned) /\
   just_started 379%positive (spawn_work (SpawnSched 379%positive 378%positive VNil 2%positive)) c39_abandoned) /\
  (let h := trace c39_schedule c39_abandoned in
   on_proc 379%positive h = [Sent Restart; Sent Abandon; Got Restart; Got Abandon] /\ results 379%positive h = [VNil] /\ delivered 379%positive h = [VNil]) /\
  (exists h l, performs "wake" [VProc 379%positive] 2%positive h (Done (Ok (VStr l)))) /\
  (exists h, performs "proc-sleep" [VProc 379%positive; VInt 5] 2%positive h (Done (Ok (VBool false)))).
Proof.
  split; [eapply (proc_sample _ _ _ _ (SpawnSched _ _ _ _)); vm_compute; reflexivity|]. split; [repeat apply conj; vm_compute; reflexivity|]. split.
  - eexists _, _. apply (performed_performs 50 _ _ _ (snd c39_abandoned)). vm_compute. reflexivity.
  - eexists. apply (performed_performs 50 _ _ _ (snd c39_abandoned)). vm_compute. reflexivity.
Qed.

(** * C40 *)
(** The actions on an atomic integer, in the order in which they happened, form a run of a single integer. *)
Theorem C40_linear : forall c h c' l z, history c h c' -> wf_state (snd c) -> s_atoms (snd c) !! l = Some z ->
  exists z', s_atoms (snd c') !! l = Some z' /\ one_at_a_time z (on_atom l h) z'.
Proof. exact atom_history. Qed.
Theorem C40_additions : forall c h c' l z, history c h c' -> wf_state (snd c) -> s_atoms (snd c) !! l = Some z ->
  forall ds, additions (on_atom l h) ds -> exists z', s_atoms (snd c') !! l = Some z' /\ (z' - (z + sum ds)) mod 2 ^ 64 = 0.
Proof. exact atom_sum. Qed.
(** Each built-in is one such action, and returns its answer. *)
Theorem C40_load : forall l env h o, performs "atomic-load" [VAtomic l] env h o -> exists r, on_atom l h = [ALoad r] /\ o = Done (Ok (VInt r)).
Proof. exact atomic_load_acts. Qed.
Theorem C40_store : forall l z env h o, performs "atomic-store!" [VAtomic l; VInt z] env h o -> on_atom l h = [AStore z] /\ o = Done (Ok VNil).
Proof. exact atomic_store_acts. Qed.
Theorem C40_add : forall l z env h o, performs "atomic-add!" [VAtomic l; VInt z] env h o -> exists r, on_atom l h = [AAdd z r] /\ o = Done (Ok (VInt r)).
Proof. exact atomic_add_acts. Qed.
Theorem C40_swap : forall l z env h o, performs "atomic-swap!" [VAtomic l; VInt z] env h o -> exists r, on_atom l h = [ASwap z r] /\ o = Done (Ok (VInt r)).
Proof. exact atomic_swap_acts. Qed.
Theorem C40_compare_and_swap : forall l e z env h o, performs "atomic-compare-and-swap!" [VAtomic l; VInt e; VInt z] env h o ->
  exists r, on_atom l h = [ACas e z r] /\ o = Done (Ok (VBool r)).
Proof. exact atomic_cas_acts. Qed.
Definition c40_begin : pool := until (fun s => match map_to_list (s_atoms s) with [] => false | _ => true end) 400
  ([eval_text_thread "(define a (atomic 5)) (define (bump p) (atomic-add! a 10) (atomic-add! a 1)) (fork bump) (fork bump)" 2%positive], start).
Definition c40_schedule : list nat := repeat 0%nat 500 ++ List.concat (repeat [1%nat; 2%nat] 300).
Example C40_cases :
  wf_state (snd c40_begin) /\ (s_atoms (snd c40_begin) !! (372%positive : loc) = Some 5) /\
  history c40_begin (trace c40_schedule c40_begin) (sched c40_schedule c40_begin) /\
  on_atom 372%positive (trace c40_schedule c40_begin) = [AAdd 10 15; AAdd 10 25; AAdd 1 26; AAdd 1 27] /\
  additions (on_atom 372%positive (trace c40_schedule c40_begin)) [10; 10; 1; 1] /\
  (exists h, performs "atomic-compare-and-swap!" [VAtomic 372%positive; VInt 5; VInt 6] 2%positive h (Done (Ok (VBool true)))).
Proof.
  split; [apply wf_until, wf_pool|]. split; [vm_compute; reflexivity|]. split; [apply trace_history|].
  assert (E : on_atom 372%positive (trace c40_schedule c40_begin) = [AAdd 10 15; AAdd 10 25; AAdd 1 26; AAdd 1 27]) by (vm_compute; reflexivity).
  rewrite E. split; [reflexivity|]. split; [repeat constructor; eauto|].
  eexists. apply (performed_performs 50 _ _ _ (snd c40_begin)). vm_compute. reflexivity.
Qed.

(** * C41 *)
(** The names made from any two answers of the generator differ, whatever the prefixes (which may end in -digits),
    for every history of any number of goroutines. *)
Theorem C41_distinct : forall c h c', history c h c' -> wf_state (snd c) -> (forall p n, alookup p (s_gensyms (snd c)) = Some n -> 0 <= n) ->
  forall i j a b ka kb, nth_error (on_gensym h) i = Some a -> nth_error (on_gensym h) j = Some b -> i <> j -> symbol_name ka a <> symbol_name kb b.
Proof. exact gensym_names. Qed.
(** gensym and gensym-naked return the symbol made from one answer. *)
Theorem C41_calls : forall (naked : bool) vs env h v, performs (if naked then "gensym-naked" else "gensym") vs env h (Done (Ok v)) ->
  exists a, on_gensym h = [a] /\ v = VSym (symbol_name naked a).
Proof. exact gensym_acts. Qed.
(** Not promised: a program can write the symbol itself. *)
Theorem C41_user_symbol_refuted : show 60 "(eq? 'GENSYM-0 (gensym))" start = Some (Done (Ok "#t")).
Proof. vm_compute. reflexivity. Qed.
Definition c41_pool : pool := ([eval_text_thread "(gensym) (gensym ""GENSYM-0"") (gensym-naked)" 2%positive; eval_text_thread "(gensym 'GENSYM) (gensym ""GENSYM-0"")" 2%positive], start).
Example C41_cases :
  wf_state (snd c41_pool) /\ (forall p n, alookup p (s_gensyms (snd c41_pool)) = Some n -> 0 <= n) /\
  (let h := trace (rounds 40 2 10) c41_pool in history c41_pool h (sched (rounds 40 2 10) c41_pool) /\
   map (symbol_name false) (on_gensym h) = ["GENSYM-0"; "GENSYM-0-0"; "GENSYM-1"; "GENSYM-2"; "GENSYM-0-1"]) /\
  (exists h, performs "gensym-naked" [] 2%positive h (Done (Ok (VSym "GENSYM-0:")))).
Proof.
  split; [apply wf_pool|]. split; [exact start_gensym_counts|]. split; [split; [apply trace_history|vm_compute; reflexivity]|].
  eexists. apply (performed_performs 50 _ _ _ start). vm_compute. reflexivity.
Qed.

Print Assumptions C37_machine. Print Assumptions C37_fifo. Print Assumptions C37_tickets. Print Assumptions C37_once. Print Assumptions C37_capacity.
Print Assumptions C37_after_close. Print Assumptions C37_end_of_stream. Print Assumptions C37_make. Print Assumptions C37_make_default.
Print Assumptions C37_made_fresh. Print Assumptions C37_write. Print Assumptions C37_read. Print Assumptions C37_try_write.
Print Assumptions C37_try_read. Print Assumptions C37_close.
Print Assumptions C38_orderly. Print Assumptions C38_stays_orderly. Print Assumptions C38_forked. Print Assumptions C38_fork.
Print Assumptions C38_first_join. Print Assumptions C38_result. Print Assumptions C38_send_free. Print Assumptions C38_ready. Print Assumptions C38_join.
Print Assumptions C39_started. Print Assumptions C39_schedule. Print Assumptions C39_at_most_once. Print Assumptions C39_progress.
Print Assumptions C39_signal_sent. Print Assumptions C39_coalesce. Print Assumptions C39_wake. Print Assumptions C39_sleep.
Print Assumptions C39_abandon. Print Assumptions C39_reset. Print Assumptions C39_reset_refuted.
Print Assumptions C40_linear. Print Assumptions C40_additions. Print Assumptions C40_load. Print Assumptions C40_store. Print Assumptions C40_add.
Print Assumptions C40_swap. Print Assumptions C40_compare_and_swap. Print Assumptions C41_distinct. Print Assumptions C41_calls.
Print Assumptions C41_user_symbol_refuted.
