(** The last pieces of C37-C41, and schedules to show that their hypotheses are met. *)
From Verif Require Import ProofWf ProofAccess RunFacts ProofConc ProofProc ProofChan ProofPerform ProofList.
From stdpp Require Import list.
From Verif Require Import Data.
From Verif Require Export SpecConc.
Local Open Scope string_scope.
Local Open Scope list_scope.
Local Open Scope Z_scope.

(** *** Channels *)
Lemma chan_machine cap l c h c' : history c h c' -> wf_state (snd c) -> fresh_channel (snd c) l cap ->
  exists v, chan_steps cap new_channel (on_chan l h) v /\
  (forall i x t, nth_error (written v) i = Some (x, Some t) -> ~ In t (returned v) ->
     (i < length (asked v) + cap)%nat \/ kept_writes v <> None -> exists b s', step_op (OChanSendWait l t) (snd c') = Some (b, s')) /\
  (forall i t, nth_error (asked v) i = Some (Some t) -> ~ In t (returned v) ->
     (i < length (written v))%nat \/ kept_writes v <> None -> exists b s', step_op (OChanRecvWait l t) (snd c') = Some (b, s')).
Proof.
  intros H W Hf. destruct (chan_follow _ _ _ _ _ H W Hf) as (v & O & St). exists v. split; [exact St|]. split.
  - intros i x t. apply (write_resumes cap l (snd c') v i x t O).
  - intros i t. apply (read_resumes cap l (snd c') v i t O).
Qed.
Lemma ended_returned cap es v t : chan_steps cap new_channel es v -> (exists b, In (CWriteEnd t b) es) \/ (exists x, In (CReadEnd t x) es) -> In t (returned v).
Proof.
  intros H. remember new_channel as v0 eqn:E0. induction H as [|v es v1 e v' H IH Hs]; subst; [intros [(b & [])|(b & [])]|].
  intros Hi. destruct (chan_step_grow _ _ _ _ Hs) as (_ & _ & E3).
  destruct Hi as [(b & Hi)|(b & Hi)]; (apply in_app_or in Hi; destruct Hi as [Hi|[->|[]]]; [apply E3, IH; eauto|]); inversion Hs; subst; left; reflexivity.
Qed.
Lemma ends_once cap l c h c' es1 e es2 t : history c h c' -> wf_state (snd c) -> fresh_channel (snd c) l cap ->
  on_chan l h = es1 ++ e :: es2 -> (exists b, e = CWriteEnd t b) \/ (exists x, e = CReadEnd t x) ->
  forall e', In e' es1 -> (forall b, e' <> CWriteEnd t b) /\ (forall x, e' <> CReadEnd t x).
Proof.
  intros H W Hf E He. destruct (chan_follow _ _ _ _ _ H W Hf) as (v & _ & St). rewrite E in St.
  change (es1 ++ e :: es2) with (es1 ++ [e] ++ es2) in St.
  destruct (css_split _ _ _ _ _ St) as (v1 & S1 & S2). destruct (css_split _ _ _ _ _ S2) as (v2 & S3 & S4). apply css_one_inv in S3.
  assert (N : ~ In t (returned v1)) by (destruct He as [(b & ->)|(x & ->)]; inversion S3; subst; assumption).
  intros e' Hi. split; intros b ->; apply N; eapply ended_returned; eauto.
Qed.
Lemma tickets_once cap l c h c' i j t : history c h c' -> wf_state (snd c) -> fresh_channel (snd c) l cap ->
  nth_error (requests (on_chan l h)) i = Some (inr t) -> nth_error (requests (on_chan l h)) j = Some (inr t) -> i = j.
Proof.
  intros H W Hf Hi Hj. destruct (chan_follow _ _ _ _ _ H W Hf) as (v & (cr & _ & F) & St). destruct (steps_requests _ _ _ St) as [_ Q].
  destruct (Q _ _ Hi) as (o & H1 & ->). destruct (Q _ _ Hj) as (o & H2 & ->). exact (fo_runiq _ _ _ _ F _ _ _ H1 H2).
Qed.

(** *** Processes *)
Lemma orderly_hosts ps s : s_pending s = [] -> orderly (map TEval ps, s).
Proof. intros E. split; [exact E|]. cbn [fst]. replace (owners (map TEval ps)) with (@nil loc); [constructor|]. induction ps as [|p ps IH]; [reflexivity|exact IH]. Qed.
Lemma joins_shape c h c' p w : history c h c' -> wf_state (snd c) -> just_started p w c ->
  joins p h = [] \/ exists n, joins p h = true :: repeat false n.
Proof. intros H W J. destruct (proc_history _ _ _ _ _ H W J) as (_ & r & _ & [(E & _)|(n & E & _)] & _); eauto. Qed.
Lemma one_result c h c' p w : history c h c' -> wf_state (snd c) -> just_started p w c ->
  (results p h = [] /\ delivered p h = []) \/
  exists v h' q, results p h = [v] /\ prog_path w h' q /\ ends q v /\ (delivered p h = [] \/ delivered p h = [v]).
Proof.
  intros H W J. destruct (proc_history _ _ _ _ _ H W J) as (_ & r & _ & _ & [(_ & _ & R & D & _)|(_ & v & h' & q & P & E & R & D)]); [auto|].
  right. exists v, h', q. split; [exact R|]. split; [exact P|]. split; [exact E|]. destruct D as [(D & _)|(D & _)]; auto.
Qed.
Lemma fork_result c h c' p f args env : history c h c' -> wf_state (snd c) -> just_started p (spawn_work (SpawnFork p f args env)) c ->
  (results p h = [] /\ delivered p h = []) \/
  exists v h', results p h = [v] /\ process_result p f args env h' v /\ (delivered p h = [] \/ delivered p h = [v]).
Proof.
  intros H W J. destruct (one_result _ _ _ _ _ H W J) as [E|(v & h' & q & R & P & E & D)]; [auto|]. right. exists v, h'.
  split; [exact R|]. split; [|exact D]. eapply process_ends; [exact P|exact E].
Qed.
Lemma scheduled_result c h c' p f args env : history c h c' -> wf_state (snd c) -> just_started p (spawn_work (SpawnSched p f args env)) c ->
  (results p h = [] /\ delivered p h = []) \/
  exists v n rest, results p h = [v] /\ (delivered p h = [] \/ delivered p h = [v]) /\
    prog_run (spawn_work (SpawnSched p f args env)) (repeat (Did (OProcSelect p) 1) n ++ rest) v /\
    ((rest = [Did (OProcSelect p) 0] /\ v = VNil) \/
     exists c h', c <> 0 /\ c <> 1 /\ rest = Did (OProcSelect p) c :: h' /\ process_result p f args env h' v).
Proof.
  intros H W J. destruct (one_result _ _ _ _ _ H W J) as [E|(v & h' & q & R & P & E & D)]; [auto|]. right.
  destruct (scheduled_ends _ _ _ _ _ _ _ P E) as (n & rest & -> & C). exists v, n, rest. split; [exact R|]. split; [exact D|]. split; [exists q; auto|exact C].
Qed.
Lemma send_free c h c' p w v : history c h c' -> wf_state (snd c) -> just_started p w c -> In (TPut p v) (fst c') -> exists s', put_ret p v (snd c') = Some s'.
Proof.
  intros H W J Hi. destruct (proc_history _ _ _ _ _ H W J) as (_ & r & Hr & _ & [(_ & _ & _ & _ & N)|(Z & _)]).
  - unfold put_ret, proc_at. rewrite Hr. cbn. rewrite N. eauto.
  - exfalso. exact (zero_owner_out _ _ _ Z Hi eq_refl).
Qed.
Lemma result_ready c h c' p w v : history c h c' -> wf_state (snd c) -> just_started p w c -> results p h = [v] -> delivered p h = [] ->
  exists s', step_op (OProcTakeRet p) (snd c') = Some (v, s').
Proof.
  intros H W J R D. destruct (proc_history _ _ _ _ _ H W J) as (_ & r & Hr & _ & [(_ & _ & R' & _)|(_ & v' & h' & q & _ & _ & R' & [(_ & E)|(D' & _)])]).
  - congruence.
  - rewrite R in R'. injection R' as ->. cbn. unfold proc_at. rewrite Hr. cbn. rewrite E. eauto.
  - congruence.
Qed.

(** *** Histories of executable schedules *)
Definition sched_acts (i : nat) (c : pool) : list act :=
  match nth_error (fst c) i with
  | Some t => match step_thread t (snd c) with Some _ => thread_act t (snd c) | None => [] end
  | None => []
  end.
Fixpoint trace (l : list nat) (c : pool) : list act := match l with [] => [] | i :: r => sched_acts i c ++ trace r (sched_step i c) end.
Lemma list_set_app {A} (pre : list A) x y post : list_set (pre ++ x :: post) (length pre) y = pre ++ y :: post.
Proof. induction pre as [|z pre IH]; cbn; [reflexivity|]. f_equal. exact IH. Qed.
Lemma trace_history l : forall c, history c (trace l c) (sched l c).
Proof.
  induction l as [|i l IH]; intros c; cbn [trace sched]; [constructor|]. eapply history_trans; [|apply IH].
  destruct c as [ts s]. unfold sched_acts, sched_step. cbn [fst snd]. destruct (nth_error ts i) as [t|] eqn:E; [|constructor].
  destruct (step_thread t s) as [[t' s']|] eqn:Et; [|constructor].
  destruct (nth_error_split _ _ E) as (pre & post & -> & <-). rewrite list_set_app, <- app_assoc. cbn [app].
  exact (h_step _ [] pre t post s t' s' (h_start _) Et).
Qed.
(** Run goroutine 0 until the state is as wished. *)
Fixpoint until (f : state -> bool) (n : nat) (c : pool) : pool :=
  match n with O => c | S k => if f (snd c) then c else until f k (sched_step 0 c) end.
Lemma until_psteps f n : forall c, psteps c (until f n c).
Proof.
  induction n as [|n IH]; intros c; cbn [until]; [apply psteps_refl|]. destruct (f (snd c)); [apply psteps_refl|].
  eapply psteps_trans; [|apply IH]. exact (sched_psteps [0%nat] c).
Qed.
(** A program run on its own. *)
Fixpoint alone {A} (n : nat) (q : prog A) (s : state) : list act * (prog A * state) :=
  match n with
  | O => ([], (q, s))
  | S k => match step_prog q s with
           | Some (q', s') => let r := alone k q' s' in (prog_act q s ++ fst r, snd r)
           | None => ([], (q, s))
           end
  end.
Lemma path_trans A (q : prog A) h q1 h' q2 : prog_path q h q1 -> prog_path q1 h' q2 -> prog_path q (h ++ h') q2.
Proof. intros H1 H2. induction H2; [rewrite app_nil_r; exact H1|]. rewrite app_assoc. eapply path_step; eassumption. Qed.
Lemma alone_path A n : forall (q : prog A) s, prog_path q (fst (alone n q s)) (fst (snd (alone n q s))).
Proof.
  induction n as [|n IH]; intros q s; cbn [alone]; [constructor|]. destruct (step_prog q s) as [[q' s']|] eqn:E; [|constructor].
  cbn [fst snd]. eapply path_trans; [|apply IH]. exact (path_step q [] q s q' s' (path_start q) E).
Qed.
Lemma performs_alone name vs env n s p o : table name = Some p -> finished (fst (snd (alone n (p_body p vs env) s))) = Some o ->
  performs name vs env (fst (alone n (p_body p vs env) s)) o.
Proof. intros T F. destruct (table_in _ _ T) as [I N]. exists p. eexists. split; [exact I|]. split; [exact N|]. split; [apply alone_path|exact F]. Qed.
(** Checks on the outcome of [alone]. *)
Definition performed (n : nat) (name : string) (vs : list val) (env : loc) (s : state) : option (list act * outcome (res val)) :=
  match table name with
  | Some p => let r := alone n (p_body p vs env) s in match finished (fst (snd r)) with Some o => Some (fst r, o) | None => None end
  | None => None
  end.
Lemma performed_performs n name vs env s h o : performed n name vs env s = Some (h, o) -> performs name vs env h o.
Proof.
  unfold performed. destruct (table name) as [p|] eqn:T; [|discriminate]. intros E. cbn zeta in E.
  destruct (finished (fst (snd (alone n (p_body p vs env) s)))) as [o'|] eqn:F; [|discriminate].
  injection E as <- <-. eapply performs_alone; eassumption.
Qed.
Lemma sched_start i c r : orderly c -> starts (sched_acts i c) = [r] -> just_started (spawn_process r) (spawn_work r) (sched_step i c).
Proof.
  destruct c as [ts s]. unfold sched_acts, sched_step. cbn [fst snd]. intros O. destruct (nth_error ts i) as [t|] eqn:E; [|discriminate].
  destruct (step_thread t s) as [[t' s']|] eqn:Et; [|discriminate]. intros R.
  destruct (nth_error_split _ _ E) as (pre & post & -> & <-). rewrite list_set_app, <- app_assoc. cbn [app]. eapply start_step; eassumption.
Qed.
Lemma sched_orderly l ps s : s_pending s = [] -> orderly (sched l (map TEval ps, s)).
Proof. intros E. eapply orderly_history; [apply trace_history|apply orderly_hosts, E]. Qed.
Lemma reset_acts p env h o : performs "reset-timeout" [VProc p] env h o ->
  (on_proc p h = [Sent Restart] /\ exists l, o = Done (Ok (VStr l))) \/ (on_proc p h = [] /\ o = Done (Err "tried to reset a Process that isn't scheduled")).
Proof.
  intros H. call_of H. destruct (goes_vis _ _ _ _ _ _ G) as (b & h2 & _ & _ & _ & -> & G2). destruct b.
  - destruct (goes_vis _ _ _ _ _ _ G2) as (u & h3 & _ & _ & _ & -> & G3). destruct (goes_vis _ _ _ _ _ _ G3) as (l & h4 & _ & _ & _ & -> & G4).
    destruct (goes_ret _ _ _ _ G4) as [-> ->]. left. unfold on_proc. cbn. rewrite on_here. eauto.
  - destruct (goes_ret _ _ _ _ G2) as [-> ->]. right. auto.
Qed.
Lemma fork_started pre t post s t' s' p f args env : orderly (pre ++ t :: post, s) -> step_thread t s = Some (t', s') ->
  starts (thread_act t s) = [SpawnFork p f args env] ->
  just_started p (spawn_work (SpawnFork p f args env)) (pre ++ t' :: post ++ spawned s', set_pending [] s').
Proof. intros O E S1. exact (start_step _ _ _ _ _ _ _ O E S1). Qed.
Lemma scheduled_started pre t post s t' s' p f args env : orderly (pre ++ t :: post, s) -> step_thread t s = Some (t', s') ->
  starts (thread_act t s) = [SpawnSched p f args env] ->
  just_started p (spawn_work (SpawnSched p f args env)) (pre ++ t' :: post ++ spawned s', set_pending [] s').
Proof. intros O E S1. exact (start_step _ _ _ _ _ _ _ O E S1). Qed.
Lemma atom_sum c h c' l z : history c h c' -> wf_state (snd c) -> s_atoms (snd c) !! l = Some z ->
  forall ds, additions (on_atom l h) ds -> exists z', s_atoms (snd c') !! l = Some z' /\ (z' - (z + sum ds)) mod 2 ^ 64 = 0.
Proof. intros H W Hz ds A. destruct (atom_history _ _ _ _ _ H W Hz) as (z' & E & O). exists z'. split; [exact E|]. eapply oat_sum; eassumption. Qed.
Lemma start_gensyms : s_gensyms start = [].
Proof. vm_compute. reflexivity. Qed.
Lemma start_pending : s_pending start = [].
Proof. vm_compute. reflexivity. Qed.
Lemma start_gensym_counts : forall p n, alookup p (s_gensyms start) = Some n -> 0 <= n.
Proof. intros p n. rewrite start_gensyms. discriminate. Qed.
(** Boolean checks for examples. *)
Definition fresh_channelb (l : loc) (cap : Z) (s : state) : bool :=
  match s_chans s !! l with Some (Chan z [] false [] [] [] []) => z =? cap | _ => false end.
Lemma fresh_channelb_ok l cap s : fresh_channelb l (Z.of_nat cap) s = true -> fresh_channel s l cap.
Proof.
  unfold fresh_channelb, fresh_channel. destruct (s_chans s !! l) as [[z [] [] [] [] [] []]|]; try discriminate.
  intros E. apply Z.eqb_eq in E. subst. reflexivity.
Qed.
Definition show_thread (t : thread) (s : state) : string :=
  match t with
  | TEval q => match finished q with Some (Done (Ok v)) => match run denote 40 (call (RString v)) s with Some (Done x, _) => x | _ => "?" end | Some (Done (Err m)) => "error: " +++ m | _ => "?" end
  | _ => "?"
  end.
Lemma scheduled_progress p f args env h q : prog_path (spawn_work (SpawnSched p f args env)) h q ->
  exists n rest, h = repeat (Did (OProcSelect p) 1) n ++ rest /\
   ((rest = [] /\ finished q = None) \/
    (rest = [Did (OProcSelect p) 0] /\ finished q = Some (Done VNil)) \/
    (exists c h' q', c <> 0 /\ c <> 1 /\ rest = Did (OProcSelect p) c :: h' /\ prog_path (spawn_work (SpawnFork p f args env)) h' q' /\ finished q = finished q')).
Proof.
  intros H. destruct (scheduled_path _ _ _ _ _ _ H) as (n & rest & -> & C). exists n, rest. split; [reflexivity|].
  destruct C as [C|[C|(c & h' & q' & C0 & C1 & -> & P & Sm)]]; [auto|auto|]. right. right. exists c, h', q'.
  repeat apply conj; auto. exact (same_finished _ _ _ Sm).
Qed.
Lemma wf_until f n c : wf_state (snd c) -> wf_state (snd (until f n c)).
Proof. intros W. exact (wf_psteps _ _ W (until_psteps f n c)). Qed.
Lemma wf_schedule l c : wf_state (snd c) -> wf_state (snd (sched l c)).
Proof. intros W. exact (wf_psteps _ _ W (sched_psteps l c)). Qed.
Lemma wf_pool (ts : list thread) : wf_state (snd (ts, start)).
Proof. exact wf_start. Qed.
Lemma chan_sample c l cap f n L : c = until f n (L, start) -> fresh_channelb l (Z.of_nat cap) (snd c) = true -> wf_state (snd c) /\ fresh_channel (snd c) l cap.
Proof. intros -> E. split; [apply wf_until, wf_pool|apply fresh_channelb_ok, E]. Qed.
Definition no_pendingb (s : state) : bool := match s_pending s with [] => true | _ => false end.
Lemma proc_sample u o n ps r : no_pendingb (initial u o) = true -> starts (sched_acts 0 (sched n (map TEval ps, initial u o))) = [r] ->
  let c := sched_step 0 (sched n (map TEval ps, initial u o)) in
  orderly c /\ wf_state (snd c) /\ just_started (spawn_process r) (spawn_work r) c.
Proof.
  intros P E c. assert (P' : s_pending (initial u o) = []) by (revert P; unfold no_pendingb; destruct (s_pending (initial u o)); [reflexivity|discriminate]).
  pose proof (sched_start 0 _ r (sched_orderly n ps (initial u o) P') E) as J. split; [exact (proj1 J)|]. split; [|exact J].
  refine (wf_schedule [0%nat] _ (wf_schedule n _ _)). exact (wf_initial u o).
Qed.
