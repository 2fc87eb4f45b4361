(** Proofs of C54 and C55. *)
From Verif Require Export SpecCrash ProofReach.
Local Open Scope string_scope.
Local Open Scope list_scope.
Local Open Scope Z_scope.

Notation gpol MP ex := (pol True MP any any none1 none2 True True ex no_name False).
Notation fk := (@fine _ (fine_val True any)).
Lemma find_prim_known n l p : find_prim n l = Some p -> In p l /\ p_name p = n.
Proof.
  induction l as [|q l IH]; cbn; [discriminate|]. destruct (str_eqb n (p_name q)) eqn:E.
  - intros [= <-]. apply str_eqb_eq in E. auto.
  - intros H. destruct (IH H). auto.
Qed.
Lemma known_find n l : (exists p, In p l /\ p_name p = n) -> exists p, find_prim n l = Some p.
Proof.
  induction l as [|q l IH]; intros (p & Hp & Hn); [destruct Hp|]. cbn. destruct (str_eqb n (p_name q)) eqn:E; [eauto|].
  apply IH. destruct Hp as [->|Hp]; [rewrite <- Hn, str_eqb_refl in E; discriminate|eauto].
Qed.
Lemma known_fine v : known v <-> fk v.
Proof.
  split.
  - intros H. destruct v; try exact Logic.I. intros _. apply known_find, H. reflexivity.
  - intros H n ->. destruct (H Logic.I) as [p Hp]. exists p. exact (find_prim_known _ _ _ Hp).
Qed.
Lemma genuine_heap s : genuine s -> bytes_in_range s -> heap_fine True any any False any s.
Proof.
  intros G B.
  assert (K : forall v, found s v -> fk v) by (intros v Hv; apply known_fine, G, Hv).
  constructor; intros; try exact Logic.I; try contradiction.
  - split; apply K; constructor.
  - intros _. apply List.Forall_forall. intros b Hb. unfold bytes_at in Hb. destruct (s_bytes s !! l) as [bs|] eqn:E; [|destruct Hb]. exact (B _ _ _ E Hb).
  - split; [apply K; constructor|]. split; [apply K; constructor|exact Logic.I].
  - destruct (fn_proc _); exact Logic.I.
  - split; [apply K; constructor|]. split; [apply K; constructor|exact Logic.I].
  - destruct (e_frame _); exact Logic.I.
  - split; apply K; constructor.
  - apply List.Forall_forall. intros [n v] Hv. split; [exact Logic.I|]. apply K. econstructor. exact Hv.
  - split; [|split]; apply List.Forall_forall.
    + intros v Hv. apply K. eapply found_buffer. exact Hv.
    + intros v Hv. apply in_map_iff in Hv. destruct Hv as ([t w] & <- & Hv). apply K. eapply found_sender. exact Hv.
    + intros v Hv. apply in_map_iff in Hv. destruct Hv as ([t [w b]] & <- & Hv). apply K. eapply found_received. exact Hv.
  - destruct (pr_ret _) eqn:E; [|exact Logic.I]. apply K. eapply found_result. exact E.
  - destruct (e_parent _); exact Logic.I.
  - apply List.Forall_forall. intros x _. split; exact Logic.I.
  - apply List.Forall_forall. intros x _. split; exact Logic.I.
  - apply List.Forall_forall. intros [p f v e|p f v e] Hr; (split; [exact Logic.I|split; [exact Logic.I|split; [|exact Logic.I]]]); apply K; [eapply found_fork|eapply found_scheduled]; exact Hr.
Qed.
Lemma heap_genuine s : heap_fine True any any False any s -> genuine s /\ bytes_in_range s.
Proof.
  intros H. split.
  - intros v Hv. apply known_fine. destruct Hv as [l|l|l|l|l|l|l|l|l n v Hv|l v Hv|l t v Hv|l t v b Hv|l v Hv|p f v e Hv|p f v e Hv].
    + exact (proj1 (hf_cell _ _ _ _ _ _ H l Logic.I)).
    + exact (proj2 (hf_cell _ _ _ _ _ _ H l Logic.I)).
    + exact (proj1 (hf_fun _ _ _ _ _ _ H l Logic.I)).
    + exact (proj1 (proj2 (hf_fun _ _ _ _ _ _ H l Logic.I))).
    + exact (proj1 (hf_mac _ _ _ _ _ _ H l Logic.I)).
    + exact (proj1 (proj2 (hf_mac _ _ _ _ _ _ H l Logic.I))).
    + exact (proj1 (hf_bind _ _ _ _ _ _ H l Logic.I)).
    + exact (proj2 (hf_bind _ _ _ _ _ _ H l Logic.I)).
    + exact (proj2 (proj1 (List.Forall_forall _ _) (hf_frame _ _ _ _ _ _ H l Logic.I) _ Hv)).
    + exact (proj1 (List.Forall_forall _ _) (proj1 (hf_chan _ _ _ _ _ _ H l Logic.I)) _ Hv).
    + exact (proj1 (List.Forall_forall _ _) (proj1 (proj2 (hf_chan _ _ _ _ _ _ H l Logic.I))) _ (in_map snd _ _ Hv)).
    + exact (proj1 (List.Forall_forall _ _) (proj2 (proj2 (hf_chan _ _ _ _ _ _ H l Logic.I))) _ (in_map (fun p => fst (snd p)) _ _ Hv)).
    + pose proof (hf_ret _ _ _ _ _ _ H l Logic.I) as F. rewrite Hv in F. exact F.
    + exact (proj1 (proj2 (proj2 (proj1 (List.Forall_forall _ _) (hf_pending _ _ _ _ _ _ H) _ Hv)))).
    + exact (proj1 (proj2 (proj2 (proj1 (List.Forall_forall _ _) (hf_pending _ _ _ _ _ _ H) _ Hv)))).
  - intros l bs b Hb Hi. pose proof (hf_bytes _ _ _ _ _ _ H l Logic.I Logic.I) as F. unfold bytes_at in F. rewrite Hb in F.
    exact (proj1 (List.Forall_forall _ _) F _ Hi).
Qed.
Lemma genuine_safe MP ex t : genuine_thread t -> thread_safe (gpol MP ex) (fun _ => True) (okput True any) t.
Proof.
  intros [src env|v env Hv|f args env Hf Ha].
  - apply eval_text_safe; auto.
  - apply eval_thread_safe; [apply known_fine, Hv|exact Logic.I].
  - split; [split; [apply known_fine, Hf|split; [apply known_fine, Ha|exact Logic.I]]|]. intros x _. exact Logic.I.
Qed.
Lemma start_inv s : genuine s -> bytes_in_range s -> pinv True any any none1 none2 True True no_name False any (s_log s) s s.
Proof.
  intros G B. split; [apply genuine_heap; assumption|]. split; [split; intros; discriminate|]. split; [apply data_kept_refl|]. split; [apply log_ok_refl|apply out_kept_refl].
Qed.
Lemma genuine_kept ts s ts' s' : wf_state s -> genuine s -> bytes_in_range s -> Forall genuine_thread ts -> psteps (ts, s) (ts', s') ->
  genuine s' /\ bytes_in_range s'.
Proof.
  intros W G B Ht Hs. apply heap_genuine.
  assert (Hi : pinv True any any none1 none2 True True no_name False any (s_log s) s s'); [|exact (proj1 Hi)].
  refine (policy_pool True True any any none1 none2 True True no_name no_name False _ _ _ _ _ _ _ any (s_log s) s (wf_C0 _ W) ts s ts' s' Logic.I _ _ Hs _).
  - auto.
  - right. split; auto.
  - left. exact Logic.I.
  - left. exact Logic.I.
  - left. exact Logic.I.
  - left. reflexivity.
  - intros _ _ [].
  - apply start_inv; assumption.
  - eapply List.Forall_impl; [|exact Ht]. intros t. apply genuine_safe.
  - split; [intros ? _ ? ? _ []|auto].
Qed.
Lemma proper_of s : parents_are_frames s -> proper_frames s.
Proof. intros H f k v Hi Hk. destruct (H f k v Hi Hk) as [->|E]; [left; reflexivity|right; exact E]. Qed.
Lemma within_impl (P Q : state -> Prop) c c' : (forall s, P s -> Q s) -> psteps_within P c c' -> psteps_within Q c c'.
Proof. intros H K. induction K; [constructor|]. econstructor; eauto. Qed.
Lemma no_crash ts s ts' s' : wf_state s -> genuine s -> bytes_in_range s -> Forall genuine_thread ts ->
  psteps_within (calm s) (ts, s) (ts', s') -> Forall (fun t => ~ crashed t) ts'.
Proof.
  intros W G B Ht Hs.
  assert (Hi : Forall (thread_safe (gpol False (fun n => In n may_crash)) (fun _ => True) (okput True any)) ts').
  { refine (proj2 (policy_pool_within True False any any none1 none2 True True (fun n => In n may_crash) no_name False _ _ _ _ _ _ _ any (s_log s) s (wf_C0 _ W) ts s ts' s' _ _ _)).
    - auto.
    - right. split; auto.
    - left. exact Logic.I.
    - left. exact Logic.I.
    - right. split; [exact Logic.I|]. intros n Hn. exact Hn.
    - left. reflexivity.
    - intros _ _ [].
    - apply start_inv; assumption.
    - eapply List.Forall_impl; [|exact Ht]. intros t. apply genuine_safe.
    - refine (within_impl _ _ _ _ _ Hs). intros st [H1 H2]. split; [|apply proper_of, H2]. apply not_entered_live. exact H1. }
  eapply List.Forall_impl; [|exact Hi]. intros t Hc [w [->|[pl ->]]]; [exact Hc|exact (proj1 Hc)].
Qed.

(** Checking a concrete state. *)
Definition knownb (v : val) : bool := match v with VPrim n => match table n with Some _ => true | None => false end | _ => true end.
Lemma knownb_spec v : knownb v = true -> known v.
Proof. intros H n ->. unfold knownb in H. destruct (table n) as [p|] eqn:E; [|discriminate]. exists p. exact (find_prim_known _ _ _ E). Qed.
Definition genuineb (s : state) : bool :=
  all_in (s_cells s) (fun p => knownb (fst p) && knownb (snd p)) &&
  all_in (s_funs s) (fun f => knownb (f_params (fn_code f)) && knownb (f_body (fn_code f))) &&
  all_in (s_macros s) (fun f => knownb (m_params f) && knownb (m_body f)) &&
  all_in (s_binds s) (fun b => knownb (b_sym b) && knownb (b_val b)) &&
  all_in (s_frames s) (fun m => forallb (fun p => knownb (snd p)) m) &&
  all_in (s_chans s) (fun c => forallb knownb (ch_buf c) && forallb (fun p => knownb (snd p)) (ch_sendq c) && forallb (fun p => knownb (fst (snd p))) (ch_rdone c)) &&
  all_in (s_procs s) (fun p => match pr_ret p with Some v => knownb v | None => true end) &&
  match s_pending s with [] => true | _ => false end &&
  all_in (s_bytes s) (forallb (fun b => (0 <=? b) && (b <? 256))).
Lemma genuineb_spec s : genuineb s = true -> genuine s /\ bytes_in_range s.
Proof.
  unfold genuineb. intros H. repeat (apply andb_prop in H; destruct H as [H ?H]). split.
  - intros v Hv. apply knownb_spec.
    destruct Hv as [l|l|l|l|l|l|l|l|l n v Hv|l v Hv|l t v Hv|l t v b Hv|l v Hv|p f v e Hv|p f v e Hv];
    unfold cell_at, fun_at, mac_at, env_at, bind_at, frame_at, chan_at, proc_at in *;
    try (destruct (_ !! l) eqn:E; cbn in *; try reflexivity; try contradiction;
         match goal with A : all_in ?m _ = true, E : ?m !! l = Some _ |- _ => pose proof (all_in_spec _ _ A _ _ E) as K; cbn in K end;
         repeat (apply andb_prop in K; destruct K as [K ?K]); try assumption).
    + exact (proj1 (forallb_forall _ _) K _ Hv).
    + exact (proj1 (forallb_forall _ _) K _ Hv).
    + exact (proj1 (forallb_forall _ _) K1 _ Hv).
    + exact (proj1 (forallb_forall _ _) K0 _ Hv).
    + destruct (s_procs s !! l) as [pr|] eqn:E; cbn in Hv; [|discriminate]. match goal with A : all_in (s_procs s) _ = true |- _ => pose proof (all_in_spec _ _ A _ _ E) as K end. cbn beta in K. rewrite Hv in K. exact K.
    + destruct (s_pending s); [destruct Hv|discriminate].
    + destruct (s_pending s); [destruct Hv|discriminate].
  - intros l bs b Hb Hi. pose proof (all_in_spec _ _ H0 _ _ Hb) as K. pose proof (proj1 (forallb_forall _ _) K _ Hi) as K'. cbn beta in K'.
    apply andb_prop in K'. destruct K' as [K1 K2]. apply Z.leb_le in K1. apply Z.ltb_lt in K2. lia.
Qed.

(** *** Checking concrete executions *)
Definition newer (s s' : state) : list event := firstn (length (s_log s') - length (s_log s)) (s_log s').
Definition enteredb (s s' : state) (n : string) : bool := existsb (fun e => match e with EPrim m _ => str_eqb n m | _ => false end) (newer s s').
Lemma newer_app s s' new : s_log s' = new ++ s_log s -> newer s s' = new.
Proof.
  intros E. unfold newer. rewrite E, app_length. replace (length new + length (s_log s) - length (s_log s))%nat with (length new + 0)%nat by lia.
  rewrite firstn_app_2. cbn. apply app_nil_r.
Qed.
Lemma not_enteredb s s' n : enteredb s s' n = false -> ~ entered s s' n.
Proof.
  intros H (new & e & E & Hi). unfold enteredb in H. rewrite (newer_app _ _ _ E) in H. apply Bool.not_true_iff_false in H. apply H.
  apply existsb_exists. exists (EPrim n e). split; [exact Hi|apply str_eqb_refl].
Qed.
Definition properb (s : state) : bool :=
  all_in (s_frames s) (forallb (fun p => negb (has_suffix "*:" (fst p)) || match snd p with VNil | VFrame _ => true | _ => false end)).
Lemma properb_spec s : properb s = true -> parents_are_frames s.
Proof.
  intros H f k v Hi Hk. unfold frame_at in Hi. destruct (s_frames s !! f) as [m|] eqn:E; [|destruct Hi].
  pose proof (all_in_spec _ _ H _ _ E) as K. pose proof (proj1 (forallb_forall _ _) K _ Hi) as K'. cbn beta in K'. cbn [fst snd] in K'. rewrite Hk in K'. cbn in K'.
  destruct v; try discriminate; eauto.
Qed.
Definition crashedb (t : thread) : bool :=
  match t with
  | TEval p => match finished p with Some (Panicked _) => true | _ => false end
  | TProc _ p => match finished p with Some (Panicked _) => true | _ => false end
  | _ => false
  end.
Lemma finished_is A (p : prog A) w : finished p = Some (Panicked w) <-> p = Panic w.
Proof. split; [destruct p; cbn; intros H; try discriminate; injection H as ->; reflexivity|intros ->; reflexivity]. Qed.
Lemma crashedb_spec t : crashedb t = true <-> crashed t.
Proof.
  split.
  - intros H. destruct t as [p|pl p|pl v|]; cbn in H; try discriminate; destruct (finished p) as [[a|w]|] eqn:E; try discriminate; apply finished_is in E; exists w; rewrite E; eauto.
  - intros [w [->|[pl ->]]]; reflexivity.
Qed.

(** Goroutines evaluating texts, run by a schedule. *)
Definition texts (srcs : list string) (s : state) : list thread := map (fun src => eval_text_thread src (s_global s)) srcs.
Definition downs (n : string) (l : list nat) (srcs : list string) (s : state) : bool :=
  let '(ts', s') := sched l (texts srcs s, s) in
  properb s' && match ts' with t :: r => crashedb t && forallb (fun t => negb (crashedb t)) r | [] => false end && log_has n s' &&
  forallb (fun m => negb (log_has m s') || str_eqb m n || existsb (str_eqb m) ["set-car!"; "set-cdr!"]) may_crash.
Lemma log_has_entered n s s' : s_log s = [] -> entered s s' n -> log_has n s' = true.
Proof.
  intros E (new & e & H & Hi). rewrite E, app_nil_r in H. unfold log_has. apply existsb_exists. exists (EPrim n e). rewrite H. split; [exact Hi|apply str_eqb_refl].
Qed.
Lemma downs_spec n l srcs s : s_log s = [] -> downs n l srcs s = true -> brings_down s n.
Proof.
  intros E H. unfold downs in H. destruct (sched l (texts srcs s, s)) as [ts' s'] eqn:Q.
  repeat (apply andb_prop in H; destruct H as [H ?H]). exists srcs, ts', s'.
  split; [fold (texts srcs s); rewrite <- Q; apply sched_psteps|]. split; [apply properb_spec, H|]. split; [|split].
  - destruct ts' as [|t r]; [discriminate|]. apply andb_prop in H2. destruct H2 as [A B]. exists t, r. split; [reflexivity|]. split; [apply crashedb_spec, A|].
    apply List.Forall_forall. intros x Hx Hc. apply crashedb_spec in Hc. pose proof (proj1 (forallb_forall _ _) B _ Hx) as K. cbn beta in K. rewrite Hc in K. discriminate.
  - apply entered_check; assumption.
  - intros m Hm He. pose proof (proj1 (forallb_forall _ _) H0 _ Hm) as K. cbn beta in K. rewrite (log_has_entered _ _ _ E He) in K. cbn [negb orb] in K.
    apply orb_prop in K. destruct K as [K|K]; [left; apply str_eqb_eq, K|right]. apply existsb_exists in K. destruct K as (x & Hx & Ex). apply str_eqb_eq in Ex. subst x. exact Hx.
Qed.
Definition solo (n src : string) : string * (list nat * list string) := (n, (repeat 0%nat 400, [src])).
Definition race (n src src' : string) (k : nat) : string * (list nat * list string) := (n, (repeat 0%nat k ++ repeat 1%nat 600 ++ repeat 0%nat 900, [src; src'])).
Definition crash_samples : list (string * (list nat * list string)) :=
  [ solo "set-car!" "(set-car! 3 1)"; solo "set-cdr!" "(set-cdr! 'a 1)"; solo "set-nth!" "(set-nth! 3 1 2)"; solo "append!" "(append! '(1 . 2) 3)"; solo "apply" "(apply +)";
    solo "take" "(take -1 [1 2])"; solo "drop" "(drop -1 [1 2])"; solo "make-list" "(make-list 99999999999999)";
    race "cons*" "(define code '(cons* 1)) (eval code)" "(set-cdr! (cdr code) (car '())) (set-car! (cdr code) (car '()))" 96;
    solo "modulo" "(modulo 5 0)"; solo "%" "(% 5 0)"; solo "interval" "(interval 99999999999999)";
    race "apply-slot" "(define o {m: (lambda () 1)}) (define code '(apply-slot o m: '())) (eval code)" "(set-car! (cdr (cdr (cdr code))) (car '()))" 210;
    race "apply-slot-super" "(define code '(apply-slot-super m: '())) (define o {p*: {m: (lambda () 1)} n: (lambda () (eval code))}) (send o n:)" "(set-car! (cdr (cdr code)) (car '()))" 382;
    solo "string-capitalize" "(string-capitalize """")"; solo "string-capitalize!" "(string-capitalize! """")"; solo "substring" "(substring ""abc"" -2 1)";
    solo "panic!" "(panic! ""x"")"; solo "format" "(format #f ""~5"")"; solo "make-channel" "(make-channel 99999999999999)"; solo "json->lisp" "(json->lisp ""null"")" ].
Lemma samples_down s : s_log s = [] -> forallb (fun p => downs (fst p) (fst (snd p)) (snd (snd p)) s) crash_samples = true ->
  forallb (fun n => str_eqb n "union" || existsb (fun p => str_eqb n (fst p)) crash_samples) may_crash = true ->
  forall n, In n may_crash -> n <> "union" -> brings_down s n.
Proof.
  intros E H C n Hn Hu. pose proof (proj1 (forallb_forall _ _) C _ Hn) as K. cbn beta in K. apply orb_prop in K. destruct K as [K|K]; [apply str_eqb_eq in K; contradiction|].
  apply existsb_exists in K. destruct K as ([m [l srcs]] & Hp & Em). cbn [fst] in Em. apply str_eqb_eq in Em. subst m.
  apply (downs_spec n l srcs s E). exact (proj1 (forallb_forall _ _) H _ Hp).
Qed.

(** A calm execution. *)
Definition calmb (s s' : state) : bool := forallb (fun n => negb (enteredb s s' n)) may_crash && properb s'.
Lemma calmb_spec s s' : calmb s s' = true -> calm s s'.
Proof.
  intros H. apply andb_prop in H. destruct H as [H K]. split; [|apply properb_spec, K]. intros n Hn. apply not_enteredb.
  pose proof (proj1 (forallb_forall _ _) H _ Hn) as F. cbn beta in F. apply Bool.negb_true_iff, F.
Qed.
Fixpoint sched_calm (s : state) (l : list nat) (c : pool) : bool :=
  match l with [] => true | i :: r => calmb s (snd (sched_step i c)) && sched_calm s r (sched_step i c) end.
Lemma within_step (P : state -> Prop) c1 c2 c3 : pstep c1 c2 -> P (snd c2) -> psteps_within P c2 c3 -> psteps_within P c1 c3.
Proof. intros H1 H2 H. induction H as [c|c a b H IH Hs Hp]; [exact (pw_step _ _ _ _ (pw_refl _ _) H1 H2)|exact (pw_step _ _ _ _ (IH H1 H2) Hs Hp)]. Qed.
Lemma sched_within s l : forall c, sched_calm s l c = true -> psteps_within (calm s) c (sched l c).
Proof.
  induction l as [|i r IH]; intros c H; [constructor|]. cbn [sched_calm sched] in *. apply andb_prop in H. destruct H as [H K].
  specialize (IH _ K). destruct c as [ts s0]. unfold sched_step in *. destruct (nth_error ts i) as [t|] eqn:E; [|exact IH].
  destruct (step_thread t s0) as [[t' s1]|] eqn:F; [|exact IH].
  refine (within_step _ _ _ _ _ (calmb_spec _ _ H) IH).
  destruct (nth_error_split _ _ E) as (pre & post & -> & <-).
  replace (list_set (pre ++ t :: post) (length pre) t' ++ spawned s1) with (pre ++ t' :: post ++ spawned s1); [exact (PStep _ _ _ _ _ _ F)|].
  clear. induction pre as [|x pre IH]; cbn; [reflexivity|]. f_equal. exact IH.
Qed.
Lemma parent_crash s src : (let '(ts', s') := sched (repeat 0%nat 400) (texts [src] s, s) in
   forallb (fun n => negb (enteredb s s' n)) may_crash && existsb crashedb ts') = true ->
  exists ts' s', psteps (texts [src] s, s) (ts', s') /\ (forall n, In n may_crash -> ~ entered s s' n) /\ Exists crashed ts'.
Proof.
  destruct (sched (repeat 0%nat 400) (texts [src] s, s)) as [ts' s'] eqn:Q. intros H. apply andb_prop in H. destruct H as [H K].
  exists ts', s'. split; [rewrite <- Q; apply sched_psteps|]. split.
  - intros n Hn. apply not_enteredb. pose proof (proj1 (forallb_forall _ _) H _ Hn) as F. cbn beta in F. apply Bool.negb_true_iff, F.
  - apply existsb_exists in K. destruct K as (t & Ht & Hc). apply List.Exists_exists. exists t. split; [exact Ht|]. apply crashedb_spec, Hc.
Qed.
