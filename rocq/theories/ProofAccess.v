(** Proofs of C01-C04 from the policies of Policy.v and the walk of SafeWalk.v. *)
From Verif Require Export ProofWf SafeWalk.
Local Open Scope string_scope.
Local Open Scope list_scope.

(** *** Everything is reachable: [R] is always true *)
Section Everything.
  Notation RT := (fun _ : loc => True).
  Existing Instances fine_string fine_list fine_option fine_prod.
  Lemma fineT_val (v : val) : @fine _ (fine_val False RT) v.
  Proof. destruct v; try exact I. intros []. Qed.
  Lemma fineT_list {T} (f : Fine T) (l : list T) : (forall x, @fine _ f x) -> @fine _ (@fine_list T f) l.
  Proof. intros H. apply List.Forall_forall. intros x _. apply H. Qed.
  Lemma fineT_fn (f : fn) : @fine _ (fine_fn False RT) f.
  Proof. split; [apply fineT_val|split; [apply fineT_val|exact I]]. Qed.
  Lemma fineT_heap sandbox s : ~ sandbox -> (forall l : loc, RT l) -> heap_fine False RT RT sandbox RT s.
  Proof.
    intros Hs _. constructor; intros; try exact I.
    - split; apply fineT_val.
    - intros [].
    - apply fineT_fn.
    - destruct (fn_proc _); exact I.
    - split; [apply fineT_val|split; [apply fineT_val|exact I]].
    - destruct (e_frame _); exact I.
    - contradiction.
    - split; apply fineT_val.
    - apply fineT_list. intros x. split; [exact I|apply fineT_val].
    - split; [|split]; apply fineT_list; apply fineT_val.
    - destruct (pr_ret _); [apply fineT_val|exact I].
    - destruct (e_parent _); exact I.
    - apply fineT_list. intros x. split; exact I.
    - apply fineT_list. intros x. split; exact I.
    - apply fineT_list. intros []; repeat split; apply fineT_val.
  Qed.
End Everything.

Lemma host_safe PB NB W WF excl forb sandbox t :
  host_thread t ->
  thread_safe (pol False True (fun _ => True) (fun _ => True) PB NB W WF excl forb sandbox) (fun _ => True) (okput False (fun _ => True)) t.
Proof.
  intros [(src & env & ->)|[(v & env & ->)|(f & args & env & ->)]].
  - apply eval_text_safe; auto.
  - apply eval_thread_safe; [apply fineT_val|exact I].
  - split; [split; [apply fineT_val|split; [apply fineT_val|exact I]]|]. intros x _. exact I.
Qed.
Lemma wf_C0 s : wf_state s ->
  (forall l x, s_cells s !! l = Some x -> (l < s_next s)%positive) /\
  (forall l x, s_strs s !! l = Some x -> (l < s_next s)%positive) /\
  (forall l x, s_bytes s !! l = Some x -> (l < s_next s)%positive) /\
  (forall l x, s_frames s !! l = Some x -> (l < s_next s)%positive).
Proof. intros [ ]. repeat split; intros; firstorder. Qed.
Lemma not_entered_live (names : list string) s s' :
  (forall n, In n names -> ~ entered s s' n) -> plive (fun n => In n names) (fun _ => True) (s_log s) s'.
Proof. intros H. split; [|auto]. intros new Hn n e Hi Hx. apply (H n Hx). exists new, e. auto. Qed.
Lemma out_kept_refl R s : out_kept R s s.
Proof. intros l _. repeat split. Qed.
Lemma data_kept_refl W WF s : data_kept W WF s s.
Proof. split; [intros _; auto|]. split; [auto|]. apply Pos.le_refl. Qed.
Lemma log_ok_refl forb s : log_ok forb (s_log s) s.
Proof. exists []. split; [reflexivity|]. intros n e []. Qed.

(** *** C01 *)
Section C01.
  Variable s : state.
  Hypothesis wf : wf_state s.
  Definition PB1 (l : loc) : option bind_rec :=
    if b_prot (bind_at s l) then Some (bind_at s l) else None.
  Definition NB1 (e : loc) (n : string) : option loc :=
    match alookup n (e_binds (env_at s e)) with
    | Some b => if b_prot (bind_at s b) then Some b else None
    | None => None
    end.
  Lemma prot_bound l : b_prot (bind_at s l) = true -> (l < s_next s)%positive.
  Proof.
    unfold bind_at. destruct (s_binds s !! l) eqn:E; [intros _; apply (wf_binds _ wf _ _ E)|discriminate].
  Qed.
  Lemma prot_kept_start : prot_kept PB1 NB1 s.
  Proof.
    split.
    - intros l b. unfold PB1. destruct (b_prot (bind_at s l)) eqn:E; [|discriminate]. intros [= <-].
      split; [reflexivity|]. split; [exact E|exact (prot_bound _ E)].
    - intros l n b. unfold NB1. destruct (alookup n (e_binds (env_at s l))) as [b'|] eqn:E; [|discriminate].
      destruct (b_prot (bind_at s b')); [|discriminate]. intros [= <-]. split; [reflexivity|].
      unfold env_at in E. destruct (s_envs s !! l) eqn:E2; [apply (wf_envs _ wf _ _ E2)|discriminate].
  Qed.
  Lemma protected_kept ts ts' s' e n r :
    Forall host_thread ts -> psteps (ts, s) (ts', s') -> ~ entered s s' "environment-assign!" ->
    binds_protected s e n r -> binds_protected s' e n r.
  Proof.
    intros Ht Hs Hn [(b & Hb & Hr) Hp].
    assert (Hi : pinv False (fun _ => True) (fun _ => True) PB1 NB1 True True (fun _ => False) False (fun _ => True) (s_log s) s s').
    { refine (policy_pool False True (fun _ => True) (fun _ => True) PB1 NB1 True True
                (fun n => In n ["environment-assign!"]) (fun _ => False) False
                _ _ _ _ _ _ _ (fun _ => True) (s_log s) s (wf_C0 _ wf) ts s ts' s' I _ _ Hs _).
      - auto.
      - right. split; auto.
      - left. exact I.
      - left. exact I.
      - left. exact I.
      - right. left. reflexivity.
      - intros _ _ [].
      - split; [apply fineT_heap; auto|]. split; [exact prot_kept_start|].
        split; [apply data_kept_refl|]. split; [apply log_ok_refl|apply out_kept_refl].
      - eapply List.Forall_impl; [|exact Ht]. intros t. apply host_safe.
      - apply not_entered_live. intros m [<-|[]]. exact Hn. }
    destruct Hi as (_ & [H1 H2] & _). rewrite <- Hr in Hp.
    assert (E1 : PB1 b = Some r) by (unfold PB1; rewrite Hp, Hr; reflexivity).
    assert (E2 : NB1 e n = Some b) by (unfold NB1; rewrite Hb, Hp; reflexivity).
    split; [|rewrite <- Hr; exact Hp]. exists b. split; [apply (H2 _ _ _ E2)|apply (H1 _ _ E1)].
  Qed.
End C01.

(** *** C02 *)
Section C02.
  Variable s : state.
  Variable roots : list loc.
  Hypothesis wf : wf_state s.
  Hypothesis conf : confined s roots.
  Hypothesis no_pending : s_pending s = [].
  Definition R2 (l : loc) : Prop := reach s roots l \/ l = 1%positive \/ (s_next s <= l)%positive.
  Definition A2 (l : loc) : Prop := visible s roots l \/ l = 1%positive \/ (s_next s <= l)%positive.
  Definition forb2 (n : string) : Prop := In n restricted_names.

  Notation fv := (@fine _ (fine_val False R2)).
  Lemma fine_addr v : (forall k, addr v = Some k -> reach s roots k) -> fv v.
  Proof. intros H. destruct v; try exact I; try (left; apply H; reflexivity). intros []. Qed.
  Lemma unalloc {T} (m : Pmap T) (l : loc) :
    (forall k x, m !! k = Some x -> handed_out s k) ->
    l = 1%positive \/ (s_next s <= l)%positive -> m !! l = None.
  Proof.
    intros Hm Hl. destruct (m !! l) eqn:E; [|reflexivity]. apply Hm in E. destruct E. destruct Hl; lia.
  Qed.
  Lemma heap_start : heap_fine False R2 A2 True (fun _ => True) s.
  Proof.
    constructor.
    - intros l [Hl|Hl]; [split; apply fine_addr; intros k Hk; [eapply reach_car|eapply reach_cdr]; eauto|].
      unfold cell_at. rewrite (unalloc _ _ (wf_cells _ wf) Hl). split; exact I.
    - intros l _ [].
    - intros l [Hl|Hl].
      + split; [apply fine_addr; intros; eapply reach_params; eauto|].
        split; [apply fine_addr; intros; eapply reach_body; eauto|]. unfold fun_at.
        destruct (s_funs s !! l) eqn:E; [left; cbn; eapply reach_closure; eauto|right; left; reflexivity].
      + unfold fun_at. rewrite (unalloc _ _ (wf_funs _ wf) Hl).
        split; [exact I|split; [exact I|right; left; reflexivity]].
    - intros l [Hl|Hl].
      + destruct (fn_proc (fun_at s l)) eqn:E; [left; eapply reach_process; eauto|exact I].
      + unfold fun_at. rewrite (unalloc _ _ (wf_funs _ wf) Hl). exact I.
    - intros l [Hl|Hl].
      + split; [apply fine_addr; intros; eapply reach_mparams; eauto|].
        split; [apply fine_addr; intros; eapply reach_mbody; eauto|]. unfold mac_at.
        destruct (s_macros s !! l) eqn:E; [left; cbn; eapply reach_mclosure; eauto|right; left; reflexivity].
      + unfold mac_at. rewrite (unalloc _ _ (wf_macros _ wf) Hl).
        split; [exact I|split; [exact I|right; left; reflexivity]].
    - intros l [Hl|Hl].
      + destruct (e_frame (env_at s l)) eqn:E; [left; eapply reach_self; eauto|exact I].
      + unfold env_at. rewrite (unalloc _ _ (wf_envs _ wf) Hl). exact I.
    - intros _ l [Hl|Hl].
      + unfold env_at. destruct (s_envs s !! l) eqn:E; [exact (conf _ _ Hl E)|reflexivity].
      + unfold env_at. rewrite (unalloc _ _ (wf_envs _ wf) Hl). reflexivity.
    - intros l [Hl|Hl].
      + split; apply fine_addr; intros; [eapply reach_bsym|eapply reach_bval]; eauto.
      + unfold bind_at. rewrite (unalloc _ _ (wf_binds _ wf) Hl). split; exact I.
    - intros l [Hl|Hl].
      + apply List.Forall_forall. intros [n v] Hv. split; [exact I|]. apply fine_addr. intros.
        eapply reach_slot; eauto.
      + unfold frame_at. rewrite (unalloc _ _ (wf_frames _ wf) Hl). constructor.
    - intros l [Hl|Hl].
      + split; [|split]; apply List.Forall_forall.
        * intros v Hv. apply fine_addr. intros; eapply reach_buffer; eauto.
        * intros v Hv. apply in_map_iff in Hv. destruct Hv as ([t w] & <- & Hv). apply fine_addr. intros.
          eapply reach_sender; eauto.
        * intros v Hv. apply in_map_iff in Hv. destruct Hv as ([t [w b]] & <- & Hv). apply fine_addr. intros.
          eapply reach_received; eauto.
      + unfold chan_at. rewrite (unalloc _ _ (wf_chans _ wf) Hl). repeat constructor.
    - intros l [Hl|Hl].
      + destruct (pr_ret (proc_at s l)) eqn:E; [|exact I]. apply fine_addr. intros. eapply reach_result; eauto.
      + unfold proc_at. rewrite (unalloc _ _ (wf_procs _ wf) Hl). exact I.
    - intros l [Hl|Hl].
      + destruct (e_parent (env_at s l)) eqn:E; [left; eapply visible_parent; eauto|exact I].
      + unfold env_at. rewrite (unalloc _ _ (wf_envs _ wf) Hl). exact I.
    - intros l [Hl|Hl].
      + apply List.Forall_forall. intros [n b] Hb. split; [exact I|]. left. eapply reach_binding; eauto.
      + unfold env_at. rewrite (unalloc _ _ (wf_envs _ wf) Hl). constructor.
    - intros []; exact I.
    - intros []; exact I.
    - intros l Hl _. right; right. exact Hl.
    - rewrite no_pending. constructor.
  Qed.
  Lemma sandboxed_safe PB NB W WF excl forb sandbox t :
    sandboxed_thread roots t ->
    thread_safe (pol False True R2 A2 PB NB W WF excl forb sandbox) (fun _ => True) (okput False R2) t.
  Proof.
    assert (RA : forall l, R2 l -> A2 l) by (intros l [H|H]; [left; apply visible_env, H|right; exact H]).
    assert (Hv : forall v, incl (opt_list (addr v)) roots -> fv v).
    { intros v Hv. apply fine_addr. intros k Hk. apply reach_root, Hv. rewrite Hk. left. reflexivity. }
    intros [src env He|v env He Hi|f args env He Hf Ha].
    - apply eval_text_safe; [exact RA|]. left. apply reach_root, He.
    - apply eval_thread_safe; [apply Hv, Hi|]. left. apply reach_root, He.
    - split; [split; [apply Hv, Hf|split; [apply Hv, Ha|left; apply reach_root, He]]|]. intros x _. exact I.
  Qed.
End C02.
Lemma restricted_iff p : In p all_prims -> (p_restricted p = true <-> In (p_name p) restricted_names).
Proof.
  assert (H : forallb (fun p => Bool.eqb (p_restricted p) (existsb (str_eqb (p_name p)) restricted_names)) all_prims
              = true) by (vm_compute; reflexivity).
  intros Hp. rewrite forallb_forall in H. apply H in Hp. apply Bool.eqb_prop in Hp. rewrite Hp.
  rewrite existsb_exists. split.
  - intros (n & Hn & E). apply str_eqb_eq in E. rewrite E. exact Hn.
  - intros Hn. exists (p_name p). split; [exact Hn|]. apply str_eqb_refl.
Qed.
Lemma sandbox_kept s roots ts ts' s' n :
  wf_state s ->
  s_pending s = [] -> confined s roots ->
  Forall (sandboxed_thread roots) ts -> psteps (ts, s) (ts', s') -> In n restricted_names -> ~ entered s s' n.
Proof.
  intros wf np conf Ht Hs Hn (new & env & Hnew & Hin).
  assert (Hi : pinv False (R2 s roots) (A2 s roots) (fun _ => None) (fun _ _ => None) True True forb2 True (fun _ => True) (s_log s) s s').
  { refine (policy_pool False True (R2 s roots) (A2 s roots) (fun _ => None) (fun _ _ => None) True True
              (fun _ => False) forb2 True _ _ _ _ _ _ _ (fun _ => True) (s_log s) s (wf_C0 _ wf) ts s ts' s' I _ _ Hs _).
    - intros l [H|H]; [left; apply visible_env, H|right; exact H].
    - left. exact I.
    - left. exact I.
    - left. exact I.
    - left. exact I.
    - left. reflexivity.
    - intros p Hp Hf. split; [apply (restricted_iff p Hp), Hf|exact I].
    - split; [apply heap_start; assumption|]. split; [split; intros; discriminate|].
      split; [apply data_kept_refl|]. split; [apply log_ok_refl|apply out_kept_refl].
    - eapply List.Forall_impl; [|exact Ht]. intros t. apply sandboxed_safe; assumption.
    - split; [intros ? _ ? ? _ []|auto]. }
  destruct Hi as (_ & _ & _ & (new' & Hl & Hf) & _).
  assert (new' = new) by (rewrite Hnew in Hl; apply app_inv_tail in Hl; auto). subst new'.
  exact (Hf _ _ Hin Hn).
Qed.

(** *** C04 *)
Lemma data_unchanged W WF names s ts ts' s' :
  (W \/ forall n, In n data_writers -> In n names) -> (WF \/ forall n, In n frame_writers -> In n names) ->
  wf_state s -> Forall host_thread ts -> psteps (ts, s) (ts', s') ->
  (forall n, In n names -> ~ entered s s' n) -> data_kept W WF s s'.
Proof.
  intros HW HWF wf Ht Hs Hn.
  assert (Hi : pinv False (fun _ => True) (fun _ => True) (fun _ => None) (fun _ _ => None) W WF (fun _ => False) False
                 (fun _ => True) (s_log s) s s').
  { refine (policy_pool False True (fun _ => True) (fun _ => True) (fun _ => None) (fun _ _ => None) W WF
              (fun n => In n names) (fun _ => False) False
              _ _ _ _ _ _ _ (fun _ => True) (s_log s) s (wf_C0 _ wf) ts s ts' s' I _ _ Hs _).
    - auto.
    - right. split; auto.
    - exact HW.
    - exact HWF.
    - left. exact I.
    - left. reflexivity.
    - intros _ _ [].
    - split; [apply fineT_heap; auto|]. split; [split; intros; discriminate|].
      split; [apply data_kept_refl|]. split; [apply log_ok_refl|apply out_kept_refl].
    - eapply List.Forall_impl; [|exact Ht]. intros t. apply host_safe.
    - apply not_entered_live. exact Hn. }
  apply Hi.
Qed.

(** *** C03 *)
(** Environments keep their parent, and stay restricted. *)
Definition envs_kept (s s' : state) : Prop :=
  forall (l : loc) e, s_envs s !! l = Some e ->
    exists e', s_envs s' !! l = Some e' /\ e_parent e' = e_parent e /\ (e_restricted e = true -> e_restricted e' = true).
(** New environments inherit the restriction. *)
Definition envs_inherit (s s' : state) : Prop :=
  forall (l : loc) e p, s_envs s !! l = None -> s_envs s' !! l = Some e -> e_parent e = Some p -> is_restricted s p ->
    e_restricted e = true.
Lemma envs_same s s' : s_envs s' = s_envs s -> envs_kept s s' /\ envs_inherit s s'.
Proof.
  intros E. split.
  - intros l e He. rewrite E. eauto.
  - intros l e p H1 H2. rewrite E in H2. congruence.
Qed.
Lemma envs_put s s' l e' :
  s_envs s' = put l e' (s_envs s) -> e_parent e' = e_parent (env_at s l) ->
  (e_restricted (env_at s l) = true -> e_restricted e' = true) -> envs_kept s s' /\ envs_inherit s s'.
Proof.
  intros E Hp Hr. unfold put in E. destruct (s_envs s !! l) as [e0|] eqn:E0; [|apply envs_same, E].
  assert (Ea : env_at s l = e0) by (unfold env_at; rewrite E0; reflexivity). rewrite Ea in *.
  split.
  - intros k e He. rewrite E. destruct (Pos.eqb_spec l k) as [<-|N].
    + rewrite lookup_insert. replace e with e0 by congruence. eauto.
    + rewrite lookup_insert_ne by exact N. eauto.
  - intros k e p H1 H2. rewrite E in H2. destruct (Pos.eqb_spec l k) as [<-|N]; [congruence|].
    rewrite lookup_insert_ne in H2 by exact N. congruence.
Qed.
Lemma envs_step X (o : op X) s x s' :
  wf_state s -> step_op o s = Some (x, s') -> envs_kept s s' /\ envs_inherit s s'.
Proof.
  intros wf Hs.
  assert (Hch : forall z s1, next_choice s = (z, s1) -> s_envs s1 = s_envs s).
  { intros z s1. unfold next_choice. destruct (s_oracle s); intros [= <- <-]; reflexivity. }
  destruct o; cbn [step_op] in Hs; try (injection Hs as <- <-); try (apply envs_same; reflexivity).
  - assert (N : s_envs s !! (s_next s : loc) = None).
    { destruct (s_envs s !! (s_next s : loc)) eqn:E; [|reflexivity]. destruct (wf_envs _ wf _ _ E). lia. }
    split.
    + intros l e He. cbn. rewrite lookup_insert_ne; [eauto|]. intros <-. rewrite N in He. discriminate.
    + intros l e p H1 H2 H3 H4. cbn in H2. destruct (Pos.eqb_spec (s_next s) l) as [<-|D].
      * rewrite lookup_insert in H2. injection H2 as <-. cbn in H3 |- *. rewrite H3.
        destruct H4 as (ep & Hep & Hr). unfold env_at. rewrite Hep. exact Hr.
      * rewrite lookup_insert_ne in H2 by exact D. congruence.
  - eapply envs_put; [reflexivity|reflexivity|reflexivity].
  - eapply envs_put; [reflexivity|reflexivity|auto].
  - eapply envs_put; [reflexivity|reflexivity|auto].
  - destruct (alookup _ _); injection Hs as <- <-; apply envs_same; reflexivity.
  - destruct (chan_send _ _ _ _); injection Hs as <- <-; apply envs_same; reflexivity.
  - destruct (plookup _ _); [|discriminate]; injection Hs as <- <-; apply envs_same; reflexivity.
  - destruct (chan_recv _ _ _); injection Hs as <- <-; apply envs_same; reflexivity.
  - destruct (plookup _ _); [|discriminate]; injection Hs as <- <-; apply envs_same; reflexivity.
  - destruct (chan_close _); injection Hs as <- <-; apply envs_same; reflexivity.
  - destruct (next_choice s) as [z s1] eqn:E. pose proof (Hch _ _ eq_refl) as H1.
    destruct (_ && _); injection Hs as <- <-; apply envs_same; exact H1.
  - destruct (next_choice s) as [z s1] eqn:E. pose proof (Hch _ _ eq_refl) as H1. injection Hs as <- <-.
    destruct (_ =? 0)%Z; [|destruct (_ =? 1)%Z]; apply envs_same; exact H1.
  - destruct (pr_ret _); [|discriminate]. injection Hs as <- <-. apply envs_same; reflexivity.
  - destruct (_ =? _)%Z; injection Hs as <- <-; apply envs_same; reflexivity.
  - destruct (next_choice s) as [z s1] eqn:E. injection Hs as <- <-. apply envs_same. exact (Hch _ _ eq_refl).
Qed.
Lemma envs_kept_trans a b c : envs_kept a b -> envs_kept b c -> envs_kept a c.
Proof.
  intros H1 H2 l e He. destruct (H1 _ _ He) as (e1 & E1 & P1 & R1). destruct (H2 _ _ E1) as (e2 & E2 & P2 & R2).
  exists e2. split; [exact E2|]. split; [congruence|auto].
Qed.
Lemma envs_psteps c c' : wf_state (snd c) -> psteps c c' -> envs_kept (snd c) (snd c').
Proof.
  intros H Hs. refine (proj2 (psteps_rel wf_state envs_kept _ envs_kept_trans _ _ _ _ c c' H Hs)).
  - intros s. apply envs_same. reflexivity.
  - intros X o s x s' Hi Ho. split; [exact (wf_step _ _ _ _ _ Ho Hi)|apply (envs_step _ _ _ _ _ Hi Ho)].
  - intros l v s s' Hi Ho. split; [exact (wf_put_ret _ _ _ _ Ho Hi)|].
    unfold put_ret in Ho. destruct (pr_ret _); [discriminate|]. injection Ho as <-. apply envs_same; reflexivity.
  - intros s Hi. split; [apply wf_pending, Hi|apply envs_same; reflexivity].
  - intros w s Hi. split; [apply wf_out, Hi|apply envs_same; reflexivity].
Qed.
Lemma inherit_pstep c c' : wf_state (snd c) -> pstep c c' -> envs_inherit (snd c) (snd c').
Proof.
  intros H Hs. destruct Hs as [pre t post s t' s' Ht]. cbn in *.
  assert (G : envs_inherit s s').
  { assert (Ho : forall X (o : op X) x s1, step_op o s = Some (x, s1) -> envs_inherit s s1)
      by (intros X o x s1 Ho; apply (envs_step _ _ _ _ _ H Ho)).
    assert (Hp : forall A (p : prog A) p' s1, step_prog p s = Some (p', s1) -> envs_inherit s s1).
    { intros A p p' s1. destruct p as [A a|A w|A X o k|A X r k|A S R body s0 k]; cbn; intros E; try discriminate.
      - destruct (step_op o s) as [[x s2]|] eqn:E1; [|discriminate]. injection E as <- <-. eauto.
      - injection E as <- <-. apply envs_same; reflexivity.
      - injection E as <- <-. apply envs_same; reflexivity. }
    destruct t as [p|pl p|pl v|]; [| | |discriminate].
    - cbn in Ht. destruct (step_prog p s) as [[p1 s1]|] eqn:E; [|discriminate]. injection Ht as <- <-. eauto.
    - unfold step_thread in Ht. destruct (finished p) as [[v|w]|].
      + injection Ht as <- <-. apply envs_same; reflexivity.
      + injection Ht as <- <-. apply envs_same; reflexivity.
      + destruct (step_prog p s) as [[p1 s1]|] eqn:E; [|discriminate]. injection Ht as <- <-. eauto.
    - unfold step_thread in Ht. destruct (put_ret pl v s) as [s1|] eqn:E; [|discriminate].
      injection Ht as <- <-. unfold put_ret in E. destruct (pr_ret _); [discriminate|]. injection E as <-. apply envs_same; reflexivity. }
  exact G.
Qed.

(** *** Tools for the worked examples *)
Lemma sched_step_psteps i c : psteps c (sched_step i c).
Proof.
  destruct c as [ts s]. unfold sched_step. destruct (nth_error ts i) as [t|] eqn:E; [|apply psteps_refl].
  destruct (step_thread t s) as [[t' s']|] eqn:Et; [|apply psteps_refl].
  apply nth_error_split in E. destruct E as (pre & post & -> & <-).
  replace (list_set (pre ++ t :: post) (length pre) t' ++ spawned s') with (pre ++ t' :: post ++ spawned s').
  { eapply psteps_step; [apply psteps_refl|]. apply PStep. exact Et. }
  clear Et. induction pre as [|x pre IH]; cbn; [reflexivity|]. f_equal. exact IH.
Qed.
Lemma psteps_trans a b c : psteps a b -> psteps b c -> psteps a c.
Proof. intros H1 H2. induction H2; [exact H1|]. eapply psteps_step; [apply IHpsteps, H1|eassumption]. Qed.
Lemma sched_psteps l : forall c, psteps c (sched l c).
Proof.
  induction l as [|i l IH]; intros c; cbn; [apply psteps_refl|].
  eapply psteps_trans; [apply sched_step_psteps|apply IH].
Qed.
Definition log_has (n : string) (s : state) : bool :=
  existsb (fun e => match e with EPrim m _ => str_eqb n m | _ => false end) (s_log s).
Lemma not_entered_check n s s' : log_has n s' = false -> ~ entered s s' n.
Proof.
  intros H (new & env & Hl & Hi). assert (Ht : log_has n s' = true); [|congruence].
  apply existsb_exists. exists (EPrim n env). split; [rewrite Hl; apply in_or_app; left; exact Hi|].
  apply str_eqb_refl.
Qed.
Lemma entered_check n s s' : s_log s = [] -> log_has n s' = true -> entered s s' n.
Proof.
  intros H0 H. apply existsb_exists in H. destruct H as ([m env| | | | | | |] & Hi & Hm); try discriminate.
  apply str_eqb_eq in Hm. subst m. exists (s_log s'), env. rewrite H0, app_nil_r. auto.
Qed.
Definition builtins_ok (s : state) : bool :=
  forallb (fun p =>
      match alookup (p_name p) (e_binds (env_at s (s_global s))) with
      | Some b => match bind_at s b with
                  | Binding (VSym m) (VPrim n) true => str_eqb m (p_name p) && str_eqb n (p_name p)
                  | _ => false end
      | None => false end) all_prims.
Lemma builtins_ok_bound s p : builtins_ok s = true -> In p all_prims ->
  binds_protected s (s_global s) (p_name p) (Binding (VSym (p_name p)) (VPrim (p_name p)) true).
Proof.
  intros H Hp. unfold builtins_ok in H. rewrite forallb_forall in H. apply H in Hp. clear H.
  destruct (alookup _ _) as [b|] eqn:E; [|discriminate]. split; [|reflexivity]. exists b. split; [exact E|].
  destruct (bind_at s b) as [bs bv bp]. destruct bs; try discriminate. destruct bv; try discriminate.
  destruct bp; [|discriminate]. apply andb_prop in Hp. destruct Hp as [H1 H2].
  apply str_eqb_eq in H1, H2. congruence.
Qed.
Lemma builtins_initial u o : builtins_ok (initial u o) = true.
Proof. vm_compute. reflexivity. Qed.

(** A checker for [confined], for the worked examples: [L] contains the roots and everything they lead
    to, [V] the environments visible from them. *)
Definition addrs (l : list val) : list loc := flat_map (fun v => opt_list (addr v)) l.
Definition succs (s : state) (l : loc) : list loc :=
  addrs [fst (cell_at s l); snd (cell_at s l); f_params (fn_code (fun_at s l)); f_body (fn_code (fun_at s l));
         m_params (mac_at s l); m_body (mac_at s l); b_sym (bind_at s l); b_val (bind_at s l)] ++
  match s_funs s !! l with Some r => [f_env (fn_code r)] | None => [] end ++
  match s_macros s !! l with Some r => [m_env r] | None => [] end ++
  opt_list (fn_proc (fun_at s l)) ++ opt_list (e_frame (env_at s l)) ++
  addrs (map snd (frame_at s l) ++ ch_buf (chan_at s l) ++ map snd (ch_sendq (chan_at s l)) ++
         map (fun p => fst (snd p)) (ch_rdone (chan_at s l)) ++
         match pr_ret (proc_at s l) with Some v => [v] | None => [] end).
Definition mem (l : loc) (L : list loc) : bool := existsb (Pos.eqb l) L.
Definition confinedb (s : state) (roots L V : list loc) : bool :=
  forallb (fun l => mem l L) roots &&
  forallb (fun l => mem l V && forallb (fun k => mem k L) (succs s l) &&
                    match s_envs s !! l with Some e => e_restricted e | None => true end) L &&
  forallb (fun e => forallb (fun p => mem p V) (opt_list (e_parent (env_at s e))) &&
                    forallb (fun b => mem (snd b) L) (e_binds (env_at s e))) V.
Lemma mem_In l L : mem l L = true <-> In l L.
Proof.
  unfold mem. rewrite existsb_exists. split.
  - intros (k & Hk & E). apply Pos.eqb_eq in E. subst. exact Hk.
  - intros H. exists l. split; [exact H|apply Pos.eqb_refl].
Qed.
Lemma in_addrs v l k : In v l -> addr v = Some k -> In k (addrs l).
Proof. intros H E. apply in_flat_map. exists v. split; [exact H|]. rewrite E. left. reflexivity. Qed.
Scheme reach_mut := Minimality for reach Sort Prop with visible_mut := Minimality for visible Sort Prop.
Combined Scheme reach_visible_ind from reach_mut, visible_mut.
Lemma confined_check s roots L V : confinedb s roots L V = true -> confined s roots.
Proof.
  unfold confinedb. intros H. apply andb_prop in H. destruct H as [H H3]. apply andb_prop in H. destruct H as [H1 H2].
  rewrite forallb_forall in H1, H2, H3.
  assert (HL : forall l, In l L -> In l V /\ (forall k, In k (succs s l) -> In k L) /\
             forall e, s_envs s !! l = Some e -> e_restricted e = true).
  { intros l Hl. apply H2 in Hl. apply andb_prop in Hl. destruct Hl as [Hl Hr]. apply andb_prop in Hl.
    destruct Hl as [Hv Hs]. split; [apply mem_In, Hv|]. split.
    - intros k Hk. rewrite forallb_forall in Hs. apply mem_In, Hs, Hk.
    - intros e He. rewrite He in Hr. exact Hr. }
  assert (G : (forall l, reach s roots l -> In l L) /\ (forall l, visible s roots l -> In l V)).
  { apply reach_visible_ind.
    - intros l Hl. apply mem_In, H1, Hl.
    - intros l k _ Hl E. apply (HL l Hl). apply in_or_app; left. eapply in_addrs; [|exact E]. cbn. tauto.
    - intros l k _ Hl E. apply (HL l Hl). apply in_or_app; left. eapply in_addrs; [|exact E]. cbn. tauto.
    - intros l k _ Hl E. apply (HL l Hl). apply in_or_app; left. eapply in_addrs; [|exact E]. cbn. tauto.
    - intros l k _ Hl E. apply (HL l Hl). apply in_or_app; left. eapply in_addrs; [|exact E]. cbn. tauto.
    - intros l r _ Hl E. apply (HL l Hl). apply in_or_app; right. rewrite E. left. reflexivity.
    - intros l k _ Hl E. apply (HL l Hl). do 3 (apply in_or_app; right). apply in_or_app; left. rewrite E. left. reflexivity.
    - intros l k _ Hl E. apply (HL l Hl). apply in_or_app; left. eapply in_addrs; [|exact E]. cbn. tauto.
    - intros l k _ Hl E. apply (HL l Hl). apply in_or_app; left. eapply in_addrs; [|exact E]. cbn. tauto.
    - intros l r _ Hl E. apply (HL l Hl). do 2 (apply in_or_app; right). apply in_or_app; left. rewrite E. left. reflexivity.
    - intros l k _ Hl E. apply (HL l Hl). do 4 (apply in_or_app; right). apply in_or_app; left. rewrite E. left. reflexivity.
    - intros l n v k _ Hl Hi E. apply (HL l Hl). do 5 (apply in_or_app; right). apply (in_addrs v); [|exact E].
      apply in_or_app; left. apply (in_map snd _ _ Hi).
    - intros l v k _ Hl Hi E. apply (HL l Hl). do 5 (apply in_or_app; right). apply (in_addrs v); [|exact E].
      apply in_or_app; right. apply in_or_app; left. exact Hi.
    - intros l t v k _ Hl Hi E. apply (HL l Hl). do 5 (apply in_or_app; right). apply (in_addrs v); [|exact E].
      do 2 (apply in_or_app; right). apply in_or_app; left. apply (in_map snd _ _ Hi).
    - intros l t v b k _ Hl Hi E. apply (HL l Hl). do 5 (apply in_or_app; right). apply (in_addrs v); [|exact E].
      do 3 (apply in_or_app; right). apply in_or_app; left. apply (in_map (fun p => fst (snd p)) _ _ Hi).
    - intros l v k _ Hl Hi E. apply (HL l Hl). do 5 (apply in_or_app; right). apply (in_addrs v); [|exact E].
      do 4 (apply in_or_app; right). rewrite Hi. left. reflexivity.
    - intros e n b _ He Hi. apply H3 in He. apply andb_prop in He. destruct He as [_ He]. rewrite forallb_forall in He.
      apply He in Hi. apply mem_In, Hi.
    - intros l k _ Hl E. apply (HL l Hl). apply in_or_app; left. eapply in_addrs; [|exact E]. cbn. tauto.
    - intros l k _ Hl E. apply (HL l Hl). apply in_or_app; left. eapply in_addrs; [|exact E]. cbn. tauto.
    - intros e _ He. apply (HL e He).
    - intros e p _ He E. apply H3 in He. apply andb_prop in He. destruct He as [He _]. rewrite forallb_forall in He.
      apply mem_In, He. rewrite E. left. reflexivity. }
  intros l e Hl He. exact (proj2 (proj2 (HL l (proj1 G l Hl))) e He).
Qed.

(** Setting up example states. *)
Definition after (p : prog loc) (s : state) : loc * state :=
  match run denote 9 p s with Some (Done e, s') => (e, s') | _ => (1%positive, s) end.
Lemma wf_after p s : wf_state s -> wf_state (snd (after p s)).
Proof.
  intros H. unfold after. destruct (run denote 9 p s) as [[[e|w] s']|] eqn:E; try exact H.
  exact (wf_run _ _ _ _ _ _ H E).
Qed.
(** A new restricted environment below the global one. *)
Definition make_sandbox : prog loc :=
  e <- new_env_below (Some 2%positive) "sandbox" ;; do_op (OEnvRestrict e) ;;; Ret e.
Lemma wf_set_log x s : wf_state s -> wf_state (set_log x s).
Proof. intros []. constructor; assumption. Qed.
Lemma wf_sched l c : wf_state (snd c) -> wf_state (snd (sched l c)).
Proof. intros H. exact (wf_psteps _ _ H (sched_psteps l c)). Qed.
Lemma none_entered names s s' :
  forallb (fun n => negb (log_has n s')) names = true -> forall n, In n names -> ~ entered s s' n.
Proof.
  intros H n Hn. rewrite forallb_forall in H. apply H in Hn. apply not_entered_check.
  destruct (log_has n s'); [discriminate|reflexivity].
Qed.
