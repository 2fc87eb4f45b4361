(** Proofs of C52 and C53, and what they give for the other proofs: fresh objects stay untouched. *)
From Verif Require Export SpecReach ProofAccess.
Local Open Scope string_scope.
Local Open Scope list_scope.

Notation none1 := (fun _ : loc => @None bind_rec).
Notation none2 := (fun (_ : loc) (_ : string) => @None loc).
Notation no_name := (fun _ : string => False).
Notation rpol R := (pol False True R R none1 none2 True True no_name no_name False).
Notation any := (fun _ : loc => True).

Section R.
  Variable R : loc -> Prop.
  Notation fv := (@fine _ (fine_val False R)).
  Lemma fine_by_addr v : (forall k, addr v = Some k -> R k) <-> fv v.
  Proof. split; intros H; destruct v; try exact I; try (intros k [= <-]; exact H); try discriminate; try (apply H; reflexivity); try (intros []). Qed.
  Lemma addr_fine v k : fv v -> addr v = Some k -> R k.
  Proof. intros H. apply fine_by_addr, H. Qed.
  Definition req_in (r : spawn_req) : Prop := @fine _ (fine_spawn False R) r.
  Lemma heap_of_refs (lim : loc -> Prop) s : R 1%positive -> (forall l k, R l -> refers s l k -> R k) -> Forall R (shared_roots s) -> Forall req_in (s_pending s) ->
    (forall l, (s_next s <= l)%positive -> lim l -> R l) -> heap_fine False R R False lim s.
  Proof.
    intros H1 Hr Hg Hp Hn. constructor.
    - intros l Hl. split; apply fine_by_addr; intros; (eapply Hr; [exact Hl|]); [apply ref_car|apply ref_cdr]; assumption.
    - intros l _ [].
    - intros l Hl. split; [apply fine_by_addr; intros; eapply Hr; [exact Hl|]; apply ref_params; assumption|].
      split; [apply fine_by_addr; intros; eapply Hr; [exact Hl|]; apply ref_body; assumption|]. unfold fun_at.
      destruct (s_funs s !! l) eqn:E; [eapply Hr; [exact Hl|]; cbn; apply ref_closure; exact E|exact H1].
    - intros l Hl. destruct (fn_proc (fun_at s l)) eqn:E; [eapply Hr; [exact Hl|apply ref_process, E]|exact I].
    - intros l Hl. split; [apply fine_by_addr; intros; eapply Hr; [exact Hl|]; apply ref_mparams; assumption|].
      split; [apply fine_by_addr; intros; eapply Hr; [exact Hl|]; apply ref_mbody; assumption|]. unfold mac_at.
      destruct (s_macros s !! l) eqn:E; [eapply Hr; [exact Hl|]; cbn; apply ref_mclosure; exact E|exact H1].
    - intros l Hl. destruct (e_frame (env_at s l)) eqn:E; [eapply Hr; [exact Hl|apply ref_object, E]|exact I].
    - intros [].
    - intros l Hl. split; apply fine_by_addr; intros; (eapply Hr; [exact Hl|]); [apply ref_bsym|apply ref_bval]; assumption.
    - intros l Hl. apply List.Forall_forall. intros [n v] Hv. split; [exact I|]. apply fine_by_addr. intros. eapply Hr; [exact Hl|eapply ref_slot; eauto].
    - intros l Hl. split; [|split]; apply List.Forall_forall.
      + intros v Hv. apply fine_by_addr. intros; eapply Hr; [exact Hl|eapply ref_buffer; eauto].
      + intros v Hv. apply in_map_iff in Hv. destruct Hv as ([t w] & <- & Hv). apply fine_by_addr. intros. eapply Hr; [exact Hl|eapply ref_sender; eauto].
      + intros v Hv. apply in_map_iff in Hv. destruct Hv as ([t [w b]] & <- & Hv). apply fine_by_addr. intros. eapply Hr; [exact Hl|eapply ref_received; eauto].
    - intros l Hl. destruct (pr_ret (proc_at s l)) eqn:E; [|exact I]. apply fine_by_addr. intros. eapply Hr; [exact Hl|eapply ref_result; eauto].
    - intros l Hl. destruct (e_parent (env_at s l)) eqn:E; [eapply Hr; [exact Hl|apply ref_parent, E]|exact I].
    - intros l Hl. apply List.Forall_forall. intros [n b] Hb. split; [exact I|]. eapply Hr; [exact Hl|eapply ref_binding; eauto].
    - intros _. exact (Forall_inv Hg).
    - intros _. apply List.Forall_forall. intros [n b] Hb. split; [exact I|]. exact (proj1 (List.Forall_forall _ _) (Forall_inv_tail Hg) b (in_map snd _ _ Hb)).
    - exact Hn.
    - exact Hp.
  Qed.
  Lemma refs_of_heap lim s : heap_fine False R R False lim s -> forall l k, R l -> refers s l k -> R k.
  Proof.
    intros H l k Hl Hk. destruct Hk as [k Hk|k Hk|k Hk|k Hk|r Hk|k Hk|k Hk|k Hk|r Hk|k Hk|k Hk|n k Hk|k Hk|k Hk|n v k Hi Hk|v k Hi Hk|t v k Hi Hk|t v b k Hi Hk|v k Hi Hk].
    - exact (addr_fine _ _ (proj1 (hf_cell _ _ _ _ _ _ H l Hl)) Hk).
    - exact (addr_fine _ _ (proj2 (hf_cell _ _ _ _ _ _ H l Hl)) Hk).
    - exact (addr_fine _ _ (proj1 (hf_fun _ _ _ _ _ _ H l Hl)) Hk).
    - exact (addr_fine _ _ (proj1 (proj2 (hf_fun _ _ _ _ _ _ H l Hl))) Hk).
    - pose proof (proj2 (proj2 (hf_fun _ _ _ _ _ _ H l Hl))) as F. unfold fun_at in F. rewrite Hk in F. exact F.
    - pose proof (hf_proc _ _ _ _ _ _ H l Hl) as F. rewrite Hk in F. exact F.
    - exact (addr_fine _ _ (proj1 (hf_mac _ _ _ _ _ _ H l Hl)) Hk).
    - exact (addr_fine _ _ (proj1 (proj2 (hf_mac _ _ _ _ _ _ H l Hl))) Hk).
    - pose proof (proj2 (proj2 (hf_mac _ _ _ _ _ _ H l Hl))) as F. unfold mac_at in F. rewrite Hk in F. exact F.
    - pose proof (hf_parent _ _ _ _ _ _ H l Hl) as F. rewrite Hk in F. exact F.
    - pose proof (hf_frame_of _ _ _ _ _ _ H l Hl) as F. rewrite Hk in F. exact F.
    - exact (proj2 (proj1 (List.Forall_forall _ _) (hf_binds _ _ _ _ _ _ H l Hl) _ Hk)).
    - exact (addr_fine _ _ (proj1 (hf_bind _ _ _ _ _ _ H l Hl)) Hk).
    - exact (addr_fine _ _ (proj2 (hf_bind _ _ _ _ _ _ H l Hl)) Hk).
    - exact (addr_fine _ _ (proj2 (proj1 (List.Forall_forall _ _) (hf_frame _ _ _ _ _ _ H l Hl) _ Hi)) Hk).
    - exact (addr_fine _ _ (proj1 (List.Forall_forall _ _) (proj1 (hf_chan _ _ _ _ _ _ H l Hl)) _ Hi) Hk).
    - exact (addr_fine _ _ (proj1 (List.Forall_forall _ _) (proj1 (proj2 (hf_chan _ _ _ _ _ _ H l Hl))) _ (in_map snd _ _ Hi)) Hk).
    - exact (addr_fine _ _ (proj1 (List.Forall_forall _ _) (proj2 (proj2 (hf_chan _ _ _ _ _ _ H l Hl))) _ (in_map (fun p => fst (snd p)) _ _ Hi)) Hk).
    - pose proof (hf_ret _ _ _ _ _ _ H l Hl) as F. rewrite Hi in F. exact (addr_fine _ _ F Hk).
  Qed.
  Lemma roots_of_heap lim s : heap_fine False R R False lim s -> Forall R (shared_roots s) /\ Forall req_in (s_pending s).
  Proof.
    intros H. split; [|exact (hf_pending _ _ _ _ _ _ H)]. constructor; [apply (hf_global _ _ _ _ _ _ H); auto|].
    apply List.Forall_map. refine (List.Forall_impl _ _ (hf_tops _ _ _ _ _ _ H _)); [|auto]. intros [n l] [_ Hl]. exact Hl.
  Qed.
  (** One goroutine alone. *)
  Lemma within_runs (lim : loc -> Prop) T (f : Fine T) (p : prog T) s o s' : wf_state s -> heap_fine False R R False lim s -> (forall l, (l < s_next s')%positive -> lim l) ->
    safe (rpol R) p (@fine _ f) -> runs denote p s o s' ->
    heap_fine False R R False lim s' /\ out_kept R s s' /\ match o with Done a => @fine _ f a | Panicked _ => True end.
  Proof.
    intros W H Hl Hp Hr.
    destruct (policy_runs False True R R none1 none2 True True no_name no_name False ltac:(auto) ltac:(right; split; auto) ltac:(left; exact I) ltac:(left; exact I) ltac:(left; exact I) ltac:(left; reflexivity) ltac:(intros _ _ []) lim (s_log s) s (wf_C0 _ W) T p s o s' I Hp) as [(A & B & C & D & E) F].
    - split; [exact H|]. split; [split; intros; discriminate|]. split; [apply data_kept_refl|]. split; [apply log_ok_refl|apply out_kept_refl].
    - exact Hr.
    - split; [intros ? _ ? ? _ []|exact Hl].
    - split; [exact A|]. split; [exact E|exact F].
  Qed.
End R.

(** *** C52 *)
Section C52.
  Variable s : state.
  Variable roots : list loc.
  Hypothesis wf : wf_state s.
  Hypothesis shared : incl (shared_roots s) roots.
  Hypothesis no_pending : s_pending s = [].
  Definition R52 (l : loc) : Prop := accessible s roots l \/ l = 1%positive \/ (s_next s <= l)%positive.
  Lemma unalloc_refers l k : l = 1%positive \/ (s_next s <= l)%positive -> ~ refers s l k.
  Proof.
    intros Hl Hk. destruct Hk as [k Hk|k Hk|k Hk|k Hk|r Hk|k Hk|k Hk|k Hk|r Hk|k Hk|k Hk|n k Hk|k Hk|k Hk|n v k Hi Hk|v k Hi Hk|t v k Hi Hk|t v b k Hi Hk|v k Hi Hk]; unfold cell_at, fun_at, mac_at, env_at, bind_at, frame_at, chan_at, proc_at in *;
      rewrite ?(unalloc s _ _ (wf_cells _ wf) Hl), ?(unalloc s _ _ (wf_funs _ wf) Hl), ?(unalloc s _ _ (wf_macros _ wf) Hl), ?(unalloc s _ _ (wf_envs _ wf) Hl), ?(unalloc s _ _ (wf_binds _ wf) Hl), ?(unalloc s _ _ (wf_frames _ wf) Hl), ?(unalloc s _ _ (wf_chans _ wf) Hl), ?(unalloc s _ _ (wf_procs _ wf) Hl) in *; try discriminate; try contradiction.
  Qed.
  Lemma heap52 : heap_fine False R52 R52 False any s.
  Proof.
    apply heap_of_refs.
    - right; left; reflexivity.
    - intros l k [Hl|Hl] Hk; [left; eapply acc_step; eassumption|]. destruct (unalloc_refers _ _ Hl Hk).
    - apply List.Forall_forall. intros l Hl. left. apply acc_root, shared, Hl.
    - rewrite no_pending. constructor.
    - intros l Hl _. right; right. exact Hl.
  Qed.
  Lemma rooted_safe t : sandboxed_thread roots t -> thread_safe (rpol R52) (fun _ => True) (okput False R52) t.
  Proof.
    assert (Hv : forall v, incl (opt_list (addr v)) roots -> @fine _ (fine_val False R52) v).
    { intros v Hv. apply fine_by_addr. intros k Hk. left. apply acc_root, Hv. rewrite Hk. left. reflexivity. }
    intros [src env He|v env He Hi|f args env He Hf Ha].
    - apply eval_text_safe; [auto|]. left. apply acc_root, He.
    - apply eval_thread_safe; [apply Hv, Hi|]. left. apply acc_root, He.
    - split; [split; [apply Hv, Hf|split; [apply Hv, Ha|left; apply acc_root, He]]|]. intros x _. exact I.
  Qed.
  Lemma unreached ts ts' s' l : Forall (sandboxed_thread roots) ts -> psteps (ts, s) (ts', s') ->
    handed_out s l -> ~ accessible s roots l -> unchanged s s' l.
  Proof.
    intros Ht Hs Ho Hl.
    assert (Hi : pinv False R52 R52 none1 none2 True True no_name False any (s_log s) s s').
    { refine (policy_pool False True R52 R52 none1 none2 True True no_name no_name False _ _ _ _ _ _ _ any (s_log s) s (wf_C0 _ wf) ts s ts' s' I _ _ Hs _).
      - auto.
      - right. split; auto.
      - left. exact I.
      - left. exact I.
      - left. exact I.
      - left. reflexivity.
      - intros _ _ [].
      - split; [exact heap52|]. split; [split; intros; discriminate|]. split; [apply data_kept_refl|]. split; [apply log_ok_refl|apply out_kept_refl].
      - eapply List.Forall_impl; [|exact Ht]. exact rooted_safe.
      - split; [intros ? _ ? ? _ []|auto]. }
    destruct Hi as (_ & _ & _ & _ & K). apply K. unfold handed_out in Ho. intros [H|[H|H]]; [exact (Hl H)|lia|lia].
  Qed.
End C52.

(** *** C53: no reference to an object that does not exist yet *)
Definition bounded (s : state) (N : loc) : loc -> Prop := fun l => (l < N)%positive.
Lemma closed_heap s N : wf_state s -> no_dangling s -> Forall (req_in (bounded s (s_next s))) (s_pending s) -> (s_next s <= N)%positive ->
  heap_fine False (bounded s N) (bounded s N) False (bounded s N) s.
Proof.
  intros W [C G] P L. apply heap_of_refs.
  - unfold bounded. pose proof (wf_next _ W). lia.
  - intros l k _ Hk. unfold bounded. specialize (C l k Hk). lia.
  - refine (List.Forall_impl _ _ G). unfold bounded. intros. lia.
  - refine (List.Forall_impl _ _ P). intros r Hr. unfold req_in, bounded, fine, fine_spawn in *. destruct r as [a b c d|a b c d]; destruct Hr as (H1 & H2 & H3 & H4); (split; [lia|split; [lia|split; [|lia]]]);
      (apply fine_by_addr; intros k Hk; pose proof (addr_fine _ _ _ H3 Hk) as K; cbn in K; lia).
  - intros l _ Hl. exact Hl.
Qed.
Lemma closed_of_heap s : wf_state s -> heap_fine False (bounded s (s_next s)) (bounded s (s_next s)) False (bounded s (s_next s)) s ->
  no_dangling s /\ Forall (req_in (bounded s (s_next s))) (s_pending s).
Proof.
  intros W H. destruct (roots_of_heap _ _ _ H) as [G P]. split; [|exact P]. split; [|exact G]. intros l k Hk.
  destruct (Pos.lt_total l (s_next s)) as [Hl|Hl]; [exact (refs_of_heap _ _ _ H l k Hl Hk)|].
  destruct (unalloc_refers s W l k); [right; lia|exact Hk].
Qed.
(** The state is closed: nothing dangles, pending goroutines included. *)
Definition closed (s : state) : Prop := no_dangling s /\ Forall (req_in (bounded s (s_next s))) (s_pending s).
Lemma below_fine s v : below s v <-> @fine _ (fine_val False (bounded s (s_next s))) v.
Proof. apply fine_by_addr. Qed.
Lemma next_runs T (p : prog T) s o s' : runs denote p s o s' -> (s_next s <= s_next s')%positive.
Proof.
  intros [n H]. refine (proj2 (run_rel (fun _ => True) (fun a b => (s_next a <= s_next b)%positive) _ _ _ n T p s o s' I H)); intros; try lia.
  split; [exact I|]. eapply next_mono; eassumption.
Qed.
Lemma closed_runs T (F : (loc -> Prop) -> Fine T) (p : prog T) s o s' : wf_state s -> closed s ->
  safe (rpol (bounded s (s_next s'))) p (@fine _ (F (bounded s (s_next s')))) -> runs denote p s o s' ->
  closed s' /\ match o with Done a => @fine _ (F (bounded s' (s_next s'))) a | Panicked _ => True end.
Proof.
  intros W [C P] Hp Hr. pose proof (next_runs _ _ _ _ _ Hr) as L. assert (W' : wf_state s') by (destruct Hr as [n Hr]; exact (wf_run _ _ _ _ _ _ W Hr)).
  destruct (within_runs (bounded s (s_next s')) (bounded s (s_next s')) T (F _) p s o s' W (closed_heap _ _ W C P L) ltac:(auto) Hp Hr) as (H & _ & V).
  split; [|exact V]. apply closed_of_heap; [exact W'|]. exact H.
Qed.
Lemma next_psteps c c' : psteps c c' -> (s_next (snd c) <= s_next (snd c'))%positive.
Proof.
  intros H. refine (proj2 (psteps_rel (fun _ => True) (fun a b => (s_next a <= s_next b)%positive) _ _ _ _ _ _ c c' I H)); intros; cbn; try (split; [exact I|]); try lia.
  - eapply next_mono; eassumption.
  - match goal with E : put_ret _ _ _ = Some _ |- _ => unfold put_ret in E; destruct (pr_ret _); [discriminate|]; injection E as <- end. cbn. lia.
Qed.
(** Host goroutines that start from existing objects. *)
Definition existing_thread (s : state) (t : thread) : Prop := exists roots, Forall (fun l => (l < s_next s)%positive) roots /\ sandboxed_thread roots t.
Lemma closed_psteps ts s ts' s' : wf_state s -> closed s -> Forall (existing_thread s) ts -> psteps (ts, s) (ts', s') -> closed s'.
Proof.
  intros W [C P] Ht Hs. pose proof (next_psteps _ _ Hs) as L. cbn in L. pose proof (wf_psteps (ts, s) (ts', s') W Hs) as W'. cbn in W'.
  set (R := bounded s (s_next s')).
  assert (Hi : pinv False R R none1 none2 True True no_name False R (s_log s) s s').
  { refine (policy_pool False True R R none1 none2 True True no_name no_name False _ _ _ _ _ _ _ R (s_log s) s (wf_C0 _ W) ts s ts' s' I _ _ Hs _).
    - auto.
    - right. split; auto.
    - left. exact I.
    - left. exact I.
    - left. exact I.
    - left. reflexivity.
    - intros _ _ [].
    - split; [exact (closed_heap _ _ W C P L)|]. split; [split; intros; discriminate|]. split; [apply data_kept_refl|]. split; [apply log_ok_refl|apply out_kept_refl].
    - eapply List.Forall_impl; [|exact Ht]. intros t (roots & B & Hr).
      assert (Bd : forall l, In l roots -> R l) by (intros l Hl; pose proof (proj1 (List.Forall_forall _ _) B l Hl) as K; cbn in K; unfold R, bounded; lia).
      assert (Hv : forall v, incl (opt_list (addr v)) roots -> @fine _ (fine_val False R) v).
      { intros v Hv. apply fine_by_addr. intros k Hk. apply Bd, Hv. rewrite Hk. left. reflexivity. }
      destruct Hr as [src env He|v env He Hi|f args env He Hf Ha].
      + apply eval_text_safe; [auto|]. apply Bd, He.
      + apply eval_thread_safe; [apply Hv, Hi|]. apply Bd, He.
      + split; [split; [apply Hv, Hf|split; [apply Hv, Ha|apply Bd, He]]|]. intros x _. exact I.
    - split; [intros ? _ ? ? _ []|auto]. }
  apply closed_of_heap; [exact W'|]. exact (proj1 Hi).
Qed.
(** Nobody refers to [l]: it cannot be got at. *)
Lemma lonely s roots l : ~ In l roots -> (forall k, ~ refers s k l) -> ~ accessible s roots l.
Proof. intros Hr Hk H. destruct H as [l H|k l _ H]; [exact (Hr H)|exact (Hk _ H)]. Qed.

(** Checking a concrete state. *)
Definition addr_below (N : positive) (v : val) : bool := match addr v with Some k => Pos.ltb k N | None => true end.
Definition opt_below (N : positive) (o : option loc) : bool := match o with Some k => Pos.ltb k N | None => true end.
Definition all_in {T} (m : Pmap T) (f : T -> bool) : bool := forallb (fun p => f (snd p)) (map_to_list m).
Lemma all_in_spec {T} (m : Pmap T) f : all_in m f = true -> forall (l : loc) x, m !! l = Some x -> f x = true.
Proof. intros H l x Hx. apply elem_of_map_to_list, elem_of_list_In in Hx. exact (proj1 (forallb_forall _ _) H _ Hx). Qed.
Definition closedb (s : state) : bool :=
  let N := s_next s in
  all_in (s_cells s) (fun p => addr_below N (fst p) && addr_below N (snd p)) &&
  all_in (s_funs s) (fun f => addr_below N (f_params (fn_code f)) && addr_below N (f_body (fn_code f)) && Pos.ltb (f_env (fn_code f)) N && opt_below N (fn_proc f)) &&
  all_in (s_macros s) (fun f => addr_below N (m_params f) && addr_below N (m_body f) && Pos.ltb (m_env f) N) &&
  all_in (s_envs s) (fun e => opt_below N (e_parent e) && opt_below N (e_frame e) && forallb (fun p => Pos.ltb (snd p) N) (e_binds e)) &&
  all_in (s_binds s) (fun b => addr_below N (b_sym b) && addr_below N (b_val b)) &&
  all_in (s_frames s) (fun m => forallb (fun p => addr_below N (snd p)) m) &&
  all_in (s_chans s) (fun c => forallb (addr_below N) (ch_buf c) && forallb (fun p => addr_below N (snd p)) (ch_sendq c) && forallb (fun p => addr_below N (fst (snd p))) (ch_rdone c)) &&
  all_in (s_procs s) (fun p => match pr_ret p with Some v => addr_below N v | None => true end) &&
  forallb (fun l => Pos.ltb l N) (shared_roots s) && match s_pending s with [] => true | _ => false end.
Lemma closedb_spec s : closedb s = true -> closed s.
Proof.
  unfold closedb. intros H. repeat (apply andb_prop in H; destruct H as [H ?H]).
  assert (AB : forall v k, addr_below (s_next s) v = true -> addr v = Some k -> (k < s_next s)%positive).
  { intros v k Hv Hk. unfold addr_below in Hv. rewrite Hk in Hv. apply Pos.ltb_lt, Hv. }
  split; [split|].
  - intros l k Hk. destruct Hk as [k Hk|k Hk|k Hk|k Hk|r Hk|k Hk|k Hk|k Hk|r Hk|k Hk|k Hk|n k Hk|k Hk|k Hk|n v k Hi Hk|v k Hi Hk|t v k Hi Hk|t v b k Hi Hk|v k Hi Hk];
    unfold cell_at, fun_at, mac_at, env_at, bind_at, frame_at, chan_at, proc_at in *;
    repeat match goal with
    | Hx : context [default _ (?m !! l)] |- _ => let E := fresh "E" in destruct (m !! l) eqn:E; cbn in Hx; try discriminate; try contradiction
    end;
    match goal with
    | E : s_cells s !! l = Some _ |- _ => pose proof (all_in_spec _ _ H _ _ E) as K
    | E : s_funs s !! l = Some _ |- _ => pose proof (all_in_spec _ _ H8 _ _ E) as K
    | E : s_macros s !! l = Some _ |- _ => pose proof (all_in_spec _ _ H7 _ _ E) as K
    | E : s_envs s !! l = Some _ |- _ => pose proof (all_in_spec _ _ H6 _ _ E) as K
    | E : s_binds s !! l = Some _ |- _ => pose proof (all_in_spec _ _ H5 _ _ E) as K
    | E : s_frames s !! l = Some _ |- _ => pose proof (all_in_spec _ _ H4 _ _ E) as K
    | E : s_chans s !! l = Some _ |- _ => pose proof (all_in_spec _ _ H3 _ _ E) as K
    | E : s_procs s !! l = Some _ |- _ => pose proof (all_in_spec _ _ H2 _ _ E) as K
    end; cbn beta in K; repeat (apply andb_prop in K; destruct K as [K ?K]);
    try (eapply AB; [|exact Hk]; assumption);
    try (match goal with K : opt_below _ ?o = true, Hk : ?o = Some _ |- _ => rewrite Hk in K; apply Pos.ltb_lt, K end);
    try (apply Pos.ltb_lt; assumption).
    + apply Pos.ltb_lt. exact (proj1 (forallb_forall _ _) K0 _ Hk).
    + exact (AB _ _ (proj1 (forallb_forall _ _) K _ Hi) Hk).
    + exact (AB _ _ (proj1 (forallb_forall _ _) K _ Hi) Hk).
    + exact (AB _ _ (proj1 (forallb_forall _ _) K1 _ Hi) Hk).
    + exact (AB _ _ (proj1 (forallb_forall _ _) K0 _ Hi) Hk).
    + rewrite Hi in K. exact (AB _ _ K Hk).
  - apply List.Forall_forall. intros l Hl. apply Pos.ltb_lt. exact (proj1 (forallb_forall _ _) H1 _ Hl).
  - destruct (s_pending s); [constructor|discriminate].
Qed.
Lemma hidden_string s x roots : wf_state s -> closed s -> s_pending s = [] -> Forall (fun l => (l < s_next s)%positive) roots ->
  let s1 := set_strs (<[s_next s := x]> (s_strs s)) (bump s) in
  wf_state s1 /\ s_pending s1 = [] /\ shared_roots s1 = shared_roots s /\ handed_out s1 (s_next s) /\ ~ accessible s1 roots (s_next s) /\ s_strs s1 !! s_next s = Some x.
Proof.
  intros W [[C _] _] P B s1. split; [exact (wf_step _ (OStrNew x) s (s_next s) s1 eq_refl W)|]. split; [exact P|]. split; [reflexivity|].
  split; [unfold handed_out; cbn; pose proof (wf_next _ W); lia|]. split; [|apply lookup_insert].
  apply lonely.
  - intros H. pose proof (proj1 (List.Forall_forall _ _) B _ H) as K. cbn in K. lia.
  - intros k H. assert (K : refers s k (s_next s)) by (destruct H as [k1 H|k1 H|k1 H|k1 H|r H|k1 H|k1 H|k1 H|r H|k1 H|k1 H|n k1 H|k1 H|k1 H|n v k1 Hi H|v k1 Hi H|t v k1 Hi H|t v b k1 Hi H|v k1 Hi H];
      [exact (ref_car s k _ H)|exact (ref_cdr s k _ H)|exact (ref_params s k _ H)|exact (ref_body s k _ H)|exact (ref_closure s k _ H)|exact (ref_process s k _ H)|exact (ref_mparams s k _ H)|exact (ref_mbody s k _ H)|exact (ref_mclosure s k _ H)|exact (ref_parent s k _ H)|exact (ref_object s k _ H)|exact (ref_binding s k _ _ H)|exact (ref_bsym s k _ H)|exact (ref_bval s k _ H)|exact (ref_slot s k _ _ _ Hi H)|exact (ref_buffer s k _ _ Hi H)|exact (ref_sender s k _ _ _ Hi H)|exact (ref_received s k _ _ _ _ Hi H)|exact (ref_result s k _ _ Hi H)]). specialize (C _ _ K). lia.
Qed.
Lemma evals_closed e env s o s' : wf_state s -> closed s -> below s e -> (env < s_next s)%positive -> evals e env s o s' ->
  closed s' /\ forall v, o = Done (Ok v) -> below s' v.
Proof.
  intros W C Be Bn H. destruct (closed_runs (res val) (fun R => @fine_res _ (fine_val False R)) (call (REval e env false)) s o s' W C) as [C' V]; [|exact H|].
  - pose proof (next_runs _ _ _ _ _ H) as L. split; [|intros x Hx; exact Hx]. split; [|unfold bounded; lia].
    apply fine_by_addr. intros k Hk. specialize (Be k Hk). unfold bounded. lia.
  - split; [exact C'|]. intros v ->. apply below_fine. exact V.
Qed.
Lemma hidden_case s x src : wf_state s -> closed s -> s_pending s = [] ->
  exists s1 l, wf_state s1 /\ s_pending s1 = [] /\ incl (shared_roots s1) (s_global s1 :: shared_roots s1) /\
  sandboxed_thread (s_global s1 :: shared_roots s1) (eval_text_thread src (s_global s1)) /\
  handed_out s1 l /\ ~ accessible s1 (s_global s1 :: shared_roots s1) l /\ s_strs s1 !! l = Some x.
Proof.
  intros W C P. destruct (hidden_string s x (s_global s :: shared_roots s) W C P) as (W1 & P1 & E & O & N & S).
  { destruct C as [[_ G] _]. constructor; [exact (Forall_inv G)|exact G]. }
  exists (set_strs (<[s_next s := x]> (s_strs s)) (bump s)), (s_next s). split; [exact W1|]. split; [exact P1|]. split; [intros k Hk; right; exact Hk|].
  split; [constructor; left; reflexivity|]. split; [exact O|]. split; [exact N|exact S].
Qed.
Lemma existing_case s src : closed s -> existing_thread s (eval_text_thread src (s_global s)).
Proof. intros [[_ G] _]. exists [s_global s]. split; [constructor; [exact (Forall_inv G)|constructor]|]. constructor. left. reflexivity. Qed.
