(** Invariants of every execution, of any number of goroutines under any scheduler.

    A policy says which operations and requests a program may issue given what it has been told so
    far; [safe p Q] says that program [p] respects the policy whatever the answers, and that its
    result satisfies [Q].  If every recursive request has a safe meaning, and operations that respect
    the policy preserve a state invariant, the invariant holds in every state any pool of safe threads
    can reach. *)
From Verif Require Export Pool.
Local Open Scope list_scope.

Record policy := Policy {
  good_op : forall X, op X -> Prop;
  good_ans : forall X, op X -> X -> Prop;
  good_req : forall X, req X -> Prop;
  good_res : forall X, req X -> X -> Prop;
  may_panic : Prop }.
Arguments good_op _ {X} _. Arguments good_ans _ {X} _ _.
Arguments good_req _ {X} _. Arguments good_res _ {X} _ _.

Section Safe.
  Variable P : policy.

  Fixpoint safe {A} (p : prog A) : (A -> Prop) -> Prop :=
    match p in prog A return (A -> Prop) -> Prop with
    | Ret a => fun Q => Q a
    | Panic _ => fun _ => may_panic P
    | Vis o k => fun Q => good_op P o /\ forall x, good_ans P o x -> safe (k x) Q
    | Call r k => fun Q => good_req P r /\ forall x, good_res P r x -> safe (k x) Q
    | @Iter A T R body s k => fun Q =>
        exists (I : T -> Prop) (J : R -> Prop),
          I s /\
          (forall s, I s -> safe (body s) (fun r => match r with inl s' => I s' | inr x => J x end)) /\
          (forall x, J x -> safe (k x) Q)
    end.

  Lemma safe_conseq A (p : prog A) (Q Q' : A -> Prop) :
    safe p Q -> (forall x, Q x -> Q' x) -> safe p Q'.
  Proof.
    induction p as [A a|A w|A X o k IH|A X r k IH|A S R body IHb s0 k IH]; cbn; intros H HQ; auto.
    - destruct H; split; eauto.
    - destruct H; split; eauto.
    - destruct H as (I & J & H1 & H2 & H3). exists I, J. eauto.
  Qed.

  Lemma safe_bind A B (p : prog A) (f : A -> prog B) Q :
    safe p (fun x => safe (f x) Q) -> safe (bind p f) Q.
  Proof.
    revert f. induction p as [A a|A w|A X o k IH|A X r k IH|A S R body IHb s0 k IH]; cbn; intros f H; auto.
    - destruct H; split; eauto.
    - destruct H; split; eauto.
    - destruct H as (I & J & H1 & H2 & H3). exists I, J. eauto.
  Qed.

  Lemma safe_op X (o : op X) : good_op P o -> safe (do_op o) (good_ans P o).
  Proof. cbn. auto. Qed.
  Lemma safe_call X (r : req X) : good_req P r -> safe (call r) (good_res P r).
  Proof. cbn. auto. Qed.
  Lemma safe_loop S R (body : S -> prog (S + R)) s (I : S -> Prop) (J : R -> Prop) :
    I s ->
    (forall s, I s -> safe (body s) (fun r => match r with inl s' => I s' | inr x => J x end)) ->
    safe (loop body s) J.
  Proof. cbn. intros. exists I, J. auto. Qed.

  (** *** Whole executions *)
  Variable inv : state -> Prop.
  (** Executions are considered only up to the first state that is not [live]. *)
  Variable live : state -> Prop.
  Hypothesis live_back : forall X (o : op X) s x s', step_op o s = Some (x, s') -> live s' -> live s.
  Hypothesis inv_step : forall X (o : op X) s x s',
    inv s -> live s' -> good_op P o -> step_op o s = Some (x, s') -> inv s' /\ good_ans P o x.
  Hypothesis all_safe : forall X (r : req X), good_req P r -> safe (denote X r) (good_res P r).

  (** One goroutine alone. *)
  Lemma run_live n : forall A (p : prog A) s o s',
    run denote n p s = Some (o, s') -> live s' -> live s.
  Proof using live_back.
    induction n as [|n IHn]; intros A p;
      induction p as [A a|A w|A X o k IH|A X q k IH|A S R body IHb s0 k IH];
      intros s o' s' Hr Hl; try (rewrite ?run_ret, ?run_panic in Hr);
      try (injection Hr as <- <-; auto; fail); try (cbn in Hr; discriminate).
    - rewrite run_vis in Hr. destruct (step_op o s) as [[x s1]|] eqn:E; [|discriminate]. eauto.
    - rewrite run_vis in Hr. destruct (step_op o s) as [[x s1]|] eqn:E; [|discriminate]. eauto.
    - rewrite run_call in Hr.
      destruct (run denote n (denote X q) s) as [[[x|w] s1]|] eqn:E; [| |discriminate].
      + eauto.
      + injection Hr as <- <-. eauto.
    - rewrite run_iter in Hr.
      destruct (run denote n (body s0) s) as [[[[s1|x]|w] s2]|] eqn:E; [| | |discriminate].
      + destruct (run denote n (Iter body s1 Ret) s2) as [[[x|w] s3]|] eqn:E2; [| |discriminate].
        * eauto.
        * injection Hr as <- <-. eauto.
      + eauto.
      + injection Hr as <- <-. eauto.
  Qed.

  Lemma run_safe n : forall A (p : prog A) s o s' (Q : A -> Prop),
    safe p Q -> inv s -> run denote n p s = Some (o, s') -> live s' ->
    inv s' /\ match o with Done a => Q a | Panicked _ => may_panic P end.
  Proof using live_back inv_step all_safe.
    induction n as [|n IHn]; intros A p;
      induction p as [A a|A w|A X o k IH|A X q k IH|A S R body IHb s0 k IH];
      intros s o' s' Q Hs Hi Hr Hl; try (rewrite ?run_ret, ?run_panic in Hr);
      try (injection Hr as <- <-; repeat split; auto; fail); try (cbn in Hr; discriminate).
    - rewrite run_vis in Hr. destruct (step_op o s) as [[x s1]|] eqn:E; [|discriminate].
      cbn in Hs. destruct Hs as [Ho Hk].
      destruct (inv_step _ _ _ _ _ Hi (run_live _ _ _ _ _ _ Hr Hl) Ho E) as [Hi1 Ha].
      exact (IH x _ _ _ _ (Hk _ Ha) Hi1 Hr Hl).
    - rewrite run_vis in Hr. destruct (step_op o s) as [[x s1]|] eqn:E; [|discriminate].
      cbn in Hs. destruct Hs as [Ho Hk].
      destruct (inv_step _ _ _ _ _ Hi (run_live _ _ _ _ _ _ Hr Hl) Ho E) as [Hi1 Ha].
      exact (IH x _ _ _ _ (Hk _ Ha) Hi1 Hr Hl).
    - rewrite run_call in Hr. cbn in Hs. destruct Hs as [Hq Hk].
      destruct (run denote n (denote X q) s) as [[[x|w] s1]|] eqn:E; [| |discriminate].
      + destruct (IHn _ _ _ _ _ _ (all_safe _ _ Hq) Hi E (run_live _ _ _ _ _ _ Hr Hl)) as [Hi1 Ha].
        exact (IH x _ _ _ _ (Hk _ Ha) Hi1 Hr Hl).
      + injection Hr as <- <-.
        destruct (IHn _ _ _ _ _ _ (all_safe _ _ Hq) Hi E Hl) as [Hi1 Ha]. auto.
    - rewrite run_iter in Hr. cbn in Hs. destruct Hs as (I & J & H1 & H2 & H3).
      destruct (run denote n (body s0) s) as [[[[s1|x]|w] s2]|] eqn:E; [| | |discriminate].
      + destruct (run denote n (Iter body s1 Ret) s2) as [[[x|w] s3]|] eqn:E2; [| |discriminate].
        * pose proof (run_live _ _ _ _ _ _ Hr Hl) as L3. pose proof (run_live _ _ _ _ _ _ E2 L3) as L2.
          destruct (IHn _ _ _ _ _ _ (H2 _ H1) Hi E L2) as [Hi2 Ha].
          assert (Hs : safe (Iter body s1 Ret) J) by (cbn; exists I, J; auto).
          destruct (IHn _ _ _ _ _ _ Hs Hi2 E2 L3) as [Hi3 Hj].
          exact (IH x _ _ _ _ (H3 _ Hj) Hi3 Hr Hl).
        * injection Hr as <- <-. pose proof (run_live _ _ _ _ _ _ E2 Hl) as L2.
          destruct (IHn _ _ _ _ _ _ (H2 _ H1) Hi E L2) as [Hi2 Ha].
          assert (Hs : safe (Iter body s1 Ret) J) by (cbn; exists I, J; auto).
          destruct (IHn _ _ _ _ _ _ Hs Hi2 E2 Hl) as [Hi3 Hj]. auto.
      + destruct (IHn _ _ _ _ _ _ (H2 _ H1) Hi E (run_live _ _ _ _ _ _ Hr Hl)) as [Hi2 Ha].
        exact (IH x _ _ _ _ (H3 _ Ha) Hi2 Hr Hl).
      + injection Hr as <- <-. destruct (IHn _ _ _ _ _ _ (H2 _ H1) Hi E Hl) as [Hi2 Ha]. auto.
  Qed.

  Lemma runs_safe A (p : prog A) s o s' Q :
    safe p Q -> inv s -> runs denote p s o s' -> live s' ->
    inv s' /\ match o with Done a => Q a | Panicked _ => may_panic P end.
  Proof using live_back inv_step all_safe. intros Hs Hi [n Hr] Hl. eapply run_safe; eauto. Qed.

  (** Any number of goroutines. *)
  Lemma step_prog_live A (p : prog A) s p' s' : step_prog p s = Some (p', s') -> live s' -> live s.
  Proof using live_back.
    destruct p as [A a|A w|A X o k|A X r k|A S R body s0 k]; cbn; intros H Hl; try discriminate.
    - destruct (step_op o s) as [[x s1]|] eqn:E; [|discriminate]. injection H as <- <-. eauto.
    - injection H as <- <-. auto.
    - injection H as <- <-. auto.
  Qed.
  Lemma step_prog_safe A (p : prog A) s p' s' Q :
    safe p Q -> inv s -> step_prog p s = Some (p', s') -> live s' -> inv s' /\ safe p' Q.
  Proof using inv_step all_safe.
    destruct p as [A a|A w|A X o k|A X r k|A S R body s0 k]; cbn; intros Hs Hi H Hl; try discriminate.
    - destruct (step_op o s) as [[x s1]|] eqn:E; [|discriminate]. injection H as <- <-.
      destruct Hs as [Ho Hk]. destruct (inv_step _ _ _ _ _ Hi Hl Ho E). auto.
    - injection H as <- <-. destruct Hs as [Hr Hk]. split; [auto|].
      apply safe_bind. eapply safe_conseq; [apply all_safe; auto|]. auto.
    - injection H as <- <-. destruct Hs as (I & J & H1 & H2 & H3). split; [auto|].
      apply safe_bind. eapply safe_conseq; [apply H2; auto|].
      intros [s1|x] Hx; cbn; [exists I, J; auto|auto].
  Qed.

  (** Which values a goroutine may end with. *)
  Variable goodv : res val -> Prop.
  (** What a process may leave as its result. *)
  Variable good_put : loc -> val -> Prop.
  Definition thread_safe (t : thread) : Prop :=
    match t with
    | TEval p => safe p goodv
    | TProc pl p => safe p (good_put pl) /\ good_put pl VNil
    | TPut pl v => good_put pl v
    | TDone => True
    end.
  Hypothesis inv_pending : forall s, inv s ->
    inv (set_pending [] s) /\ Forall (fun r => thread_safe (spawn_thread r)) (s_pending s).
  Hypothesis live_pending : forall s, live (set_pending [] s) -> live s.
  Hypothesis inv_put : forall l v s s', inv s -> live s' -> good_put l v -> put_ret l v s = Some s' -> inv s'.
  Hypothesis live_put : forall l v s s', put_ret l v s = Some s' -> live s' -> live s.
  Hypothesis inv_out : forall w s, inv s -> inv (set_log (EOut w :: s_log s) s).
  Hypothesis live_out : forall w s, live (set_log (EOut w :: s_log s) s) -> live s.

  Definition pool_safe (c : pool) : Prop := inv (snd c) /\ Forall thread_safe (fst c).

  Lemma step_thread_live t s t' s' : step_thread t s = Some (t', s') -> live s' -> live s.
  Proof using live_back live_put live_out.
    intros H Hl. destruct t as [p|pl p|pl v|].
    - cbn in H. destruct (step_prog p s) as [[p1 s1]|] eqn:E; [|discriminate]. injection H as <- <-.
      eapply step_prog_live; eauto.
    - unfold step_thread in H. destruct (finished p) as [[v|w]|].
      + injection H as <- <-. auto.
      + injection H as <- <-. eauto.
      + destruct (step_prog p s) as [[p1 s1]|] eqn:E; [|discriminate]. injection H as <- <-.
        eapply step_prog_live; eauto.
    - unfold step_thread in H. destruct (put_ret pl v s) as [s1|] eqn:E; [|discriminate].
      injection H as <- <-. eauto.
    - discriminate.
  Qed.
  Lemma finished_safe A (p : prog A) (Q : A -> Prop) a : finished p = Some (Done a) -> safe p Q -> Q a.
  Proof. destruct p; cbn; intros H Hs; try discriminate. injection H as <-. auto. Qed.

  Lemma finished_panic A (p : prog A) (Q : A -> Prop) w :
    finished p = Some (Panicked w) -> safe p Q -> may_panic P.
  Proof. destruct p; cbn; intros H Hs; try discriminate. exact Hs. Qed.

  Lemma step_thread_safe t s t' s' :
    thread_safe t -> inv s -> step_thread t s = Some (t', s') -> live s' -> inv s' /\ thread_safe t'.
  Proof using inv_step all_safe inv_put inv_out.
    intros Ht Hi H Hl. destruct t as [p|pl p|pl v|].
    - cbn in H. destruct (step_prog p s) as [[p1 s1]|] eqn:E; [|discriminate]. injection H as <- <-.
      eapply step_prog_safe; eauto.
    - unfold step_thread in H. destruct Ht as [Hp Hn]. destruct (finished p) as [[v|w]|] eqn:F.
      + injection H as <- <-. split; [auto|]. exact (finished_safe _ _ _ _ F Hp).
      + injection H as <- <-. split; [apply inv_out; auto|]. exact Hn.
      + destruct (step_prog p s) as [[p1 s1]|] eqn:E; [|discriminate]. injection H as <- <-.
        destruct (step_prog_safe _ _ _ _ _ _ Hp Hi E Hl). split; [auto|]. split; auto.
    - unfold step_thread in H. destruct (put_ret pl v s) as [s1|] eqn:E; [|discriminate].
      injection H as <- <-. split; [exact (inv_put _ _ _ _ Hi Hl Ht E)|exact I].
    - discriminate.
  Qed.

  Lemma pstep_live c c' : pstep c c' -> live (snd c') -> live (snd c).
  Proof using live_back live_put live_out live_pending.
    intros H0 Hl. destruct H0 as [pre t post s t' s' H]. cbn in *. eapply step_thread_live; eauto.
  Qed.
  Lemma pstep_safe c c' : pool_safe c -> pstep c c' -> live (snd c') -> pool_safe c'.
  Proof using inv_step all_safe inv_put inv_out live_pending inv_pending.
    intros Hc H0 Hl. destruct H0 as [pre t post s t' s' H]. destruct Hc as [Hi Hts]. cbn in *.
    apply Forall_app in Hts. destruct Hts as [Hpre Hts]. pose proof (Forall_inv Hts) as Ht; pose proof (Forall_inv_tail Hts) as Hpost.
    destruct (step_thread_safe _ _ _ _ Ht Hi H (live_pending _ Hl)) as [Hi' Ht'].
    destruct (inv_pending _ Hi') as [Hi2 Hsp]. split; [exact Hi2|]. cbn.
    apply Forall_app; split; [auto|]. apply List.Forall_cons; [auto|].
    apply Forall_app; split; [auto|]. unfold spawned. apply Forall_map. exact Hsp.
  Qed.
  Lemma psteps_live c c' : psteps c c' -> live (snd c') -> live (snd c).
  Proof using live_back live_put live_out live_pending.
    induction 1; auto. intros. apply IHpsteps. eapply pstep_live; eauto.
  Qed.
  Theorem psteps_safe c c' : pool_safe c -> psteps c c' -> live (snd c') -> pool_safe c'.
  Proof using live_back inv_step all_safe live_put inv_put live_out inv_out live_pending inv_pending.
    intros Hc H. induction H as [|c1 c2 c3 H IH Hs]; auto.
    intros Hl. refine (pstep_safe c2 c3 _ Hs Hl). apply IH; [exact Hc|]. eapply pstep_live; eauto.
  Qed.
  (** The same when every state on the way is live, instead of only the last one. *)
  Theorem psteps_safe_within c c' : pool_safe c -> psteps_within live c c' -> pool_safe c'.
  Proof using inv_step all_safe inv_put inv_out live_pending inv_pending.
    intros Hc H. induction H as [|c1 c2 c3 H IH Hs Hl]; auto.
    refine (pstep_safe c2 c3 _ Hs Hl). apply IH, Hc.
  Qed.
End Safe.
Arguments safe P {A} p Q.
