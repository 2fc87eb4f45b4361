(** Well-formedness of states is an invariant, and a general principle for relations between states. *)
From Verif Require Export SpecAccess.
Local Open Scope string_scope.
Local Open Scope list_scope.

(** *** Well-formedness is an invariant of every operation *)
Lemma put_lookup {T} (m : Pmap T) (k : loc) (x : T) (l : loc) (y : T) :
  put k x m !! l = Some y -> exists z, m !! l = Some z.
Proof.
  unfold put. destruct (m !! k) eqn:E; [|eauto]. destruct (Pos.eqb_spec k l) as [<-|N]; [eauto|].
  rewrite lookup_insert_ne by exact N. eauto.
Qed.
Lemma insert_lookup {T} (m : Pmap T) (k : loc) (x : T) (l : loc) (y : T) :
  <[k := x]> m !! l = Some y -> l = k \/ exists z, m !! l = Some z.
Proof.
  destruct (Pos.eqb_spec k l) as [<-|N]; [auto|]. rewrite lookup_insert_ne by exact N. eauto.
Qed.
Definition in_range (s : state) {T} (m : Pmap T) : Prop := forall (l : loc) x, m !! l = Some x -> handed_out s l.
Lemma range_put s T (m : Pmap T) k x : in_range s m -> in_range s (put k x m).
Proof. intros H l y Hy. apply put_lookup in Hy. destruct Hy as [z Hz]. exact (H _ _ Hz). Qed.
Lemma range_bump s T (m : Pmap T) : in_range s m -> in_range (bump s) m.
Proof. intros H l y Hy. destruct (H _ _ Hy). split; cbn; lia. Qed.
Lemma range_new s T (m : Pmap T) x : (1 < s_next s)%positive -> in_range s m -> in_range (bump s) (<[s_next s := x]> m).
Proof.
  intros Hn H l y Hy. apply insert_lookup in Hy. destruct Hy as [->|[z Hz]]; [split; cbn; lia|].
  apply (range_bump _ _ _ H _ _ Hz).
Qed.
Lemma wf_alt s : wf_state s <->
  (1 < s_next s)%positive /\ in_range s (s_cells s) /\ in_range s (s_strs s) /\ in_range s (s_bytes s) /\
  in_range s (s_funs s) /\ in_range s (s_macros s) /\ in_range s (s_envs s) /\ in_range s (s_binds s) /\
  in_range s (s_frames s) /\ in_range s (s_chans s) /\ in_range s (s_procs s) /\ in_range s (s_atoms s).
Proof. split; [intros []; repeat apply conj; assumption|]. intros (?&?&?&?&?&?&?&?&?&?&?&?). constructor; assumption. Qed.
Lemma wf_bump s : wf_state s -> wf_state (bump s).
Proof.
  intros H. apply wf_alt in H. destruct H as (?&?&?&?&?&?&?&?&?&?&?&?). apply wf_alt.
  split; [cbn; lia|]. repeat apply conj; eapply range_bump; eassumption.
Qed.
Ltac wfp H := apply wf_alt in H; destruct H as (?&?&?&?&?&?&?&?&?&?&?&?); apply wf_alt; split; [assumption|];
  repeat apply conj;
  repeat match goal with |- in_range _ _ => first [assumption | apply (range_put _ _ _ _ _); assumption] end.
Lemma wf_step X (o : op X) s x s' : step_op o s = Some (x, s') -> wf_state s -> wf_state s'.
Proof.
  assert (Hch : forall z s1, next_choice s = (z, s1) -> wf_state s -> wf_state s1).
  { intros z s1. unfold next_choice. destruct (s_oracle s); intros [= <- <-] H; [exact H|]. wfp H. }
  assert (Hup : forall l f s1, wf_state s1 -> wf_state (upd_proc l f s1)).
  { intros l f s1 H. unfold upd_proc. apply wf_alt in H. destruct H as (?&?&?&?&?&?&?&?&?&?&?&?). apply wf_alt.
    split; [assumption|]. repeat apply conj; first [eassumption | eapply range_put; eassumption]. }
  intros Hs H. pose proof (wf_bump _ H) as HB.
  assert (E0 : wf_state s) by exact H. apply wf_alt in E0. destruct E0 as (N0&E1&E2&E3&E4&E5&E6&E7&E8&E9&E10&E11).
  apply wf_alt in HB. destruct HB as (N0'&E1'&E2'&E3'&E4'&E5'&E6'&E7'&E8'&E9'&E10'&E11').
  Local Ltac easyrange := first [eassumption | eapply range_put; eassumption | eapply range_new; eassumption].
  Local Ltac go := apply wf_alt; split; [assumption|]; repeat apply conj; easyrange.
  destruct o; cbn [step_op] in Hs; try (injection Hs as <- <-); try exact H; try (go; fail); try (apply Hup, H).
  - destruct (alookup _ _); injection Hs as <- <-; [go|exact H].
  - destruct (chan_send _ _ _ _); injection Hs as <- <-. apply wf_alt. split; [assumption|]. repeat apply conj; easyrange.
  - destruct (plookup _ _); [|discriminate]; injection Hs as <- <-. go.
  - destruct (chan_recv _ _ _); injection Hs as <- <-. go.
  - destruct (plookup _ _); [|discriminate]; injection Hs as <- <-. go.
  - destruct (chan_close _); injection Hs as <- <-. go.
  - destruct (next_choice s) as [z s1] eqn:E. pose proof (Hch _ _ eq_refl H) as H1.
    destruct (_ && _); injection Hs as <- <-; [apply Hup|]; exact H1.
  - destruct (next_choice s) as [z s1] eqn:E. pose proof (Hch _ _ eq_refl H) as H1. injection Hs as <- <-.
    destruct (_ =? 0)%Z; [apply Hup, H1|destruct (_ =? 1)%Z; [apply Hup|]; exact H1].
  - destruct (pr_ret _); [|discriminate]. injection Hs as <- <-. apply Hup, H.
  - destruct (_ =? _)%Z; injection Hs as <- <-; [go|exact H].
  - destruct (next_choice s) as [z s1] eqn:E. injection Hs as <- <-. exact (Hch _ _ eq_refl H).
Qed.

Lemma wf_put_ret l v s s' : put_ret l v s = Some s' -> wf_state s -> wf_state s'.
Proof.
  unfold put_ret. destruct (pr_ret _); [discriminate|]. intros [= <-] H. apply wf_alt in H. apply wf_alt.
  destruct H as (?&?&?&?&?&?&?&?&?&?&?&?). repeat apply conj; try assumption. apply range_put. assumption.
Qed.

(** *** Relations between the states before and after, for any pool of goroutines whatsoever *)
Section Rel.
  Variable I : state -> Prop.
  Variable Rel : state -> state -> Prop.
  Hypothesis Rrefl : forall s, Rel s s.
  Hypothesis Rtrans : forall a b c, Rel a b -> Rel b c -> Rel a c.
  Hypothesis Rop : forall X (o : op X) s x s', I s -> step_op o s = Some (x, s') -> I s' /\ Rel s s'.
  Hypothesis Rput : forall l v s s', I s -> put_ret l v s = Some s' -> I s' /\ Rel s s'.
  Hypothesis Rpending : forall s, I s -> I (set_pending [] s) /\ Rel s (set_pending [] s).
  Hypothesis Rout : forall w s, I s -> I (set_log (EOut w :: s_log s) s) /\ Rel s (set_log (EOut w :: s_log s) s).
  Lemma step_prog_rel A (p : prog A) s p' s' : I s -> step_prog p s = Some (p', s') -> I s' /\ Rel s s'.
  Proof using Rop Rrefl.
    destruct p as [A a|A w|A X o k|A X r k|A S R body s0 k]; cbn; intros Hi H; try discriminate.
    - destruct (step_op o s) as [[x s1]|] eqn:E; [|discriminate]. injection H as <- <-. exact (Rop _ _ _ _ _ Hi E).
    - injection H as <- <-. auto.
    - injection H as <- <-. auto.
  Qed.
  Lemma step_thread_rel t s t' s' : I s -> step_thread t s = Some (t', s') -> I s' /\ Rel s s'.
  Proof using Rop Rput Rrefl Rout.
    intros Hi H. destruct t as [p|pl p|pl v|].
    - cbn in H. destruct (step_prog p s) as [[p1 s1]|] eqn:E; [|discriminate]. injection H as <- <-.
      exact (step_prog_rel _ _ _ _ _ Hi E).
    - unfold step_thread in H. destruct (finished p) as [[v|w]|].
      + injection H as <- <-. auto.
      + injection H as <- <-. exact (Rout w s Hi).
      + destruct (step_prog p s) as [[p1 s1]|] eqn:E; [|discriminate]. injection H as <- <-.
        exact (step_prog_rel _ _ _ _ _ Hi E).
    - unfold step_thread in H. destruct (put_ret pl v s) as [s1|] eqn:E; [|discriminate].
      injection H as <- <-. exact (Rput _ _ _ _ Hi E).
    - discriminate.
  Qed.
  Lemma pstep_rel c c' : I (snd c) -> pstep c c' -> I (snd c') /\ Rel (snd c) (snd c').
  Proof using Rop Rput Rrefl Rout Rtrans Rpending.
    intros Hi H. destruct H as [pre t post s t' s' H]. cbn in *.
    destruct (step_thread_rel _ _ _ _ Hi H) as [H1 H2]. destruct (Rpending _ H1) as [H3 H4].
    split; [exact H3|]. exact (Rtrans _ _ _ H2 H4).
  Qed.
  Lemma psteps_rel c c' : I (snd c) -> psteps c c' -> I (snd c') /\ Rel (snd c) (snd c').
  Proof using Rop Rput Rrefl Rout Rtrans Rpending.
    intros Hi H. induction H as [|c1 c2 c3 H IH Hs]; [auto|]. destruct (IH Hi) as [H1 H2].
    destruct (pstep_rel _ _ H1 Hs) as [H3 H4]. split; [exact H3|]. exact (Rtrans _ _ _ H2 H4).
  Qed.
  Lemma run_rel n : forall A (p : prog A) s o s', I s -> run denote n p s = Some (o, s') -> I s' /\ Rel s s'.
  Proof using Rop Rrefl Rtrans.
    induction n as [|n IHn]; intros A p;
      induction p as [A a|A w|A X o k IH|A X q k IH|A S R body IHb s0 k IH];
      intros s o' s' Hi Hr; try (rewrite ?run_ret, ?run_panic in Hr);
      try (injection Hr as <- <-; auto; fail); try (cbn in Hr; discriminate).
    - rewrite run_vis in Hr. destruct (step_op o s) as [[x s1]|] eqn:E; [|discriminate].
      destruct (Rop _ _ _ _ _ Hi E) as [H1 H2]. destruct (IH _ _ _ _ H1 Hr). eauto.
    - rewrite run_vis in Hr. destruct (step_op o s) as [[x s1]|] eqn:E; [|discriminate].
      destruct (Rop _ _ _ _ _ Hi E) as [H1 H2]. destruct (IH _ _ _ _ H1 Hr). eauto.
    - rewrite run_call in Hr.
      destruct (run denote n (denote X q) s) as [[[x|w] s1]|] eqn:E; [| |discriminate].
      + destruct (IHn _ _ _ _ _ Hi E) as [H1 H2]. destruct (IH _ _ _ _ H1 Hr). eauto.
      + injection Hr as <- <-. exact (IHn _ _ _ _ _ Hi E).
    - rewrite run_iter in Hr.
      destruct (run denote n (body s0) s) as [[[[s1|x]|w] s2]|] eqn:E; [| | |discriminate].
      + destruct (IHn _ _ _ _ _ Hi E) as [H1 H2].
        destruct (run denote n (Iter body s1 Ret) s2) as [[[x|w] s3]|] eqn:E2; [| |discriminate].
        * destruct (IHn _ _ _ _ _ H1 E2) as [H3 H4]. destruct (IH _ _ _ _ H3 Hr). eauto.
        * injection Hr as <- <-. destruct (IHn _ _ _ _ _ H1 E2). eauto.
      + destruct (IHn _ _ _ _ _ Hi E) as [H1 H2]. destruct (IH _ _ _ _ H1 Hr). eauto.
      + injection Hr as <- <-. exact (IHn _ _ _ _ _ Hi E).
  Qed.
End Rel.

Lemma wf_pending s : wf_state s -> wf_state (set_pending [] s).
Proof. intros [ ]. constructor; assumption. Qed.
Lemma wf_out w s : wf_state s -> wf_state (set_log (EOut w :: s_log s) s).
Proof. intros [ ]. constructor; assumption. Qed.
Lemma wf_psteps c c' : wf_state (snd c) -> psteps c c' -> wf_state (snd c').
Proof.
  intros H Hs. refine (proj1 (psteps_rel wf_state (fun _ _ => True) _ _ _ _ _ _ c c' H Hs)); auto.
  - intros X o s x s' Hi Ho. split; [exact (wf_step _ _ _ _ _ Ho Hi)|exact I].
  - intros l v s s' Hi Ho. split; [exact (wf_put_ret _ _ _ _ Ho Hi)|exact I].
  - intros s Hi. split; [apply wf_pending, Hi|exact I].
  - intros w s Hi. split; [apply wf_out, Hi|exact I].
Qed.
Lemma wf_run n A (p : prog A) s o s' : wf_state s -> run denote n p s = Some (o, s') -> wf_state s'.
Proof.
  intros H Hs. refine (proj1 (run_rel wf_state (fun _ _ => True) _ _ _ n A p s o s' H Hs)); auto.
  intros X o1 s1 x s2 Hi Ho. split; [exact (wf_step _ _ _ _ _ Ho Hi)|exact I].
Qed.
Lemma wf_blank u o : wf_state (blank u o).
Proof. constructor; [reflexivity|..]; intros l x H; change ((∅ : Pmap _) !! l = Some x) in H; rewrite lookup_empty in H; discriminate. Qed.
Lemma wf_initial u o : wf_state (initial u o).
Proof.
  unfold initial. destruct (run denote 3 init_prog (blank u o)) as [[r s]|] eqn:E; [|apply wf_blank].
  exact (wf_run _ _ _ _ _ _ (wf_blank u o) E).
Qed.

