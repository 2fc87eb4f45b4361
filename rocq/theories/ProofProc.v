(** Processes: one goroutine each, one result, one join; scheduled calls; signals. *)
From Verif Require Import ProofConc ProofWf.
From stdpp Require Import list.
From Verif Require Import Data.
From Verif Require Export SpecConc.
Local Open Scope string_scope.
Local Open Scope list_scope.
Local Open Scope Z_scope.

(** *** One action and the record of a process *)
Definition sig_eqb (a b : signal) : bool := match a, b with Wake, Wake | Abandon, Abandon | Restart, Restart => true | _, _ => false end.
(** The token of signal [k] ([b] = present), through a sequence of events; None = consumed while absent. *)
Fixpoint tok (k : signal) (b : bool) (es : list sig_event) : option bool :=
  match es with
  | [] => Some b
  | Sent j :: r => if sig_eqb k j then tok k true r else tok k b r
  | Got j :: r => if sig_eqb k j then (if b then tok k false r else None) else tok k b r
  end.
Definition token (k : signal) (p : proc_rec) : bool := match k with Wake => pr_wake p | Abandon => pr_abort p | Restart => pr_restart p end.
Lemma tok_app k es1 : forall b b1 es2, tok k b es1 = Some b1 -> tok k b (es1 ++ es2) = tok k b1 es2.
Proof.
  induction es1 as [|[j|j] es IH]; intros b b1 es2 H; cbn in *; [congruence|..].
  - destruct (sig_eqb k j); apply IH, H.
  - destruct (sig_eqb k j); [|apply IH, H]. destruct b; [apply IH, H|discriminate].
Qed.
Lemma pick_in {A} (d : A) l z : l <> [] -> In (pick d l z) l.
Proof.
  intros H. unfold pick. apply nth_In.
  assert (0 < Z.of_nat (length l)) by (destruct l; [contradiction|cbn [List.length]; lia]).
  pose proof (Z.mod_pos_bound z (Z.max 1 (Z.of_nat (length l))) ltac:(lia)). lia.
Qed.
Lemma select_token p z : (pick 2 (select_ready p) z = 0 -> pr_abort p = true) /\ (pick 2 (select_ready p) z = 1 -> pr_restart p = true).
Proof.
  assert (N : select_ready p <> []) by (unfold select_ready; destruct (pr_abort p), (pr_restart p); discriminate).
  pose proof (pick_in 2 _ z N) as I. unfold select_ready in *. destruct (pr_abort p), (pr_restart p); cbn in I |- *; split; intros E; rewrite E in I; try reflexivity; repeat destruct I as [I|I]; try discriminate I; destruct I.
Qed.
(** What an action means for the process [p] with record [r]. *)
Definition proc_change (p : loc) (r : proc_rec) (a : act) (r' : proc_rec) : Prop :=
  ((delivered p [a] = [] /\ pr_ret r' = pr_ret r) \/ exists v, delivered p [a] = [v] /\ pr_ret r = Some v /\ pr_ret r' = None) /\
  ((joins p [a] = [] /\ pr_joined r' = pr_joined r) \/ (joins p [a] = [negb (pr_joined r)] /\ pr_joined r' = true)) /\
  (forall k, tok k (token k r) (on_proc p [a]) = Some (token k r')).
Lemma proc_same p r a : delivered p [a] = [] -> joins p [a] = [] -> on_proc p [a] = [] -> proc_change p r a r.
Proof. intros E1 E2 E3. split; [|split]; [auto|auto|]. intros k. rewrite E3. reflexivity. Qed.
Lemma proc_op X (o : op X) s x s' (p : loc) r : wf_state s -> step_op o s = Some (x, s') -> s_procs s !! p = Some r ->
  exists r', s_procs s' !! p = Some r' /\ proc_change p r (Did o x) r'.
Proof.
  intros W Hs Hr.
  assert (N : s_next s <> p) by (destruct (wf_procs _ W _ _ Hr); lia).
  assert (Ha : proc_at s p = r) by (unfold proc_at; rewrite Hr; reflexivity).
  assert (Hup : forall q f s1, s_procs s1 = s_procs s -> q <> p -> s_procs (upd_proc q f s1) !! p = Some r)
    by (intros q f s1 Es Hq; unfold upd_proc; flat; rewrite put_ne, Es by exact Hq; exact Hr).
  assert (Hue : forall f s1, s_procs s1 = s_procs s -> s_procs (upd_proc p f s1) !! p = Some (f r)).
  { intros f s1 Es. unfold upd_proc. flat. rewrite <- Es in Hr. erewrite put_eq by exact Hr. unfold proc_at. rewrite Hr. reflexivity. }
  assert (Hc : forall n s1, next_choice s = (n, s1) -> s_procs s1 = s_procs s)
    by (intros n s1 E; destruct (choice_rest _ _ _ E) as [->|(q & ->)]; reflexivity).
  assert (Hother : forall q A (y : A), q <> p -> on_this p q y = []) by (intros; apply on_other; assumption).
  assert (Hch : forall k, tok k (token k r) [] = Some (token k r)) by reflexivity.
  assert (Hpc : forall X (o : op X) x, delivered p [Did o x] = [] -> joins p [Did o x] = [] -> on_proc p [Did o x] = [] -> s_procs s' !! p = Some r ->
    exists r', s_procs s' !! p = Some r' /\ proc_change p r (Did o x) r')
    by (intros; exists r; split; [assumption|]; apply proc_same; assumption).
  destruct o; cbn [step_op] in Hs; try (injection Hs as <- <-); try (branch Hs);
    try (apply Hpc; [reflexivity|reflexivity|reflexivity|exact Hr]);
    try (match goal with |- context [Did (_ ?q) _] => destruct (Pos.eq_dec q p) as [->|Hq] end).
  all: unfold proc_change, delivered, joins, proc_acts, on_proc; cbn [flat_map proc_of].
  all: try (pose proof (Hc _ _ eq_refl) as Hc1).
  all: rewrite ?on_here, ?Ha, ?(Hother _ _ _ Hq), ?app_nil_r in *.
  all: cbn [app].
  - eexists. split; [apply Hue; reflexivity|]. split; [auto|]. split; [auto|]. intros []; reflexivity.
  - exists r. split; [apply Hup; auto|]. auto.
  - eexists. split; [apply Hue; reflexivity|]. split; [auto|]. split; [auto|]. intros []; reflexivity.
  - exists r. split; [apply Hup; auto|]. auto.
  - eexists. split; [apply Hue; reflexivity|]. split; [auto|]. split; [auto|]. intros []; reflexivity.
  - exists r. split; [apply Hup; auto|]. auto.
  - destruct (pr_wake r) eqn:Ew; cbn [andb] in Hs; [destruct (negb (Z.odd _)); cbn in Hs|]; injection Hs as <- <-.
    + eexists. split; [apply Hue, Hc1|]. split; [auto|]. split; [auto|]. intros []; cbn; rewrite ?Ew; reflexivity.
    + exists r. rewrite Hc1. split; [exact Hr|]. auto.
    + exists r. rewrite Hc1. split; [exact Hr|]. auto.
  - exists r. destruct (_ && _); injection Hs as <- <-; (split; [|rewrite ?app_nil_r; auto]); [apply Hup; auto|rewrite Hc1; exact Hr].
  - injection Hs as <- <-. destruct (select_token r z) as [S0 S1]. destruct (Z.eqb_spec (pick 2 (select_ready r) z) 0) as [E0|E0].
    + eexists. split; [apply Hue, Hc1|]. split; [auto|]. split; [auto|]. pose proof (S0 E0) as T. intros []; cbn; rewrite ?T; reflexivity.
    + destruct (Z.eqb_spec (pick 2 (select_ready r) z) 1) as [E1|E1].
      * eexists. split; [apply Hue, Hc1|]. split; [auto|]. split; [auto|]. pose proof (S1 E1) as T. intros []; cbn; rewrite ?T; reflexivity.
      * exists r. rewrite Hc1. split; [exact Hr|]. auto.
  - injection Hs as <- <-. exists r. split; [destruct (_ =? 0); [apply Hup; auto|destruct (_ =? 1); [apply Hup; auto|rewrite Hc1; exact Hr]]|].
    destruct (_ =? 0); [auto|destruct (_ =? 1); auto].
  - eexists. split; [apply Hue; reflexivity|]. split; [auto|]. split; [right; auto|]. intros []; reflexivity.
  - exists r. split; [apply Hup; auto|]. auto.
  - eexists. split; [apply Hue; reflexivity|]. split; [right; exists v; auto|]. split; [auto|]. intros []; reflexivity.
  - exists r. split; [apply Hup; auto|]. auto.
  - exists r. split; [flat; rewrite lookup_insert_ne by exact N; exact Hr|auto].
  - exists r. split; [flat; rewrite lookup_insert_ne by exact N; exact Hr|auto].
  - exists r. split; [|auto]. destruct (_ =? _); injection Hs as <- <-; exact Hr.
  - injection Hs as <- <-. exists r. split; [rewrite Hc1; exact Hr|auto].
Qed.

(** *** Signals *)
Lemma tok_none k es : forall b b', tok k b es = Some b' -> b = false -> ~ In (Sent k) es -> ~ In (Got k) es.
Proof.
  induction es as [|[j|j] es IH]; intros b b' H Hb N; [intros []|..]; cbn in H.
  - destruct (sig_eqb k j) eqn:E; [destruct k, j; try discriminate; destruct N; left; reflexivity|].
    intros [I|I]; [discriminate|]. revert I. apply (IH b b'); auto. intros I. apply N. right. exact I.
  - destruct (sig_eqb k j) eqn:E; [subst b; discriminate|]. intros [I|I]; [injection I as ->; destruct k; discriminate|].
    revert I. apply (IH b b'); auto. intros I. apply N. right. exact I.
Qed.
Lemma sent_dec (k : signal) es : {In (Sent k) es} + {~ In (Sent k) es}.
Proof. apply in_dec. decide equality; decide equality. Qed.
Lemma tok_split k b es1 es2 b' : tok k b (es1 ++ es2) = Some b' -> exists b1, tok k b es1 = Some b1 /\ tok k b1 es2 = Some b'.
Proof.
  revert b. induction es1 as [|[j|j] es IH]; intros b H; cbn in *; [eauto|..].
  - destruct (sig_eqb k j); apply IH, H.
  - destruct (sig_eqb k j); [|apply IH, H]. destruct b; [apply IH, H|discriminate].
Qed.
Lemma sig_refl k : sig_eqb k k = true. Proof. destruct k; reflexivity. Qed.
Lemma tok_first k es1 es2 b' : tok k false (es1 ++ Got k :: es2) = Some b' -> In (Sent k) es1.
Proof.
  intros H. destruct (sent_dec k es1) as [I|N]; [exact I|]. exfalso.
  destruct (tok_split _ _ _ _ _ H) as (b1 & H1 & H2). cbn in H2. rewrite sig_refl in H2. destruct b1; [|discriminate]. clear H H2.
  assert (G : forall es b, tok k b es = Some true -> b = false -> ~ In (Sent k) es -> False).
  { induction es as [|[j|j] es IH]; intros b H Hb Ns; cbn in H; [congruence|..].
    - destruct (sig_eqb k j) eqn:E; [destruct k, j; try discriminate; apply Ns; left; reflexivity|]. apply (IH b); auto. intros I. apply Ns. right. exact I.
    - destruct (sig_eqb k j) eqn:E; [subst b; discriminate|]. apply (IH b); auto. intros I. apply Ns. right. exact I. }
  exact (G es1 false H1 eq_refl N).
Qed.
Lemma tok_between k b es1 es2 es3 b' : tok k b (es1 ++ Got k :: es2 ++ Got k :: es3) = Some b' -> In (Sent k) es2.
Proof.
  intros H. destruct (tok_split _ _ _ _ _ H) as (b1 & H1 & H2). cbn in H2. rewrite sig_refl in H2. destruct b1; [|discriminate].
  exact (tok_first _ _ _ _ H2).
Qed.
Lemma signals_history c h c' p r : history c h c' -> wf_state (snd c) -> s_procs (snd c) !! p = Some r ->
  forall k, exists b, tok k (token k r) (on_proc p h) = Some b.
Proof.
  intros H W Hr.
  destruct (follow (proc_of p) (fun s v => s_procs s !! p = Some v) (fun v es v' => forall k, tok k (token k v) es = Some (token k v'))) with (c := c) (h := h) (c' := c') (v := r)
    as (r' & _ & T).
  - intros v k. reflexivity.
  - intros v a v1 b v2 H1 H2 k. rewrite (tok_app _ _ _ _ _ (H1 k)). apply H2.
  - intros X o s x s' v Ws Hs Hv. destruct (proc_op _ _ _ _ _ _ _ Ws Hs Hv) as (r' & E & _ & _ & T). exists r'. split; [exact E|].
    intros k. specialize (T k). unfold on_proc in T. cbn [flat_map] in T. rewrite app_nil_r in T. exact T.
  - intros q v s s' w _ Hp Hv. unfold put_ret in Hp. destruct (pr_ret _); [discriminate|]. injection Hp as <-.
    destruct (Pos.eq_dec q p) as [->|Nq].
    + eexists. split; [unfold upd_proc; flat; erewrite put_eq by exact Hv; reflexivity|]. unfold proc_at. rewrite Hv. intros []; reflexivity.
    + exists w. split; [unfold upd_proc; flat; rewrite put_ne by exact Nq; exact Hv|]. reflexivity.
  - intros w s v Hv. exact Hv.
  - intros s v Hv. exact Hv.
  - exact H.
  - exact W.
  - exact Hr.
  - intros k. eauto.
Qed.
Lemma signal_between c h c' p r : history c h c' -> wf_state (snd c) -> s_procs (snd c) !! p = Some r ->
  forall k es1 es2 es3, on_proc p h = es1 ++ Got k :: es2 ++ Got k :: es3 -> In (Sent k) es2.
Proof. intros H W Hr k es1 es2 es3 E. destruct (signals_history _ _ _ _ _ H W Hr k) as [b T]. rewrite E in T. exact (tok_between _ _ _ _ _ _ T). Qed.
Lemma signal_first c h c' p w : history c h c' -> wf_state (snd c) -> just_started p w c ->
  forall k es1 es2, on_proc p h = es1 ++ Got k :: es2 -> In (Sent k) es1.
Proof.
  intros H W (_ & (b & Hr) & _) k es1 es2 E. destruct (signals_history _ _ _ _ _ H W Hr k) as [b' T]. rewrite E in T.
  apply (tok_first k es1 es2 b'). destruct k; exact T.
Qed.

(** *** Programs up to pointwise equality of continuations *)
Inductive same : forall A, prog A -> prog A -> Prop :=
| same_ret A (a : A) : same A (Ret a) (Ret a)
| same_panic A w : same A (Panic w) (Panic w)
| same_vis A X (o : op X) (k k' : X -> prog A) : (forall x, same A (k x) (k' x)) -> same A (Vis o k) (Vis o k')
| same_call A X (r : req X) (k k' : X -> prog A) : (forall x, same A (k x) (k' x)) -> same A (Call r k) (Call r k')
| same_iter A S R (body : S -> prog (S + R)) s0 (k k' : R -> prog A) : (forall x, same A (k x) (k' x)) -> same A (Iter body s0 k) (Iter body s0 k').
Arguments same {A}.
Lemma same_refl A (p : prog A) : same p p.
Proof. induction p; constructor; auto. Qed.
Lemma same_trans A (p q r : prog A) : same p q -> same q r -> same p r.
Proof.
  intros H. revert r. induction H as [A a|A w|A X o k k' _ IH|A X q k k' _ IH|A S R body s0 k k' _ IH]; intros r Hr; [exact Hr|exact Hr|..].
  - set (q := Vis o k') in Hr.
    refine (match Hr in @same A0 q0 r0 return (match q0 in prog A1 return prog A1 -> Prop with Vis o0 k0' => fun r1 => forall k1, (forall x r2, same (k0' x) r2 -> same (k1 x) r2) -> same (Vis o0 k1) r1 | _ => fun _ => True end r0) with
      | same_vis _ _ o0 k0 k0' Hk => _ | _ => _ end k IH); try exact I.
    intros k1 H1. constructor. intros x. apply H1, Hk.
  - refine (match Hr in @same A0 q0 r0 return (match q0 in prog A1 return prog A1 -> Prop with Call o0 k0' => fun r1 => forall k1, (forall x r2, same (k0' x) r2 -> same (k1 x) r2) -> same (Call o0 k1) r1 | _ => fun _ => True end r0) with
      | same_call _ _ o0 k0 k0' Hk => _ | _ => _ end k IH); try exact I.
    intros k1 H1. constructor. intros x. apply H1, Hk.
  - refine (match Hr in @same A0 q0 r0 return (match q0 in prog A1 return prog A1 -> Prop with Iter b1 s1 k0' => fun r1 => forall k1, (forall x r2, same (k0' x) r2 -> same (k1 x) r2) -> same (Iter b1 s1 k1) r1 | _ => fun _ => True end r0) with
      | same_iter _ _ _ b1 s1 k0 k0' Hk => _ | _ => _ end k IH); try exact I.
    intros k1 H1. constructor. intros x. apply H1, Hk.
Qed.
Lemma same_sym A (p q : prog A) : same p q -> same q p.
Proof. induction 1; constructor; auto. Qed.
Lemma same_bind A B (p q : prog A) (f g : A -> prog B) : same p q -> (forall a, same (f a) (g a)) -> same (bind p f) (bind q g).
Proof. intros H. revert f g. induction H; intros f g Hf; cbn; try constructor; auto. Qed.
Lemma same_assoc A B C (p : prog A) (f : A -> prog B) (g : B -> prog C) : same (bind (bind p f) g) (bind p (fun x => bind (f x) g)).
Proof. induction p; cbn; try constructor; auto. apply same_refl. Qed.
Lemma same_finished A (p q : prog A) : same p q -> finished p = finished q.
Proof. destruct 1; reflexivity. Qed.
Lemma same_act A (p q : prog A) s : same p q -> prog_act p s = prog_act q s.
Proof. destruct 1; reflexivity. Qed.
Lemma same_step A (p q : prog A) s p' s' : same p q -> step_prog p s = Some (p', s') -> exists q', step_prog q s = Some (q', s') /\ same p' q'.
Proof.
  destruct 1 as [A a|A w|A X o k k' Hk|A X q k k' Hk|A S R body s0 k k' Hk]; cbn; intros E; try discriminate.
  - destruct (step_op o s) as [[x s1]|]; [|discriminate]. injection E as <- <-. eauto.
  - injection E as <- <-. eexists. split; [reflexivity|]. apply same_bind; [apply same_refl|exact Hk].
  - injection E as <- <-. eexists. split; [reflexivity|]. apply same_bind; [apply same_refl|]. intros [s1|y]; [constructor; exact Hk|apply Hk].
Qed.
(** A step of a sequence is a step of its first part, unless that is finished. *)
Lemma bind_step A B (p : prog A) (k : A -> prog B) s r s' : step_prog (bind p k) s = Some (r, s') ->
  (exists a, p = Ret a) \/ exists p', step_prog p s = Some (p', s') /\ same r (bind p' k) /\ prog_act (bind p k) s = prog_act p s.
Proof.
  destruct p as [A a|A w|A X o k0|A X q k0|A S R body s0 k0]; cbn; intros E; [eauto|discriminate|..]; right.
  - destruct (step_op o s) as [[x s1]|]; [|discriminate]. injection E as <- <-. eexists. split; [reflexivity|]. split; [apply same_refl|reflexivity].
  - injection E as <- <-. eexists. split; [reflexivity|]. split; [apply same_sym, same_assoc|reflexivity].
  - injection E as <- <-. eexists. split; [reflexivity|]. split; [|reflexivity]. eapply same_trans; [|apply same_sym, same_assoc].
    apply same_bind; [apply same_refl|]. intros [s1|y]; [apply same_refl|apply same_refl].
Qed.
Lemma path_trans A (p : prog A) h1 q h2 r : prog_path p h1 q -> prog_path q h2 r -> prog_path p (h1 ++ h2) r.
Proof. intros H1 H2. induction H2; [rewrite app_nil_r; exact H1|]. rewrite app_assoc. eapply path_step; eassumption. Qed.
Lemma path_bind A B (p : prog A) (k : A -> prog B) h r : prog_path (bind p k) h r ->
  (exists p', prog_path p h p' /\ same r (bind p' k)) \/
  (exists a h1 h2 r', h = h1 ++ h2 /\ prog_path p h1 (Ret a) /\ prog_path (k a) h2 r' /\ same r r').
Proof.
  induction 1 as [|h r s r2 s' H IH Hs]; [left; exists p; split; [constructor|apply same_refl]|].
  destruct IH as [(p' & P & S)|(a & h1 & h2 & r' & -> & P1 & P2 & S)].
  - rewrite (same_act _ _ _ _ S). destruct (same_step _ _ _ _ _ _ S Hs) as (q' & Hq & Sq).
    destruct (bind_step _ _ _ _ _ _ _ Hq) as [(a & ->)|(p2 & Hp & S2 & Ea)].
    + right. exists a, h, (prog_act (k a) s), q'. split; [reflexivity|]. split; [exact P|]. split; [|exact Sq].
      apply (path_step (k a) [] (k a) s q' s'); [constructor|exact Hq].
    + left. exists p2. rewrite Ea. split; [eapply path_step; eassumption|]. eapply same_trans; eassumption.
  - right. rewrite (same_act _ _ _ _ S). destruct (same_step _ _ _ _ _ _ S Hs) as (q' & Hq & Sq).
    exists a, h1, (h2 ++ prog_act r' s), q'. split; [rewrite app_assoc; reflexivity|]. split; [exact P1|]. split; [|exact Sq].
    eapply path_step; eassumption.
Qed.
Lemma path_same A (p q : prog A) h r : prog_path p h r -> same p q -> exists r', prog_path q h r' /\ same r r'.
Proof.
  intros H S. induction H as [|h r s r2 s' H IH Hs]; [exists q; split; [constructor|exact S]|]. destruct IH as (r' & P & S').
  rewrite (same_act _ _ _ _ S'). destruct (same_step _ _ _ _ _ _ S' Hs) as (q' & Hq & Sq). exists q'. split; [eapply path_step; eassumption|exact Sq].
Qed.
(** A finished program goes nowhere. *)
Lemma path_finished A (p : prog A) o h r : finished p = Some o -> prog_path p h r -> h = [] /\ r = p.
Proof.
  intros F H. induction H as [|h r s r2 s' H IH Hs]; [auto|]. destruct IH as [-> ->]. destruct p; cbn in F, Hs; discriminate.
Qed.
(** The first step. *)
Lemma path_first A (p : prog A) h r : prog_path p h r ->
  (h = [] /\ r = p) \/ exists s p1 s1 h2, step_prog p s = Some (p1, s1) /\ h = prog_act p s ++ h2 /\ prog_path p1 h2 r.
Proof.
  induction 1 as [|h r s r2 s' H IH Hs]; [auto|]. right. destruct IH as [[-> ->]|(s0 & p1 & s1 & h2 & E1 & -> & P)].
  - exists s, r2, s', []. split; [exact Hs|]. split; [rewrite app_nil_r; reflexivity|constructor].
  - exists s0, p1, s1, (h2 ++ prog_act r s). split; [exact E1|]. split; [rewrite app_assoc; reflexivity|]. eapply path_step; eassumption.
Qed.
Lemma path_vis A X (o : op X) (k : X -> prog A) h r : prog_path (Vis o k) h r ->
  (h = [] /\ r = Vis o k) \/ exists s x s1 h2, step_op o s = Some (x, s1) /\ h = Did o x :: h2 /\ prog_path (k x) h2 r.
Proof.
  intros H. destruct (path_first _ _ _ _ H) as [E|(s & p1 & s1 & h2 & E1 & -> & P)]; [auto|]. right. cbn in *.
  destruct (step_op o s) as [[x s2]|] eqn:E; [|discriminate]. injection E1 as <- <-. exists s, x, s2, h2. auto.
Qed.

(** *** What the goroutine of a process runs *)
Lemma same_bind_ret A (p : prog A) : same (bind p Ret) p.
Proof. induction p; cbn; constructor; auto. Qed.
Lemma ends_same q r v : same q r -> ends q v -> ends r v.
Proof. unfold ends. intros S. rewrite (same_finished _ _ _ S). auto. Qed.
Lemma ret_finished A (q : prog A) (a : A) : finished q = Some (Done a) -> q = Ret a.
Proof. destruct q; cbn; intros E; try discriminate. injection E as ->. reflexivity. Qed.
Lemma finished_bind A B (p : prog A) (k : A -> prog B) o : finished (bind p k) = Some o ->
  (exists a, p = Ret a /\ finished (k a) = Some o) \/ (exists w, finished p = Some (Panicked w) /\ o = Panicked w).
Proof. destruct p; cbn; intros E; try discriminate; [left; eauto|right]. injection E as <-. eauto. Qed.
Lemma ends_bind A (p : prog A) (k : A -> prog val) v : ends (bind p k) v ->
  (exists a, p = Ret a /\ ends (k a) v) \/ (exists w, finished p = Some (Panicked w) /\ v = VNil).
Proof.
  intros [E|(w & E & ->)].
  - destruct (finished_bind _ _ _ _ _ E) as [(a & -> & F)|(w & _ & F)]; [|discriminate]. left. exists a. split; [reflexivity|]. left. exact F.
  - destruct (finished_bind _ _ _ _ _ E) as [(a & -> & F)|(w' & F & _)]; [|right; eauto]. left. exists a. split; [reflexivity|]. right. eauto.
Qed.
Lemma process_ends p f args env h q v : prog_path (process_call p f args env) h q -> ends q v -> process_result p f args env h v.
Proof.
  intros P E. change (process_call p f args env) with (Vis (OCons TCons (VProc p) args) (fun l => r <- fun_apply f (VCell TCons l) env None false ;; result_value r)) in P.
  destruct (path_vis _ _ _ _ _ _ P) as [[-> ->]|(s & l & s1 & h2 & _ & -> & P1)].
  { destruct E as [E|(w & E & _)]; discriminate E. }
  destruct (path_bind _ _ _ _ _ _ P1) as [(q' & P2 & S)|(r & h3 & h4 & r' & -> & P2 & P3 & S)].
  - apply (ends_same _ _ _ S) in E. destruct (ends_bind _ _ _ _ E) as [(a & -> & E1)|(w & F & ->)].
    + destruct a as [a|m]; cbn in E1.
      * destruct E1 as [E1|(w & E1 & _)]; [injection E1 as <-|discriminate E1]. eapply pr_ok; [exact P2|reflexivity].
      * destruct E1 as [E1|(w & E1 & _)]; discriminate E1.
    + eapply pr_panic; [exact P2|exact F].
  - apply (ends_same _ _ _ S) in E. destruct r as [a|m]; cbn in P3.
    + destruct (path_finished _ (Ret a) _ _ _ eq_refl P3) as [-> ->]. destruct E as [E|(w & E & _)]; [injection E as <-|discriminate E].
      rewrite app_nil_r. eapply pr_ok; [exact P2|reflexivity].
    + destruct (path_vis _ _ _ _ _ _ P3) as [[-> ->]|(s' & u & s2 & h5 & _ & -> & P4)].
      { destruct E as [E|(w & E & _)]; discriminate E. }
      destruct (path_finished _ (Ret VNil) _ _ _ eq_refl P4) as [-> ->]. destruct E as [E|(w & E & _)]; [injection E as <-|discriminate E].
      eapply pr_err; [exact P2|reflexivity].
Qed.

Lemma finished_stuck A (q : prog A) o s x : finished q = Some o -> step_prog q s = Some x -> False.
Proof. destruct q; cbn; intros F Hs; discriminate. Qed.
Definition restarted (p : loc) : act := Did (OProcSelect p) 1.
Lemma repeat_snoc {A} (x : A) n l : repeat x n ++ x :: l = repeat x (S n) ++ l.
Proof. induction n as [|n IH]; [reflexivity|]. cbn [repeat app] in *. f_equal. exact IH. Qed.
Definition select_body (p : loc) (w : prog val) (_ : unit) : prog (unit + val) :=
  c <- do_op (OProcSelect p) ;; if c =? 0 then Ret (inr VNil) else if c =? 1 then Ret (inl tt) else v <- w ;; Ret (inr v).
Definition select_next (p : loc) (w : prog val) (x : unit + val) : prog val :=
  match x with inl s1 => Iter (select_body p w) s1 Ret | inr r => Ret r end.
Definition select_point (p : loc) (w : prog val) (q : prog val) (rest : list act) : Prop :=
  (rest = [] /\ (same q (Iter (select_body p w) tt Ret) \/
                 same q (Vis (OProcSelect p) (fun c => bind (if c =? 0 then Ret (inr VNil) else if c =? 1 then Ret (inl tt) else v <- w ;; Ret (inr v)) (select_next p w))))) \/
  (rest = [Did (OProcSelect p) 0] /\ finished q = Some (Done VNil)) \/
  (exists c h' q', c <> 0 /\ c <> 1 /\ rest = Did (OProcSelect p) c :: h' /\ prog_path w h' q' /\ same q q').
Lemma select_path p w h q : prog_path (Iter (select_body p w) tt Ret) h q ->
  exists n rest, h = repeat (restarted p) n ++ rest /\ select_point p w q rest.
Proof.
  induction 1 as [|h q s q2 s' H IH Hs].
  - exists 0%nat, []. split; [reflexivity|]. left. split; [reflexivity|]. left. apply same_refl.
  - destruct IH as (n & rest & -> & [(-> & [Sm|Sm])|[(-> & F)|(c & h' & q' & C0 & C1 & -> & P & Sm)]]).
    + exists n, []. destruct (same_step _ _ _ _ _ _ Sm Hs) as (q' & Hq & Sq). cbn [step_prog] in Hq. injection Hq as <- <-.
      rewrite (same_act _ _ _ _ Sm). split; [rewrite !app_nil_r; reflexivity|]. left. split; [reflexivity|]. right. exact Sq.
    + rewrite (same_act _ _ _ _ Sm), app_nil_r. destruct (same_step _ _ _ _ _ _ Sm Hs) as (q' & Hq & Sq).
      cbn [step_prog prog_act] in Hq |- *.
      destruct (step_op (OProcSelect p) s) as [[c s1]|]; [|discriminate]. injection Hq as <- <-.
      destruct (Z.eq_dec c 0) as [->|C0]; [|destruct (Z.eq_dec c 1) as [->|C1]].
      * exists n, [Did (OProcSelect p) 0]. split; [reflexivity|]. right; left. split; [reflexivity|]. exact (same_finished _ _ _ Sq).
      * exists (S n), []. split; [apply (repeat_snoc (restarted p) n [])|]. left. split; [reflexivity|]. left. exact Sq.
      * exists n, [Did (OProcSelect p) c]. split; [reflexivity|]. right; right. exists c, [], w.
        split; [exact C0|]. split; [exact C1|]. split; [reflexivity|]. split; [constructor|].
        destruct (Z.eqb_spec c 0) as [|_]; [contradiction|]. destruct (Z.eqb_spec c 1) as [|_]; [contradiction|].
        eapply same_trans; [exact Sq|]. eapply same_trans; [apply same_assoc|]. apply same_bind_ret.
    + exfalso. exact (finished_stuck _ _ _ _ _ F Hs).
    + rewrite <- app_assoc. exists n. eexists. split; [reflexivity|]. right; right. rewrite (same_act _ _ _ _ Sm). destruct (same_step _ _ _ _ _ _ Sm Hs) as (q3 & Hq & Sq).
      exists c, (h' ++ prog_act q' s), q3. split; [exact C0|]. split; [exact C1|]. split; [reflexivity|]. split; [eapply path_step; eassumption|exact Sq].
Qed.
Lemma scheduled_path p f args env h q : prog_path (scheduled_call p f args env) h q ->
  exists n rest, h = repeat (restarted p) n ++ rest /\
   ((rest = [] /\ finished q = None) \/
    (rest = [Did (OProcSelect p) 0] /\ finished q = Some (Done VNil)) \/
    (exists c h' q', c <> 0 /\ c <> 1 /\ rest = Did (OProcSelect p) c :: h' /\ prog_path (process_call p f args env) h' q' /\ same q q')).
Proof.
  intros H. destruct (select_path p (process_call p f args env) h q H) as (n & rest & E & [(-> & [Sm|Sm])|R]).
  - exists n, []. split; [exact E|]. left. split; [reflexivity|]. exact (same_finished _ _ _ Sm).
  - exists n, []. split; [exact E|]. left. split; [reflexivity|]. exact (same_finished _ _ _ Sm).
  - exists n, rest. split; [exact E|]. right. exact R.
Qed.
(** The whole run of a scheduled process. *)
Lemma scheduled_ends p f args env h q v : prog_path (scheduled_call p f args env) h q -> ends q v ->
  exists n rest, h = repeat (restarted p) n ++ rest /\
   ((rest = [Did (OProcSelect p) 0] /\ v = VNil) \/
    (exists c h', c <> 0 /\ c <> 1 /\ rest = Did (OProcSelect p) c :: h' /\ process_result p f args env h' v)).
Proof.
  intros H E. destruct (scheduled_path _ _ _ _ _ _ H) as (n & rest & -> & [(-> & F)|[(-> & F)|(c & h' & q' & C0 & C1 & -> & P & Sm)]]).
  - destruct E as [E|(w & E & _)]; congruence.
  - exists n. eexists. split; [reflexivity|]. left. split; [reflexivity|]. destruct E as [E|(w & E & ->)]; congruence.
  - exists n. eexists. split; [reflexivity|]. right. exists c, h'. split; [exact C0|]. split; [exact C1|]. split; [reflexivity|].
    eapply process_ends; [exact P|]. exact (ends_same _ _ _ Sm E).
Qed.

(** *** A process in the pool *)
Lemma pending_op X (o : op X) s x s' : step_op o s = Some (x, s') ->
  (s_next s <= s_next s')%positive /\
  ((starts [Did o x] = [] /\ s_pending s' = s_pending s) \/
   (exists r, starts [Did o x] = [r] /\ s_pending s' = s_pending s ++ [r] /\ spawn_process r = s_next s /\ (s_next s < s_next s')%positive /\
      exists b, s_procs s' !! spawn_process r = Some (Proc false false false None false b))).
Proof.
  intros Hs.
  destruct o; cbn [step_op] in Hs; cbv zeta in Hs; try (injection Hs as <- <-);
    repeat (first [branch Hs | match goal with H : next_choice _ = (_, _) |- _ => destruct (choice_rest _ _ _ H) as [->|[? ->]]; clear H end];
            try (injection Hs as <- <-));
    try (split; [unfold bump, upd_proc; flat; lia|left; split; reflexivity]).
  all: repeat match goal with H : (if ?b then _ else _) = Some _ |- _ => destruct b; injection H as <- <- end.
  all: repeat match goal with |- context [if ?b then upd_proc _ _ _ else _] => destruct b end.
  all: try (split; [unfold bump, upd_proc; flat; lia|left; split; reflexivity]).
  split; [unfold bump, upd_proc; flat; lia|]. right. eexists. split; [reflexivity|]. split; [reflexivity|].
  destruct sched; cbn [spawn_process]; (split; [reflexivity|]; split; [unfold bump; flat; lia|]; flat; eexists; apply lookup_insert).
Qed.

Lemma starts_app h1 h2 : starts (h1 ++ h2) = starts h1 ++ starts h2. Proof. apply flat_map_app. Qed.
Lemma joins_app p h1 h2 : joins p (h1 ++ h2) = joins p h1 ++ joins p h2. Proof. apply flat_map_app. Qed.
Lemma delivered_app p h1 h2 : delivered p (h1 ++ h2) = delivered p h1 ++ delivered p h2. Proof. apply flat_map_app. Qed.
Lemma results_app p h1 h2 : results p (h1 ++ h2) = results p h1 ++ results p h2. Proof. apply flat_map_app. Qed.
Lemma owners_app a b : owners (a ++ b) = owners a ++ owners b. Proof. apply flat_map_app. Qed.
Lemma owners_spawned s : owners (spawned s) = map spawn_process (s_pending s).
Proof. unfold spawned, owners. induction (s_pending s) as [|r l IH]; [reflexivity|]. cbn. rewrite IH. reflexivity. Qed.
Notation times p l := (count_occ Pos.eq_dec l p).
Lemma times_app p l1 l2 : times p (l1 ++ l2) = (times p l1 + times p l2)%nat.
Proof. apply count_occ_app. Qed.
Lemma owner_cases t p : owner t = [p] \/ times p (owner t) = 0%nat.
Proof. destruct t as [q|k q|k v|]; cbn; auto; destruct (Pos.eq_dec k p); subst; auto. Qed.
Lemma in_owners t p ts : In t ts -> owner t = [p] -> (0 < times p (owners ts))%nat.
Proof. intros H E. apply count_occ_In. unfold owners. apply in_flat_map. exists t. rewrite E. cbn. auto. Qed.
Lemma zero_owner_out p t ts : times p (owners ts) = 0%nat -> In t ts -> owner t <> [p].
Proof. intros Z H E. pose proof (in_owners _ _ _ H E). lia. Qed.
(** What a step of a goroutine means for the state, in the terms used here. *)
Lemma step_pending t s t' s' : step_thread t s = Some (t', s') -> s_pending s = [] ->
  (s_next s <= s_next s')%positive /\ incl (owner t') (owner t) /\ s_pending s' = starts (thread_act t s) /\ (starts (thread_act t s) = [] \/
   exists r, starts (thread_act t s) = [r] /\ spawn_process r = s_next s /\ (s_next s < s_next s')%positive /\ exists b, s_procs s' !! spawn_process r = Some (Proc false false false None false b)).
Proof.
  intros Ht Hp. destruct (thread_step_cases _ _ _ _ Ht) as [(E1 & Eo & Es)|[(X & o & x & E1 & Eo & Es)|(p & r & -> & -> & Es)]].
  - rewrite E1, Eo. split; [destruct Es as [->|(w & ->)]; flat; lia|]. split; [apply incl_refl|].
    split; [destruct Es as [->|(w & ->)]; exact Hp|]. left. reflexivity.
  - rewrite E1, Eo. destruct (pending_op _ _ _ _ _ Es) as (L & C). split; [exact L|]. split; [apply incl_refl|].
    destruct C as [(-> & ->)|(r & -> & -> & E & L' & P)].
    + split; [exact Hp|]. auto.
    + rewrite Hp. split; [reflexivity|]. right. exists r. auto.
  - destruct (put_ret_rest _ _ _ _ Es) as [q ->]. flat. split; [lia|]. split; [intros z []|]. split; [exact Hp|]. left. reflexivity.
Qed.
Lemma orderly_step pre t post s t' s' : orderly (pre ++ t :: post, s) -> step_thread t s = Some (t', s') ->
  orderly (pre ++ t' :: post ++ spawned s', set_pending [] s').
Proof.
  intros [Hp Ho] Ht. destruct (step_pending _ _ _ _ Ht Hp) as (L & Io & Ep & C). split; [reflexivity|].
  rewrite List.Forall_forall in Ho |- *. cbn [fst snd] in *. intros q Hq. change (s_next (set_pending [] s')) with (s_next s').
  rewrite owners_app in Hq, Ho. change (t' :: post ++ spawned s') with ([t'] ++ post ++ spawned s') in Hq.
  change (t :: post) with ([t] ++ post) in Ho. rewrite !owners_app, owners_spawned in *. rewrite !in_app_iff in Hq.
  assert (A : (q < s_next s)%positive \/ In q (map spawn_process (s_pending s'))).
  { destruct Hq as [Hq|[Hq|[Hq|Hq]]]; [left; apply Ho; rewrite !in_app_iff; auto|left; apply Ho|left; apply Ho; rewrite !in_app_iff; auto|right; exact Hq].
    rewrite !in_app_iff. right; left. unfold owners in *. cbn in Hq |- *. rewrite app_nil_r in *. apply Io, Hq. }
  destruct A as [A|A]; [lia|]. rewrite Ep in A. destruct C as [C|(r & C & E & L' & _)]; rewrite C in A; [destruct A|].
  destruct A as [<-|[]]. lia.
Qed.
Lemma orderly_history c h c' : history c h c' -> orderly c -> orderly c'.
Proof. intros H O. induction H as [|h pre t post s t' s' H IH Ht]; [exact O|]. eapply orderly_step; eassumption. Qed.
(** A start in an orderly pool. *)
Lemma start_step pre t post s t' s' r : orderly (pre ++ t :: post, s) -> step_thread t s = Some (t', s') -> starts (thread_act t s) = [r] ->
  just_started (spawn_process r) (spawn_work r) (pre ++ t' :: post ++ spawned s', set_pending [] s').
Proof.
  intros O Ht E. split; [exact (orderly_step _ _ _ _ _ _ O Ht)|]. destruct O as [Hp Ho].
  destruct (step_pending _ _ _ _ Ht Hp) as (L & Io & Ep & C). rewrite E in *. destruct C as [C|(r0 & C & Es & L' & P)]; [discriminate|].
  injection C as <-. split; [exact P|]. cbn [fst snd] in *. unfold spawned. rewrite Ep. cbn [map].
  split; [rewrite !in_app_iff; right; right; rewrite in_app_iff; right; left; reflexivity|].
  change (t' :: post ++ [spawn_thread r]) with ([t'] ++ post ++ [spawn_thread r]). rewrite !owners_app, !times_app.
  assert (Z : times (spawn_process r) (owners (pre ++ [t] ++ post)) = 0%nat).
  { apply count_occ_not_In. intros Hi. rewrite List.Forall_forall in Ho. specialize (Ho _ Hi). lia. }
  rewrite !owners_app, !times_app in Z.
  assert (Z' : times (spawn_process r) (owners [t']) = 0%nat).
  { apply count_occ_not_In. intros Hi. unfold owners in Hi, Z. cbn in Hi, Z. rewrite app_nil_r in Hi, Z. apply Io in Hi.
    apply (count_occ_In Pos.eq_dec) in Hi. lia. }
  rewrite Z'. replace (times (spawn_process r) (owners [spawn_thread r])) with 1%nat; [lia|].
  unfold owners, spawn_thread. cbn. destruct (Pos.eq_dec _ _); [reflexivity|contradiction].
Qed.

Definition joined_ok (p : loc) (h : list act) (r : proc_rec) : Prop :=
  (joins p h = [] /\ pr_joined r = false) \/ (exists n, joins p h = true :: repeat false n /\ pr_joined r = true).
(** The goroutine of [p] is still there, on its way through [w]. *)
Definition at_work (p : loc) (w : prog val) (ts : list thread) : Prop :=
  exists t h q, In t ts /\ owner t = [p] /\ prog_path w h q /\ (t = TProc p q \/ exists v, t = TPut p v /\ ends q v).
Definition proc_inv (p : loc) (w : prog val) (h : list act) (c : pool) : Prop :=
  orderly c /\ exists r, s_procs (snd c) !! p = Some r /\ joined_ok p h r /\
  ((times p (owners (fst c)) = 1%nat /\ at_work p w (fst c) /\ results p h = [] /\ delivered p h = [] /\ pr_ret r = None) \/
   (times p (owners (fst c)) = 0%nat /\ exists v h' q, prog_path w h' q /\ ends q v /\ results p h = [v] /\
      ((delivered p h = [] /\ pr_ret r = Some v) \/ (delivered p h = [v] /\ pr_ret r = None)))).
Lemma proc_inv_start p w c : just_started p w c -> proc_inv p w [] c.
Proof.
  intros (O & (b & Hr) & Hi & Hc). split; [exact O|]. exists (Proc false false false None false b). split; [exact Hr|].
  split; [left; split; reflexivity|]. left. split; [exact Hc|]. split; [|repeat split; reflexivity].
  exists (TProc p w), [], w. split; [exact Hi|]. split; [reflexivity|]. split; [constructor|]. auto.
Qed.
(** The record after a step of any goroutine. *)
Lemma record_step t s t' s' p r : step_thread t s = Some (t', s') -> wf_state s -> s_procs s !! p = Some r ->
  exists r', s_procs s' !! p = Some r' /\
   ((joins p (thread_act t s) = [] /\ pr_joined r' = pr_joined r) \/ (joins p (thread_act t s) = [negb (pr_joined r)] /\ pr_joined r' = true)) /\
   ((results p (thread_act t s) = [] /\ owner t' = owner t /\
     ((delivered p (thread_act t s) = [] /\ pr_ret r' = pr_ret r) \/ exists v, delivered p (thread_act t s) = [v] /\ pr_ret r = Some v /\ pr_ret r' = None)) \/
    (exists k v, t = TPut k v /\ t' = TDone /\ k <> p /\ r' = r) \/
    (exists v, t = TPut p v /\ t' = TDone /\ pr_ret r = None /\ pr_ret r' = Some v /\ pr_joined r' = pr_joined r)).
Proof.
  intros Ht W Hr. destruct (thread_step_cases _ _ _ _ Ht) as [(E1 & Eo & Es)|[(X & o & x & E1 & Eo & Es)|(k & v & -> & -> & Es)]].
  - exists r. rewrite E1. split; [destruct Es as [->|(w & ->)]; exact Hr|]. split; [left; split; reflexivity|]. left.
    split; [reflexivity|]. split; [exact Eo|]. left. split; reflexivity.
  - rewrite E1. destruct (proc_op _ _ _ _ _ _ _ W Es Hr) as (r' & Hr' & D & J & _). exists r'. split; [exact Hr'|].
    split; [exact J|]. left. split; [reflexivity|]. split; [exact Eo|exact D].
  - unfold put_ret in Es. destruct (pr_ret (proc_at s k)) eqn:En; [discriminate|]. injection Es as <-.
    destruct (Pos.eq_dec k p) as [->|Nk].
    + eexists. split; [unfold upd_proc; flat; erewrite put_eq by exact Hr; reflexivity|]. unfold proc_at in *. rewrite Hr in *. cbn in *.
      split; [left; split; reflexivity|]. right; right. exists v. auto.
    + exists r. split; [unfold upd_proc; flat; rewrite put_ne by exact Nk; exact Hr|]. split; [left; split; reflexivity|].
      right; left. exists k, v. auto.
Qed.
Lemma joined_step p h r a r' : joined_ok p h r ->
  (joins p a = [] /\ pr_joined r' = pr_joined r) \/ (joins p a = [negb (pr_joined r)] /\ pr_joined r' = true) -> joined_ok p (h ++ a) r'.
Proof.
  unfold joined_ok. rewrite joins_app. intros J [(-> & E)|(-> & E)].
  - rewrite app_nil_r, E. exact J.
  - right. destruct J as [(-> & ->)|(n & -> & ->)]; [exists 0%nat|exists (S n)]; (split; [|exact E]); [reflexivity|].
    cbn [negb app]. f_equal. rewrite (repeat_snoc false n []). apply app_nil_r.
Qed.
Lemma proc_inv_step p w h pre t post s t' s' : proc_inv p w h (pre ++ t :: post, s) -> wf_state s -> step_thread t s = Some (t', s') ->
  proc_inv p w (h ++ thread_act t s) (pre ++ t' :: post ++ spawned s', set_pending [] s').
Proof.
  intros (O & r & Hr & J & C) W Ht. split; [exact (orderly_step _ _ _ _ _ _ O Ht)|]. cbn [fst snd] in *.
  destruct (record_step _ _ _ _ _ _ Ht W Hr) as (r' & Hr' & J' & K). exists r'. split; [exact Hr'|].
  split; [exact (joined_step _ _ _ _ _ J J')|]. destruct O as [Hp _]. cbn [snd] in Hp.
  destruct (step_pending _ _ _ _ Ht Hp) as (_ & _ & Ep & Sp).
  assert (Zs : times p (owners (spawned s')) = 0%nat).
  { rewrite owners_spawned, Ep. assert (N : s_next s <> p) by (destruct (wf_procs _ W _ _ Hr); lia).
    destruct Sp as [->|(r0 & -> & E & _)]; [reflexivity|]. cbn. rewrite E. destruct (Pos.eq_dec _ _) as [|]; [contradiction|reflexivity]. }
  change (t' :: post ++ spawned s') with ([t'] ++ post ++ spawned s'). change (t :: post) with ([t] ++ post) in C.
  rewrite !owners_app, !times_app in *. rewrite Zs, results_app, delivered_app.
  assert (One : forall u, owners [u] = owner u) by (intros u; unfold owners; cbn; apply app_nil_r). rewrite !One in *.
  destruct (owner_cases t p) as [Et|Et].
  - (* the goroutine of p itself *)
    assert (Tt : times p (owner t) = 1%nat) by (rewrite Et; cbn; destruct (Pos.eq_dec p p); [reflexivity|contradiction]).
    destruct C as [(Hc & (t0 & h0 & q0 & Hi & Ho & P & Q) & R0 & D0 & N0)|(Hc & _)]; [|lia].
    assert (t0 = t) as ->.
    { apply in_app_or in Hi. destruct Hi as [Hi|[<-|Hi]]; [exfalso|reflexivity|exfalso].
      - pose proof (in_owners _ _ _ Hi Ho). lia.
      - change (In t0 post) in Hi. pose proof (in_owners _ _ _ Hi Ho). lia. }
    destruct K as [(R1 & Eo & D1)|[(k & v & -> & -> & Nk & ->)|(v & -> & -> & N1 & V1 & _)]].
    + left. rewrite Eo. split; [lia|].
      assert (D2 : delivered p (thread_act t s) = [] /\ pr_ret r' = None) by (destruct D1 as [(-> & ->)|(v & _ & E & _)]; [auto|congruence]).
      destruct D2 as [-> N2]. rewrite R1, R0, D0. split; [|auto].
      destruct Q as [->|(v & -> & Ev)].
      * unfold step_thread in Ht. destruct (finished q0) as [[v|m]|] eqn:F.
        -- injection Ht as <- <-. exists (TPut p v), h0, q0. split; [rewrite !in_app_iff; right; left; left; reflexivity|]. split; [reflexivity|]. split; [exact P|].
           right. exists v. split; [reflexivity|]. left. exact F.
        -- injection Ht as <- <-. exists (TPut p VNil), h0, q0. split; [rewrite !in_app_iff; right; left; left; reflexivity|]. split; [reflexivity|]. split; [exact P|].
           right. exists VNil. split; [reflexivity|]. right. eauto.
        -- destruct (step_prog q0 s) as [[q1 s1]|] eqn:E1; [|discriminate]. injection Ht as <- <-.
           exists (TProc p q1), (h0 ++ prog_act q0 s), q1. split; [rewrite !in_app_iff; right; left; left; reflexivity|]. split; [reflexivity|].
           split; [eapply path_step; eassumption|]. auto.
      * unfold step_thread in Ht. destruct (put_ret p v s); [|discriminate]. injection Ht as <- <-. discriminate Eo.
    + cbn in Et. injection Et as ->. contradiction.
    + right. cbn [owner count_occ]. split; [lia|]. destruct Q as [Q|(v' & Q & Ev)]; [discriminate|]. injection Q as <-.
      exists v, h0, q0. split; [exact P|]. split; [exact Ev|]. rewrite R0, D0. unfold results, delivered. cbn. rewrite on_here. split; [reflexivity|]. auto.
  - (* another goroutine *)
    assert (Et' : times p (owner t') = 0%nat).
    { destruct K as [(_ & Eo & _)|[(k & v & _ & -> & _)|(v & _ & -> & _)]]; [rewrite Eo; exact Et|reflexivity|reflexivity]. }
    assert (K' : results p (thread_act t s) = [] /\ ((delivered p (thread_act t s) = [] /\ pr_ret r' = pr_ret r) \/ exists v, delivered p (thread_act t s) = [v] /\ pr_ret r = Some v /\ pr_ret r' = None)).
    { destruct K as [(R1 & _ & D1)|[(k & v & -> & -> & Nk & ->)|(v & -> & _)]].
      - auto.
      - unfold results, delivered. cbn. rewrite on_other by exact Nk. split; [reflexivity|]. auto.
      - cbn in Et. destruct (Pos.eq_dec p p); [discriminate|contradiction]. }
    destruct K' as [-> D1]. rewrite Et', app_nil_r. rewrite Et in C.
    destruct C as [(Hc & (t0 & h0 & q0 & Hi & Ho & P & Q) & R0 & D0 & N0)|(Hc & v & h0 & q0 & P & Ev & R0 & D0)].
    + left. split; [lia|]. assert (D2 : delivered p (thread_act t s) = [] /\ pr_ret r' = None) by (destruct D1 as [(-> & ->)|(v & _ & E & _)]; [auto|congruence]).
      destruct D2 as [-> N2]. rewrite R0, D0. split; [|auto]. exists t0, h0, q0. split; [|auto].
      apply in_app_or in Hi. rewrite !in_app_iff. destruct Hi as [Hi|[<-|Hi]]; [auto| |auto].
      exfalso. rewrite Ho in Et. cbn in Et. destruct (Pos.eq_dec p p); [discriminate|contradiction].
    + right. split; [lia|]. exists v, h0, q0. split; [exact P|]. split; [exact Ev|]. split; [exact R0|].
      destruct D1 as [(-> & ->)|(v' & -> & E & ->)]; [rewrite app_nil_r; exact D0|].
      destruct D0 as [(-> & E')|(_ & E')]; [|congruence]. right. split; [|reflexivity]. cbn. congruence.
Qed.
Lemma proc_history c h c' p w : history c h c' -> wf_state (snd c) -> just_started p w c -> proc_inv p w h c'.
Proof.
  intros H W J. induction H as [|h pre t post s t' s' H IH Ht]; [exact (proc_inv_start _ _ _ J)|].
  apply proc_inv_step; [exact IH|exact (wf_history _ _ _ W H)|exact Ht].
Qed.
