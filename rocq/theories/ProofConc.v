(** Histories of any number of goroutines: atomic integers, the symbol generator, signals, processes. *)
From Verif Require Import ProofWf NumText StrFacts ProofEval.
From stdpp Require Import list.
From Verif Require Import Data.
From Verif Require Export SpecConc.
Local Open Scope string_scope.
Local Open Scope list_scope.
Local Open Scope Z_scope.

(** *** Every interleaving has a history *)
Lemma history_psteps c h c' : history c h c' -> psteps c c'.
Proof. induction 1; [apply psteps_refl|]. eapply psteps_step; [eassumption|]. apply PStep. assumption. Qed.
Lemma psteps_history c c' : psteps c c' -> exists h, history c h c'.
Proof.
  induction 1 as [|c1 c2 c3 _ [h H] Hs]; [eexists; apply h_start|]. destruct Hs as [pre t post s t' s' Ht].
  eexists. eapply h_step; eassumption.
Qed.
Lemma history_trans c h1 c1 h2 c2 : history c h1 c1 -> history c1 h2 c2 -> history c (h1 ++ h2) c2.
Proof.
  intros H1 H2. induction H2 as [|h pre t post s t' s' _ IH Ht]; [rewrite app_nil_r; exact H1|].
  rewrite app_assoc. eapply h_step; eassumption.
Qed.

(** *** The steps of a goroutine *)
Lemma prog_step_cases A (p p' : prog A) s s' : step_prog p s = Some (p', s') ->
  (prog_act p s = [] /\ s' = s) \/ (exists X (o : op X) x, prog_act p s = [Did o x] /\ step_op o s = Some (x, s')).
Proof.
  destruct p as [A a|A w|A X o k|A X r k|A S R body s0 k]; cbn; intros H; try discriminate.
  - destruct (step_op o s) as [[x s1]|] eqn:E; [|discriminate]. injection H as <- <-. right. exists X, o, x. auto.
  - injection H as <- <-. auto.
  - injection H as <- <-. auto.
Qed.
Lemma finished_act A (p : prog A) s o : finished p = Some o -> prog_act p s = [].
Proof. destruct p; cbn; intros F; try discriminate; reflexivity. Qed.
Lemma thread_step_cases t s t' s' : step_thread t s = Some (t', s') ->
  (thread_act t s = [] /\ owner t' = owner t /\ (s' = s \/ exists w, s' = set_log (EOut w :: s_log s) s)) \/
  (exists X (o : op X) x, thread_act t s = [Did o x] /\ owner t' = owner t /\ step_op o s = Some (x, s')) \/
  (exists p v, t = TPut p v /\ t' = TDone /\ put_ret p v s = Some s').
Proof.
  intros H. destruct t as [p|pl p|pl v|]; [| | |discriminate].
  - cbn in H. destruct (step_prog p s) as [[p1 s1]|] eqn:E; [|discriminate]. injection H as <- <-.
    destruct (prog_step_cases _ _ _ _ _ E) as [(E1 & ->)|(X & o & x & E1 & E2)].
    + left. split; [exact E1|]. split; [reflexivity|auto].
    + right; left. exists X, o, x. split; [exact E1|]. split; [reflexivity|exact E2].
  - unfold step_thread in H. destruct (finished p) as [[v|w]|] eqn:F.
    + injection H as <- <-. left. split; [exact (finished_act _ _ _ _ F)|]. split; [reflexivity|auto].
    + injection H as <- <-. left. split; [exact (finished_act _ _ _ _ F)|]. split; [reflexivity|eauto].
    + destruct (step_prog p s) as [[p1 s1]|] eqn:E; [|discriminate]. injection H as <- <-.
      destruct (prog_step_cases _ _ _ _ _ E) as [(E1 & ->)|(X & o & x & E1 & E2)].
      * left. split; [exact E1|]. split; [reflexivity|auto].
      * right; left. exists X, o, x. split; [exact E1|]. split; [reflexivity|exact E2].
  - unfold step_thread in H. destruct (put_ret pl v s) as [s1|] eqn:E; [|discriminate]. injection H as <- <-.
    right; right. exists pl, v. auto.
Qed.
Lemma wf_history c h c' : wf_state (snd c) -> history c h c' -> wf_state (snd c').
Proof. intros W H. exact (wf_psteps _ _ W (history_psteps _ _ _ H)). Qed.

(** An abstract machine following the state through every history. *)
Section Follow.
  Context {V E : Type}.
  Variable ev : act -> list E.
  Variable ok : state -> V -> Prop.
  Variable trans : V -> list E -> V -> Prop.
  Hypothesis trans_nil : forall v, trans v [] v.
  Hypothesis trans_app : forall v a v1 b v2, trans v a v1 -> trans v1 b v2 -> trans v (a ++ b) v2.
  Hypothesis follow_op : forall X (o : op X) s x s' v, wf_state s -> step_op o s = Some (x, s') -> ok s v ->
    exists v', ok s' v' /\ trans v (ev (Did o x)) v'.
  Hypothesis follow_put : forall p r s s' v, wf_state s -> put_ret p r s = Some s' -> ok s v ->
    exists v', ok s' v' /\ trans v (ev (Result p r)) v'.
  Hypothesis follow_log : forall w s v, ok s v -> ok (set_log (EOut w :: s_log s) s) v.
  Hypothesis follow_pending : forall s v, ok s v -> ok (set_pending [] s) v.
  Lemma follow c h c' v : history c h c' -> wf_state (snd c) -> ok (snd c) v ->
    exists v', ok (snd c') v' /\ trans v (flat_map ev h) v'.
  Proof using trans_nil trans_app follow_op follow_put follow_log follow_pending.
    intros H W O. induction H as [|h pre t post s t' s' H IH Ht]; [exists v; auto|].
    pose proof (wf_history _ _ _ W H) as Ws. cbn in Ws. destruct IH as (v1 & O1 & T1). cbn in O1.
    rewrite flat_map_app. cbn [snd].
    destruct (thread_step_cases _ _ _ _ Ht) as [(E1 & _ & Es)|[(X & o & x & E1 & _ & Es)|(p & r & -> & -> & Es)]].
    - exists v1. rewrite E1. split; [|cbn; rewrite app_nil_r; exact T1]. apply follow_pending.
      destruct Es as [->|(w & ->)]; [exact O1|]. apply follow_log, O1.
    - destruct (follow_op _ _ _ _ _ _ Ws Es O1) as (v2 & O2 & T2). exists v2. split; [apply follow_pending, O2|].
      rewrite E1. cbn [flat_map]. rewrite app_nil_r. eapply trans_app; eassumption.
    - destruct (follow_put _ _ _ _ _ Ws Es O1) as (v2 & O2 & T2). exists v2. split; [apply follow_pending, O2|].
      cbn [thread_act flat_map]. rewrite app_nil_r. eapply trans_app; eassumption.
  Qed.
End Follow.

(** The cases of [step_op] that branch, opened up. *)
Ltac branch Hs :=
  match type of Hs with
  | context [alookup ?a ?b] => destruct (alookup a b) eqn:?; injection Hs as <- <-
  | context [chan_send ?a ?b ?c ?d] => destruct (chan_send a b c d) eqn:?; injection Hs as <- <-
  | context [chan_recv ?a ?b ?c] => destruct (chan_recv a b c) eqn:?; injection Hs as <- <-
  | context [chan_close ?a] => destruct (chan_close a) eqn:?; injection Hs as <- <-
  | context [plookup ?a ?b] => destruct (plookup a b) eqn:?; [injection Hs as <- <-|discriminate]
  | context [next_choice ?s] => destruct (next_choice s) as [? ?] eqn:?
  | context [pr_ret (proc_at ?s ?l)] => destruct (pr_ret (proc_at s l)) eqn:?; try discriminate; injection Hs as <- <-
  end.
Ltac flat := cbn [s_cells s_strs s_bytes s_funs s_macros s_envs s_binds s_frames s_chans s_procs s_atoms s_next
                s_pending s_tops s_global s_gensyms s_log
                set_cells set_strs set_bytes set_funs set_macros set_envs set_binds set_frames set_chans
                set_procs set_atoms set_next set_pending set_tops set_gensyms set_log set_oracle bump upd_proc].
Lemma choice_rest s z s1 : next_choice s = (z, s1) -> s1 = s \/ exists r, s1 = set_oracle r s.
Proof. unfold next_choice. destruct (s_oracle s) as [|y r]; intros [= <- <-]; eauto. Qed.
Lemma put_eq {T} (m : Pmap T) (l : loc) x y : m !! l = Some y -> put l x m !! l = Some x.
Proof. intros H. unfold put. rewrite H. apply lookup_insert. Qed.
Lemma put_ne {T} (m : Pmap T) (l k : loc) x : k <> l -> put k x m !! l = m !! l.
Proof. intros H. unfold put. destruct (m !! k); [|reflexivity]. apply lookup_insert_ne, H. Qed.
Lemma on_here l {A} (x : A) : on_this l l x = [x].
Proof. unfold on_this. rewrite Pos.eqb_refl. reflexivity. Qed.
Lemma on_other l k {A} (x : A) : k <> l -> on_this l k x = [].
Proof. intros H. unfold on_this. destruct (Pos.eqb_spec l k); [congruence|reflexivity]. Qed.

Lemma nodup_snoc {A} (l : list A) x : List.NoDup l -> ~ In x l -> List.NoDup (l ++ [x]).
Proof.
  induction l as [|y l IH]; intros H N; cbn; [constructor; [intros []|constructor]|]. inversion H as [|z m H1 H2]; subst.
  constructor; [|apply IH; [exact H2|intros I; apply N; right; exact I]]. rewrite in_app_iff. intros [I|[->|[]]]; [exact (H1 I)|]. apply N. left. reflexivity.
Qed.

(** *** Atomic integers *)
Lemma oat_app z a z1 b z2 : one_at_a_time z a z1 -> one_at_a_time z1 b z2 -> one_at_a_time z (a ++ b) z2.
Proof. intros H1 H2. induction H1; [exact H2|]. cbn. econstructor; eauto. Qed.
Lemma oat_one z e z' : atom_step z e z' -> one_at_a_time z [e] z'.
Proof. intros H. econstructor; [exact H|constructor]. Qed.
Lemma fresh_atom s (l : loc) z : wf_state s -> s_atoms s !! l = Some z -> s_next s <> l.
Proof. intros W H. destruct (wf_atoms _ W _ _ H). lia. Qed.
Lemma wrap64_spec z : - 2 ^ 63 <= wrap64 z < 2 ^ 63 /\ (wrap64 z - z) mod 2 ^ 64 = 0.
Proof.
  unfold wrap64, two63, two64. change (2 ^ 64) with 18446744073709551616. change (2 ^ 63) with 9223372036854775808.
  pose proof (Z.mod_pos_bound (z + 9223372036854775808) 18446744073709551616 eq_refl).
  pose proof (Z.div_mod (z + 9223372036854775808) 18446744073709551616 ltac:(discriminate)). split; [lia|].
  replace (_ - _) with (- ((z + 9223372036854775808) / 18446744073709551616) * 18446744073709551616) by lia. apply Z_mod_mult.
Qed.
Lemma atom_op X (o : op X) s x s' l z : wf_state s -> step_op o s = Some (x, s') -> s_atoms s !! l = Some z ->
  exists z', s_atoms s' !! l = Some z' /\ one_at_a_time z (atom_of l (Did o x)) z'.
Proof.
  intros W Hs Hz. pose proof (fresh_atom _ _ _ W Hz) as N.
  assert (Hk : forall k (y : Z), k <> l -> put k y (s_atoms s) !! l = Some z) by (intros k y Hk; rewrite put_ne by exact Hk; exact Hz).
  assert (He : forall y, put l y (s_atoms s) !! l = Some y) by (intros y; exact (put_eq _ _ _ _ Hz)).
  assert (Ha : atom_at s l = z) by (unfold atom_at; rewrite Hz; reflexivity).
  assert (Hc : forall n s1, next_choice s = (n, s1) -> s_atoms s1 !! l = Some z)
    by (intros n s1 E; destruct (choice_rest _ _ _ E) as [->|(r & ->)]; exact Hz).
  destruct o; cbn [step_op] in Hs; try (injection Hs as <- <-); try (branch Hs); cbn [atom_of];
    try (exists z; split; [exact Hz|constructor]).
  - exists z. split; [|constructor]. pose proof (Hc _ _ eq_refl) as Hc1. destruct (_ && _); injection Hs as <- <-; exact Hc1.
  - exists z. split; [|constructor]. pose proof (Hc _ _ eq_refl) as Hc1. injection Hs as <- <-. destruct (_ =? 0)%Z; [|destruct (_ =? 1)%Z]; exact Hc1.
  - exists z. split; [|constructor]. flat. rewrite lookup_insert_ne by exact N. exact Hz.
  - exists z. split; [exact Hz|]. destruct (Pos.eq_dec l0 l) as [->|Hl]; [rewrite on_here|rewrite on_other by exact Hl; constructor].
    apply oat_one. split; [exact Ha|reflexivity].
  - destruct (Pos.eq_dec l0 l) as [->|Hl]; [rewrite on_here|rewrite on_other by exact Hl; exists z; split; [apply Hk, Hl|constructor]].
    eexists. split; [apply He|]. apply oat_one. reflexivity.
  - destruct (Pos.eq_dec l0 l) as [->|Hl]; [rewrite on_here|rewrite on_other by exact Hl; exists z; split; [apply Hk, Hl|constructor]].
    eexists. split; [apply He|]. apply oat_one. rewrite Ha. split; [reflexivity|]. apply wrap64_spec.
  - destruct (Pos.eq_dec l0 l) as [->|Hl]; [rewrite on_here|rewrite on_other by exact Hl; exists z; split; [apply Hk, Hl|constructor]].
    eexists. split; [apply He|]. apply oat_one. split; [exact Ha|reflexivity].
  - destruct (Pos.eq_dec l0 l) as [->|Hl]; [rewrite on_here|rewrite on_other by exact Hl].
    + rewrite Ha in Hs. destruct (Z.eqb_spec z old) as [E|E]; injection Hs as <- <-.
      * exists new. split; [apply He|]. apply oat_one. left. auto.
      * exists z. split; [exact Hz|]. apply oat_one. right. auto.
    + exists z. split; [|constructor]. destruct (_ =? _)%Z; injection Hs as <- <-; [apply Hk, Hl|exact Hz].
  - exists z. split; [|constructor]. injection Hs as <- <-. exact (Hc _ _ eq_refl).
Qed.
Lemma put_ret_rest p v s s' : put_ret p v s = Some s' -> exists r, s' = set_procs r s.
Proof. unfold put_ret. destruct (pr_ret _); [discriminate|]. intros [= <-]. eexists. reflexivity. Qed.
Lemma atom_history c h c' l z : history c h c' -> wf_state (snd c) -> s_atoms (snd c) !! l = Some z ->
  exists z', s_atoms (snd c') !! l = Some z' /\ one_at_a_time z (on_atom l h) z'.
Proof.
  intros H W Hz. refine (follow (atom_of l) (fun s v => s_atoms s !! l = Some v) one_at_a_time _ _ _ _ _ _ c h c' z H W Hz).
  - constructor.
  - exact oat_app.
  - intros X o s x s' v Ws Hs Hv. exact (atom_op _ _ _ _ _ _ _ Ws Hs Hv).
  - intros p r s s' v _ Hp Hv. destruct (put_ret_rest _ _ _ _ Hp) as [y ->]. exists v. split; [exact Hv|constructor].
  - intros w s v Hv. exact Hv.
  - intros s v Hv. exact Hv.
Qed.
(** Additions add up. *)
Lemma oat_sum z es z' ds : one_at_a_time z es z' -> additions es ds -> (z' - (z + sum ds)) mod 2 ^ 64 = 0.
Proof.
  intros H. revert ds. induction H as [z|z e z1 es z' Hs H IH]; intros ds F; inversion F as [|e1 d es1 ds1 (r & ->) F1]; subst.
  - cbn [sum fold_right]. replace (z - (z + 0)) with 0 by lia. reflexivity.
  - cbn [sum fold_right]. pose proof (IH _ F1) as E1. destruct Hs as (_ & _ & E2).
    apply Z_div_exact_full_2 in E1; [|discriminate]. apply Z_div_exact_full_2 in E2; [|discriminate].
    set (q1 := (z' - (z1 + sum ds1)) / 2 ^ 64) in *. set (q2 := (z1 - (z + d)) / 2 ^ 64) in *.
    replace (z' - (z + (d + fold_right Z.add 0 ds1))) with ((q1 + q2) * 2 ^ 64); [apply Z_mod_mult|].
    unfold sum in E1. lia.
Qed.

(** *** The symbol generator *)
Definition counted (s : state) (n : string -> Z) : Prop := forall p, default 0 (alookup p (s_gensyms s)) = n p.
Lemma gensym_op X (o : op X) s x s' : step_op o s = Some (x, s') ->
  (gensym_of (Did o x) = [] /\ s_gensyms s' = s_gensyms s) \/
  exists p, gensym_of (Did o x) = [(p, default 0 (alookup p (s_gensyms s)))] /\
    s_gensyms s' = aset p (default 0 (alookup p (s_gensyms s)) + 1) (s_gensyms s).
Proof.
  intros Hs.
  assert (Hc : forall n s1, next_choice s = (n, s1) -> s_gensyms s1 = s_gensyms s)
    by (intros n s1 E; destruct (choice_rest _ _ _ E) as [->|(r & ->)]; reflexivity).
  destruct o; cbn [step_op] in Hs; try (injection Hs as <- <-);
    try lazymatch type of Hs with context [prefix] => idtac | _ => branch Hs end; cbn [gensym_of];
    try (left; split; reflexivity).
  - left. split; [reflexivity|]. pose proof (Hc _ _ eq_refl) as H. destruct (_ && _); injection Hs as <- <-; exact H.
  - left. split; [reflexivity|]. pose proof (Hc _ _ eq_refl) as H. injection Hs as <- <-. destruct (_ =? 0)%Z; [|destruct (_ =? 1)%Z]; exact H.
  - left. split; [reflexivity|]. destruct (_ =? _)%Z; injection Hs as <- <-; reflexivity.
  - right. exists prefix. split; reflexivity.
  - left. split; [reflexivity|]. injection Hs as <- <-. exact (Hc _ _ eq_refl).
Qed.
(** Answers seen so far, and the counters. *)
Definition gen_seen (s : state) (seen : list (string * Z)) : Prop :=
  List.NoDup seen /\ (forall p n, In (p, n) seen -> 0 <= n < default 0 (alookup p (s_gensyms s))) /\
  (forall p, 0 <= default 0 (alookup p (s_gensyms s))).
Lemma gensym_history c h c' : history c h c' -> wf_state (snd c) -> (forall p n, alookup p (s_gensyms (snd c)) = Some n -> 0 <= n) ->
  List.NoDup (on_gensym h) /\ Forall (fun a => 0 <= snd a) (on_gensym h).
Proof.
  intros H W H0.
  destruct (follow gensym_of gen_seen (fun v a v' => v' = v ++ a)) with (c := c) (h := h) (c' := c') (v := @nil (string * Z)) as (v' & (O1 & O2 & O3) & E).
  - intros v. rewrite app_nil_r. reflexivity.
  - intros v a v1 b v2 -> ->. rewrite app_assoc. reflexivity.
  - intros X o s x s' v Ws Hs (Hn & Hv & Hp). destruct (gensym_op _ _ _ _ _ Hs) as [(E1 & E2)|(p & E1 & E2)]; rewrite E1.
    + exists v. rewrite app_nil_r. split; [|reflexivity]. split; [exact Hn|]. split; intros q; rewrite E2; auto.
    + eexists. split; [|reflexivity]. split; [|split].
      * apply nodup_snoc; [exact Hn|]. intros Hi. pose proof (Hv _ _ Hi). lia.
      * intros q n Hi. rewrite E2. apply in_app_iff in Hi. destruct (str_eqb_spec q p) as [->|Nq].
        -- rewrite alookup_aset_eq. pose proof (Hp p) as Hp0. set (d := default 0 (alookup p (s_gensyms s))) in *.
           change (default 0 (Some (d + 1))) with (d + 1). destruct Hi as [Hi|[Hi|[]]]; [pose proof (Hv _ _ Hi) as Hb; fold d in Hb; lia|]. injection Hi as <-. lia.
        -- rewrite alookup_aset_ne by exact Nq. destruct Hi as [Hi|[Hi|[]]]; [auto|congruence].
      * intros q. rewrite E2. destruct (str_eqb_spec q p) as [->|Nq]; [rewrite alookup_aset_eq; pose proof (Hp p); set (d := default 0 (alookup p (s_gensyms s))) in *; change (0 <= d + 1); lia|].
        rewrite alookup_aset_ne by exact Nq. apply Hp.
  - intros p r s s' v _ Hp Hv. destruct (put_ret_rest _ _ _ _ Hp) as [y ->]. exists v. rewrite app_nil_r. split; [exact Hv|reflexivity].
  - intros w s v Hv. exact Hv.
  - intros s v Hv. exact Hv.
  - exact H.
  - exact W.
  - split; [constructor|]. split; [intros p n []|]. intros p. destruct (alookup p _) eqn:E; [exact (H0 _ _ E)|reflexivity].
  - cbn in E. unfold on_gensym. rewrite <- E. split; [exact O1|]. apply List.Forall_forall. intros [p n] Hi. apply (O2 _ _ Hi).
Qed.
(** Different answers make different names. *)
Lemma digits_end n : 0 <= n -> exists d t, str_rev (string_of_Z n) = String d t /\ 48 <= byte_of d <= 57.
Proof.
  intros Hn. unfold string_of_Z. rewrite string_of_Z_base_eq. destruct (Z.ltb_spec n 0); [lia|].
  pose proof (digits_text 10 n ltac:(lia) Hn) as T. pose proof (digits_nonempty 10 n) as N.
  assert (F : forall t, digit_text 10 t -> digit_text 10 (str_rev t)).
  { induction t as [|c t IH]; intros Ht; [exact Ht|]. rewrite str_rev_cons. unfold digit_text in *. rewrite bytes_app.
    inversion Ht; subst. apply Forall_app. split; [auto|]. constructor; [assumption|constructor]. }
  apply F in T. destruct (str_rev (digits 10 n)) as [|d t] eqn:E.
  - apply (f_equal str_rev) in E. rewrite str_rev_rev in E. cbn in E. contradiction.
  - exists d, t. split; [reflexivity|]. unfold digit_text in T. cbn [bytes_of_string] in T. pose proof (Forall_inv T) as (e & He & E1). rewrite E1, NumText.digit_byte by lia. destruct (Z.ltb_spec e 10); lia.
Qed.
Lemma no_dash n : 0 <= n -> str_avoids "-" (string_of_Z n) = true.
Proof.
  intros Hn. unfold string_of_Z. rewrite string_of_Z_base_eq. destruct (Z.ltb_spec n 0); [lia|].
  pose proof (digits_text 10 n ltac:(lia) Hn) as T. unfold digit_text in T. induction (digits 10 n) as [|c t IH]; [reflexivity|].
  cbn [str_avoids]. inversion T as [|b l (e & He & E1) F]; subst. rewrite IH by exact F. rewrite andb_true_r.
  rewrite NumText.digit_byte in E1 by lia. destruct (Z.ltb_spec e 10); [|lia]. destruct (Ascii.eqb_spec "-" c) as [<-|]; [|reflexivity].
  change (byte_of "-") with 45 in E1. lia.
Qed.
Lemma avoid_app c x y a b : str_avoids c x = true -> str_avoids c y = true -> x +++ String c a = y +++ String c b -> x = y /\ a = b.
Proof.
  revert y. induction x as [|d x IH]; intros [|e y] Hx Hy E; cbn in *.
  - injection E as ->. auto.
  - injection E as <- _. rewrite Ascii.eqb_refl in Hy. discriminate.
  - injection E as -> _. rewrite Ascii.eqb_refl in Hx. discriminate.
  - injection E as -> E. apply andb_prop in Hx. apply andb_prop in Hy. destruct (IH y) as [-> ->]; [apply Hx|apply Hy|exact E|]. auto.
Qed.
Lemma avoids_app c a b : str_avoids c (a +++ b) = str_avoids c a && str_avoids c b.
Proof. induction a as [|d a IH]; cbn; [reflexivity|]. rewrite IH, andb_assoc. reflexivity. Qed.
Lemma avoids_rev c x : str_avoids c (str_rev x) = str_avoids c x.
Proof.
  induction x as [|d x IH]; [reflexivity|]. rewrite str_rev_cons, avoids_app, IH. cbn. rewrite andb_true_r. apply andb_comm.
Qed.
Lemma string_of_Z_inj a b : 0 <= a -> 0 <= b -> string_of_Z a = string_of_Z b -> a = b.
Proof.
  intros Ha Hb E. unfold string_of_Z in E. rewrite !string_of_Z_base_eq in E.
  destruct (Z.ltb_spec a 0); [lia|]. destruct (Z.ltb_spec b 0); [lia|].
  pose proof (digits_scan 10 a false ltac:(lia) Ha) as E1. pose proof (digits_scan 10 b false ltac:(lia) Hb) as E2. rewrite E in E1. congruence.
Qed.
Lemma symbol_name_inj k1 a1 k2 a2 : 0 <= snd a1 -> 0 <= snd a2 -> symbol_name k1 a1 = symbol_name k2 a2 -> k1 = k2 /\ a1 = a2.
Proof.
  destruct a1 as [p1 n1], a2 as [p2 n2]. unfold symbol_name. cbn [fst snd]. intros H1 H2 E.
  apply (f_equal str_rev) in E. rewrite !str_rev_app in E.
  destruct (digits_end n1 H1) as (d1 & t1 & D1 & B1). destruct (digits_end n2 H2) as (d2 & t2 & D2 & B2).
  assert (K : k1 = k2).
  { rewrite D1, D2 in E. destruct k1, k2; cbn in E; try reflexivity; injection E as E _;
      apply (f_equal byte_of) in E; change (byte_of ":") with 58 in E; lia. }
  split; [exact K|]. subst k2. rewrite !str_app_assoc in E. apply str_app_inj_l in E. cbn [str_rev str_rev_onto str_app] in E.
  change (str_rev "-") with "-" in E. cbn in E.
  pose proof (avoid_app "-" (str_rev (string_of_Z n1)) (str_rev (string_of_Z n2)) (str_rev p1) (str_rev p2)) as A.
  destruct A as [A1 A2]; [rewrite avoids_rev; apply no_dash, H1|rewrite avoids_rev; apply no_dash, H2|exact E|].
  apply (f_equal str_rev) in A1, A2. rewrite !str_rev_rev in A1, A2. rewrite (string_of_Z_inj _ _ H1 H2 A1), A2. reflexivity.
Qed.
Lemma gensym_names c h c' : history c h c' -> wf_state (snd c) -> (forall p n, alookup p (s_gensyms (snd c)) = Some n -> 0 <= n) ->
  forall i j a b ka kb, nth_error (on_gensym h) i = Some a -> nth_error (on_gensym h) j = Some b -> i <> j -> symbol_name ka a <> symbol_name kb b.
Proof.
  intros H W H0 i j a b ka kb Ha Hb Hij E. destruct (gensym_history _ _ _ H W H0) as [N F].
  rewrite List.Forall_forall in F. destruct (symbol_name_inj ka a kb b) as [_ ->]; [apply F; eapply nth_error_In; eassumption|apply F; eapply nth_error_In; eassumption|exact E|].
  apply Hij. refine (proj1 (List.NoDup_nth_error _) N i j _ _); [apply nth_error_Some; congruence|congruence].
Qed.
