(** Channels answer as [chan_step] says, in every interleaving. *)
From Verif Require Import SpecConc ProofWf ProofConc ProofProc BaseFacts.
From stdpp Require Import pmap fin_maps.
From Coq Require Import Lia.
From Verif Require Import Data.
Local Open Scope string_scope.
Local Open Scope list_scope.
Local Open Scope Z_scope.

(** *** Lists *)
Lemma skipn_front {A} n (l : list A) y r : skipn n l = y :: r -> nth_error l n = Some y /\ skipn (S n) l = r /\ firstn (S n) l = firstn n l ++ [y] /\ (n < length l)%nat.
Proof.
  revert l. induction n as [|n IH]; intros [|x l] E; cbn in E; try discriminate.
  - injection E as -> ->. repeat split. cbn. lia.
  - destruct (IH l E) as (E1 & E2 & E3 & E4). cbn [nth_error]. split; [exact E1|]. split; [exact E2|]. split; [|cbn; lia].
    change (x :: firstn (S n) l = x :: (firstn n l ++ [y])). rewrite E3. reflexivity.
Qed.
Lemma skipn_end {A} n (l : list A) : skipn n l = [] <-> (length l <= n)%nat.
Proof.
  split; [|apply skipn_all2]. intros E. pose proof (skipn_length n l) as L. rewrite E in L. cbn in L. lia.
Qed.
Lemma firstn_more {A} n (l : list A) : skipn n l = [] -> firstn (S n) l = firstn n l.
Proof. intros E. apply skipn_end in E. rewrite !firstn_all2 by lia. reflexivity. Qed.
Lemma nth_front {A} n (l : list A) x : nth_error l n = Some x -> skipn n l = x :: skipn (S n) l.
Proof. revert l. induction n as [|n IH]; intros [|y l] E; cbn in E; try discriminate; [injection E as ->; reflexivity|]. exact (IH l E). Qed.
Lemma skipn_snoc {A} n (l : list A) x : (n <= length l)%nat -> skipn n (l ++ [x]) = skipn n l ++ [x].
Proof. intros H. rewrite skipn_app. replace (n - length l)%nat with 0%nat by lia. reflexivity. Qed.
Lemma skipn_short {A} n (l : list A) x : (length l < n)%nat -> skipn n (l ++ [x]) = [].
Proof. intros H. apply skipn_end. rewrite app_length. cbn. lia. Qed.
Lemma nth_old {A} i (l m : list A) x : nth_error l i = Some x -> nth_error (l ++ m) i = Some x.
Proof. intros H. rewrite nth_error_app1; [exact H|]. apply nth_error_Some. congruence. Qed.
Lemma nth_snoc {A} i (l : list A) y x : nth_error (l ++ [y]) i = Some x -> nth_error l i = Some x \/ (i = length l /\ x = y).
Proof.
  intros H. destruct (Nat.lt_ge_cases i (length l)) as [L|L]; [rewrite nth_error_app1 in H by exact L; auto|].
  rewrite nth_error_app2 in H by exact L. destruct (i - length l)%nat as [|k] eqn:E; [cbn in H; injection H as <-; right; split; [lia|reflexivity]|].
  destruct k; discriminate.
Qed.
Lemma nth_last {A} (l : list A) y : nth_error (l ++ [y]) (length l) = Some y.
Proof. rewrite nth_error_app2 by lia. rewrite Nat.sub_diag. reflexivity. Qed.
Lemma nth_lt {A} i (l : list A) x : nth_error l i = Some x -> (i < length l)%nat.
Proof. intros H. apply nth_error_Some. congruence. Qed.

Lemma plookup_app {A} k (l m : list (loc * A)) : plookup k (l ++ m) = match plookup k l with Some x => Some x | None => plookup k m end.
Proof. induction l as [|[j v] l IH]; [reflexivity|]. cbn. destruct (Pos.eqb k j); [reflexivity|exact IH]. Qed.
Lemma plookup_del {A} k j (l : list (loc * A)) : plookup k (pdel j l) = if Pos.eqb k j then None else plookup k l.
Proof.
  induction l as [|[i v] l IH]; cbn; [destruct (Pos.eqb k j); reflexivity|].
  destruct (Pos.eqb_spec j i) as [->|N].
  - rewrite IH. destruct (Pos.eqb k i); reflexivity.
  - cbn. destruct (Pos.eqb_spec k i) as [->|N2]; [|exact IH]. destruct (Pos.eqb_spec i j); [congruence|reflexivity].
Qed.
Lemma plookup_all {A B} (f : A -> loc) (b : B) k l x : plookup k (map (fun p => (f p, b)) l) = Some x <-> x = b /\ exists p, In p l /\ f p = k.
Proof.
  induction l as [|p l IH]; cbn; [split; [discriminate|intros (_ & p & [] & _)]|].
  destruct (Pos.eqb_spec k (f p)) as [E|N].
  - split; [intros H; injection H as <-; split; [reflexivity|]; exists p; auto|intros [-> _]; reflexivity].
  - rewrite IH. split; intros (-> & q & H & E); (split; [reflexivity|]); exists q; [auto|]. destruct H as [->|H]; [congruence|auto].
Qed.

(** *** The relation between the runtime's channel and the view *)
Definition wt (w : list (val * option loc)) (i : nat) (t : loc) : Prop := exists v, nth_error w i = Some (v, Some t).
Definition rt (a : list (option loc)) (i : nat) (t : loc) : Prop := nth_error a i = Some (Some t).
Definition sent_as (cap : nat) (k : option nat) (na i : nat) (b : bool) : Prop :=
  match k with None => (i < na + cap)%nat /\ b = true | Some n => b = (i <? n)%nat end.
Definition got_as (k : option nat) (w : list (val * option loc)) (i : nat) (x : val * bool) : Prop :=
  match nth_error w i with Some (v, _) => x = (v, true) | None => k <> None /\ x = (VNil, false) end.
Record follows (cap : nat) (s : positive) (c : chan_rec) (v : chan_view) : Prop := Follows {
  fo_cap : ch_cap c = Z.of_nat cap;
  fo_wuniq : forall i j t, wt (written v) i t -> wt (written v) j t -> i = j;
  fo_runiq : forall i j t, rt (asked v) i t -> rt (asked v) j t -> i = j;
  fo_cross : forall i j t, wt (written v) i t -> rt (asked v) j t -> False;
  fo_wold : forall i t, wt (written v) i t -> (t < s)%positive;
  fo_rold : forall i t, rt (asked v) i t -> (t < s)%positive;
  fo_old : forall t, In t (returned v) -> (t < s)%positive;
  fo_wback : kept_writes v = None -> forall i t, wt (written v) i t -> In t (returned v) -> (i < length (asked v) + cap)%nat;
  fo_rback : kept_writes v = None -> forall i t, rt (asked v) i t -> In t (returned v) -> (i < length (written v))%nat;
  fo_sdone : forall t b, plookup t (ch_sdone c) = Some b <->
     exists i, wt (written v) i t /\ ~ In t (returned v) /\ sent_as cap (kept_writes v) (length (asked v)) i b;
  fo_rdone : forall t x, plookup t (ch_rdone c) = Some x <->
     exists i, rt (asked v) i t /\ ~ In t (returned v) /\ got_as (kept_writes v) (written v) i x;
  fo_body : match kept_writes v with
    | None => ch_closed c = false /\ ch_buf c = map fst (firstn cap (skipn (length (asked v)) (written v))) /\
        map (fun p => (snd p, Some (fst p))) (ch_sendq c) = skipn (length (asked v) + cap) (written v) /\
        map Some (ch_recvq c) = skipn (length (written v)) (asked v)
    | Some n => ch_closed c = true /\ ch_buf c = map fst (skipn (length (asked v)) (firstn n (written v))) /\
        ch_sendq c = [] /\ ch_recvq c = [] /\ (n <= length (written v))%nat /\ ((n < length (written v))%nat -> (length (asked v) <= n)%nat)
    end }.

Lemma follows_later cap s s' c v : follows cap s c v -> (s <= s')%positive -> follows cap s' c v.
Proof.
  intros [] L. constructor; auto; intros; eapply Pos.lt_le_trans; eauto.
Qed.
Lemma wt_snoc w x i t : wt (w ++ [x]) i t -> wt w i t \/ (i = length w /\ snd x = Some t).
Proof. intros (v & H). destruct (nth_snoc _ _ _ _ H) as [H'|[-> <-]]; [left; exists v; exact H'|right; auto]. Qed.
Lemma wt_old w x i t : wt w i t -> wt (w ++ x) i t.
Proof. intros (v & H). exists v. apply nth_old, H. Qed.
Lemma rt_snoc a x i t : rt (a ++ [x]) i t -> rt a i t \/ (i = length a /\ x = Some t).
Proof. intros H. destruct (nth_snoc _ _ _ _ H) as [H'|[-> <-]]; auto. Qed.
Lemma rt_old a x i t : rt a i t -> rt (a ++ x) i t.
Proof. intros H. apply nth_old, H. Qed.
Lemma wt_lt w i t : wt w i t -> (i < length w)%nat.
Proof. intros (v & H). exact (nth_lt _ _ _ H). Qed.
Lemma rt_lt a i t : rt a i t -> (i < length a)%nat.
Proof. intros H. exact (nth_lt _ _ _ H). Qed.

(** A write that gets no ticket. *)
Lemma follows_write_now cap s c w a r v c' :
  follows cap s c (View w a None r) -> ch_cap c' = Z.of_nat cap -> ch_sdone c' = ch_sdone c ->
  (forall t x, plookup t (ch_rdone c') = Some x <-> exists i, rt a i t /\ ~ In t r /\ got_as None (w ++ [(v, None)]) i x) ->
  ch_closed c' = false /\ ch_buf c' = map fst (firstn cap (skipn (length a) (w ++ [(v, None)]))) /\
    map (fun p => (snd p, Some (fst p))) (ch_sendq c') = skipn (length a + cap) (w ++ [(v, None)]) /\
    map Some (ch_recvq c') = skipn (length (w ++ [(v, None)])) a ->
  follows cap s c' (View (w ++ [(v, None)]) a None r).
Proof.
  intros F Hc Hs Hr Hb. destruct F as [F1 F2 F3 F4 F5 F6 F7 FW FR F8 F9 F10]. cbn [written asked kept_writes returned] in *.
  assert (N : forall i t, wt (w ++ [(v, None)]) i t -> wt w i t).
  { intros i t H. destruct (wt_snoc _ _ _ _ H) as [H'|[_ E]]; [exact H'|discriminate E]. }
  constructor; cbn [written asked kept_writes returned]; auto.
  - intros i j t H1 H2. eauto.
  - intros i j t H1 H2. eauto.
  - intros i t H1. eauto.
  - intros E i t H1 H2. eauto.
  - intros E i t H1 H2. rewrite app_length. pose proof (FR E _ _ H1 H2). lia.
  - intros t b. rewrite Hs, F8. split; intros (i & H1 & H2 & H3); exists i; (split; [|auto]); [apply wt_old, H1|apply N, H1].
Qed.
Ltac open_view F := destruct F as [F1 F2 F3 F4 F5 F6 F7 FW FR F8 F9 F10]; cbn [written asked kept_writes returned] in *.
Lemma got_app k w x i y : got_as k w i y -> (i < length w)%nat -> got_as k (w ++ x) i y.
Proof. unfold got_as. intros H L. rewrite nth_error_app1 by exact L. exact H. Qed.
Lemma got_open w i y : got_as None w i y <-> exists v o, nth_error w i = Some (v, o) /\ y = (v, true).
Proof.
  unfold got_as. destruct (nth_error w i) as [[v o]|]; split; [intros ->; eauto|intros (v' & o' & E & ->); congruence|intros [E _]; congruence|intros (v & o & E & _); discriminate].
Qed.
Lemma buf_len cap a (w : list (val * option loc)) : length (map fst (firstn cap (skipn (length (A:=option loc) a) w))) = Nat.min cap (length w - length a).
Proof. rewrite map_length, firstn_length, skipn_length. reflexivity. Qed.
Lemma follows_send cap s c w a r v block ans c' :
  follows cap s c (View w a None r) -> chan_send c v block s = (ans, c') ->
  exists v', follows cap (Pos.succ s) c' v' /\ chan_step cap (View w a None r) (CWrite v block ans) v'.
Proof.
  intros F E. pose proof F as F0. open_view F. destruct F10 as (B1 & B2 & B3 & B4).
  unfold chan_send in E. rewrite B1 in E. destruct (ch_recvq c) as [|t0 rq] eqn:Eq.
  - (* nobody waits for a value *)
    cbn [map] in B4. assert (L : (length a <= length w)%nat) by (apply skipn_end; auto).
    rewrite B2 in E. rewrite buf_len in E. rewrite F1 in E. rewrite <- B2 in E.
    destruct (Z.ltb_spec (Z.of_nat (Nat.min cap (length w - length a))) (Z.of_nat cap)) as [Lt|Ge].
    + (* room in the buffer *)
      injection E as <- <-. exists (View (w ++ [(v, None)]) a None r). split; [|constructor; lia].
      apply (follows_later cap s); [|lia]. eapply follows_write_now; [exact F0|solve [reflexivity|exact F1]|reflexivity| |].
      * intros t x. rewrite F9. split; intros (i & H1 & H2 & H3); exists i; (split; [exact H1|]; split; [exact H2|]); apply got_open in H3; destruct H3 as (v' & o & H3 & ->).
        -- apply got_open. exists v', o. split; [apply nth_old, H3|reflexivity].
        -- pose proof (rt_lt _ _ _ H1). apply got_open. exists v', o. destruct (nth_snoc _ _ _ _ H3) as [H4|[-> _]]; [auto|lia].
      * cbn [ch_closed ch_buf ch_sendq ch_recvq]. split; [reflexivity|]. split.
        -- rewrite skipn_snoc by exact L. rewrite B2, (firstn_all2 (skipn (length a) w)) by (rewrite skipn_length; lia).
           rewrite (firstn_all2 (skipn (length a) w ++ _)) by (rewrite app_length, skipn_length; cbn; lia). rewrite map_app. reflexivity.
        -- split.
           ++ rewrite B3. rewrite skipn_short by lia. apply skipn_end. lia.
           ++ cbn [map]. symmetry. apply skipn_end. rewrite app_length. cbn. lia.
    + destruct block; injection E as <- <-.
      * (* parked *)
        exists (View (w ++ [(v, Some s)]) a None r). split; [|constructor; lia].
        constructor; cbn [written asked kept_writes returned ch_cap ch_buf ch_closed ch_sendq ch_recvq ch_sdone ch_rdone]; auto.
        -- intros i j t H1 H2. destruct (wt_snoc _ _ _ _ H1) as [H1'|[-> E1]], (wt_snoc _ _ _ _ H2) as [H2'|[-> E2]]; eauto.
           ++ injection E2 as ->. pose proof (F5 _ _ H1'). lia.
           ++ injection E1 as ->. pose proof (F5 _ _ H2'). lia.
        -- intros i j t H1 H2. destruct (wt_snoc _ _ _ _ H1) as [H1'|[-> E1]]; eauto. injection E1 as ->. pose proof (F6 _ _ H2). lia.
        -- intros i t H1. destruct (wt_snoc _ _ _ _ H1) as [H1'|[-> E1]]; [pose proof (F5 _ _ H1'); lia|]. injection E1 as ->. lia.
        -- intros i t H1. pose proof (F6 _ _ H1). lia.
        -- intros t H1. pose proof (F7 _ H1). lia.
        -- intros _ i t H1 H2. destruct (wt_snoc _ _ _ _ H1) as [H1'|[-> E1]]; [exact (FW eq_refl _ _ H1' H2)|]. injection E1 as ->. pose proof (F7 _ H2). lia.
        -- intros _ i t H1 H2. rewrite app_length. pose proof (FR eq_refl _ _ H1 H2). lia.
        -- intros t b. rewrite F8. split; intros (i & H1 & H2 & H3); exists i; (split; [|auto]); [apply wt_old, H1|].
           destruct (wt_snoc _ _ _ _ H1) as [H1'|[-> E1]]; [exact H1'|]. cbn in H3. lia.
        -- intros t x. rewrite F9. split; intros (i & H1 & H2 & H3); exists i; (split; [exact H1|]; split; [exact H2|]); apply got_open in H3; destruct H3 as (v' & o & H3 & ->).
           ++ apply got_open. exists v', o. split; [apply nth_old, H3|reflexivity].
           ++ pose proof (rt_lt _ _ _ H1). apply got_open. exists v', o. destruct (nth_snoc _ _ _ _ H3) as [H4|[-> _]]; [auto|lia].
        -- split; [reflexivity|]. split.
           ++ rewrite skipn_snoc by exact L. rewrite firstn_app, skipn_length. replace (cap - (length w - length a))%nat with 0%nat by lia.
              cbn [firstn]. rewrite app_nil_r. exact B2.
           ++ split; [rewrite map_app, B3, skipn_snoc by lia; reflexivity|]. cbn [map]. symmetry. apply skipn_end. rewrite app_length. cbn. lia.
      * exists (View w a None r). split; [apply (follows_later cap s); [exact F0|lia]|]. constructor. lia.
  - (* a read waits *)
    injection E as <- <-. cbn [map] in B4. destruct (skipn_front _ _ _ _ (eq_sym B4)) as (Hn & Hs & _ & L).
    exists (View (w ++ [(v, None)]) a None r). split; [|constructor; lia].
    apply (follows_later cap s); [|lia]. eapply follows_write_now; [exact F0|solve [reflexivity|exact F1]|reflexivity| |].
    + intros t x. cbn [ch_rdone]. rewrite plookup_app. cbn [plookup]. split.
      * destruct (plookup t (ch_rdone c)) as [y|] eqn:El.
        -- intros Hx. injection Hx as <-. apply F9 in El. destruct El as (i & H1 & H2 & H3). exists i. split; [exact H1|]. split; [exact H2|].
           apply got_open in H3. destruct H3 as (v' & o & H3 & ->). apply got_open. exists v', o. split; [apply nth_old, H3|reflexivity].
        -- destruct (Pos.eqb_spec t t0) as [->|]; [|discriminate]. intros Hx. injection Hx as <-. exists (length w). split; [exact Hn|].
           split; [|apply got_open; exists v, None; split; [apply nth_last|reflexivity]].
           intros Hi. pose proof (FR eq_refl _ _ Hn Hi). lia.
      * intros (i & H1 & H2 & H3). apply got_open in H3. destruct H3 as (v' & o & H3 & ->). destruct (nth_snoc _ _ _ _ H3) as [H4|[-> E4]].
        -- replace (plookup t (ch_rdone c)) with (Some (v', true)); [reflexivity|]. symmetry. apply F9. exists i. split; [exact H1|]. split; [exact H2|]. apply got_open. eauto.
        -- injection E4 as -> ->. unfold rt in H1. rewrite Hn in H1. injection H1 as ->. rewrite Pos.eqb_refl.
           destruct (plookup t (ch_rdone c)) as [y|] eqn:El; [|reflexivity]. exfalso. apply F9 in El. destruct El as (j & H5 & _ & H6).
           apply got_open in H6. destruct H6 as (v2 & o2 & H6 & _). pose proof (F3 _ _ _ H5 Hn) as ->. pose proof (nth_lt _ _ _ H6). lia.
    + cbn [ch_closed ch_buf ch_sendq ch_recvq]. split; [reflexivity|]. split.
      * rewrite B2, skipn_short by lia. rewrite (proj2 (skipn_end (length a) w)) by lia. reflexivity.
      * split; [rewrite B3, skipn_short by lia; apply skipn_end; lia|]. rewrite app_length. cbn [length]. replace (length w + 1)%nat with (S (length w)) by lia. symmetry. exact Hs.
Qed.
(** A read moves the next waiting write, if any, out of the queue. *)
Definition unparked (q : list (loc * val)) : list (loc * bool) := match q with [] => [] | (t, _) :: _ => [(t, true)] end.
Lemma follows_read cap s c w a r y c' s' :
  follows cap s c (View w a None r) -> (s <= s')%positive ->
  (forall t, y = Some t -> (length w <= length a)%nat /\ t = s /\ (s < s')%positive) ->
  ch_cap c' = Z.of_nat cap -> ch_sdone c' = ch_sdone c ++ unparked (ch_sendq c) -> ch_rdone c' = ch_rdone c ->
  ch_closed c' = false /\ ch_buf c' = map fst (firstn cap (skipn (length (a ++ [y])) w)) /\
    map (fun p => (snd p, Some (fst p))) (ch_sendq c') = skipn (length (a ++ [y]) + cap) w /\
    map Some (ch_recvq c') = skipn (length w) (a ++ [y]) ->
  follows cap s' c' (View w (a ++ [y]) None r).
Proof.
  intros F Ls Hy Hc Hs Hr Hb. open_view F. destruct F10 as (B1 & B2 & B3 & B4).
  assert (La : length (a ++ [y]) = S (length a)) by (rewrite app_length; cbn; lia).
  constructor; cbn [written asked kept_writes returned]; auto.
  - intros i j t H1 H2. destruct (rt_snoc _ _ _ _ H1) as [H1'|[-> E1]], (rt_snoc _ _ _ _ H2) as [H2'|[-> E2]]; eauto.
    + destruct (Hy _ E2) as (_ & -> & _). pose proof (F6 _ _ H1'). lia.
    + destruct (Hy _ E1) as (_ & -> & _). pose proof (F6 _ _ H2'). lia.
  - intros i j t H1 H2. destruct (rt_snoc _ _ _ _ H2) as [H2'|[-> E2]]; eauto. destruct (Hy _ E2) as (_ & -> & _). pose proof (F5 _ _ H1). lia.
  - intros i t H1. pose proof (F5 _ _ H1). lia.
  - intros i t H1. destruct (rt_snoc _ _ _ _ H1) as [H1'|[-> E1]]; [pose proof (F6 _ _ H1'); lia|]. destruct (Hy _ E1) as (_ & -> & L). exact L.
  - intros t H1. pose proof (F7 _ H1). lia.
  - intros _ i t H1 H2. pose proof (FW eq_refl _ _ H1 H2). lia.
  - intros _ i t H1 H2. destruct (rt_snoc _ _ _ _ H1) as [H1'|[-> E1]]; [exact (FR eq_refl _ _ H1' H2)|]. destruct (Hy _ E1) as (_ & -> & _). pose proof (F7 _ H2). lia.
  - intros t b. rewrite Hs, plookup_app, La. destruct (ch_sendq c) as [|[tk x] q]; cbn [unparked plookup].
    + cbn [map] in B3. assert (L : (length w <= length a + cap)%nat) by (apply skipn_end; auto).
      destruct (plookup t (ch_sdone c)) as [b'|] eqn:El.
      * apply F8 in El. destruct El as (i & H1 & H2 & H3 & ->). split.
        -- intros E. injection E as <-. exists i. split; [exact H1|]. split; [exact H2|]. split; [lia|reflexivity].
        -- intros (j & H4 & _ & H5 & ->). reflexivity.
      * split; [discriminate|]. intros (i & H1 & H2 & H3 & ->). pose proof (wt_lt _ _ _ H1).
        assert (X : plookup t (ch_sdone c) = Some true) by (apply F8; exists i; split; [exact H1|]; split; [exact H2|]; split; [lia|reflexivity]). congruence.
    + cbn [map fst snd] in B3. destruct (skipn_front _ _ _ _ (eq_sym B3)) as (Hn & _ & _ & L).
      assert (Ht : wt w (length a + cap) tk) by (exists x; exact Hn).
      destruct (plookup t (ch_sdone c)) as [b'|] eqn:El.
      * apply F8 in El. destruct El as (i & H1 & H2 & H3 & ->). split.
        -- intros E. injection E as <-. exists i. split; [exact H1|]. split; [exact H2|]. split; [lia|reflexivity].
        -- intros (j & H4 & _ & H5 & ->). reflexivity.
      * destruct (Pos.eqb_spec t tk) as [->|Nt].
        -- split.
           ++ intros E. injection E as <-. exists (length a + cap)%nat. split; [exact Ht|]. split; [|split; [lia|reflexivity]].
              intros Hi. pose proof (FW eq_refl _ _ Ht Hi). lia.
           ++ intros (j & _ & _ & _ & ->). reflexivity.
        -- split; [discriminate|]. intros (i & H1 & H2 & H3 & ->). exfalso.
           destruct (Nat.eq_dec i (length a + cap)) as [->|Ni].
           ++ destruct H1 as (v1 & H1). rewrite Hn in H1. congruence.
           ++ assert (X : plookup t (ch_sdone c) = Some true) by (apply F8; exists i; split; [exact H1|]; split; [exact H2|]; split; [lia|reflexivity]). congruence.
  - intros t x. rewrite Hr, F9. split; intros (i & H1 & H2 & H3); exists i; (split; [|auto]); [apply rt_old, H1|].
    destruct (rt_snoc _ _ _ _ H1) as [H1'|[-> E1]]; [exact H1'|]. destruct (Hy _ E1) as (L & _). apply got_open in H3. destruct H3 as (v & o & H3 & _).
    pose proof (nth_lt _ _ _ H3). lia.
Qed.
Lemma follows_recv cap s c w a r block ans c' :
  follows cap s c (View w a None r) -> chan_recv c block s = (ans, c') ->
  exists v', follows cap (Pos.succ s) c' v' /\ chan_step cap (View w a None r) (CRead block ans) v'.
Proof.
  intros F E. pose proof F as F0. open_view F. destruct F10 as (B1 & B2 & B3 & B4).
  assert (La : forall y : option loc, length (a ++ [y]) = S (length a)) by (intros y; rewrite app_length; cbn; lia).
  unfold chan_recv in E. rewrite B1 in E. destruct (ch_buf c) as [|v buf] eqn:Eb.
  - destruct (ch_sendq c) as [|[tk x] sq] eqn:Eq.
    + cbn [map] in B3. assert (L : (length w <= length a)%nat).
      { symmetry in B3. apply skipn_end in B3. destruct cap as [|cap]; [lia|]. destruct (skipn (length a) w) eqn:Es; [apply skipn_end, Es|discriminate B2]. }
      destruct block; injection E as <- <-.
      * exists (View w (a ++ [Some s]) None r). split; [|constructor; lia].
        eapply follows_read; [exact F0|lia| |exact F1| | |].
        -- intros t Et. injection Et as <-. split; [exact L|]. split; [reflexivity|lia].
        -- rewrite Eq. cbn. rewrite app_nil_r. reflexivity.
        -- reflexivity.
        -- cbn [ch_closed ch_buf ch_sendq ch_recvq]. rewrite La. split; [reflexivity|]. split.
           ++ rewrite (proj2 (skipn_end (S (length a)) w)) by lia. destruct cap; reflexivity.
           ++ split; [cbn [map]; symmetry; apply skipn_end; lia|]. rewrite map_app, B4, skipn_snoc by lia. reflexivity.
      * exists (View w a None r). split; [apply (follows_later cap s); [exact F0|lia]|]. constructor. lia.
    + injection E as <- <-. cbn [map fst snd] in B3. destruct (skipn_front _ _ _ _ (eq_sym B3)) as (Hn & Hs & _ & L).
      assert (cap = 0%nat) as ->.
      { destruct cap as [|cap]; [reflexivity|]. destruct (skipn (length a) w) eqn:Es; [apply skipn_end in Es; lia|discriminate B2]. }
      rewrite Nat.add_0_r in *. exists (View w (a ++ [None]) None r). split; [|econstructor; exact Hn].
      eapply follows_read; [exact F0|lia|discriminate|exact F1| | |].
      * rewrite Eq. reflexivity.
      * reflexivity.
      * cbn [ch_closed ch_buf ch_sendq ch_recvq]. rewrite La, Nat.add_0_r. split; [reflexivity|]. split; [reflexivity|]. split; [symmetry; exact Hs|].
        rewrite B4. rewrite !(proj2 (skipn_end _ _)); [reflexivity|rewrite La; lia|lia].
  - destruct cap as [|cap]; [discriminate B2|]. destruct (skipn (length a) w) as [|[v' o] rest] eqn:Es; [discriminate B2|].
    cbn [firstn map fst] in B2. injection B2 as -> B2. destruct (skipn_front _ _ _ _ Es) as (Hn & Hs & _ & L).
    assert (Hq : skipn (S (length a) + cap) w = skipn cap rest).
    { rewrite <- Hs. rewrite drop_drop. reflexivity. }
    assert (B3' : map (fun p => (snd p, Some (fst p))) (ch_sendq c) = skipn cap rest) by (rewrite B3, <- Hq; f_equal; lia).
    assert (B5 : map Some (ch_recvq c) = skipn (length w) (a ++ [None])).
    { rewrite B4. rewrite !(proj2 (skipn_end _ _)); [reflexivity|rewrite La; lia|lia]. }
    destruct (ch_sendq c) as [|[tk x] sq] eqn:Eq; injection E as <- <-; exists (View w (a ++ [None]) None r); (split; [|econstructor; exact Hn]).
    + eapply follows_read; [exact F0|lia|discriminate|exact F1| | |].
      * rewrite Eq. cbn. rewrite app_nil_r. reflexivity.
      * reflexivity.
      * cbn [ch_closed ch_buf ch_sendq ch_recvq]. rewrite La. split; [reflexivity|]. cbn [map] in B3'. split; [|split; [|exact B5]].
        -- rewrite Hs, (firstn_more cap rest) by auto. exact B2.
        -- cbn [map]. symmetry. apply skipn_end. symmetry in B3'. apply skipn_end in B3'. rewrite <- Hs, skipn_length in B3'. lia.
    + cbn [map fst snd] in B3'. destruct (skipn_front _ _ _ _ (eq_sym B3')) as (Hn' & Hs' & Hf & L').
      eapply follows_read; [exact F0|lia|discriminate|exact F1| | |].
      * rewrite Eq. reflexivity.
      * reflexivity.
      * cbn [ch_closed ch_buf ch_sendq ch_recvq]. rewrite La. split; [reflexivity|]. split; [|split; [|exact B5]].
        -- rewrite Hs, Hf, map_app, B2. reflexivity.
        -- rewrite <- Hs', <- Hs, drop_drop. f_equal; lia.
Qed.
(** A closed channel. *)
Lemma follows_recv_closed cap s c w a n r block ans c' :
  follows cap s c (View w a (Some n) r) -> chan_recv c block s = (ans, c') ->
  exists v', follows cap (Pos.succ s) c' v' /\ chan_step cap (View w a (Some n) r) (CRead block ans) v'.
Proof.
  intros F E. pose proof F as F0. open_view F. destruct F10 as (B1 & B2 & B3 & B4 & B5 & B6).
  unfold chan_recv in E. rewrite B1, B3, B4 in E. destruct (ch_buf c) as [|v buf] eqn:Eb.
  - injection E as <- <-. exists (View w a (Some n) r). split; [apply (follows_later cap s); [exact F0|lia]|]. constructor.
    destruct (skipn (length a) (firstn n w)) eqn:Es; [|discriminate B2]. apply skipn_end in Es. rewrite firstn_length in Es. lia.
  - injection E as <- <-. destruct (skipn (length a) (firstn n w)) as [|[v' o] rest] eqn:Es; [discriminate B2|]. cbn [map fst] in B2. injection B2 as -> B2.
    destruct (skipn_front _ _ _ _ Es) as (Hn & Hs & _ & L). rewrite firstn_length in L.
    assert (Hn' : nth_error w (length a) = Some (v', o)).
    { rewrite <- (firstn_skipn n w). apply nth_old, Hn. }
    assert (La : length (a ++ [None (A:=loc)]) = S (length a)) by (rewrite app_length; cbn; lia).
    exists (View w (a ++ [None]) (Some n) r). split; [|econstructor; [exact Hn'|lia]].
    apply (follows_later cap s); [|lia].
    assert (N : forall i t, rt (a ++ [None]) i t -> rt a i t) by (intros i t H; destruct (rt_snoc _ _ _ _ H) as [H'|[_ H']]; [exact H'|discriminate]).
    constructor; cbn [written asked kept_writes returned ch_cap ch_buf ch_closed ch_sendq ch_recvq ch_sdone ch_rdone]; eauto; try discriminate.
    + intros t x. rewrite F9. split; intros (i & H1 & H2); exists i; (split; [|exact H2]); [apply rt_old, H1|apply N, H1].
    + rewrite La. split; [reflexivity|]. split; [rewrite Hs; exact B2|]. split; [reflexivity|]. split; [reflexivity|]. split; [exact B5|]. lia.
Qed.
Lemma in_at {A} (l : list A) x : In x l <-> exists i, nth_error l i = Some x.
Proof. split; [apply In_nth_error|intros [i H]; exact (nth_error_In _ _ H)]. Qed.
Lemma nth_skip {A} n (l : list A) i : nth_error (skipn n l) i = nth_error l (n + i).
Proof. revert l. induction n as [|n IH]; intros [|x l]; cbn; [reflexivity|reflexivity|destruct i; reflexivity|apply IH]. Qed.
Lemma follows_close cap s c w a r ans c' :
  follows cap s c (View w a None r) -> chan_close c = (ans, c') ->
  exists v', follows cap s c' v' /\ chan_step cap (View w a None r) (CClose ans) v'.
Proof.
  intros F E. open_view F. destruct F10 as (B1 & B2 & B3 & B4).
  unfold chan_close in E. rewrite B1 in E. injection E as <- <-. eexists. split; [|apply cs_close].
  set (n := Nat.min (length w) (length a + cap)).
  constructor; cbn [written asked kept_writes returned ch_cap ch_buf ch_closed ch_sendq ch_recvq ch_sdone ch_rdone]; auto; try discriminate.
  - (* waiting writes *)
    intros t b. rewrite plookup_app. destruct (plookup t (ch_sdone c)) as [b'|] eqn:El.
    + apply F8 in El. destruct El as (i & H1 & H2 & H3 & ->). pose proof (wt_lt _ _ _ H1). split.
      * intros E. injection E as <-. exists i. split; [exact H1|]. split; [exact H2|]. cbn. symmetry. apply Nat.ltb_lt. unfold n. lia.
      * intros (j & H4 & _ & H5). cbn in H5. rewrite (F2 _ _ _ H4 H1) in H5. subst b. f_equal. symmetry. apply Nat.ltb_lt. unfold n. lia.
    + rewrite (plookup_all fst false). split.
      * intros (-> & [t' x] & Hi & <-). cbn [fst] in *. apply (in_map (fun p => (snd p, Some (fst p)))) in Hi. rewrite B3 in Hi. cbn [fst snd] in Hi.
        apply in_at in Hi. destruct Hi as [i Hi]. rewrite nth_skip in Hi. pose proof (nth_lt _ _ _ Hi) as Lt.
        assert (Ht : wt w (length a + cap + i) t') by (exists x; exact Hi). exists (length a + cap + i)%nat. split; [exact Ht|]. split.
        -- intros Hr. pose proof (FW eq_refl _ _ Ht Hr). lia.
        -- cbn. symmetry. apply Nat.ltb_ge. unfold n. lia.
      * intros (i & H1 & H2 & H3). cbn in H3. pose proof (wt_lt _ _ _ H1) as Lt. destruct (Nat.lt_ge_cases i (length a + cap)) as [Li|Li].
        -- exfalso. assert (X : plookup t (ch_sdone c) = Some true) by (apply F8; exists i; split; [exact H1|]; split; [exact H2|]; split; [exact Li|reflexivity]). congruence.
        -- split; [rewrite H3; apply Nat.ltb_ge; unfold n; lia|]. destruct H1 as (x & H1). exists (t, x). split; [|reflexivity].
           assert (Hi : In (x, Some t) (skipn (length a + cap) w)).
           { apply in_at. exists (i - (length a + cap))%nat. rewrite nth_skip. replace (length a + cap + _)%nat with i by lia. exact H1. }
           rewrite <- B3 in Hi. apply in_map_iff in Hi. destruct Hi as ([t' x'] & Eq & Hi). cbn in Eq. injection Eq as -> ->. exact Hi.
  - (* waiting reads *)
    intros t x. rewrite plookup_app. destruct (plookup t (ch_rdone c)) as [y|] eqn:El.
    + apply F9 in El. destruct El as (i & H1 & H2 & H3). apply got_open in H3. destruct H3 as (v & o & H3 & ->). split.
      * intros E. injection E as <-. exists i. split; [exact H1|]. split; [exact H2|]. unfold got_as. rewrite H3. reflexivity.
      * intros (j & H4 & _ & H5). unfold got_as in H5. rewrite (F3 _ _ _ H4 H1), H3 in H5. subst x. reflexivity.
    + rewrite (plookup_all (fun t => t) (VNil, false)). split.
      * intros (-> & t' & Hi & <-). apply (in_map Some) in Hi. rewrite B4 in Hi. apply in_at in Hi. destruct Hi as [i Hi]. rewrite nth_skip in Hi.
        exists (length w + i)%nat. split; [exact Hi|]. split.
        -- intros Hr. pose proof (FR eq_refl _ _ Hi Hr). lia.
        -- unfold got_as. rewrite (proj2 (nth_error_None w (length w + i))) by lia. split; [discriminate|reflexivity].
      * intros (i & H1 & H2 & H3). unfold got_as in H3. destruct (nth_error w i) as [[v o]|] eqn:Ew.
        -- exfalso. assert (X : plookup t (ch_rdone c) = Some (v, true)) by (apply F9; exists i; split; [exact H1|]; split; [exact H2|]; apply got_open; eauto). congruence.
        -- destruct H3 as [_ ->]. split; [reflexivity|]. exists t. split; [|reflexivity]. apply nth_error_None in Ew.
           assert (Hi : In (Some t) (skipn (length w) a)).
           { apply in_at. exists (i - length w)%nat. rewrite nth_skip. replace (length w + _)%nat with i by lia. exact H1. }
           rewrite <- B4 in Hi. apply in_map_iff in Hi. destruct Hi as (t' & Eq & Hi). injection Eq as ->. exact Hi.
  - split; [reflexivity|]. split; [|split; [reflexivity|]; split; [reflexivity|]; unfold n; lia].
    rewrite B2. f_equal. unfold n. rewrite firstn_skipn_comm. destruct (Nat.le_gt_cases (length w) (length a + cap)) as [L|L].
    + rewrite Nat.min_l by exact L. rewrite !firstn_all2 by lia. reflexivity.
    + rewrite Nat.min_r by lia. reflexivity.
Qed.
(** Waiting calls resume. *)
Lemma del_done {X} (l : list (loc * X)) (Q : loc -> X -> Prop) t r :
  (forall t b, plookup t l = Some b <-> (Q t b /\ ~ In t r)) ->
  forall t' b, plookup t' (pdel t l) = Some b <-> (Q t' b /\ ~ In t' (t :: r)).
Proof.
  intros H t' b. rewrite plookup_del. destruct (Pos.eqb_spec t' t) as [->|N].
  - split; [discriminate|]. intros [_ Hi]. destruct Hi. left. reflexivity.
  - rewrite H. cbn. split; intros [H1 H2]; (split; [exact H1|]); intuition congruence.
Qed.
Lemma follows_wend cap s c v t b :
  follows cap s c v -> plookup t (ch_sdone c) = Some b ->
  exists v', follows cap s (Chan (ch_cap c) (ch_buf c) (ch_closed c) (ch_sendq c) (ch_recvq c) (pdel t (ch_sdone c)) (ch_rdone c)) v' /\
    chan_step cap v (CWriteEnd t b) v'.
Proof.
  intros F El. destruct v as [w a k r]. open_view F. pose proof (proj1 (F8 _ _) El) as (i & H1 & H2 & H3).
  exists (View w a k (t :: r)). split.
  - constructor; cbn [written asked kept_writes returned ch_cap ch_buf ch_closed ch_sendq ch_recvq ch_sdone ch_rdone]; auto.
    + intros t' [<-|H]; [exact (F5 _ _ H1)|auto].
    + intros -> j t' Hj [<-|H]; [|exact (FW eq_refl _ _ Hj H)]. rewrite (F2 _ _ _ Hj H1). exact (proj1 H3).
    + intros -> j t' Hj [<-|H]; [exfalso; exact (F4 _ _ _ H1 Hj)|exact (FR eq_refl _ _ Hj H)].
    + intros t' b'. rewrite (del_done _ (fun t b => exists i, wt w i t /\ sent_as cap k (length a) i b) t r).
      * split; [intros ((j & A1 & A2) & A3)|intros (j & A1 & A2 & A3)]; eauto.
      * intros t0 b0. rewrite F8. split; [intros (j & A1 & A2 & A3)|intros ((j & A1 & A2) & A3)]; eauto.
    + intros t' x. rewrite F9. split; intros (j & A1 & A2 & A3); exists j; (split; [exact A1|]); (split; [|exact A3]).
      * intros [<-|Hi]; [exact (F4 _ _ _ H1 A1)|exact (A2 Hi)].
      * intros Hi. apply A2. right. exact Hi.
  - destruct H1 as (x & H1). destruct k as [n|]; cbn in H3.
    + subst b. eapply cs_write_end_closed; eassumption.
    + destruct H3 as [H3 ->]. eapply cs_write_end; eassumption.
Qed.
Lemma follows_rend cap s c v t x :
  follows cap s c v -> plookup t (ch_rdone c) = Some x ->
  exists v', follows cap s (Chan (ch_cap c) (ch_buf c) (ch_closed c) (ch_sendq c) (ch_recvq c) (ch_sdone c) (pdel t (ch_rdone c))) v' /\
    chan_step cap v (CReadEnd t x) v'.
Proof.
  intros F El. destruct v as [w a k r]. open_view F. pose proof (proj1 (F9 _ _) El) as (i & H1 & H2 & H3).
  exists (View w a k (t :: r)). split.
  - constructor; cbn [written asked kept_writes returned ch_cap ch_buf ch_closed ch_sendq ch_recvq ch_sdone ch_rdone]; auto.
    + intros t' [<-|H]; [exact (F6 _ _ H1)|auto].
    + intros -> j t' Hj [<-|H]; [exfalso; exact (F4 _ _ _ Hj H1)|exact (FW eq_refl _ _ Hj H)].
    + intros -> j t' Hj [<-|H]; [|exact (FR eq_refl _ _ Hj H)]. rewrite (F3 _ _ _ Hj H1). apply got_open in H3. destruct H3 as (v & o & H3 & _). exact (nth_lt _ _ _ H3).
    + intros t' x'. rewrite F8. split; intros (j & A1 & A2 & A3); exists j; (split; [exact A1|]); (split; [|exact A3]).
      * intros [<-|Hi]; [exact (F4 _ _ _ A1 H1)|exact (A2 Hi)].
      * intros Hi. apply A2. right. exact Hi.
    + intros t' b'. rewrite (del_done _ (fun t b => exists i, rt a i t /\ got_as k w i b) t r).
      * split; [intros ((j & A1 & A2) & A3)|intros (j & A1 & A2 & A3)]; eauto.
      * intros t0 b0. rewrite F9. split; [intros (j & A1 & A2 & A3)|intros ((j & A1 & A2) & A3)]; eauto.
  - unfold got_as in H3. destruct (nth_error w i) as [[v o]|] eqn:Ew.
    + subst x. eapply cs_read_end; eassumption.
    + destruct H3 as [Hk ->]. destruct k as [n|]; [|congruence]. eapply cs_read_end_closed; eassumption.
Qed.

(** *** Every history *)
Lemma css_app cap v a v1 b v2 : chan_steps cap v a v1 -> chan_steps cap v1 b v2 -> chan_steps cap v (a ++ b) v2.
Proof. intros H1 H2. induction H2; [rewrite app_nil_r; exact H1|]. rewrite app_assoc. econstructor; eauto. Qed.
Lemma css_one cap v e v' : chan_step cap v e v' -> chan_steps cap v [e] v'.
Proof. intros H. apply (css_step cap v [] v e v'); [constructor|exact H]. Qed.
Definition chan_ok (cap : nat) (l : loc) (s : state) (v : chan_view) : Prop := exists c, s_chans s !! l = Some c /\ follows cap (s_next s) c v.
Lemma chan_op X (o : op X) s x s' cap l v : wf_state s -> step_op o s = Some (x, s') -> chan_ok cap l s v ->
  exists v', chan_ok cap l s' v' /\ chan_steps cap v (chan_of l (Did o x)) v'.
Proof.
  intros W Hs (c & Hc & F).
  assert (N : s_next s <> l) by (destruct (wf_chans _ W _ _ Hc); lia).
  assert (Ha : chan_at s l = c) by (unfold chan_at; rewrite Hc; reflexivity).
  assert (Ln : (s_next s <= s_next s')%positive) by (exact (proj1 (pending_op _ _ _ _ _ Hs))).
  assert (Keep : s_chans s' !! l = Some c -> chan_of l (Did o x) = [] -> exists v', chan_ok cap l s' v' /\ chan_steps cap v (chan_of l (Did o x)) v').
  { intros H1 H2. exists v. rewrite H2. split; [|constructor]. exists c. split; [exact H1|]. exact (follows_later _ _ _ _ _ F Ln). }
  assert (Hn : forall n s1, next_choice s = (n, s1) -> s_chans s1 !! l = Some c)
    by (intros n s1 E; destruct (choice_rest _ _ _ E) as [->|(r & ->)]; exact Hc).
  destruct o; cbn [step_op] in Hs; try (injection Hs as <- <-); try (apply Keep; [exact Hc|reflexivity]).
  - branch Hs; apply Keep; [exact Hc|reflexivity|exact Hc|reflexivity].
  - apply Keep; [|reflexivity]. flat. rewrite lookup_insert_ne by exact N. exact Hc.
  - destruct (Pos.eq_dec l0 l) as [->|Hl].
    + rewrite Ha in Hs. destruct (chan_send c v0 block (s_next s)) as [ans c'] eqn:E. injection Hs as <- <-.
      cbn [chan_of]. rewrite on_here. destruct v as [w a [n|] r].
      * pose proof (fo_body _ _ _ _ F) as B. cbn in B. unfold chan_send in E. rewrite (proj1 B) in E. injection E as <- <-.
        exists (View w a (Some n) r). split; [|apply css_one; constructor]. exists c. split; [flat; erewrite put_eq by exact Hc; reflexivity|].
        apply (follows_later _ _ _ _ _ F Ln).
      * destruct (follows_send _ _ _ _ _ _ _ _ _ _ F E) as (v' & F' & Sp). exists v'. split; [|apply css_one, Sp].
        exists c'. split; [flat; erewrite put_eq by exact Hc; reflexivity|exact F'].
    + destruct (chan_send _ _ _ _) as [ans c'] eqn:E. injection Hs as <- <-. apply Keep; [|cbn [chan_of]; apply on_other, Hl].
      flat. rewrite put_ne by exact Hl. exact Hc.
  - destruct (Pos.eq_dec l0 l) as [->|Hl].
    + rewrite Ha in Hs. destruct (plookup t (ch_sdone c)) as [b|] eqn:E; [|discriminate]. injection Hs as <- <-.
      cbn [chan_of]. rewrite on_here. destruct (follows_wend _ _ _ _ _ _ F E) as (v' & F' & Sp). exists v'. split; [|apply css_one, Sp].
      eexists. split; [flat; erewrite put_eq by exact Hc; reflexivity|exact F'].
    + destruct (plookup _ _) as [b|] eqn:E; [|discriminate]. injection Hs as <- <-. apply Keep; [|cbn [chan_of]; apply on_other, Hl].
      flat. rewrite put_ne by exact Hl. exact Hc.
  - destruct (Pos.eq_dec l0 l) as [->|Hl].
    + rewrite Ha in Hs. destruct (chan_recv c block (s_next s)) as [ans c'] eqn:E. injection Hs as <- <-.
      cbn [chan_of]. rewrite on_here. destruct v as [w a [n|] r];
        [destruct (follows_recv_closed _ _ _ _ _ _ _ _ _ _ F E) as (v' & F' & Sp)|destruct (follows_recv _ _ _ _ _ _ _ _ _ F E) as (v' & F' & Sp)];
        exists v'; (split; [|apply css_one, Sp]); exists c'; (split; [flat; erewrite put_eq by exact Hc; reflexivity|exact F']).
    + destruct (chan_recv _ _ _) as [ans c'] eqn:E. injection Hs as <- <-. apply Keep; [|cbn [chan_of]; apply on_other, Hl].
      flat. rewrite put_ne by exact Hl. exact Hc.
  - destruct (Pos.eq_dec l0 l) as [->|Hl].
    + rewrite Ha in Hs. destruct (plookup t (ch_rdone c)) as [b|] eqn:E; [|discriminate]. injection Hs as <- <-.
      cbn [chan_of]. rewrite on_here. destruct (follows_rend _ _ _ _ _ _ F E) as (v' & F' & Sp). exists v'. split; [|apply css_one, Sp].
      eexists. split; [flat; erewrite put_eq by exact Hc; reflexivity|exact F'].
    + destruct (plookup _ _) as [b|] eqn:E; [|discriminate]. injection Hs as <- <-. apply Keep; [|cbn [chan_of]; apply on_other, Hl].
      flat. rewrite put_ne by exact Hl. exact Hc.
  - destruct (Pos.eq_dec l0 l) as [->|Hl].
    + rewrite Ha in Hs. destruct (chan_close c) as [ans c'] eqn:E. injection Hs as <- <-.
      cbn [chan_of]. rewrite on_here. destruct v as [w a [n|] r].
      * pose proof (fo_body _ _ _ _ F) as B. cbn in B. unfold chan_close in E. rewrite (proj1 B) in E. injection E as <- <-.
        exists (View w a (Some n) r). split; [|apply css_one; constructor]. exists c. split; [flat; erewrite put_eq by exact Hc; reflexivity|exact F].
      * destruct (follows_close _ _ _ _ _ _ _ _ F E) as (v' & F' & Sp). exists v'. split; [|apply css_one, Sp].
        exists c'. split; [flat; erewrite put_eq by exact Hc; reflexivity|exact F'].
    + destruct (chan_close _) as [ans c'] eqn:E. injection Hs as <- <-. apply Keep; [|cbn [chan_of]; apply on_other, Hl].
      flat. rewrite put_ne by exact Hl. exact Hc.
  - destruct (next_choice s) as [z s1] eqn:E. pose proof (Hn _ _ eq_refl) as H1. destruct (_ && _); injection Hs as <- <-; apply Keep; [exact H1|reflexivity|exact H1|reflexivity].
  - destruct (next_choice s) as [z s1] eqn:E. pose proof (Hn _ _ eq_refl) as H1. injection Hs as <- <-. apply Keep; [|reflexivity].
    destruct (_ =? 0)%Z; [|destruct (_ =? 1)%Z]; exact H1.
  - destruct (pr_ret _); [|discriminate]. injection Hs as <- <-. apply Keep; [exact Hc|reflexivity].
  - destruct (_ =? _)%Z; injection Hs as <- <-; apply Keep; [exact Hc|reflexivity|exact Hc|reflexivity].
  - destruct (next_choice s) as [z s1] eqn:E. injection Hs as <- <-. apply Keep; [exact (Hn _ _ eq_refl)|reflexivity].
Qed.
Lemma chan_ok_fresh cap l s : fresh_channel s l cap -> chan_ok cap l s new_channel.
Proof.
  intros H. exists (Chan (Z.of_nat cap) [] false [] [] [] []). split; [exact H|].
  assert (W0 : forall i t, wt [] i t -> False) by (intros i t (v & E); destruct i; discriminate).
  assert (R0 : forall i t, rt [] i t -> False) by (intros i t E; destruct i; discriminate).
  constructor; cbn [new_channel written asked kept_writes returned ch_cap ch_buf ch_closed ch_sendq ch_recvq ch_sdone ch_rdone]; try (intros; exfalso; eauto; fail).
  - reflexivity.
  - intros t b. split; [discriminate|]. intros (i & H1 & _). destruct (W0 _ _ H1).
  - intros t b. split; [discriminate|]. intros (i & H1 & _). destruct (R0 _ _ H1).
  - split; [reflexivity|]. cbn. rewrite !skipn_nil, firstn_nil. repeat split; reflexivity.
Qed.
Lemma chan_follow cap l c h c' : history c h c' -> wf_state (snd c) -> fresh_channel (snd c) l cap ->
  exists v, chan_ok cap l (snd c') v /\ chan_steps cap new_channel (on_chan l h) v.
Proof.
  intros H W Hf.
  refine (follow (chan_of l) (chan_ok cap l) (chan_steps cap) _ _ _ _ _ _ c h c' new_channel H W (chan_ok_fresh _ _ _ Hf)).
  - constructor.
  - exact (css_app cap).
  - intros X o s x s' v Ws Hs Hv. exact (chan_op _ _ _ _ _ _ _ _ Ws Hs Hv).
  - intros p r s s' v _ Hp Hv. destruct (put_ret_rest _ _ _ _ Hp) as [y ->]. exists v. split; [exact Hv|constructor].
  - intros w s v Hv. exact Hv.
  - intros s v Hv. exact Hv.
Qed.

(** *** First in, first out, without the machine *)
Lemma accepted_app a b : accepted (a ++ b) = accepted a ++ accepted b. Proof. apply flat_map_app. Qed.
Lemma requests_app a b : requests (a ++ b) = requests a ++ requests b. Proof. apply flat_map_app. Qed.
Lemma steps_accepted cap es v : chan_steps cap new_channel es v -> accepted es = map fst (written v).
Proof.
  intros H. remember new_channel as v0 eqn:E0. induction H as [|v es v1 e v' H IH Hs]; subst; [reflexivity|].
  rewrite accepted_app, (IH eq_refl). destruct Hs; cbn; rewrite ?app_nil_r, ?map_app; reflexivity.
Qed.
(** What is known about the i-th read. *)
Definition request_ok (w : list (val * option loc)) (o : option loc) (i : nat) (r : val + loc) : Prop :=
  match r with inl x => o = None /\ exists t, nth_error w i = Some (x, t) | inr t => o = Some t end.
Lemma request_later w m o i r : request_ok w o i r -> request_ok (w ++ m) o i r.
Proof. destruct r as [x|t]; [|auto]. intros (-> & t & H). split; [reflexivity|]. exists t. apply nth_old, H. Qed.
Lemma steps_requests cap es v : chan_steps cap new_channel es v ->
  length (requests es) = length (asked v) /\
  (forall i r, nth_error (requests es) i = Some r -> exists o, nth_error (asked v) i = Some o /\ request_ok (written v) o i r).
Proof.
  intros H. remember new_channel as v0 eqn:E0. induction H as [|v es v1 e v' H IH Hs]; subst.
  { split; [reflexivity|]. intros [|i] r E; discriminate. }
  destruct (IH eq_refl) as [L Q]. rewrite requests_app.
  assert (Old : forall w a m, written v1 = w -> asked v1 = a -> requests [e] = [] ->
    length (requests es ++ requests [e]) = length a /\
    (forall i r, nth_error (requests es ++ requests [e]) i = Some r -> exists o, nth_error a i = Some o /\ request_ok (w ++ m) o i r)).
  { intros w a m <- <- ->. rewrite app_nil_r. split; [exact L|]. intros i r Hr. destruct (Q i r Hr) as (o & H1 & H2). exists o. split; [exact H1|apply request_later, H2]. }
  assert (New : forall w a o r, written v1 = w -> asked v1 = a -> requests [e] = [r] -> request_ok w o (length a) r ->
    length (requests es ++ requests [e]) = length (a ++ [o]) /\
    (forall i r, nth_error (requests es ++ requests [e]) i = Some r -> exists o', nth_error (a ++ [o]) i = Some o' /\ request_ok w o' i r)).
  { intros w a o r <- <- -> R. rewrite !app_length. split; [cbn; lia|]. intros i r' Hr. destruct (nth_snoc _ _ _ _ Hr) as [H1|[-> ->]].
    - destruct (Q i r' H1) as (o' & H2 & H3). exists o'. split; [apply nth_old, H2|exact H3].
    - rewrite L. exists o. split; [apply nth_last|exact R]. }
  assert (Stay : forall w a, written v1 = w -> asked v1 = a -> requests [e] = [] ->
    length (requests es ++ requests [e]) = length a /\
    (forall i r, nth_error (requests es ++ requests [e]) i = Some r -> exists o, nth_error a i = Some o /\ request_ok w o i r)).
  { intros w a <- <- ->. rewrite app_nil_r. split; [exact L|exact Q]. }
  destruct Hs; cbn [written asked] in *; try (apply (Old w a); reflexivity); try (apply (Stay w a); reflexivity).
  all: eapply (New w a); [reflexivity|reflexivity|reflexivity|]; cbn; eauto.
Qed.
Lemma chan_step_grow cap v e v' : chan_step cap v e v' -> (exists m, written v' = written v ++ m) /\ (exists m, asked v' = asked v ++ m) /\ incl (returned v) (returned v').
Proof.
  intros H. destruct H; cbn; (split; [first [exists []; symmetry; apply app_nil_r|eexists; reflexivity]|split; [first [exists []; symmetry; apply app_nil_r|eexists; reflexivity]|]]);
    first [apply incl_refl|intros x Hx; right; exact Hx].
Qed.
(** A read that had to wait got the write of its own number. *)
Lemma steps_end cap es v t x : chan_steps cap new_channel es v -> In (CReadEnd t (x, true)) es ->
  exists i o, nth_error (asked v) i = Some (Some t) /\ nth_error (written v) i = Some (x, o).
Proof.
  intros H. remember new_channel as v0 eqn:E0. induction H as [|v es v1 e v' H IH Hs]; subst; [intros []|].
  intros Hi. apply in_app_or in Hi. destruct (chan_step_grow _ _ _ _ Hs) as ((m1 & E1) & (m2 & E2) & _). destruct Hi as [Hi|[->|[]]].
  - destruct (IH eq_refl Hi) as (i & o & H1 & H2). exists i, o. rewrite E1, E2. split; apply nth_old; assumption.
  - inversion Hs; subst. cbn. eauto.
Qed.
(** A ticket belongs to one read only, and is used once. *)
Lemma fifo_from cap l c h c' i r x : history c h c' -> wf_state (snd c) -> fresh_channel (snd c) l cap ->
  nth_error (requests (on_chan l h)) i = Some r -> served (on_chan l h) r x -> nth_error (accepted (on_chan l h)) i = Some x.
Proof.
  intros H W Hf Hr Hs. destruct (chan_follow _ _ _ _ _ H W Hf) as (v & (cr & _ & F) & St).
  destruct (steps_requests _ _ _ St) as [_ Q]. destruct (Q _ _ Hr) as (o & H1 & H2). rewrite (steps_accepted _ _ _ St).
  destruct r as [y|t]; cbn in Hs, H2.
  - subst y. destruct H2 as (-> & t & H2). exact (map_nth_error fst _ _ H2).
  - subst o. destruct (steps_end _ _ _ _ _ St Hs) as (j & o & H3 & H4). rewrite (fo_runiq _ _ _ _ F _ _ _ H3 H1) in H4. exact (map_nth_error fst _ _ H4).
Qed.
(** Reads never get ahead of writes: a read is served only by a value already accepted (above); and the number of
    finished writes never exceeds that of reads by more than the capacity. *)
Definition done_write (e : chan_event) : bool := match e with CWrite _ _ (Some (inl true)) => true | CWriteEnd _ true => true | _ => false end.
Lemma completed_app a b : completed (a ++ b) = (completed a + completed b)%nat.
Proof. unfold completed. rewrite List.filter_app, app_length. reflexivity. Qed.
Definition finished_writes (cap : nat) (v : chan_view) (l : list nat) : Prop :=
  List.NoDup l /\ forall i, In i l -> ((i < length (asked v) + cap)%nat /\ forall n, kept_writes v = Some n -> (i < n)%nat) /\ exists x o, nth_error (written v) i = Some (x, o) /\ (o = None \/ exists t, o = Some t /\ In t (returned v)).
Lemma steps_completed cap es v : chan_steps cap new_channel es v ->
  (exists l, finished_writes cap v l /\ length l = completed es) /\ (forall n, kept_writes v = Some n -> (n <= length (asked v) + cap)%nat /\ (n <= length (written v))%nat).
Proof.
  intros H. remember new_channel as v0 eqn:E0. induction H as [|v es v1 e v' H IH Hs]; subst.
  { split; [exists []; split; [split; [constructor|intros i []]|reflexivity]|discriminate]. }
  destruct (IH eq_refl) as [(l & (Nd & Hl) & Ll) Hn]. rewrite completed_app.
  destruct (chan_step_grow _ _ _ _ Hs) as ((m1 & E1) & (m2 & E2) & E3).
  assert (Kn : forall i n, In i l -> kept_writes v' = Some n -> (i < n)%nat).
  { intros i n Hi K. destruct (Hl i Hi) as ((L1 & L2) & x & o & H1 & _). pose proof (nth_lt _ _ _ H1). destruct Hs; cbn in *; try discriminate; try (apply L2; exact K). injection K as <-. lia. }
  assert (Hl' : forall i, In i l -> ((i < length (asked v') + cap)%nat /\ forall n, kept_writes v' = Some n -> (i < n)%nat) /\ exists x o, nth_error (written v') i = Some (x, o) /\ (o = None \/ exists t, o = Some t /\ In t (returned v'))).
  { intros i Hi. destruct (Hl i Hi) as ((L & L2) & x & o & H1 & H2). rewrite E2, app_length. split; [split; [lia|intros n; apply Kn, Hi]|]. exists x, o. rewrite E1. split; [apply nth_old, H1|].
    destruct H2 as [->|(t & -> & H2)]; [auto|]. right. exists t. auto. }
  assert (Same : completed [e] = 0%nat -> exists l, finished_writes cap v' l /\ length l = (completed es + completed [e])%nat).
  { intros ->. exists l. split; [split; [exact Nd|exact Hl']|lia]. }
  assert (More : forall i x o, completed [e] = 1%nat -> ~ In i l -> (i < length (asked v') + cap)%nat /\ (forall n, kept_writes v' = Some n -> (i < n)%nat) -> nth_error (written v') i = Some (x, o) ->
    (o = None \/ exists t, o = Some t /\ In t (returned v')) -> exists l, finished_writes cap v' l /\ length l = (completed es + completed [e])%nat).
  { intros i x o -> Ni L H1 H2. exists (i :: l). split; [|cbn; lia]. split; [constructor; assumption|]. intros j [<-|Hj]; [|exact (Hl' j Hj)]. split; [exact L|]. eauto. }
  destruct Hs; cbn [written asked returned kept_writes] in *; (split; [|try (intros n0 En; try discriminate; try (injection En as <-); rewrite ?app_length; cbn; try (specialize (Hn _ eq_refl)); lia)]);
    try (apply Same; reflexivity).
  - apply (More (length w) v None); [reflexivity| |split; [lia|discriminate]|apply nth_last|auto]. intros Hi. destruct (Hl _ Hi) as (_ & x & o & H1 & _). pose proof (nth_lt _ _ _ H1). lia.
  - apply (More i v (Some t)); [reflexivity| |split; [lia|discriminate]|exact H0|right; exists t; split; [reflexivity|left; reflexivity]].
    intros Hi. destruct (Hl _ Hi) as (_ & x & o & H3 & H4). rewrite H0 in H3. injection H3 as <- <-. destruct H4 as [H4|(t' & H4 & H5)]; [discriminate|]. injection H4 as <-. contradiction.
  - destruct (Nat.ltb_spec i n) as [Li|Li]; [|apply Same; reflexivity].
    destruct (Hn _ eq_refl) as [Hn1 _]. apply (More i v (Some t)); [reflexivity| |split; [lia|intros n0 En; injection En as <-; exact Li]|exact H0|right; exists t; split; [reflexivity|left; reflexivity]].
    intros Hi. destruct (Hl _ Hi) as (_ & x & o & H3 & H4). rewrite H0 in H3. injection H3 as <- <-. destruct H4 as [H4|(t' & H4 & H5)]; [discriminate|]. injection H4 as <-. contradiction.
  - exact Hn.
Qed.
Lemma bounded_indices (l : list nat) n : List.NoDup l -> (forall i, In i l -> (i < n)%nat) -> (length l <= n)%nat.
Proof.
  intros H1 H2. rewrite <- (seq_length n 0). apply List.NoDup_incl_length; [exact H1|]. intros i Hi. apply List.in_seq. specialize (H2 i Hi). lia.
Qed.
Lemma capacity_kept cap l c h c' : history c h c' -> wf_state (snd c) -> fresh_channel (snd c) l cap ->
  (completed (on_chan l h) <= length (requests (on_chan l h)) + cap)%nat.
Proof.
  intros H W Hf. destruct (chan_follow _ _ _ _ _ H W Hf) as (v & _ & St). rewrite (proj1 (steps_requests _ _ _ St)).
  destruct (proj1 (steps_completed _ _ _ St)) as (ix & (Nd & Hl) & <-). apply bounded_indices; [exact Nd|]. intros i Hi. exact (proj1 (proj1 (Hl i Hi))).
Qed.
(** Waiting calls whose turn has come can go on. *)
Lemma write_resumes cap l s v i x t : chan_ok cap l s v -> nth_error (written v) i = Some (x, Some t) -> ~ In t (returned v) ->
  ((i < length (asked v) + cap)%nat \/ kept_writes v <> None) -> exists b s', step_op (OChanSendWait l t) s = Some (b, s').
Proof.
  intros (c & Hc & F) H1 H2 H3.
  assert (E : exists b, plookup t (ch_sdone c) = Some b).
  { destruct (kept_writes v) as [n|] eqn:K.
    - exists (i <? n)%nat. apply (fo_sdone _ _ _ _ F). exists i. split; [exists x; exact H1|]. split; [exact H2|]. rewrite K. reflexivity.
    - exists true. apply (fo_sdone _ _ _ _ F). exists i. split; [exists x; exact H1|]. split; [exact H2|]. rewrite K. split; [|reflexivity]. destruct H3; [assumption|congruence]. }
  destruct E as [b E]. cbn [step_op]. unfold chan_at. rewrite Hc. cbn. rewrite E. eauto.
Qed.
Lemma read_resumes cap l s v i t : chan_ok cap l s v -> nth_error (asked v) i = Some (Some t) -> ~ In t (returned v) ->
  ((i < length (written v))%nat \/ kept_writes v <> None) -> exists b s', step_op (OChanRecvWait l t) s = Some (b, s').
Proof.
  intros (c & Hc & F) H1 H2 H3.
  assert (E : exists b, plookup t (ch_rdone c) = Some b).
  { destruct (nth_error (written v) i) as [[x o]|] eqn:Ew.
    - exists (x, true). apply (fo_rdone _ _ _ _ F). exists i. split; [exact H1|]. split; [exact H2|]. unfold got_as. rewrite Ew. reflexivity.
    - exists (VNil, false). apply (fo_rdone _ _ _ _ F). exists i. split; [exact H1|]. split; [exact H2|]. unfold got_as. rewrite Ew.
      apply nth_error_None in Ew. destruct H3 as [H3|H3]; [lia|]. split; [exact H3|reflexivity]. }
  destruct E as [b E]. cbn [step_op]. unfold chan_at. rewrite Hc. cbn. rewrite E. eauto.
Qed.

(** *** After the close *)
Lemma css_last cap v es e v2 : chan_steps cap v (es ++ [e]) v2 -> exists v1, chan_steps cap v es v1 /\ chan_step cap v1 e v2.
Proof.
  intros H. remember (es ++ [e]) as l eqn:El. destruct H as [v|v es' v1 e' v' H1 H2]; [destruct es; discriminate|].
  apply app_inj_tail in El. destruct El as [-> ->]. eauto.
Qed.
Lemma css_one_inv cap v e v2 : chan_steps cap v [e] v2 -> chan_step cap v e v2.
Proof.
  intros H. destruct (css_last cap v [] e v2 H) as (v1 & H1 & H2). remember [] as l eqn:El. destruct H1 as [v|v es' v1 e' v' _ _]; [exact H2|destruct es'; discriminate].
Qed.
Lemma css_split cap v a b v2 : chan_steps cap v (a ++ b) v2 -> exists v1, chan_steps cap v a v1 /\ chan_steps cap v1 b v2.
Proof.
  revert v2. induction b as [|e b IH] using rev_ind; intros v2 H.
  - rewrite app_nil_r in H. exists v2. split; [exact H|constructor].
  - rewrite app_assoc in H. destruct (css_last _ _ _ _ _ H) as (v1 & H1 & H2). destruct (IH _ H1) as (vm & Ha & Hb). exists vm. split; [exact Ha|]. econstructor; eassumption.
Qed.
Lemma closed_stays cap v es v' n : chan_steps cap v es v' -> kept_writes v = Some n -> kept_writes v' = Some n.
Proof. intros H K. induction H as [|v es v1 e v' H IH Hs]; [exact K|]. specialize (IH K). destruct Hs; cbn in *; congruence. Qed.
Lemma closed_answers cap v es v' n : chan_steps cap v es v' -> kept_writes v = Some n -> forall e, In e es -> closed_answer e.
Proof.
  intros H K. induction H as [|v es v1 e0 v' H IH Hs]; [intros e []|]. intros e Hi. apply in_app_or in Hi. destruct Hi as [Hi|[<-|[]]]; [auto|].
  pose proof (closed_stays _ _ _ _ _ H K) as K1. destruct Hs; cbn in *; try discriminate; eauto; exact I.
Qed.
Lemma after_close cap l c h c' es1 es2 : history c h c' -> wf_state (snd c) -> fresh_channel (snd c) l cap ->
  on_chan l h = es1 ++ CClose true :: es2 -> forall e, In e es2 -> closed_answer e.
Proof.
  intros H W Hf E. destruct (chan_follow _ _ _ _ _ H W Hf) as (v & _ & St). rewrite E in St.
  change (es1 ++ CClose true :: es2) with (es1 ++ [CClose true] ++ es2) in St.
  destruct (css_split _ _ _ _ _ St) as (v1 & S1 & S2). destruct (css_split _ _ _ _ _ S2) as (v2 & S3 & S4).
  apply css_one_inv in S3. inversion S3; subst. eapply closed_answers; [exact S4|reflexivity].
Qed.
Lemma kept_closed cap es v n : chan_steps cap new_channel es v -> kept_writes v = Some n -> In (CClose true) es.
Proof.
  intros H. remember new_channel as v0 eqn:E0. revert n. induction H as [|v es v1 e v' H IH Hs]; subst; intros n K; [discriminate|].
  apply in_or_app. destruct Hs; cbn in *; try discriminate; try (left; eapply IH; [reflexivity|exact K]). right. left. reflexivity.
Qed.
Lemma over_read cap l c h c' es1 es2 x e : history c h c' -> wf_state (snd c) -> fresh_channel (snd c) l cap ->
  on_chan l h = es1 ++ e :: es2 -> (exists b, e = CRead b (Some (inl (x, false)))) \/ (exists t, e = CReadEnd t (x, false)) ->
  x = VNil /\ In (CClose true) es1 /\ (completed es1 <= length (requests es1))%nat.
Proof.
  intros H W Hf E He. destruct (chan_follow _ _ _ _ _ H W Hf) as (v & _ & St). rewrite E in St.
  change (es1 ++ e :: es2) with (es1 ++ [e] ++ es2) in St.
  destruct (css_split _ _ _ _ _ St) as (v1 & S1 & S2). destruct (css_split _ _ _ _ _ S2) as (v2 & S3 & S4).
  apply css_one_inv in S3. rename S3 into S6. rename v1 into v3.
  destruct (steps_completed _ _ _ S1) as [(ix & (Nd & Hl) & Lx) Hn]. rewrite (proj1 (steps_requests _ _ _ S1)), <- Lx.
  assert (G : forall n, kept_writes v3 = Some n -> (n <= length (asked v3))%nat -> In (CClose true) es1 /\ (length ix <= length (asked v3))%nat).
  { intros n K L. split; [eapply kept_closed; eassumption|]. apply bounded_indices; [exact Nd|]. intros i Hi. destruct (Hl i Hi) as ((_ & L2) & _). specialize (L2 _ K). lia. }
  destruct He as [(b & ->)|(t & ->)].
  - inversion S6; subst. split; [reflexivity|]. apply (G n); [reflexivity|assumption].
  - inversion S6; subst. split; [reflexivity|]. cbn [asked] in *. apply (G n); [reflexivity|].
    match goal with H1 : nth_error a i = Some _, H2 : nth_error w i = None |- _ => pose proof (nth_lt _ _ _ H1); apply nth_error_None in H2 end.
    destruct (Hn n eq_refl) as [_ Hw]. cbn in Hw. lia.
Qed.
