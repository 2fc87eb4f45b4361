(** Proofs for C42 and C48. *)
From Verif Require Export SpecLock.
From stdpp Require Import gmap list strings.
From Coq Require Import Lia.
Local Open Scope string_scope.
Local Open Scope list_scope.

Definition allowed (u : update) (m : slots) : Prop := match u with USet _ _ => True | UDel k => m !! k <> None end.
Definition owned : Type := option (loc * option slots).

Section Discipline.
Variable below : loc -> loc -> Prop.
Variable good : loc -> slots -> Prop.
Variable isframe : loc -> Prop.
Variable panic_ok : Prop.
Hypothesis below_trans : forall a b c, below a b -> below b c -> below a c.
Hypothesis parents_good : forall f m l, isframe f -> good f m -> l ≡ₚ map_to_list m ->
  match parents_of l with Some ps => Forall (fun p => isframe p /\ below p f) ps | None => panic_ok end.

(** How code uses locks: [R] the read locks it holds, [W] the write lock, with what it knows about the map. *)
Inductive code_ok (post : answer -> Prop) : list loc -> owned -> code -> Prop :=
| ok_ret a : post a -> code_ok post [] None (CRet a)
| ok_panic R W : panic_ok -> code_ok post R W CPanic
| ok_rlock f R k : (forall g, In g R -> below f g) -> code_ok post (f :: R) None k -> code_ok post R None (CRLock f k)
| ok_runlock f R k : code_ok post R None k -> code_ok post (f :: R) None (CRUnlock f k)
| ok_lock f R k : (forall g, In g R -> below f g) -> code_ok post R (Some (f, None)) k -> code_ok post R None (CLock f k)
| ok_unlock f K R k : code_ok post R None k -> code_ok post R (Some (f, K)) (CUnlock f k)
| ok_read f R k : In f R -> (forall m l, good f m -> l ≡ₚ map_to_list m -> code_ok post R None (k m l)) -> code_ok post R None (CRead f k)
| ok_read_w f K R k : (forall m l, good f m -> l ≡ₚ map_to_list m -> code_ok post R (Some (f, Some m)) (k m l)) -> code_ok post R (Some (f, K)) (CRead f k)
| ok_write f K R u k : (forall m, good f m -> K = None \/ K = Some m -> allowed u m /\ good f (apply_update u m)) ->
    code_ok post R (Some (f, None)) k -> code_ok post R (Some (f, K)) (CWrite f u k)
| ok_new R W k : (forall n, code_ok post R W (k n)) -> code_ok post R W (CNew k)
| ok_get f R key vis k : isframe f -> In f R -> (forall g, In g R -> g = f \/ below f g) -> (forall v vis', code_ok post R None (k v vis')) ->
    code_ok post R None (CGet f key vis k)
| ok_has f R key vis k : isframe f -> In f R -> (forall g, In g R -> g = f \/ below f g) -> (forall b vis', code_ok post R None (k b vis')) ->
    code_ok post R None (CHas f key vis k).

Lemma below_held p f (R : list loc) : below p f -> (forall g, In g R -> g = f \/ below f g) -> forall g, In g R -> below p g.
Proof. intros B H g Hg. destruct (H g Hg) as [->|B']; [exact B|eapply below_trans; eassumption]. Qed.
Lemma ok_get_loop post R key ps : forall vis k, (forall p, In p ps -> isframe p /\ forall g, In g R -> below p g) ->
  (forall v vis', code_ok post R None (k v vis')) -> code_ok post R None (get_loop key ps vis k).
Proof.
  induction ps as [|p ps IH]; intros vis k B K; cbn; [apply K|]. destruct (B p (or_introl eq_refl)) as [If Bp]. apply ok_rlock; [exact Bp|].
  apply ok_get; [exact If|left; reflexivity| |].
  - intros g [->|Hg]; [left; reflexivity|right; auto].
  - intros v vis'. apply ok_runlock. destruct v; try apply K. apply IH; [|exact K]. intros q Hq. apply B. right. exact Hq.
Qed.
Lemma ok_has_loop post R key ps : forall vis k, (forall p, In p ps -> isframe p /\ forall g, In g R -> below p g) ->
  (forall v vis', code_ok post R None (k v vis')) -> code_ok post R None (has_loop key ps vis k).
Proof.
  induction ps as [|p ps IH]; intros vis k B K; cbn; [apply K|]. destruct (B p (or_introl eq_refl)) as [If Bp]. apply ok_rlock; [exact Bp|].
  apply ok_has; [exact If|left; reflexivity| |].
  - intros g [->|Hg]; [left; reflexivity|right; auto].
  - intros b vis'. apply ok_runlock. destruct b; try apply K. apply IH; [|exact K]. intros q Hq. apply B. right. exact Hq.
Qed.
Lemma parents_below f m l ps (R : list loc) : isframe f -> good f m -> l ≡ₚ map_to_list m -> parents_of l = Some ps ->
  (forall g, In g R -> g = f \/ below f g) -> forall p, In p ps -> isframe p /\ forall g, In g R -> below p g.
Proof.
  intros If G P E H p Hp. pose proof (parents_good f m l If G P) as F. rewrite E in F. rewrite List.Forall_forall in F. destruct (F p Hp) as [F1 F2].
  split; [exact F1|]. exact (below_held _ _ _ F2 H).
Qed.
Lemma parents_panic f m l : isframe f -> good f m -> l ≡ₚ map_to_list m -> parents_of l = None -> panic_ok.
Proof. intros If G P E. pose proof (parents_good f m l If G P) as F. rewrite E in F. exact F. Qed.
Lemma ok_get_body post R f key vis k : isframe f -> In f R -> (forall g, In g R -> g = f \/ below f g) -> (forall v vis', code_ok post R None (k v vis')) ->
  code_ok post R None (get_body f key vis k).
Proof.
  intros If I B K. unfold get_body. destruct (member f vis); [apply K|]. apply ok_read; [exact I|]. intros m l G P. destruct (m !! key); [apply K|].
  apply ok_read; [exact I|]. intros m2 l2 G2 P2. destruct (parents_of l2) as [ps|] eqn:E.
  - apply ok_get_loop; [|exact K]. exact (parents_below _ _ _ _ _ If G2 P2 E B).
  - apply ok_panic. exact (parents_panic _ _ _ If G2 P2 E).
Qed.
Lemma ok_has_body post R f key vis k : isframe f -> In f R -> (forall g, In g R -> g = f \/ below f g) -> (forall b vis', code_ok post R None (k b vis')) ->
  code_ok post R None (has_body f key vis k).
Proof.
  intros If I B K. unfold has_body. destruct (member f vis); [apply K|]. apply ok_read; [exact I|]. intros m l G P. destruct (m !! key); [apply K|].
  apply ok_read; [exact I|]. intros m1 l1 G1 P1. destruct (existsb _ l1); [|apply K].
  apply ok_read; [exact I|]. intros m2 l2 G2 P2. destruct (parents_of l2) as [ps|] eqn:E.
  - apply ok_has_loop; [|exact K]. exact (parents_below _ _ _ _ _ If G2 P2 E B).
  - apply ok_panic. exact (parents_panic _ _ _ If G2 P2 E).
Qed.

(** *** Goroutines *)
Record status := St { st_r : list loc; st_w : owned; st_q : option loc }.
Inductive gor_ok (post : answer -> Prop) : status -> gor -> Prop :=
| go_run R W c : code_ok post R W c -> gor_ok post (St R W None) (Run c)
| go_waiting R f c : (forall g, In g R -> below f g) -> code_ok post R (Some (f, None)) c -> gor_ok post (St R None (Some f)) (Waiting f c)
| go_reading R f k : In f R -> (forall m l, good f m -> l ≡ₚ map_to_list m -> code_ok post R None (k m l)) -> gor_ok post (St R None None) (Reading f k)
| go_reading_w R f K k : (forall m l, good f m -> l ≡ₚ map_to_list m -> code_ok post R (Some (f, Some m)) (k m l)) -> gor_ok post (St R (Some (f, K)) None) (Reading f k)
| go_writing R f m u c : allowed u m -> good f (apply_update u m) -> code_ok post R (Some (f, None)) c -> gor_ok post (St R (Some (f, Some m)) None) (Writing f m u c).

Definition reads (f : loc) (st : status) : nat := count_occ Pos.eq_dec (st_r st) f.
Fixpoint readers_of (f : loc) (ss : list status) : nat := match ss with [] => 0 | st :: r => reads f st + readers_of f r end.
Definition wants (f : loc) (st : status) : Prop := st_q st = Some f \/ exists K, st_w st = Some (f, K).
Definition cell_ok (f : loc) (c : cell) (ss : list status) : Prop :=
  c_readers c = readers_of f ss /\ good f (c_slots c) /\
  (forall t st, nth_error ss t = Some st -> wants f st -> c_writer c = Some t) /\
  (forall t, c_writer c = Some t -> exists st, nth_error ss t = Some st /\
     ((c_held c = false /\ st_q st = Some f) \/ (c_held c = true /\ c_readers c = 0 /\ exists K, st_w st = Some (f, K) /\ (K = None \/ K = Some (c_slots c))))).
Definition inv (post : nat -> answer -> Prop) (c : gpool) : Prop :=
  exists ss, length ss = length (fst c) /\
  (forall t g, nth_error (fst c) t = Some g -> exists st, nth_error ss t = Some st /\ gor_ok (post t) st g) /\
  (forall f, cell_ok f (cell_at (snd c) f) ss).

Lemma nth_upd {A} (l : list A) t x y : nth_error l t = Some x -> nth_error (<[t := y]> l) t = Some y.
Proof. revert t. induction l as [|a l IH]; intros [|t] H; cbn in *; try discriminate; [reflexivity|]. exact (IH t H). Qed.
Lemma nth_upd_other {A} (l : list A) t u y : t <> u -> nth_error (<[t := y]> l) u = nth_error l u.
Proof.
  revert t u. induction l as [|a l IH]; intros [|t] [|u] H; cbn; try reflexivity; try congruence. apply IH. congruence.
Qed.
Lemma readers_upd f ss t st st' : nth_error ss t = Some st -> readers_of f (<[t := st']> ss) + reads f st = readers_of f ss + reads f st'.
Proof.
  revert t. induction ss as [|x ss IH]; intros [|t] H; cbn in *; try discriminate.
  - injection H as ->. lia.
  - specialize (IH t H). cbn in IH. unfold insert in *. lia.
Qed.
Lemma cell_at_set f c s g : cell_at (set_cell f c s) g = if Pos.eq_dec f g then c else cell_at s g.
Proof. unfold cell_at, set_cell. cbn. destruct (Pos.eq_dec f g) as [->|N]; [rewrite lookup_insert; reflexivity|rewrite lookup_insert_ne by exact N; reflexivity]. Qed.
Lemma readers_pos f ss : readers_of f ss <> 0 -> exists t st, nth_error ss t = Some st /\ In f (st_r st).
Proof.
  induction ss as [|x ss IH]; cbn; [congruence|]. intros H. destruct (Nat.eq_dec (reads f x) 0) as [E|N].
  - destruct IH as (t & st & H1 & H2); [lia|]. exists (S t), st. auto.
  - exists 0, x. split; [reflexivity|]. apply (count_occ_In Pos.eq_dec). unfold reads in N. lia.
Qed.
Lemma reader_counts f ss t st : nth_error ss t = Some st -> In f (st_r st) -> readers_of f ss <> 0.
Proof.
  revert t. induction ss as [|x ss IH]; intros [|t] H I; cbn in *; try discriminate.
  - injection H as ->. apply (count_occ_In Pos.eq_dec) in I. unfold reads. lia.
  - specialize (IH t H I). lia.
Qed.
Lemma cell_same g c ss t st st' : nth_error ss t = Some st -> cell_ok g c ss -> reads g st' = reads g st ->
  (st_q st' = Some g <-> st_q st = Some g) -> (forall K, st_w st' = Some (g, K) <-> st_w st = Some (g, K)) -> cell_ok g c (<[t := st']> ss).
Proof.
  intros N (C1 & C2 & C3 & C4) Er Eq Ew. split; [pose proof (readers_upd g ss t st st' N); lia|]. split; [exact C2|]. split.
  - intros t1 st1 N1 W1. destruct (Nat.eq_dec t t1) as [<-|D].
    + rewrite (nth_upd _ _ _ _ N) in N1. injection N1 as <-. apply (C3 _ _ N). destruct W1 as [W1|[K W1]]; [left; apply Eq, W1|right; exists K; apply Ew, W1].
    + rewrite nth_upd_other in N1 by exact D. exact (C3 _ _ N1 W1).
  - intros t1 W1. destruct (C4 _ W1) as (st1 & N1 & H1). destruct (Nat.eq_dec t t1) as [<-|D].
    + exists st'. split; [exact (nth_upd _ _ _ _ N)|]. rewrite N in N1. injection N1 as <-.
      destruct H1 as [(H & Q)|(H & Z & K & W & HK)]; [left; split; [exact H|apply Eq, Q]|right; split; [exact H|split; [exact Z|]]]. exists K. split; [apply Ew, W|exact HK].
    + exists st1. split; [rewrite nth_upd_other by exact D; exact N1|exact H1].
Qed.
Lemma no_writer_waiting f c ss t st : cell_ok f c ss -> nth_error ss t = Some st -> c_writer c = None -> ~ wants f st.
Proof. intros (_ & _ & C3 & _) N E W. rewrite (C3 _ _ N W) in E. discriminate. Qed.
(** The invariant is kept. *)
Definition post_all := nat -> answer -> Prop.
Lemma inv_build (post : post_all) ts (s' : lstate) ss t g' st st' :
  length ss = length ts -> (forall t g, nth_error ts t = Some g -> exists st, nth_error ss t = Some st /\ gor_ok (post t) st g) ->
  nth_error ss t = Some st -> gor_ok (post t) st' g' -> (forall f, cell_ok f (cell_at s' f) (<[t := st']> ss)) -> inv post (<[t := g']> ts, s').
Proof.
  intros L G N G' C. exists (<[t := st']> ss). cbn [fst snd]. split; [rewrite !insert_length; exact L|]. split; [|exact C].
  intros u g H. destruct (Nat.eq_dec t u) as [<-|D].
  - exists st'. split; [exact (nth_upd _ _ _ _ N)|]. assert (exists g0, nth_error ts t = Some g0) as [g0 E0].
    { destruct (nth_error ts t) eqn:E; [eauto|]. apply nth_error_None in E. assert (t < length ss) by (apply nth_error_Some; congruence). lia. }
    rewrite (nth_upd _ _ _ _ E0) in H. injection H as <-. exact G'.
  - rewrite nth_upd_other in H by exact D. destruct (G _ _ H) as (st1 & N1 & O1). exists st1. split; [|exact O1]. rewrite nth_upd_other by exact D. exact N1.
Qed.
Definition event_fits (s s' : lstate) (es : list event) : Prop :=
  match es with
  | [] => forall f, c_slots (cell_at s' f) = c_slots (cell_at s f)
  | [ERead f m] => m = c_slots (cell_at s f) /\ forall f, c_slots (cell_at s' f) = c_slots (cell_at s f)
  | [EWrite f u] => allowed u (c_slots (cell_at s f)) /\ c_slots (cell_at s' f) = apply_update u (c_slots (cell_at s f)) /\
                    forall g, g <> f -> c_slots (cell_at s' g) = c_slots (cell_at s g)
  | _ => False
  end.
Lemma reads_cons f g R W Q W' Q' : reads g (St (f :: R) W Q) = (if Pos.eq_dec f g then 1 else 0) + reads g (St R W' Q').
Proof. unfold reads. cbn. destruct (Pos.eq_dec f g); reflexivity. Qed.
Ltac go_on L G N st' := refine (inv_build _ _ _ _ _ _ _ st' L G N _ _); [econstructor; eassumption|].
Ltac at_cell C N st' h D := intros h; rewrite ?cell_at_set; pose proof (C h) as Ch; match type of N with nth_error ?ss ?t = _ => pose proof (readers_upd h ss t _ st' N) as Rd end.
Lemma inv_step (post : post_all) ts s t g es g' s' : inv post (ts, s) -> nth_error ts t = Some g -> gstep t g s es g' s' ->
  inv post (<[t := g']> ts, s') /\ event_fits s s' es.
Proof.
  intros (ss & L & G & C) Ht Hs. cbn [fst snd] in *. destruct (G _ _ Ht) as (st & N & O).
  destruct Hs; inversion O; subst; try match goal with H : code_ok _ _ _ ?c |- _ => tryif is_var c then fail else (inversion H; subst) end.
  - (* rlock *)
    split; [|intros h; rewrite cell_at_set; destruct (Pos.eq_dec f h) as [<-|D]; reflexivity].
    go_on L G N (St (f :: R) None None). at_cell C N (St (f :: R) None None) h D. rewrite (reads_cons f h R None None None None) in Rd. destruct (Pos.eq_dec f h) as [<-|D].
    + destruct Ch as (C1 & C2 & C3 & C4). unfold cell_ok. cbn [c_readers c_slots c_writer c_held]. split; [lia|]. split; [exact C2|]. split.
      * intros t1 st1 N1 W1. exfalso. destruct (Nat.eq_dec t t1) as [<-|D1].
        -- rewrite (nth_upd _ _ _ _ N) in N1. injection N1 as <-. destruct W1 as [W1|[K W1]]; discriminate.
        -- rewrite nth_upd_other in N1 by exact D1. pose proof (C3 _ _ N1 W1). congruence.
      * intros t1 E1. discriminate.
    + eapply cell_same; [exact N|exact Ch| |reflexivity|reflexivity]. unfold reads. cbn. destruct (Pos.eq_dec f h); [congruence|reflexivity].
  - (* runlock *)
    split; [|intros h; rewrite cell_at_set; destruct (Pos.eq_dec f h) as [<-|D]; reflexivity].
    go_on L G N (St R0 None None). at_cell C N (St R0 None None) h D. rewrite (reads_cons f h R0 None None None None) in Rd. destruct (Pos.eq_dec f h) as [<-|D].
    + assert (P : readers_of f ss <> 0) by (eapply reader_counts; [exact N|left; reflexivity]).
      destruct Ch as (C1 & C2 & C3 & C4). unfold cell_ok. cbn [c_readers c_slots c_writer c_held]. split; [lia|]. split; [exact C2|]. split.
      * intros t1 st1 N1 W1. destruct (Nat.eq_dec t t1) as [<-|D1].
        -- rewrite (nth_upd _ _ _ _ N) in N1. injection N1 as <-. destruct W1 as [W1|[K W1]]; discriminate.
        -- rewrite nth_upd_other in N1 by exact D1. exact (C3 _ _ N1 W1).
      * intros t1 E1. destruct (C4 _ E1) as (st1 & N1 & [(Hh & Q)|(Hh & Z & _)]); [|lia]. exists st1.
        destruct (Nat.eq_dec t t1) as [<-|D1]; [rewrite N in N1; injection N1 as <-; discriminate|]. rewrite nth_upd_other by exact D1. auto.
    + eapply cell_same; [exact N|exact Ch| |reflexivity|reflexivity]. unfold reads. cbn. destruct (Pos.eq_dec f h); [congruence|reflexivity].
  - (* ask *)
    split; [|intros h; rewrite cell_at_set; destruct (Pos.eq_dec f h) as [<-|D]; reflexivity].
    go_on L G N (St R None (Some f)). at_cell C N (St R None (Some f)) h D. unfold reads in Rd. cbn [st_r] in Rd. destruct (Pos.eq_dec f h) as [<-|D].
    + destruct Ch as (C1 & C2 & C3 & C4). unfold cell_ok. cbn [c_readers c_slots c_writer c_held]. split; [lia|]. split; [exact C2|]. split.
      * intros t1 st1 N1 W1. destruct (Nat.eq_dec t t1) as [<-|D1]; [reflexivity|]. exfalso.
        rewrite nth_upd_other in N1 by exact D1. pose proof (C3 _ _ N1 W1). congruence.
      * intros t1 [= <-]. eexists. split; [exact (nth_upd _ _ _ _ N)|]. left. auto.
    + eapply cell_same; [exact N|exact Ch|reflexivity| |reflexivity]. cbn. split; [congruence|discriminate].
  - (* lock *)
    split; [|intros h; rewrite cell_at_set; destruct (Pos.eq_dec f h) as [<-|D]; reflexivity].
    go_on L G N (St R (Some (f, None)) None). at_cell C N (St R (Some (f, @None slots)) None) h D. unfold reads in Rd. cbn [st_r] in Rd. destruct (Pos.eq_dec f h) as [<-|D].
    + destruct Ch as (C1 & C2 & C3 & C4). unfold cell_ok. cbn [c_readers c_slots c_writer c_held]. split; [lia|]. split; [exact C2|]. split.
      * intros t1 st1 N1 W1. destruct (Nat.eq_dec t t1) as [<-|D1]; [reflexivity|].
        rewrite nth_upd_other in N1 by exact D1. pose proof (C3 _ _ N1 W1). congruence.
      * intros t1 [= <-]. eexists. split; [exact (nth_upd _ _ _ _ N)|]. right. cbn. repeat split; auto. exists None. auto.
    + eapply cell_same; [exact N|exact Ch|reflexivity| |]; cbn; split; congruence.
  - (* unlock *)
    split; [|intros h; rewrite cell_at_set; destruct (Pos.eq_dec f h) as [<-|D]; reflexivity].
    go_on L G N (St R None None). at_cell C N (St R None None) h D. unfold reads in Rd. cbn [st_r] in Rd. destruct (Pos.eq_dec f h) as [<-|D].
    + destruct Ch as (C1 & C2 & C3 & C4). unfold cell_ok. cbn [c_readers c_slots c_writer c_held]. split; [lia|]. split; [exact C2|]. split.
      * intros t1 st1 N1 W1. exfalso. destruct (Nat.eq_dec t t1) as [<-|D1].
        -- rewrite (nth_upd _ _ _ _ N) in N1. injection N1 as <-. destruct W1 as [W1|[K0 W1]]; discriminate.
        -- rewrite nth_upd_other in N1 by exact D1. pose proof (C3 _ _ N1 W1) as E1. rewrite (C3 _ _ N (or_intror (ex_intro _ K eq_refl))) in E1. congruence.
      * intros t1 E1. discriminate.
    + eapply cell_same; [exact N|exact Ch|reflexivity|reflexivity|]. cbn. split; congruence.
  - (* read *)
    split; [|intros h0; reflexivity]. go_on L G N (St R None None). intros h. eapply cell_same; [exact N|apply C|reflexivity|reflexivity|reflexivity].
  - split; [|intros h0; reflexivity]. match goal with |- context [Run (CRead _ _)] => idtac | _ => idtac end.
    refine (inv_build post ts _ ss t _ _ (St R (Some (f, K)) None) L G N (go_reading_w _ _ _ _ _ _) _); [eassumption|].
    intros h. eapply cell_same; [exact N|apply C|reflexivity|reflexivity|reflexivity].
  - (* read end *)
    split; [|split; [reflexivity|intros h0; reflexivity]]. destruct (C f) as (_ & Gf & _).
    refine (inv_build post ts _ ss t _ _ (St R None None) L G N (go_run _ _ _ _ _) _); [auto|].
    intros h. eapply cell_same; [exact N|apply C|reflexivity|reflexivity|reflexivity].
  - split; [|split; [reflexivity|intros h0; reflexivity]]. destruct (C f) as (_ & Gf & _).
    refine (inv_build post ts _ ss t _ _ (St R (Some (f, Some (c_slots (cell_at s f)))) None) L G N (go_run _ _ _ _ _) _); [auto|].
    at_cell C N (St R (Some (f, Some (c_slots (cell_at s f)))) None) h D. unfold reads in Rd. cbn [st_r] in Rd. destruct (Pos.eq_dec f h) as [<-|D].
    + destruct Ch as (C1 & C2 & C3 & C4). split; [lia|]. split; [exact C2|]. split.
      * intros t1 st1 N1 W1. destruct (Nat.eq_dec t t1) as [<-|D1]; [apply (C3 _ _ N); right; eexists; reflexivity|].
        rewrite nth_upd_other in N1 by exact D1. exact (C3 _ _ N1 W1).
      * intros t1 E1. pose proof (C3 _ _ N (or_intror (ex_intro _ K eq_refl))) as E2. rewrite E1 in E2. injection E2 as ->.
        eexists. split; [exact (nth_upd _ _ _ _ N)|]. destruct (C4 _ E1) as (st1 & N1 & [(Hh & Q)|(Hh & Z & _)]); rewrite N in N1; injection N1 as <-; [discriminate|].
        right. split; [exact Hh|]. split; [exact Z|]. eexists. split; [reflexivity|auto].
    + eapply cell_same; [exact N|exact Ch|reflexivity|reflexivity|]. cbn. split; congruence.
  - (* write *)
    split; [|intros h0; reflexivity]. destruct (C f) as (_ & Gf & C3' & C4'). pose proof (C3' _ _ N (or_intror (ex_intro _ K eq_refl))) as E2.
    destruct (C4' _ E2) as (st1 & N1 & [(Hh & Q)|(Hh & Z & K1 & W1 & HK)]); rewrite N in N1; injection N1 as <-; [discriminate|]. cbn in W1. injection W1 as <-.
    match goal with H : forall m, good f m -> _ -> _ |- _ => destruct (H _ Gf HK) as [Al Gu] end.
    refine (inv_build post ts _ ss t _ _ (St R (Some (f, Some (c_slots (cell_at s f)))) None) L G N (go_writing _ _ _ _ _ _ Al Gu _) _); [assumption|].
    at_cell C N (St R (Some (f, Some (c_slots (cell_at s f)))) None) h D. unfold reads in Rd. cbn [st_r] in Rd. destruct (Pos.eq_dec f h) as [<-|D].
    + destruct Ch as (C1 & C2 & C3 & C4). split; [lia|]. split; [exact C2|]. split.
      * intros t1 st1 N1 W1. destruct (Nat.eq_dec t t1) as [<-|D1]; [exact E2|].
        rewrite nth_upd_other in N1 by exact D1. exact (C3 _ _ N1 W1).
      * intros t1 E1. rewrite E1 in E2. injection E2 as ->.
        eexists. split; [exact (nth_upd _ _ _ _ N)|]. right. split; [exact Hh|]. split; [exact Z|]. eexists. split; [reflexivity|auto].
    + eapply cell_same; [exact N|exact Ch|reflexivity|reflexivity|]. cbn. split; congruence.
  - (* write end *)
    destruct (C f) as (_ & Gf & C3' & C4'). pose proof (C3' _ _ N (or_intror (ex_intro _ (Some m) eq_refl))) as E2.
    destruct (C4' _ E2) as (st1 & N1 & [(Hh & Q)|(Hh & Z & K1 & W1 & HK)]); rewrite N in N1; injection N1 as <-; [discriminate|]. cbn in W1. injection W1 as <-.
    destruct HK as [HK|[= ->]]; [discriminate|]. split.
    + refine (inv_build post ts _ ss t _ _ (St R (Some (f, None)) None) L G N (go_run _ _ _ _ _) _); [assumption|].
      at_cell C N (St R (Some (f, @None slots)) None) h D. unfold reads in Rd. cbn [st_r] in Rd. destruct (Pos.eq_dec f h) as [<-|D].
      * destruct Ch as (C1 & C2 & C3 & C4). unfold cell_ok, with_slots. cbn [c_readers c_slots c_writer c_held]. split; [lia|]. split; [assumption|]. split.
        -- intros t1 st1 N1 W1. destruct (Nat.eq_dec t t1) as [<-|D1]; [exact E2|]. rewrite nth_upd_other in N1 by exact D1. exact (C3 _ _ N1 W1).
        -- intros t1 E1. rewrite E1 in E2. injection E2 as ->.
           eexists. split; [exact (nth_upd _ _ _ _ N)|]. right. split; [exact Hh|]. split; [exact Z|]. eexists. split; [reflexivity|auto].
      * eapply cell_same; [exact N|exact Ch|reflexivity|reflexivity|]. cbn. split; congruence.
    + split; [assumption|]. split; [rewrite cell_at_set; destruct (Pos.eq_dec f f) as [_|X]; [reflexivity|congruence]|].
      intros h D. rewrite cell_at_set. destruct (Pos.eq_dec f h) as [->|_]; [congruence|reflexivity].
  - (* new *)
    split; [|intros h; reflexivity]. refine (inv_build post ts _ ss t _ _ (St R W None) L G N (go_run _ _ _ _ _) _); [auto|].
    intros h. eapply cell_same; [exact N|exact (C h)|reflexivity|reflexivity|reflexivity].
  - split; [|intros h0; reflexivity]. refine (inv_build post ts _ ss t _ _ (St R None None) L G N (go_run _ _ _ _ _) _); [apply ok_get_body; assumption|].
    intros h. eapply cell_same; [exact N|exact (C h)|reflexivity|reflexivity|reflexivity].
  - split; [|intros h0; reflexivity]. refine (inv_build post ts _ ss t _ _ (St R None None) L G N (go_run _ _ _ _ _) _); [apply ok_has_body; assumption|].
    intros h. eapply cell_same; [exact N|exact (C h)|reflexivity|reflexivity|reflexivity].
Qed.

Lemma inv_moves (post : post_all) c h c' : moves c h c' -> inv post c -> inv post c'.
Proof. intros H I. induction H as [|h ts s t g es g' s' H IH N Hs]; [exact I|]. exact (proj1 (inv_step post _ _ _ _ _ _ _ IH N Hs)). Qed.
Lemma inv_no_collision (post : post_all) ts s : inv post (ts, s) -> ~ collision ts.
Proof.
  intros (ss & L & G & C) (i & j & f & gi & gj & D & Hi & Hj & Ci & Aj). cbn [fst snd] in *.
  destruct (G _ _ Hi) as (si & Ni & Oi). destruct (G _ _ Hj) as (sj & Nj & Oj). destruct (C f) as (C1 & _ & C3 & C4).
  destruct gi; cbn in Ci; try contradiction. subst f0. inversion Oi; subst.
  pose proof (C3 _ _ Ni (or_intror (ex_intro _ _ eq_refl))) as E. destruct (C4 _ E) as (s1 & N1 & [(_ & Q)|(Hh & Z & _)]); rewrite Ni in N1; injection N1 as <-; [discriminate|].
  destruct gj; cbn in Aj; try contradiction; subst; inversion Oj; subst.
  - eapply reader_counts; [exact Nj|eassumption|congruence].
  - pose proof (C3 _ _ Nj (or_intror (ex_intro _ _ eq_refl))). congruence.
  - pose proof (C3 _ _ Nj (or_intror (ex_intro _ _ eq_refl))). congruence.
Qed.
Lemma turn_snoc m es m1 m' e : in_turn m es m1 -> in_turn m1 [e] m' -> in_turn m (es ++ [e]) m'.
Proof. intros H1 H2. induction H1; cbn; [exact H2|constructor; auto..]. Qed.
Lemma in_turn_moves (post : post_all) c h c' f : moves c h c' -> inv post c -> in_turn (c_slots (cell_at (snd c) f)) (on_map f h) (c_slots (cell_at (snd c') f)).
Proof.
  intros H I. induction H as [|h ts s t g es g' s' H IH N Hs]; [constructor|]. cbn [snd] in *.
  destruct (inv_step post _ _ _ _ _ _ _ (inv_moves post _ _ _ H I) N Hs) as [_ E]. unfold on_map in *. rewrite map_app, List.filter_app, map_map, map_id.
  destruct es as [|e [|]]; cbn [event_fits] in E.
  - cbn. rewrite app_nil_r, E. exact IH.
  - cbn [List.filter]. destruct e as [f' m|f' u].
    + destruct E as [-> E]. rewrite E. destruct (Pos.eqb_spec f f') as [<-|D]; [|rewrite app_nil_r; exact IH].
      eapply turn_snoc; [exact IH|]. constructor. constructor.
    + destruct E as (Al & E & E'). destruct (Pos.eqb_spec f f') as [<-|D].
      * rewrite E. eapply turn_snoc; [exact IH|]. destruct u as [k v|k]; cbn in *; constructor; auto; constructor.
      * rewrite app_nil_r. rewrite E' by exact D. exact IH.
  - destruct e; destruct E.
Qed.

(** *** Progress *)
Definition at_lock (g : gor) (f : loc) : Prop := match g with Run (CRLock f' _) => f' = f | Run (CLock f' _) => f' = f | Waiting f' _ => f' = f | _ => False end.
Definition moves_at (t : nat) (g : gor) (s : lstate) : Prop := exists es g' s', gstep t g s es g' s'.
Lemma step_or_lock (post : answer -> Prop) st g t s : ~ panic_ok -> gor_ok post st g ->
  (exists a, g = Run (CRet a) /\ st_r st = [] /\ st_w st = None) \/ moves_at t g s \/ exists f, at_lock g f /\ (forall h, In h (st_r st) -> below f h) /\ st_w st = None.
Proof.
  intros Np O. destruct O as [R W c Hc|R f c B Hc|R f k I K|R f K k Hk|R f m u c A Gd Hc].
  - destruct Hc; cbn [st_r st_w st_q]; try contradiction; try solve [right; left; eexists _, _, _; econstructor; reflexivity].
    + left. eauto.
    + right. right. exists f. cbn. auto.
    + right. right. exists f. cbn. auto.
  - right. right. exists f. cbn. auto.
  - right. left. eexists _, _, _. apply g_read_end. reflexivity.
  - right. left. eexists _, _, _. apply g_read_end. reflexivity.
  - right. left. eexists _, _, _. apply g_write_end.
Qed.
Lemma owner_moves (post : answer -> Prop) st g t s f K : ~ panic_ok -> gor_ok post st g -> st_w st = Some (f, K) -> moves_at t g s.
Proof.
  intros Np O W. destruct (step_or_lock post st g t s Np O) as [(a & _ & _ & E)|[M|(h & _ & _ & E)]]; [congruence|exact M|congruence].
Qed.
Lemma progress (post : post_all) c : ~ panic_ok -> well_founded below -> inv post c ->
  (exists t g, nth_error (fst c) t = Some g /\ moves_at t g (snd c)) \/ (forall t g, nth_error (fst c) t = Some g -> exists a, g = Run (CRet a)).
Proof.
  intros Np Wf (ss & L & G & C). destruct c as [ts s]. cbn [fst snd] in *.
  assert (Key : forall f t g, nth_error ts t = Some g -> at_lock g f -> exists t g, nth_error ts t = Some g /\ moves_at t g s).
  { intros f. induction (Wf f) as [f _ IH]. intros t g N A. destruct (C f) as (C1 & _ & C3 & C4).
    assert (Holder : c_readers (cell_at s f) <> 0 -> exists t g, nth_error ts t = Some g /\ moves_at t g s).
    { intros Z. rewrite C1 in Z. destruct (readers_pos _ _ Z) as (r & sr & Nr & Ir).
      assert (exists gr, nth_error ts r = Some gr) as [gr Er].
      { destruct (nth_error ts r) eqn:E; [eauto|]. apply nth_error_None in E. assert (r < length ss) by (apply nth_error_Some; congruence). lia. }
      destruct (G _ _ Er) as (sr' & Nr' & Or). rewrite Nr in Nr'. injection Nr' as <-.
      destruct (step_or_lock _ _ _ r s Np Or) as [(a & _ & E & _)|[M|(h & A' & B & _)]].
      - rewrite E in Ir. destruct Ir.
      - eauto.
      - exact (IH h (B f Ir) r gr Er A'). }
    destruct (c_writer (cell_at s f)) as [w|] eqn:Ew.
    - destruct (C4 _ eq_refl) as (sw & Nw & Hw).
      assert (exists gw, nth_error ts w = Some gw) as [gw Egw].
      { destruct (nth_error ts w) eqn:E; [eauto|]. apply nth_error_None in E. assert (w < length ss) by (apply nth_error_Some; congruence). lia. }
      destruct (G _ _ Egw) as (sw' & Nw' & Ow). rewrite Nw in Nw'. injection Nw' as <-.
      destruct Hw as [(Hh & Q)|(_ & _ & K & W & _)]; [|exists w, gw; split; [exact Egw|exact (owner_moves _ _ _ _ _ _ _ Np Ow W)]].
      destruct (Nat.eq_dec (c_readers (cell_at s f)) 0) as [Z|Z]; [|exact (Holder Z)].
      exists w, gw. split; [exact Egw|]. inversion Ow; subst; try discriminate. injection Q as ->. eexists _, _, _. eapply g_lock; [reflexivity|exact Ew|exact Z].
    - exists t, g. split; [exact N|]. destruct (G _ _ N) as (st & Nst & O).
      destruct g as [[]|f' c|f' k|f' m u c]; cbn in A; try contradiction; subst.
      + eexists _, _, _. eapply g_rlock; [reflexivity|exact Ew].
      + eexists _, _, _. eapply g_ask; [reflexivity|exact Ew].
      + inversion O; subst. pose proof (C3 _ _ Nst (or_introl eq_refl)). congruence. }
  assert (D : forall n, n <= length ts -> (exists t g, nth_error ts t = Some g /\ moves_at t g s) \/ (forall t g, t < n -> nth_error ts t = Some g -> exists a, g = Run (CRet a))).
  { induction n as [|n IH]; intros Hn; [right; intros; lia|]. destruct IH as [IH|IH]; [lia|left; exact IH|].
    destruct (nth_error ts n) as [g|] eqn:E; [|apply nth_error_None in E; lia]. destruct (G _ _ E) as (st & Nst & O).
    destruct (step_or_lock _ _ _ n s Np O) as [(a & -> & _)|[M|(h & A & _)]]; [|left; eauto|left; eauto].
    right. intros t g Ht Hg. destruct (Nat.eq_dec t n) as [->|]; [rewrite E in Hg; injection Hg as <-; eauto|apply (IH t g); [lia|exact Hg]]. }
  destruct (D (length ts) (Nat.le_refl _)) as [D1|D1]; [left; exact D1|right]. intros t g Hg. apply (D1 t g); [|exact Hg]. apply nth_error_Some. congruence.
Qed.

(** *** The calls *)
Lemma ok_mono (P Q : answer -> Prop) R W c : (forall a, P a -> Q a) -> code_ok P R W c -> code_ok Q R W c.
Proof. intros H O. induction O; econstructor; eauto. Qed.
Lemma ok_then (P Q : answer -> Prop) R W c k : code_ok P R W c -> (forall a, P a -> code_ok Q [] None (k a)) -> code_ok Q R W (then_do c k).
Proof. intros O K. induction O; cbn; try (econstructor; eauto; fail). apply K. assumption. Qed.
Lemma ok_session (call : code -> Prop) c : (forall c, call c -> code_ok (fun _ => True) [] None c) -> session call c -> code_ok (fun _ => True) [] None c.
Proof. intros H S0. induction S0 as [a|c Hc|c k Hc Hk IH]; [constructor; exact I|exact (H c Hc)|]. eapply ok_then; [exact (H c Hc)|]. intros a _. apply IH. Qed.
Lemma inv_begin (post : post_all) ts s : unlocked s -> (forall f, good f (c_slots (cell_at s f))) ->
  (forall t g, nth_error ts t = Some g -> exists c, g = Run c /\ code_ok (post t) [] None c) -> inv post (ts, s).
Proof.
  intros U Gd H. exists (map (fun _ => St [] None None) ts). cbn [fst snd]. split; [apply map_length|].
  assert (Nm : forall t st, nth_error (map (fun _ : gor => St [] None None) ts) t = Some st -> st = St [] None None).
  { intros t st N. apply nth_error_In, in_map_iff in N. destruct N as (g & <- & _). reflexivity. }
  split.
  - intros t g N. exists (St [] None None). split; [exact (map_nth_error (fun _ => St [] None None) t ts N)|]. destruct (H _ _ N) as (c & -> & O). constructor. exact O.
  - intros f. destruct (U f) as (U1 & U2 & U3). split; [|split; [apply Gd|split]].
    + rewrite U1. clear. induction ts as [|g ts IH]; cbn; [reflexivity|exact IH].
    + intros t st N W. rewrite (Nm _ _ N) in W. destruct W as [W|[K W]]; discriminate.
    + intros t E. congruence.
Qed.
Lemma ok_intern (post : answer -> Prop) R n k :
  (forall g, In g R -> below symbols g) ->
  (forall m, good symbols m -> match m !! n with
     | Some v => code_ok post R None (k v)
     | None => (forall m' id, good symbols m' -> good symbols (<[n := ISym id n]> m')) /\ forall id, code_ok post R None (k (ISym id n)) end) ->
  code_ok post R None (intern_code n k).
Proof.
  intros B H. unfold intern_code. apply ok_rlock; [exact B|]. apply ok_read; [left; reflexivity|]. intros m l G P. apply ok_runlock.
  specialize (H m G). destruct (m !! n); [exact H|]. destruct H as [H1 H2]. apply ok_lock; [exact B|]. apply ok_new. intros id.
  apply ok_write; [intros m' G' _; split; [exact I|exact (H1 m' id G')]|]. apply ok_unlock. apply H2.
Qed.
Lemma ok_intern_all (post : answer -> Prop) R ns : (forall g, In g R -> below symbols g) ->
  (forall n m, good symbols m -> m !! n = None -> forall m' id, good symbols m' -> good symbols (<[n := ISym id n]> m')) ->
  forall acc k, (forall l, code_ok post R None (k l)) -> code_ok post R None (intern_all ns acc k).
Proof.
  intros B H. induction ns as [|n ns IH]; intros acc k K; cbn; [apply K|]. apply ok_intern; [exact B|]. intros m G.
  destruct (m !! n) eqn:E; [apply IH, K|]. split; [exact (H n m G E)|]. intros id. apply IH, K.
Qed.
Definition any (a : answer) : Prop := True.
Lemma one_held (f g : loc) : In g [f] -> g = f \/ below f g.
Proof. intros [->|[]]. left. reflexivity. Qed.
Lemma ok_get_call f key : isframe f -> code_ok any [] None (get_call f key).
Proof. intros If. apply ok_rlock; [intros g []|]. apply ok_get; [exact If|left; reflexivity|apply one_held|]. intros v vis. apply ok_runlock, ok_ret. exact I. Qed.
Lemma ok_has_call f key : isframe f -> code_ok any [] None (has_call f key).
Proof. intros If. apply ok_rlock; [intros g []|]. apply ok_has; [exact If|left; reflexivity|apply one_held|]. intros v vis. apply ok_runlock, ok_ret. exact I. Qed.
Lemma ok_set_call f key v : (forall m, good f m -> good f (<[key := v]> m)) -> code_ok any [] None (set_call f key v).
Proof. intros H. apply ok_lock; [intros g []|]. apply ok_write; [intros m G _; split; [exact I|exact (H m G)]|]. apply ok_unlock, ok_ret. exact I. Qed.
Lemma ok_remove_call f key : (forall m, good f m -> good f (delete key m)) -> code_ok any [] None (remove_call f key).
Proof.
  intros H. apply ok_lock; [intros g []|]. apply ok_read_w. intros m l G P. destruct (m !! key) eqn:E.
  - apply ok_write; [|apply ok_unlock, ok_ret; exact I]. intros m' G' [?|[= <-]]; [discriminate|]. cbn. split; [congruence|exact (H m G)].
  - apply ok_unlock, ok_ret. exact I.
Qed.
Lemma ok_clone_call f : code_ok any [] None (clone_call f).
Proof. apply ok_rlock; [intros g []|]. apply ok_read; [left; reflexivity|]. intros m l G P. apply ok_runlock, ok_ret. exact I. Qed.
Lemma ok_values_call f : code_ok any [] None (values_call f).
Proof. apply ok_rlock; [intros g []|]. apply ok_read; [left; reflexivity|]. intros m l G P. apply ok_runlock, ok_ret. exact I. Qed.
Lemma ok_keys_call f : below symbols f -> (forall n m, good symbols m -> m !! n = None -> forall m' id, good symbols m' -> good symbols (<[n := ISym id n]> m')) ->
  code_ok any [] None (keys_call f).
Proof.
  intros B H. apply ok_rlock; [intros g []|]. apply ok_read; [left; reflexivity|]. intros m l G P.
  apply ok_intern_all; [intros g [<-|[]]; exact B|exact H|]. intros ks. apply ok_runlock, ok_ret. exact I.
Qed.
Lemma ok_super_loop f key ps : (forall p, In p ps -> isframe p /\ below p f) -> code_ok any [f] None (super_loop f key ps).
Proof.
  induction ps as [|p ps IH]; intros B; cbn; [apply ok_runlock, ok_ret; exact I|]. destruct (B p (or_introl eq_refl)) as [If Bp].
  apply ok_rlock; [intros g [<-|[]]; exact Bp|]. apply ok_get; [exact If|left; reflexivity| |].
  - intros g [->|[<-|[]]]; [left; reflexivity|right; exact Bp].
  - intros v _. apply ok_runlock. destruct v; try (apply ok_runlock, ok_ret; exact I). apply IH. intros q Hq. apply B. right. exact Hq.
Qed.
Lemma ok_super_call f key : isframe f -> code_ok any [] None (super_call f key).
Proof.
  intros If. apply ok_rlock; [intros g []|]. apply ok_read; [left; reflexivity|]. intros m l G P. destruct (parents_of l) as [ps|] eqn:E.
  - apply ok_super_loop. pose proof (parents_good f m l If G P) as F. rewrite E in F. rewrite List.Forall_forall in F. exact F.
  - apply ok_panic. exact (parents_panic _ _ _ If G P E).
Qed.
End Discipline.

(** *** Safety: any calls, any frames, cycles included *)
Definition anyway (a b : loc) : Prop := True.
Definition table_good (f : loc) (m : slots) : Prop := f = symbols -> forall n v, m !! n = Some v -> exists id, v = ISym id n.
Lemma anyway_parents (f : loc) (m : slots) (l : list (string * item)) : True -> table_good f m -> l ≡ₚ map_to_list m ->
  match parents_of l with Some ps => Forall (fun p => True /\ anyway p f) ps | None => True end.
Proof. intros _ _ _. destruct (parents_of l) as [ps|]; [|exact I]. apply List.Forall_forall. intros p _. split; exact I. Qed.
Lemma table_good_set n id m : table_good symbols m -> table_good symbols (<[n := ISym id n]> m).
Proof.
  intros G _ n' v H. destruct (decide (n = n')) as [<-|D]; [rewrite lookup_insert in H; injection H as <-; eauto|].
  rewrite lookup_insert_ne in H by exact D. exact (G eq_refl _ _ H).
Qed.
Lemma table_good_other f m : f <> symbols -> table_good f m.
Proof. intros D E. contradiction. Qed.
Notation safe := (code_ok anyway table_good (fun _ => True) True).
Lemma safe_api c : api_call c -> safe any [] None c.
Proof.
  intros H. destruct H.
  - apply ok_get_call; exact I.
  - apply ok_has_call; exact I.
  - apply ok_set_call. intros m _. apply table_good_other, H.
  - apply ok_remove_call. intros m _. apply table_good_other, H.
  - apply ok_clone_call.
  - apply ok_values_call.
  - apply ok_keys_call; [exact I|]. intros n m _ _ m' id. apply table_good_set.
  - apply ok_super_call; [exact anyway_parents|exact I].
  - unfold intern_call. apply ok_intern; [intros g []|]. intros m _. destruct (m !! name); [apply ok_ret; exact I|].
    split; [intros m' id; apply table_good_set|intros id; apply ok_ret; exact I].
Qed.
Lemma start_good s : proper_symbols s -> forall f, table_good f (c_slots (cell_at s f)).
Proof. intros P f -> n v H. exact (P n v H). Qed.
Lemma anyway_trans (a b c : loc) : anyway a b -> anyway b c -> anyway a c.
Proof. intros _ _. exact I. Qed.
Lemma beginning_inv c : beginning api_call c -> inv anyway table_good (fun _ => True) True (fun _ => any) c.
Proof.
  destruct c as [ts s]. intros (F & U & P). cbn [fst snd] in *. apply inv_begin; [exact U|exact (start_good s P)|].
  intros t g N. rewrite List.Forall_forall in F. destruct (F g (nth_error_In _ _ N)) as (p & -> & Sp). exists p. split; [reflexivity|].
  eapply ok_session; [exact safe_api|exact Sp].
Qed.
Lemma no_collisions c h c' : moves c h c' -> beginning api_call c -> ~ collision (fst c').
Proof.
  intros H B. pose proof (inv_moves anyway table_good (fun _ => True) True anyway_trans anyway_parents _ _ _ _ H (beginning_inv _ B)) as J.
  destruct c' as [ts s]. exact (inv_no_collision _ _ _ _ _ _ _ J).
Qed.
Lemma maps_in_turn c h c' f : moves c h c' -> beginning api_call c -> in_turn (c_slots (cell_at (snd c) f)) (on_map f h) (c_slots (cell_at (snd c') f)).
Proof. intros H B. exact (in_turn_moves anyway table_good (fun _ => True) True anyway_trans anyway_parents _ _ _ _ f H (beginning_inv _ B)). Qed.

(** *** Interning *)
Definition interned (names : list string) (t : nat) (a : answer) : Prop := forall n, nth_error names t = Some n -> exists id, a = AItem (ISym id n).
Lemma with_names (call : code -> Prop) (P : code -> Prop) names others t g : (forall n, In n names -> P (intern_call n)) ->
  Forall (fun g => exists p, g = Run p /\ session call p) others ->
  nth_error (map (fun n => Run (intern_call n)) names ++ others) t = Some g ->
  exists p, g = Run p /\ ((exists n, nth_error names t = Some n /\ p = intern_call n /\ P p) \/ (nth_error names t = None /\ session call p)).
Proof.
  intros Hn Ho N. destruct (Nat.lt_ge_cases t (length names)) as [Ht|Ht].
  - rewrite nth_error_app1 in N by (rewrite map_length; exact Ht). destruct (nth_error names t) as [n|] eqn:E; [|apply nth_error_None in E; lia].
    rewrite (map_nth_error (fun n => Run (intern_call n)) _ _ E) in N. injection N as <-. eexists. split; [reflexivity|]. left. exists n. repeat split; auto.
    apply Hn. eapply nth_error_In, E.
  - rewrite nth_error_app2 in N by (rewrite map_length; exact Ht). rewrite List.Forall_forall in Ho. destruct (Ho g (nth_error_In _ _ N)) as (p & -> & Sp).
    exists p. split; [reflexivity|]. right. split; [apply nth_error_None; exact Ht|exact Sp].
Qed.
Lemma answer_of below good isframe panic_ok post c t a : inv below good isframe panic_ok post c -> nth_error (fst c) t = Some (Run (CRet a)) -> post t a.
Proof. intros (ss & _ & G & _) N. destruct (G _ _ N) as (st & _ & O). inversion O; subst. match goal with H : code_ok _ _ _ _ _ _ _ _ |- _ => inversion H; subst end. assumption. Qed.
Lemma intern_names names others s h c' : moves (map (fun n => Run (intern_call n)) names ++ others, s) h c' ->
  Forall (fun g => exists p, g = Run p /\ session api_call p) others -> unlocked s -> proper_symbols s ->
  forall t n a, nth_error names t = Some n -> nth_error (fst c') t = Some (Run (CRet a)) -> exists id, a = AItem (ISym id n).
Proof.
  intros H Ho U P t n a Hn Ha.
  assert (J : inv anyway table_good (fun _ => True) True (interned names) (map (fun n => Run (intern_call n)) names ++ others, s)).
  { apply inv_begin; [exact U|exact (start_good s P)|]. intros u g N.
    destruct (with_names api_call (fun _ => True) names others u g (fun _ _ => I) Ho N) as (p & -> & [(n' & Hu & -> & _)|(Hu & Sp)]); eexists; (split; [reflexivity|]).
    - unfold intern_call. apply ok_intern; [intros g []|]. intros m G. destruct (m !! n') as [v|] eqn:E.
      + apply ok_ret. intros n1 H1. rewrite Hu in H1. injection H1 as <-. destruct (G eq_refl _ _ E) as [id ->]. eauto.
      + split; [intros m' id; apply table_good_set|]. intros id. apply ok_ret. intros n1 H1. rewrite Hu in H1. injection H1 as <-. eauto.
    - eapply ok_mono; [|eapply ok_session; [exact safe_api|exact Sp]]. intros a' _ n1 H1. congruence. }
  apply (answer_of _ _ _ _ _ _ _ _ (inv_moves anyway table_good (fun _ => True) True anyway_trans anyway_parents _ _ _ _ H J) Ha n Hn).
Qed.
Lemma intern_equal names others s h c' : moves (map (fun n => Run (intern_call n)) names ++ others, s) h c' ->
  Forall (fun g => exists p, g = Run p /\ session api_call p) others -> unlocked s -> proper_symbols s ->
  forall t1 t2 n1 n2 v1 v2, nth_error names t1 = Some n1 -> nth_error names t2 = Some n2 ->
  nth_error (fst c') t1 = Some (Run (CRet (AItem v1))) -> nth_error (fst c') t2 = Some (Run (CRet (AItem v2))) -> (same_symbol v1 v2 <-> n1 = n2).
Proof.
  intros H Ho U P t1 t2 n1 n2 v1 v2 N1 N2 A1 A2. destruct (intern_names _ _ _ _ _ H Ho U P _ _ _ N1 A1) as [i1 [= ->]]. destruct (intern_names _ _ _ _ _ H Ho U P _ _ _ N2 A2) as [i2 [= ->]].
  split; [intros (n & [= ->] & [= ->]); reflexivity|intros ->; exists n2; auto].
Qed.
(** Once a name is in the table everybody gets that very object. *)
Definition settled_good (n : string) (v : item) (f : loc) (m : slots) : Prop := f = symbols -> m !! n = Some v.
Lemma settled_set n v n' (m : slots) (x : item) : n' <> n -> settled_good n v symbols m -> settled_good n v symbols (<[n' := x]> m).
Proof. intros D G _. rewrite lookup_insert_ne by exact D. exact (G eq_refl). Qed.
Lemma settled_parents n v (f : loc) (m : slots) (l : list (string * item)) : True -> settled_good n v f m -> l ≡ₚ map_to_list m ->
  match parents_of l with Some ps => Forall (fun p => True /\ anyway p f) ps | None => True end.
Proof. intros _ _ _. destruct (parents_of l) as [ps|]; [|exact I]. apply List.Forall_forall. intros p _. split; exact I. Qed.
Lemma settled_other n v f m : f <> symbols -> settled_good n v f m.
Proof. intros D E. contradiction. Qed.
Lemma settled_new n v n' m : settled_good n v symbols m -> m !! n' = None -> forall m' id, settled_good n v symbols m' -> settled_good n v symbols (<[n' := ISym id n']> m').
Proof. intros G E m' id G'. apply settled_set; [|exact G']. intros ->. rewrite (G eq_refl) in E. discriminate. Qed.
Lemma settled_api n v c : api_call c -> code_ok anyway (settled_good n v) (fun _ => True) True any [] None c.
Proof.
  intros H. destruct H.
  - apply ok_get_call; exact I.
  - apply ok_has_call; exact I.
  - apply ok_set_call. intros m _. apply settled_other, H.
  - apply ok_remove_call. intros m _. apply settled_other, H.
  - apply ok_clone_call.
  - apply ok_values_call.
  - apply ok_keys_call; [exact I|]. intros n' m G E. exact (settled_new n v n' m G E).
  - apply ok_super_call; [exact (settled_parents n v)|exact I].
  - unfold intern_call. apply ok_intern; [intros g []|]. intros m G. destruct (m !! name) eqn:E; [apply ok_ret; exact I|].
    split; [exact (settled_new n v name m G E)|intros id; apply ok_ret; exact I].
Qed.
Lemma intern_settled k n v others s h c' : moves (map (fun n => Run (intern_call n)) (repeat n k) ++ others, s) h c' ->
  Forall (fun g => exists p, g = Run p /\ session api_call p) others -> unlocked s -> c_slots (cell_at s symbols) !! n = Some v ->
  forall t a, t < k -> nth_error (fst c') t = Some (Run (CRet a)) -> a = AItem v.
Proof.
  intros H Ho U P t a Ht Ha.
  assert (J : inv anyway (settled_good n v) (fun _ => True) True (fun t a => t < k -> a = AItem v) (map (fun n => Run (intern_call n)) (repeat n k) ++ others, s)).
  { apply inv_begin; [exact U|intros f ->; exact P|]. intros u g N.
    destruct (with_names api_call (fun _ => True) (repeat n k) others u g (fun _ _ => I) Ho N) as (p & -> & [(n' & Hu & -> & _)|(Hu & Sp)]); eexists; (split; [reflexivity|]).
    - apply nth_error_In, repeat_spec in Hu. subst n'. unfold intern_call. apply ok_intern; [intros g []|]. intros m G. rewrite (G eq_refl). apply ok_ret. auto.
    - eapply ok_mono; [|eapply ok_session; [exact (settled_api n v)|exact Sp]]. intros a' _ Hk. apply nth_error_None in Hu. rewrite repeat_length in Hu. lia. }
  exact (answer_of _ _ _ _ _ _ _ _ (inv_moves anyway (settled_good n v) (fun _ => True) True anyway_trans (settled_parents n v) _ _ _ _ H J) Ha Ht).
Qed.

(** *** No deadlock without cycles *)
Section Ranked.
Variable rank : loc -> nat.
Definition height (f : loc) : nat := if Pos.eq_dec f symbols then 0 else S (rank f).
Definition lower (a b : loc) : Prop := height a < height b.
Definition ranked_good (f : loc) (m : slots) : Prop := f <> symbols -> forall key v, m !! key = Some v -> ranked_item rank f key v.
Definition real_frame (f : loc) : Prop := f <> symbols.
Lemma lower_trans a b c : lower a b -> lower b c -> lower a c.
Proof. unfold lower. lia. Qed.
Lemma lower_wf : well_founded lower.
Proof. apply (well_founded_lt_compat _ height). auto. Qed.
Lemma symbols_lower f : f <> symbols -> lower symbols f.
Proof. intros D. unfold lower, height. destruct (Pos.eq_dec symbols symbols) as [_|X]; [|congruence]. destruct (Pos.eq_dec f symbols) as [E|_]; [contradiction|lia]. Qed.
Lemma ranked_parents f m l : real_frame f -> ranked_good f m -> l ≡ₚ map_to_list m ->
  match parents_of l with Some ps => Forall (fun p => real_frame p /\ lower p f) ps | None => False end.
Proof.
  intros Rf G P. assert (A : forall k v, In (k, v) l -> ranked_item rank f k v).
  { intros k v H. apply (G Rf k v). apply elem_of_map_to_list. rewrite <- P. apply elem_of_list_In, H. }
  clear P G. induction l as [|[k v] l IH]; cbn; [constructor|]. specialize (IH (fun k v H => A k v (or_intror H))).
  destruct (is_parent_key k) eqn:Ek; [|exact IH]. pose proof (A k v (or_introl eq_refl) Ek) as B. destruct v; try contradiction; [exact IH|].
  destruct (parents_of l) as [ps|]; [|exact IH]. constructor; [|exact IH]. destruct B as [B1 B2]. split; [exact B1|]. unfold lower, height, real_frame in *.
  destruct (Pos.eq_dec f0 symbols); [lia|]. destruct (Pos.eq_dec f symbols); [contradiction|lia].
Qed.
Lemma ranked_api c : ranked_call rank c -> code_ok lower ranked_good real_frame False any [] None c.
Proof.
  assert (Sy : forall n (m' : slots) (id : nat), ranked_good symbols m' -> ranked_good symbols (<[n := ISym id n]> m')) by (intros n m' id _ D; congruence).
  intros H. destruct H.
  - apply ok_get_call; exact H.
  - apply ok_has_call; exact H.
  - apply ok_set_call. intros m G _ key' v' E. destruct (decide (key = key')) as [<-|D].
    + rewrite lookup_insert in E. injection E as <-. assumption.
    + rewrite lookup_insert_ne in E by exact D. exact (G H _ _ E).
  - apply ok_remove_call. intros m G _ key' v' E. destruct (decide (key = key')) as [<-|D].
    + rewrite lookup_delete in E. discriminate.
    + rewrite lookup_delete_ne in E by exact D. exact (G H _ _ E).
  - apply ok_clone_call.
  - apply ok_values_call.
  - apply ok_keys_call; [apply symbols_lower, H|]. intros n m _ _ m' id. apply Sy.
  - apply ok_super_call; [exact ranked_parents|exact H].
  - unfold intern_call. apply ok_intern; [intros g []|]. intros m G. destruct (m !! name); [apply ok_ret; exact I|].
    split; [intros m' id; apply Sy|intros id; apply ok_ret; exact I].
Qed.
Lemma no_deadlock c h c' : moves c h c' -> Forall (fun g => exists p, g = Run p /\ session (ranked_call rank) p) (fst c) -> unlocked (snd c) -> ranked rank (snd c) ->
  can_move c' \/ Forall (fun g => exists a, g = Run (CRet a)) (fst c').
Proof.
  intros H F U Rk.
  assert (J : inv lower ranked_good real_frame False (fun _ => any) c).
  { destruct c as [ts s]. cbn [fst snd] in *. apply inv_begin; [exact U|intros f Df key v E; exact (Rk f key v Df E)|].
    intros t g N. rewrite List.Forall_forall in F. destruct (F g (nth_error_In _ _ N)) as (p & -> & Sp). exists p. split; [reflexivity|].
    eapply ok_session; [exact ranked_api|exact Sp]. }
  pose proof (inv_moves lower ranked_good real_frame False lower_trans ranked_parents _ _ _ _ H J) as J'.
  destruct (progress lower ranked_good real_frame False _ c' (fun x => x) lower_wf J') as [(t & g & N & es & g' & s' & St)|D].
  - left. exists t, g, es, g', s'. auto.
  - right. apply List.Forall_forall. intros g Hg. apply In_nth_error in Hg. destruct Hg as [t N]. exact (D t g N).
Qed.
End Ranked.

(** *** One call *)
Lemma own_cons g es g' : own_steps g es g' -> (es = [] /\ g' = g) \/ exists t s e g1 s' es', gstep t g s e g1 s' /\ es = e ++ es' /\ own_steps g1 es' g'.
Proof.
  intros H. induction H as [|es g1 t s e g2 s' H IH St]; [auto|]. right. destruct IH as [[-> ->]|(t0 & s0 & e0 & g0 & s0' & es' & St0 & -> & H0)].
  - exists t, s, e, g2, s', []. split; [exact St|]. split; [rewrite app_nil_r; reflexivity|constructor].
  - exists t0, s0, e0, g0, s0', (es' ++ e). split; [exact St0|]. split; [rewrite app_assoc; reflexivity|]. eapply own_step; eassumption.
Qed.
Lemma own_done es g' a : own_steps (Run (CRet a)) es g' -> es = [] /\ g' = Run (CRet a).
Proof. intros H. destruct (own_cons _ _ _ H) as [E|(t & s & e & g1 & s' & es' & St & _)]; [exact E|inversion St]. Qed.
Ltac own := match goal with H : own_steps _ _ _ |- _ =>
  let E := fresh "E" in let H2 := fresh "H" in
  destruct (own_cons _ _ _ H) as [[_ E]|(? & ? & ? & ? & ? & ? & E & -> & H2)]; [discriminate E|clear H; inversion E; subst; clear E] end.
Ltac own_end := match goal with H : own_steps _ _ _ |- _ => apply own_done in H; destruct H as [-> [= ->]] end.
Lemma set_steps f key v es a : own_steps (Run (set_call f key v)) es (Run (CRet a)) -> es = [EWrite f (USet key v)] /\ a = AItem v.
Proof. intros H. do 5 own. own_end. auto. Qed.
Lemma remove_steps f key es a : own_steps (Run (remove_call f key)) es (Run (CRet a)) ->
  exists m, (es = [ERead f m] /\ m !! key = None /\ a = ABool false) \/ (es = [ERead f m; EWrite f (UDel key)] /\ m !! key <> None /\ a = ABool true).
Proof.
  intros H. do 4 own. match goal with H : own_steps (Run (match ?x with _ => _ end)) _ _ |- _ => destruct x eqn:E end.
  - do 3 own. own_end. eexists. right. split; [reflexivity|]. split; [congruence|reflexivity].
  - own. own_end. eexists. left. split; [reflexivity|]. split; [exact E|reflexivity].
Qed.
Lemma get_steps f key es a : own_steps (Run (get_call f key)) es (Run (CRet a)) ->
  exists m es', es = ERead f m :: es' /\ forall v, m !! key = Some v -> es' = [] /\ a = AItem v.
Proof.
  intros H. do 2 own. unfold get_body in *. cbn [member existsb] in *. do 2 own.
  match goal with H : own_steps (Run (match ?x with _ => _ end)) _ _ |- _ => destruct x eqn:E end.
  - own. own_end. eexists _, _. split; [reflexivity|]. intros v Ev. rewrite E in Ev. injection Ev as ->. auto.
  - eexists _, _. split; [reflexivity|]. intros v Ev. congruence.
Qed.
Lemma has_steps f key es a : own_steps (Run (has_call f key)) es (Run (CRet a)) ->
  exists m es', es = ERead f m :: es' /\ (m !! key <> None -> es' = [] /\ a = ABool true).
Proof.
  intros H. do 2 own. unfold has_body in *. cbn [member existsb] in *. do 2 own.
  match goal with H : own_steps (Run (match ?x with _ => _ end)) _ _ |- _ => destruct x eqn:E end.
  - own. own_end. eexists _, _. split; [reflexivity|]. auto.
  - eexists _, _. split; [reflexivity|]. intros Ev. congruence.
Qed.
Lemma clone_steps f es a : own_steps (Run (clone_call f)) es (Run (CRet a)) -> exists m, es = [ERead f m] /\ a = ASlots m.
Proof. intros H. do 4 own. own_end. eexists. split; reflexivity. Qed.

(** *** Concrete executions *)
Definition gexec (t : nat) (g : gor) (s : lstate) : option (list event * gor * lstate) :=
  match g with
  | Run (CRet _) | Run CPanic => None
  | Run (CRLock f k) => let c := cell_at s f in
      match c_writer c with None => Some ([], Run k, set_cell f (Cell (c_slots c) (S (c_readers c)) None (c_held c)) s) | Some _ => None end
  | Run (CRUnlock f k) => let c := cell_at s f in Some ([], Run k, set_cell f (Cell (c_slots c) (pred (c_readers c)) (c_writer c) (c_held c)) s)
  | Run (CLock f k) => let c := cell_at s f in
      match c_writer c with None => Some ([], Waiting f k, set_cell f (Cell (c_slots c) (c_readers c) (Some t) false) s) | Some _ => None end
  | Waiting f k => let c := cell_at s f in
      match c_writer c with
      | Some u => if Nat.eqb u t && Nat.eqb (c_readers c) 0 then Some ([], Run k, set_cell f (Cell (c_slots c) 0 (Some t) true) s) else None
      | None => None
      end
  | Run (CUnlock f k) => let c := cell_at s f in Some ([], Run k, set_cell f (Cell (c_slots c) (c_readers c) None false) s)
  | Run (CRead f k) => Some ([], Reading f k, s)
  | Reading f k => let m := c_slots (cell_at s f) in Some ([ERead f m], Run (k m (map_to_list m)), s)
  | Run (CWrite f u k) => Some ([], Writing f (c_slots (cell_at s f)) u k, s)
  | Writing f m u k => Some ([EWrite f u], Run k, set_cell f (with_slots (apply_update u m) (cell_at s f)) s)
  | Run (CNew k) => Some ([], Run (k (l_next s)), LState (l_cells s) (S (l_next s)))
  | Run (CGet f key vis k) => Some ([], Run (get_body f key vis k), s)
  | Run (CHas f key vis k) => Some ([], Run (has_body f key vis k), s)
  end.
Lemma gexec_step t g s es g' s' : gexec t g s = Some (es, g', s') -> gstep t g s es g' s'.
Proof.
  intros H. destruct g as [[]|f c|f k|f m u c]; cbn in H; try discriminate; try (injection H as <- <- <-; constructor; reflexivity).
  - destruct (c_writer (cell_at s f)) eqn:E; [discriminate|]. injection H as <- <- <-. constructor; auto.
  - destruct (c_writer (cell_at s f)) eqn:E; [discriminate|]. injection H as <- <- <-. constructor; auto.
  - destruct (c_writer (cell_at s f)) as [u|] eqn:E; [|discriminate]. destruct (Nat.eqb_spec u t) as [->|]; [|discriminate].
    destruct (Nat.eqb_spec (c_readers (cell_at s f)) 0) as [Z|]; [|discriminate]. injection H as <- <- <-. constructor; auto.
Qed.
Lemma gstep_exec t g s es g' s' : gstep t g s es g' s' -> gexec t g s <> None.
Proof.
  intros H. destruct H; cbn; subst; try discriminate; try (rewrite H0; discriminate).
  rewrite H0, Nat.eqb_refl, H1. discriminate.
Qed.
Fixpoint gsched (l : list nat) (c : gpool) : list (nat * event) * gpool :=
  match l with
  | [] => ([], c)
  | t :: r =>
      match nth_error (fst c) t with
      | Some g => match gexec t g (snd c) with
                  | Some (es, g', s') => let x := gsched r (<[t := g']> (fst c), s') in (map (pair t) es ++ fst x, snd x)
                  | None => gsched r c
                  end
      | None => gsched r c
      end
  end.
Lemma moves_trans a h1 b h2 c : moves a h1 b -> moves b h2 c -> moves a (h1 ++ h2) c.
Proof. intros H1 H2. induction H2; [rewrite app_nil_r; exact H1|]. rewrite app_assoc. eapply mv_step; eassumption. Qed.
Lemma gsched_moves l : forall c, moves c (fst (gsched l c)) (snd (gsched l c)).
Proof.
  induction l as [|t l IH]; intros c; cbn [gsched]; [constructor|]. destruct (nth_error (fst c) t) as [g|] eqn:N; [|apply IH].
  destruct (gexec t g (snd c)) as [[[es g'] s']|] eqn:E; [|apply IH]. cbn [fst snd]. eapply moves_trans; [|apply IH].
  destruct c as [ts s]. exact (mv_step _ [] ts s t g es g' s' (mv_start _) N (gexec_step _ _ _ _ _ _ E)).
Qed.
Fixpoint stuckb (t : nat) (ts : list gor) (s : lstate) : bool :=
  match ts with [] => true | g :: r => match gexec t g s with None => stuckb (S t) r s | Some _ => false end end.
Lemma stuckb_from ts s : forall t, stuckb t ts s = true -> forall u g, nth_error ts u = Some g -> gexec (t + u) g s = None.
Proof.
  induction ts as [|g0 ts IH]; intros t H [|u] g N; cbn in *; try discriminate.
  - injection N as ->. rewrite Nat.add_0_r. destruct (gexec t g s); [discriminate|reflexivity].
  - destruct (gexec t g0 s); [discriminate|]. rewrite <- Nat.add_succ_comm. exact (IH _ H u g N).
Qed.
Definition unfinishedb (ts : list gor) : bool := existsb (fun g => match g with Run (CRet _) | Run CPanic => false | _ => true end) ts.
Lemma deadlock_check c : stuckb 0 (fst c) (snd c) = true -> unfinishedb (fst c) = true -> deadlock c.
Proof.
  intros S1 U. split.
  - intros (t & g & es & g' & s' & N & St). apply (gstep_exec _ _ _ _ _ _ St). exact (stuckb_from _ _ _ S1 t g N).
  - intros F. apply existsb_exists in U. destruct U as (g & Hg & U). rewrite List.Forall_forall in F. specialize (F g Hg). destruct g as [[]| | |]; cbn in *; try discriminate; contradiction.
Qed.
Definition one_frame (f : loc) (m : slots) : lstate := LState {[ f := Cell m 0 None false ]} 0.
Lemma one_frame_unlocked f m : unlocked (one_frame f m).
Proof.
  intros g. unfold cell_at, one_frame. cbn [l_cells]. destruct (decide (f = g)) as [<-|D]; [rewrite lookup_singleton|rewrite lookup_singleton_ne by exact D]; auto.
Qed.
Lemma one_frame_symbols f m : f <> symbols -> proper_symbols (one_frame f m).
Proof. intros D n v H. unfold cell_at, one_frame in H. cbn [l_cells] in H. rewrite lookup_singleton_ne in H by exact D. cbn in H. rewrite lookup_empty in H. discriminate. Qed.
