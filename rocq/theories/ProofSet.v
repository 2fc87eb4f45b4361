(** Proofs of C10. *)
From Verif Require Export SpecSet ProofTree.
From stdpp Require Import list.
From Verif Require Import Data.
Local Open Scope string_scope.
Local Open Scope list_scope.
Local Open Scope Z_scope.

Lemma set_arg_grows s s' v ds : grows s s' -> set_arg s v ds -> set_arg s' v ds.
Proof.
  intros G (xs & L & N & F & Fl). exists xs. split; [exact (is_list_grows _ _ _ _ G L)|]. split; [exact N|].
  split; [|exact Fl]. apply (Forall2_impl _ _ _ _ F). intros x d. apply rep_grows, G.
Qed.
Lemma set_arg_list s v ds : set_arg s v ds -> exists xs, is_list s v xs.
Proof. intros (xs & L & _). eauto. Qed.
Lemma runs_memp s i di : rep s i di -> frameless di -> forall xs l ds, is_list s l xs -> Forall2 (rep s) xs ds -> Forall frameless ds ->
  exists b, runs denote (memp i l) s (Done b) s /\ agrees b (In di ds).
Proof.
  intros Ri Fi. induction xs as [|x xs IH]; intros l ds L F Fl.
  - inversion F; subst. exists false. split; [|apply agrees_false; intros []].
    apply runs_loop_stop. rsteps. rewrite (is_list_nil_inv _ _ L). rsteps.
  - inversion F as [|? d ? ds' R F']; subst. destruct (is_list_cons_inv _ _ _ _ L) as (E1 & E2 & E3 & _).
    destruct (run_equal s di Fi i x d Ri R (Forall_inv Fl)) as (b & Rb & Hb).
    destruct b.
    + exists true. split; [|apply agrees_true; left; symmetry; apply Hb; reflexivity].
      apply runs_loop_stop. rsteps. rewrite E1. rsteps. rewrite E2. eapply runs_bind; [exact Rb|]. rsteps.
    + destruct (IH (cdr_of s l) ds' E3 F' (Forall_inv_tail Fl)) as (b & Rr & Hr). exists b. split.
      * eapply runs_loop_step; [|exact Rr]. rsteps. rewrite E1. rsteps. rewrite E2. eapply runs_bind; [exact Rb|]. rsteps.
      * unfold agrees in *. rewrite Hr. split; [intros; right; assumption|intros [->|H]; [|exact H]].
        assert (false = true) by (apply Hb; reflexivity). discriminate.
Qed.

(** *** Chains of cells that nothing else uses *)
Inductive seg (s : state) : val -> list (loc * val) -> val -> Prop :=
| seg_nil v : seg s v [] v
| seg_cons l a d cs w : s_cells s !! (l : loc) = Some (a, d) -> a <> VNil -> seg s d cs w ->
    seg s (VCell TCons l) ((l, a) :: cs) w.
(** The chain [cs] is new since [s0], without repetition, and no element reaches into the chain. *)
Record own (s0 s : state) (cs : list (loc * val)) : Prop := Own {
  own_new : forall l a, In (l, a) cs -> (s_next s0 <= l)%positive;
  own_dup : List.NoDup (map fst cs);
  own_sep : forall l a l' a', In (l, a) cs -> In (l', a') cs -> ~ part s a' l }.
Lemma seg_list s v cs w : seg s v cs w -> is_list s w [] -> is_list s v (map snd cs).
Proof. intros H L. induction H; cbn [map snd]; [exact L|]. econstructor; [eassumption|left; assumption|auto]. Qed.
Lemma seg_app s v cs w : forall cs2 u, seg s v cs w -> seg s w cs2 u -> seg s v (cs ++ cs2) u.
Proof. intros cs2 u H. induction H; intros H2; cbn [app]; [exact H2|]. econstructor; eauto. Qed.
Lemma part_same s s2 x k : part s2 x k -> (forall j, part s x j -> same_at s s2 j) -> part s x k.
Proof.
  intros H. induction H as [t l|l|l|t l a b k E P IH|t l a b k E P IH|l m n x k E I P IH]; intros S; try constructor.
  - destruct (S l (part_cell _ _ _)) as (E1 & _). rewrite E in E1. symmetry in E1. eapply part_car; [exact E1|].
    apply IH. intros j Hj. apply S. eapply part_car; eassumption.
  - destruct (S l (part_cell _ _ _)) as (E1 & _). rewrite E in E1. symmetry in E1. eapply part_cdr; [exact E1|].
    apply IH. intros j Hj. apply S. eapply part_cdr; eassumption.
  - destruct (S l (part_frame _ _)) as (_ & _ & E1). rewrite E in E1. symmetry in E1. eapply part_slot; [exact E1|exact I|].
    apply IH. intros j Hj. apply S. eapply part_slot; eassumption.
Qed.
Definition write (s : state) (l : loc) (x : val * val) : state := set_cells (put l x (s_cells s)) s.
Lemma grows_write s0 s (l : loc) x : wf_state s0 -> grows s0 s -> (s_next s0 <= l)%positive -> grows s0 (write s l x).
Proof.
  intros W G H. pose proof (g_cells _ _ G) as Gc. destruct G. constructor; cbn; try assumption.
  intros k y E. pose proof (wf_cells _ W _ _ E) as [_ B]. pose proof (Gc _ _ E) as E2.
  unfold put. destruct (s_cells s !! l); [|exact E2]. rewrite lookup_insert_ne; [exact E2|]. intros ->. lia.
Qed.
Lemma write_other s (l k : loc) x : k <> l -> s_cells (write s l x) !! k = s_cells s !! k.
Proof. intros N. cbn. unfold put. destruct (s_cells s !! l); [|reflexivity]. apply lookup_insert_ne. congruence. Qed.
Lemma write_here s (l : loc) x y : s_cells s !! l = Some y -> s_cells (write s l x) !! l = Some x.
Proof. intros E. cbn. unfold put. rewrite E. apply lookup_insert. Qed.
Lemma write_same s (l k : loc) x : k <> l -> same_at s (write s l x) k.
Proof. intros N. split; [apply write_other, N|]. split; reflexivity. Qed.
Lemma rep_write s l x v d : rep s v d -> ~ part s v l -> rep (write s l x) v d.
Proof. intros R N. apply (rep_local _ _ _ _ R); [|reflexivity]. intros k P. apply write_same. intros ->. contradiction. Qed.
Lemma seg_write s (l : loc) x v cs w : seg s v cs w -> ~ In l (map fst cs) -> seg (write s l x) v cs w.
Proof.
  intros H. induction H as [|l' a d cs w E N H IH]; intros Hl; [constructor|]. cbn in Hl.
  econstructor; [rewrite write_other; [exact E|intros ->; apply Hl; auto]|exact N|apply IH; auto].
Qed.
Lemma own_write s0 s l x cs : own s0 s cs -> (forall a l', In (l', a) cs -> ~ part s a l) -> own s0 (write s l x) cs.
Proof.
  intros [A B C] H. constructor; [exact A|exact B|]. intros k a k' a' I I' P.
  apply (C _ _ _ _ I I'). apply (part_same _ _ _ _ P). intros j Hj. apply write_same. intros ->. exact (H _ _ I' Hj).
Qed.

Lemma seg_grows s s' v cs w : grows s s' -> seg s v cs w -> seg s' v cs w.
Proof. intros G S. induction S; [constructor|]. econstructor; [apply (g_cells _ _ G); eassumption|assumption|auto]. Qed.

(** *** Copying a list gives such a chain *)
Lemma copy_chain s0 ds : forall s v xs, wf_state s -> grows s0 s -> is_list s v xs -> no_nils xs -> Forall2 (rep s) xs ds ->
  exists v' cs w s', runs denote (call (RCopy v)) s (Done v') s' /\ grows s s' /\ wf_state s' /\
    seg s' v' cs w /\ is_list s' w [] /\ own s s' cs /\ Forall2 (rep s') (map snd cs) ds /\ (v' = VNil -> v = VNil).
Proof.
  induction ds as [|q qs IH]; intros s v xs W G0 L N F.
  - inversion F; subst. exists v, [], v, s. split.
    + apply (runs_do_call denote _ (RCopy v)). cbn [denote]. pose proof (is_list_nil_inv _ _ L) as E.
      inversion L; subst; try apply runs_ret. cbn [copy_body]. rsteps. rewrite E. apply runs_ret.
    + split; [apply grows_refl|]. split; [exact W|]. split; [constructor|]. split; [exact L|].
      split; [constructor; [intros ? ? []|constructor|intros ? ? ? ? []]|]. split; [constructor|auto].
  - inversion F as [|x ? ys ? R F']; subst. destruct (is_list_cons_inv _ _ _ _ L) as (E1 & E2 & E3 & l & ->).
    destruct (run_copy_tree q s x W R) as (x' & s1 & C1). pose proof (copies_wf _ _ _ _ _ W C1) as W1. destruct C1 as (R1 & G1 & Rx & Nilx & Nx).
    assert (Ecd : cdr_of s1 (VCell TCons l) = cdr_of s (VCell TCons l)).
    { inversion L as [| | |? ? b ? E0 N0 T0]; subst. cbn. rewrite (cell_some _ _ _ E0), (cell_some _ _ _ (g_cells _ _ G1 _ _ E0)). reflexivity. }
    destruct (IH s1 (cdr_of s (VCell TCons l)) ys W1 (grows_trans _ _ _ G0 G1) (is_list_grows _ _ _ _ G1 E3) (Forall_inv_tail N)) as (t' & cs & w & s2 & R2 & G2 & W2 & S2 & Lw & O2 & F2 & Nt).
    { apply (Forall2_impl _ _ _ _ F'). intros p q' A. exact (rep_grows _ _ _ _ G1 A). }
    pose proof (grows_new_cell s2 x' t' W2) as G3. pose proof (wf_new_cell s2 x' t' W2) as W3.
    set (s3 := set_cells (<[s_next s2 := (x', t')]> (s_cells s2)) (bump s2)) in *.
    assert (Hc : s_cells s3 !! s_next s2 = Some (x', t')) by apply cell_new.
    exists (VCell TCons (s_next s2)), ((s_next s2, x') :: cs), w, s3.
    assert (Old : forall a k, In a (map snd cs) -> part s3 a k -> part s2 a k /\ (k < s_next s2)%positive).
    { intros a k Ia Pk. assert (exists d, rep s2 a d) as [d Rd].
      { clear -Ia F2. induction F2; [destruct Ia|]. destruct Ia as [<-|Ia]; eauto. }
      pose proof (part_back _ _ _ _ G3 Pk _ Rd) as P2. split; [exact P2|]. apply (part_old _ _ _ W2 P2 _ Rd). }
    assert (OldX : forall k, part s3 x' k -> part s1 x' k /\ (k < s_next s1)%positive).
    { intros k Pk. pose proof (part_back _ _ _ _ (grows_trans _ _ _ G2 G3) Pk _ Rx) as P1. split; [exact P1|]. apply (part_old _ _ _ W1 P1 _ Rx). }
    pose proof (g_next _ _ G1) as B1. pose proof (g_next _ _ G2) as B2.
    split; [|split; [|split; [exact W3|split; [|split; [|split; [|split; [|discriminate]]]]]]].
    + apply (runs_do_call denote _ (RCopy (VCell TCons l))). cbn [denote copy_body]. rsteps. rewrite E1. rsteps. rewrite E2.
      eapply runs_bind; [exact R1|]. rsteps. rewrite Ecd. eapply runs_bind; [exact R2|]. rsteps.
    + exact (grows_trans _ _ _ G1 (grows_trans _ _ _ G2 G3)).
    + econstructor; [exact Hc|intros C; apply (Forall_inv N); auto|].
      exact (seg_grows _ _ _ _ _ G3 S2).
    + exact (is_list_grows _ _ _ _ G3 Lw).
    + assert (Bc : forall l a, In (l, a) cs -> (l < s_next s2)%positive).
      { intros k a Ik. clear -S2 Ik W2. induction S2; [destruct Ik|]. destruct Ik as [[= -> ->]|Ik]; [apply (wf_cells _ W2 _ _ H)|auto]. }
      constructor.
      * intros k a [[= <- <-]|Ik]; [lia|]. pose proof (own_new _ _ _ O2 _ _ Ik). lia.
      * cbn [map fst]. constructor; [|apply O2]. intros C. apply in_map_iff in C. destruct C as ([k a] & Ek & Ik). cbn in Ek. subst k.
        pose proof (Bc _ _ Ik). lia.
      * intros k a k' a' [[= <- <-]|Ik] [[= <- <-]|Ik'] P.
        -- destruct (OldX _ P). lia.
        -- destruct (Old a' _ (in_map snd _ _ Ik') P). lia.
        -- destruct (OldX _ P). pose proof (own_new _ _ _ O2 _ _ Ik). lia.
        -- destruct (Old a' _ (in_map snd _ _ Ik') P) as [P2 _]. exact (own_sep _ _ _ O2 _ _ _ _ Ik Ik' P2).
    + cbn [map snd]. constructor; [exact (rep_grows _ _ _ _ (grows_trans _ _ _ G2 G3) Rx)|].
      apply (Forall2_impl _ _ _ _ F2). intros p q' A. exact (rep_grows _ _ _ _ G3 A).
Qed.

(** *** union *)
Lemma runs_set_cdr s t (l : loc) a b d : s_cells s !! l = Some (a, b) -> runs denote (set_cdr (VCell t l) d) s (Done tt) (write s l (a, d)).
Proof. intros E. unfold set_cdr. apply runs_op. cbn. rewrite (cell_some _ _ _ E). reflexivity. Qed.
Lemma seg_last s v cs l a w : seg s v (cs ++ [(l, a)]) w -> s_cells s !! (l : loc) = Some (a, w) /\ a <> VNil.
Proof.
  revert v. induction cs as [|[k x] cs IH]; intros v H; inversion H as [|? ? d ? ? E N S]; subst.
  - inversion S; subst. auto.
  - eapply IH. exact S.
Qed.
Lemma nilb_cell s t (l : loc) a d : s_cells s !! l = Some (a, d) -> a <> VNil -> nilb s (VCell t l) = false.
Proof. intros E N. cbn [nilb]. rewrite (cell_some _ _ _ E). destruct a; try reflexivity. congruence. Qed.
Lemma runs_last_cell s w : is_list s w [] -> forall cs v l a, seg s v (cs ++ [(l, a)]) w -> runs denote (last_cell v) s (Done (VCell TCons l)) s.
Proof.
  intros Lw. induction cs as [|[k x] cs IH]; intros v l a H; inversion H as [|? ? d ? ? E N S]; subst.
  - inversion S; subst. apply runs_loop_stop. rsteps. cbn [cdr_of]. rewrite (cell_some _ _ _ E). cbn [snd].
    rewrite (is_list_nil_inv _ _ Lw). apply runs_ret.
  - eapply runs_loop_step; [|eapply IH; exact S]. rsteps. cbn [cdr_of]. rewrite (cell_some _ _ _ E). cbn [snd].
    assert (Nd : nilb s d = false).
    { destruct cs as [|[k2 x2] cs]; cbn [app] in S; inversion S as [|? ? d2 ? ? E2 N2 S2]; subst; exact (nilb_cell _ _ _ _ _ E2 N2). }
    rewrite Nd. rsteps. cbn [cdr_of]. rewrite (cell_some _ _ _ E). apply runs_ret.
Qed.
Lemma seg_relink s v cs l a u w : seg s v (cs ++ [(l, a)]) w -> ~ In l (map fst cs) -> seg (write s l (a, u)) v (cs ++ [(l, a)]) u.
Proof.
  revert v. induction cs as [|[k x] cs IH]; intros v H N; inversion H as [|? ? d ? ? E Na S]; subst.
  - inversion S; subst. cbn [app]. econstructor; [eapply write_here; exact E|exact Na|constructor].
  - cbn [app]. econstructor; [rewrite write_other; [exact E|intros ->; apply N; left; reflexivity]|exact Na|].
    apply IH; [exact S|]. intros C. apply N. right. exact C.
Qed.
Lemma Forall2_in_l {A B} (P : A -> B -> Prop) xs ys x : Forall2 P xs ys -> In x xs -> exists y, In y ys /\ P x y.
Proof. intros F. induction F; intros I; [destruct I|]. destruct I as [<-|I]; [eexists; split; [left; reflexivity|assumption]|]. destruct (IHF I) as (z & I2 & P2). exists z. split; [right; exact I2|exact P2]. Qed.
Lemma seg_no_nils s v cs w : seg s v cs w -> no_nils (map snd cs).
Proof. intros S. induction S; constructor; assumption. Qed.
Lemma runs_append_one s acc ds a d : wf_state s -> set_arg s acc ds -> a <> VNil -> rep s a d -> frameless d -> exists v s',
  runs denote (append_one acc a) s (Done v) s' /\ grows s s' /\ wf_state s' /\ set_arg s' v (ds ++ [d]).
Proof.
  intros W (xs & L & N & F & Fl) Na Ra Fd. unfold append_one. destruct xs as [|x xs].
  - inversion F; subst. pose proof (grows_new_cell s a VNil W) as G.
    eexists _, _. split; [rsteps; rewrite (is_list_nil_inv _ _ L); rsteps|]. split; [exact G|]. split; [apply wf_new_cell, W|].
    exists [a]. split; [|split; [|split]].
    + econstructor; [apply cell_new|left; exact Na|constructor].
    + repeat constructor. exact Na.
    + repeat constructor. exact (rep_grows _ _ _ _ G Ra).
    + repeat constructor. exact Fd.
  - destruct (copy_chain s ds s acc (x :: xs) W (grows_refl s) L N F) as (nl & cs & w & s1 & R1 & G1 & W1 & S1 & Lw & O1 & F1 & _).
    destruct (exists_last (l := cs)) as (cs0 & [l y] & ->).
    { intros ->. inversion F1; subst. inversion F. }
    destruct (seg_last _ _ _ _ _ _ S1) as [El Ny].
    pose proof (grows_new_cell s1 a VNil W1) as G2. pose proof (wf_new_cell s1 a VNil W1) as W2.
    set (s2 := set_cells (<[s_next s1 := (a, VNil)]> (s_cells s1)) (bump s1)) in *.
    assert (Hn : s_cells s2 !! s_next s1 = Some (a, VNil)) by apply cell_new.
    pose proof (g_cells _ _ G2 _ _ El) as El2.
    assert (Il : In (l, y) (cs0 ++ [(l, y)])) by (apply in_or_app; right; left; reflexivity).
    assert (Bl : (s_next s <= l)%positive) by exact (own_new _ _ _ O1 _ _ Il).
    assert (Ll : (l < s_next s1)%positive) by apply (wf_cells _ W1 _ _ El).
    exists nl, (write s2 l (y, VCell TCons (s_next s1))).
    assert (Run : runs denote (n <- nilp acc ;; if n then cons a VNil else nl <- call (RCopy acc) ;; c <- last_cell nl ;; d <- cons a VNil ;; set_cdr c d ;;; Ret nl)
      s (Done nl) (write s2 l (y, VCell TCons (s_next s1)))).
    { rsteps. destruct (is_list_cons_inv _ _ _ _ L) as (E & _). rewrite E.
      eapply runs_bind; [exact R1|]. eapply runs_bind; [eapply runs_last_cell; eassumption|]. rstep.
      eapply runs_bind; [apply (runs_set_cdr _ _ _ y w); exact El2|apply runs_ret]. }
    split; [exact Run|]. split; [apply grows_write; [exact W|exact (grows_trans _ _ _ G1 G2)|exact Bl]|].
    split; [exact (wf_runs _ _ _ _ _ W Run)|].
    assert (Nd : ~ In l (map fst cs0)).
    { pose proof (own_dup _ _ _ O1) as D. rewrite map_app in D. cbn in D. apply NoDup_remove_2 in D. rewrite app_nil_r in D. exact D. }
    exists (map snd (cs0 ++ [(l, y)]) ++ [a]). split; [|split; [|split]].
    + replace (map snd (cs0 ++ [(l, y)]) ++ [a]) with (map snd ((cs0 ++ [(l, y)]) ++ [(s_next s1, a)])) by (rewrite (map_app snd (cs0 ++ _)); reflexivity).
      apply (seg_list _ _ _ VNil); [|constructor]. eapply seg_app.
      * eapply seg_relink; [apply (seg_grows s1); [exact G2|exact S1]|exact Nd].
      * econstructor; [rewrite write_other; [exact Hn|lia]|exact Na|constructor].
    + apply Forall_app. split; [exact (seg_no_nils _ _ _ _ S1)|repeat constructor; exact Na].
    + apply Forall2_app.
      * assert (Sep : forall z, In z (map snd (cs0 ++ [(l, y)])) -> ~ part s2 z l).
        { intros z Iz P. destruct (Forall2_in_l _ _ _ _ F1 Iz) as (dz & _ & Rz). apply in_map_iff in Iz. destruct Iz as ([k z'] & E & Iz). cbn in E. subst z'.
          exact (own_sep _ _ _ O1 _ _ _ _ Il Iz (part_back _ _ _ _ G2 P _ Rz)). }
        clear -F1 Sep G2. induction F1 as [|z dz zs dzs Rz F1 IH]; constructor.
        -- apply rep_write; [exact (rep_grows _ _ _ _ G2 Rz)|apply Sep; left; reflexivity].
        -- apply IH. intros z' Iz. apply Sep. right. exact Iz.
      * repeat constructor. apply rep_write; [exact (rep_grows _ _ _ _ (grows_trans _ _ _ G1 G2) Ra)|].
        intros P. pose proof (part_back _ _ _ _ (grows_trans _ _ _ G1 G2) P _ Ra) as P0. pose proof (part_old _ _ _ W P0 _ Ra) as [B _]. lia.
    + apply Forall_app. split; [exact Fl|repeat constructor; exact Fd].
Qed.
Lemma firsts_seen_eq {A} (xs : list A) : forall s1 s2 ys, (forall x, In x s1 <-> In x s2) -> firsts s1 xs ys -> firsts s2 xs ys.
Proof.
  intros s1 s2 ys E H. revert s2 E. induction H; intros s2 E.
  - constructor.
  - apply firsts_seen; [apply E; assumption|auto].
  - apply firsts_new; [intros C; apply H, E, C|]. apply IHfirsts. intros z. cbn. rewrite E. reflexivity.
Qed.
Lemma firsts_app {A} (xs1 : list A) : forall xs2 seen ys1 ys2, firsts seen xs1 ys1 -> firsts (seen ++ ys1) xs2 ys2 -> firsts seen (xs1 ++ xs2) (ys1 ++ ys2).
Proof.
  intros xs2 seen ys1 ys2 H. revert ys2. induction H; intros ys2 H2; cbn [app].
  - rewrite app_nil_r in H2. exact H2.
  - apply firsts_seen; auto.
  - apply firsts_new; [assumption|]. apply IHfirsts. eapply firsts_seen_eq; [|exact H2].
    intros z. cbn. rewrite !in_app_iff. cbn. tauto.
Qed.
Lemma runs_union_one dcol : forall s col xs acc da, wf_state s -> is_list s col xs -> no_nils xs -> Forall2 (rep s) xs dcol -> Forall frameless dcol ->
  set_arg s acc da -> exists acc' new s', runs denote (union_one col acc) s (Done acc') s' /\ grows s s' /\ wf_state s' /\
  set_arg s' acc' (da ++ new) /\ firsts da dcol new.
Proof.
  induction dcol as [|d dcol IH]; intros s col xs acc da W L N F Fl A.
  - inversion F; subst. exists acc, [], s. rewrite app_nil_r. split; [|split; [apply grows_refl|split; [exact W|split; [exact A|constructor]]]].
    apply runs_loop_stop. rsteps. rewrite (is_list_nil_inv _ _ L). rsteps.
  - inversion F as [|x ? ys ? R F']; subst. destruct (is_list_cons_inv _ _ _ _ L) as (E1 & E2 & E3 & l & ->).
    pose proof A as (axs & La & Naa & Fa & Fla).
    destruct (runs_memp s x d R (Forall_inv Fl) axs acc da La Fa Fla) as (b & Rb & Hb). destruct b.
    + destruct (IH s (cdr_of s (VCell TCons l)) ys acc da W E3 (Forall_inv_tail N) F' (Forall_inv_tail Fl) A) as (acc' & new & s' & Rr & G & W' & A' & Fi).
      exists acc', new, s'. split; [|split; [exact G|split; [exact W'|split; [exact A'|apply firsts_seen; [apply Hb; reflexivity|exact Fi]]]]].
      eapply runs_loop_step; [|exact Rr]. rsteps. rewrite E1. rsteps. rewrite E2. eapply runs_bind; [exact Rb|]. rsteps.
    + destruct (runs_append_one s acc da x d W A (Forall_inv N) R (Forall_inv Fl)) as (acc1 & s1 & Ra & G1 & W1 & A1).
      assert (Ecd : cdr_of s1 (VCell TCons l) = cdr_of s (VCell TCons l)).
      { inversion L as [| | |? ? b ? E0 N0 T0]; subst. cbn. rewrite (cell_some _ _ _ E0), (cell_some _ _ _ (g_cells _ _ G1 _ _ E0)). reflexivity. }
      destruct (IH s1 (cdr_of s (VCell TCons l)) ys acc1 (da ++ [d]) W1 (is_list_grows _ _ _ _ G1 E3) (Forall_inv_tail N)) as (acc' & new & s' & Rr & G & W' & A' & Fi).
      { apply (Forall2_impl _ _ _ _ F'). intros p q' B. exact (rep_grows _ _ _ _ G1 B). }
      { exact (Forall_inv_tail Fl). } { exact A1. }
      exists acc', (d :: new), s'. split; [|split; [exact (grows_trans _ _ _ G1 G)|split; [exact W'|split]]].
      * eapply runs_loop_step; [|exact Rr]. rsteps. rewrite E1. rsteps. rewrite E2. eapply runs_bind; [exact Rb|]. rsteps. rewrite E2.
        eapply runs_bind; [exact Ra|]. rsteps. rewrite Ecd. apply runs_ret.
      * rewrite <- app_assoc in A'. exact A'.
      * apply firsts_new.
        -- intros C. assert (false = true) by (apply Hb; exact C). discriminate.
        -- eapply firsts_seen_eq; [|exact Fi]. intros z. rewrite in_app_iff. cbn. tauto.
Qed.
Lemma runs_union_go cols dss : forall s acc da, wf_state s -> Forall2 (set_arg s) cols dss -> set_arg s acc da ->
  exists v new s', runs denote (union_go cols acc) s (Done (Ok v)) s' /\ grows s s' /\ set_arg s' v (da ++ new) /\ firsts da (List.concat dss) new.
Proof.
  intros s acc da W F. revert acc da. remember s as s0 eqn:Es. assert (G0 : grows s0 s) by (subst; apply grows_refl). clear Es.
  revert s G0 W. cut (forall s, grows s0 s -> wf_state s -> forall acc da, set_arg s acc da ->
    exists v new s', runs denote (union_go cols acc) s (Done (Ok v)) s' /\ grows s s' /\ set_arg s' v (da ++ new) /\ firsts da (List.concat dss) new).
  { intros H s G0 W acc da A. exact (H s0 (grows_refl _) W acc da A). }
  induction F as [|col dcol cols dss (xs & L & N & Fc & Fl) F IH]; intros s G0 W acc da A.
  - exists acc, [], s. rewrite app_nil_r. split; [apply runs_ret|]. split; [apply grows_refl|]. split; [exact A|constructor].
  - cbn [union_go]. rewrite (is_list_listp _ _ _ L). cbn [negb].
    destruct (runs_union_one dcol s col xs acc da W (is_list_grows _ _ _ _ G0 L) N) as (acc1 & new1 & s1 & R1 & G1 & W1 & A1 & Fi1).
    { apply (Forall2_impl _ _ _ _ Fc). intros p q' B. exact (rep_grows _ _ _ _ G0 B). } { exact Fl. } { exact A. }
    destruct (IH s1 (grows_trans _ _ _ G0 G1) W1 acc1 (da ++ new1) A1) as (v & new2 & s2 & R2 & G2 & A2 & Fi2).
    exists v, (new1 ++ new2), s2. split; [eapply runs_bind; [exact R1|exact R2]|]. split; [exact (grows_trans _ _ _ G1 G2)|].
    rewrite <- app_assoc in A2. split; [exact A2|]. cbn [List.concat]. apply firsts_app; assumption.
Qed.
Lemma run_union cols dss env s : wf_state s -> Forall2 (set_arg s) cols dss -> exists v ds s',
  applies "union" cols env s (Done (Ok v)) s' /\ grows s s' /\ set_arg s' v ds /\ firsts [] (List.concat dss) ds.
Proof.
  intros W F. destruct (runs_union_go cols dss (entering "union" env s) VNil []) as (v & ds & s' & R & G & A & Fi).
  - apply wf_entering, W.
  - apply (Forall2_impl _ _ _ _ F). intros c d. apply set_arg_grows, grows_entering.
  - exists []. repeat constructor.
  - exists v, ds, s'. split; [applies; exact R|]. split; [eapply grows_trans; [apply grows_entering|exact G]|]. auto.
Qed.
Lemma firsts_spec {A} (xs : list A) : forall seen ys, firsts seen xs ys ->
  List.NoDup ys /\ (forall x, In x ys -> In x xs /\ ~ In x seen) /\ (forall x, In x xs -> In x seen \/ In x ys).
Proof.
  intros seen ys H. induction H as [|seen x xs ys I H (IH1 & IH2 & IH3)|seen x xs ys I H (IH1 & IH2 & IH3)].
  - split; [constructor|]. split; intros x [].
  - split; [exact IH1|]. split; intros z; cbn; [intros C; apply IH2 in C; tauto|]. intros [<-|B]; auto.
  - split; [constructor; [|exact IH1]; intros C; apply IH2 in C; cbn in C; tauto|]. split; intros z; cbn.
    + intros [<-|C]; [tauto|]. apply IH2 in C. cbn in C. tauto.
    + intros [<-|C]; [tauto|]. apply IH3 in C. cbn in C. tauto.
Qed.

(** *** intersection and complement *)
Lemma is_list_nil_write s (l : loc) a b x w : s_cells s !! l = Some (a, b) -> a <> VNil -> is_list s w [] -> is_list (write s l x) w [].
Proof.
  intros E N L. inversion L as [|t|k Ek|]; subst; [constructor|constructor|]. constructor. rewrite write_other; [exact Ek|].
  intros ->. rewrite E in Ek. congruence.
Qed.
(** The first cell whose element equals the item is unlinked. *)
Lemma run_remove s res item di (l : loc) a da d : rep s item di -> frameless di -> s_cells s !! l = Some (a, d) -> a <> VNil ->
  rep s a da -> di = da ->
  forall cs ds v, seg s v cs (VCell TCons l) -> Forall2 (rep s) (map snd cs) ds -> Forall frameless ds -> Forall (fun x => x <> di) ds ->
  forall prev, (prev = VNil -> runs denote (for_cells (fun prev c =>
               a <- car c ;; e <- call (REqual item a) ;;
               if e : bool then
                 pn <- nilp prev ;;
                 if pn then (d <- cdr c ;; Ret (inr d))
                 else (d <- cdr c ;; set_cdr prev d ;;; Ret (inr res))
               else Ret (inl c))
            (fun _ => Ret res) v prev) s (Done (match cs with [] => d | _ => res end)) (match rev cs with [] => s | (k, x) :: _ => write s k (x, d) end)) /\
  (forall p y yd, prev = VCell TCons p -> s_cells s !! (p : loc) = Some (y, yd) -> y <> VNil -> runs denote (for_cells (fun prev c =>
               a <- car c ;; e <- call (REqual item a) ;;
               if e : bool then
                 pn <- nilp prev ;;
                 if pn then (d <- cdr c ;; Ret (inr d))
                 else (d <- cdr c ;; set_cdr prev d ;;; Ret (inr res))
               else Ret (inl c))
            (fun _ => Ret res) v prev) s (Done res) (match rev cs with [] => write s p (y, d) | (k, x) :: _ => write s k (x, d) end)).
Proof.
  intros Ri Fi E Na Ra <-. destruct (run_equal s di Fi item a di Ri Ra Fi) as (b & Rb & Hb).
  assert (b = true) as -> by (apply Hb; reflexivity).
  induction cs as [|[k x] cs IH]; intros ds v S F Fl Ne prev.
  - inversion S; subst. split.
    + intros ->. cbn [rev]. apply runs_loop_stop. rsteps. rewrite (nilb_cell _ _ _ _ _ E Na). rsteps. cbn [car_of]. rewrite (cell_some _ _ _ E). cbn [fst].
      eapply runs_bind; [exact Rb|]. rsteps. cbn [nilb cdr_of]. rsteps. cbn [cdr_of]. rewrite (cell_some _ _ _ E). apply runs_ret.
    + intros p y yd -> Ep Ny. cbn [rev]. apply runs_loop_stop. rsteps. rewrite (nilb_cell _ _ _ _ _ E Na). rsteps. cbn [car_of]. rewrite (cell_some _ _ _ E). cbn [fst].
      eapply runs_bind; [exact Rb|]. rsteps. rewrite (nilb_cell _ _ _ _ _ Ep Ny). rsteps. cbn [cdr_of]. rewrite (cell_some _ _ _ E). cbn [snd].
      eapply runs_bind; [apply (runs_set_cdr _ _ _ _ _ _ Ep)|]. apply runs_ret.
  - inversion S as [|? ? d' ? ? Ek Nk S']; subst. inversion F as [|? dx ? dxs Rx F']; subst.
    destruct (run_equal s di Fi item x dx Ri Rx (Forall_inv Fl)) as (b & Rb' & Hb'). destruct b.
    { exfalso. apply (Forall_inv Ne). symmetry. apply Hb'. reflexivity. }
    assert (Er : (match rev cs with [] => write s k (x, d) | (k, x) :: _ => write s k (x, d) end) = match rev ((k, x) :: cs) with [] => s | (k, x) :: _ => write s k (x, d) end).
    { cbn [rev]. destruct (rev cs) as [|[k2 x2] r]; reflexivity. }
    destruct (IH dxs d' S' F' (Forall_inv_tail Fl) (Forall_inv_tail Ne) (VCell TCons k)) as [_ H2]. specialize (H2 k x d' eq_refl Ek Nk).
    assert (Step : forall prev, runs denote (for_cells (fun prev c =>
               a <- car c ;; e <- call (REqual item a) ;;
               if e : bool then
                 pn <- nilp prev ;;
                 if pn then (d <- cdr c ;; Ret (inr d))
                 else (d <- cdr c ;; set_cdr prev d ;;; Ret (inr res))
               else Ret (inl c))
            (fun _ => Ret res) (VCell TCons k) prev) s (Done res) (match rev cs with [] => write s k (x, d) | (k, x) :: _ => write s k (x, d) end)).
    { intros pr. eapply runs_loop_step; [|exact H2]. rsteps. rewrite (nilb_cell _ _ _ _ _ Ek Nk). rsteps. cbn [car_of]. rewrite (cell_some _ _ _ Ek). cbn [fst].
      eapply runs_bind; [exact Rb'|]. rsteps. cbn [cdr_of]. rewrite (cell_some _ _ _ Ek). apply runs_ret. }
    rewrite Er in Step. split.
    + intros ->. apply Step.
    + intros p y yd -> Ep Ny. specialize (Step (VCell TCons p)). cbn [rev] in Step |- *. destruct (rev cs) as [|[k2 x2] r]; exact Step.
Qed.
Lemma run_remove_here s res cs (l : loc) a da d ds : s_cells s !! l = Some (a, d) -> a <> VNil -> rep s a da -> frameless da ->
  seg s res cs (VCell TCons l) -> Forall2 (rep s) (map snd cs) ds -> Forall frameless ds -> Forall (fun x => x <> da) ds ->
  runs denote (remove_from_list_bang res a) s (Done (match cs with [] => d | _ => res end)) (match rev cs with [] => s | (k, x) :: _ => write s k (x, d) end).
Proof.
  intros E Na Ra Fa S F Fl Ne. exact (proj1 (run_remove s res a da l a da d Ra Fa E Na Ra eq_refl cs ds res S F Fl Ne VNil) eq_refl).
Qed.
Lemma own_incl s0 s cs cs' : own s0 s cs -> incl cs' cs -> List.NoDup (map fst cs') -> own s0 s cs'.
Proof. intros [A B C] I D. constructor; [intros l a H; eapply A; apply I, H|exact D|]. intros l a l' a' H H'. eapply C; apply I; eassumption. Qed.

Definition kept_if (drop : bool) (dcol : list datum) (d : datum) : Prop := if drop then ~ In d dcol else In d dcol.
Lemma run_prune_one s0 drop col dcol : wf_state s0 -> set_arg s0 col dcol ->
  forall dt cs2 cs1 dk s c res w, wf_state s -> grows s0 s -> own s0 s (cs1 ++ cs2) -> seg s res cs1 c -> seg s c cs2 w -> is_list s w [] ->
  Forall2 (rep s) (map snd cs1) dk -> Forall2 (rep s) (map snd cs2) dt -> Forall frameless dk -> Forall frameless dt -> Forall (kept_if drop dcol) dk ->
  exists cs' res' s' dt', runs denote (for_cells (fun res c =>
               a <- car c ;; m <- memp a col ;;
               if Bool.eqb m drop then a <- car c ;; res' <- remove_from_list_bang res a ;; Ret (inl res')
               else Ret (inl res))
            (fun res => Ret res) c res) s (Done res') s' /\
    wf_state s' /\ grows s0 s' /\ own s0 s' cs' /\ seg s' res' cs' w /\ is_list s' w [] /\
    Forall2 (rep s') (map snd cs') (dk ++ dt') /\ keeps (kept_if drop dcol) dt dt'.
Proof.
  intros W0 Sc. induction dt as [|d dt IH]; intros cs2 cs1 dk s c res w W G O S1 S2 Lw F1 F2 Fl1 Fl2 K.
  - destruct cs2; [|inversion F2]. inversion S2; subst. exists cs1, res, s, []. rewrite app_nil_r in *.
    split; [|repeat (apply conj; [assumption|]); constructor].
    apply runs_loop_stop. rsteps. rewrite (is_list_nil_inv _ _ Lw). rsteps.
  - destruct cs2 as [|[l a] cs2]; inversion F2 as [|? ? ? ? Ra F2']; subst. inversion S2 as [|? ? u ? ? El Na S2']; subst.
    destruct (set_arg_grows _ _ _ _ G Sc) as (xs & Lc & Nc & Fc & Flc).
    destruct (runs_memp s a d Ra (Forall_inv Fl2) xs col dcol Lc Fc Flc) as (b & Rb & Hb).
    assert (Dup : ~ In l (map fst cs1) /\ ~ In l (map fst cs2) /\ List.NoDup (map fst (cs1 ++ cs2))).
    { pose proof (own_dup _ _ _ O) as D. rewrite map_app in D. cbn in D. rewrite map_app. split; [|split].
      - intros C. apply NoDup_remove_2 in D. apply D. apply in_or_app. auto.
      - intros C. apply NoDup_remove_2 in D. apply D. apply in_or_app. auto.
      - apply NoDup_remove_1 in D. exact D. }
    destruct Dup as (D1 & D2 & D3).
    destruct (Bool.eqb b drop) eqn:Eb.
    + apply Bool.eqb_prop in Eb. subst b.
      assert (Ng : ~ kept_if drop dcol d).
      { unfold kept_if. destruct drop; [intros C; apply C, Hb; reflexivity|intros C; apply Hb in C; discriminate]. }
      assert (Ne : Forall (fun x => x <> d) dk).
      { clear -K Ng. induction K; constructor; [congruence|assumption]. }
      pose proof (run_remove_here s res cs1 l a d u dk El Na Ra (Forall_inv Fl2) S1 F1 Fl1 Ne) as Rm.
      set (res1 := match cs1 with [] => u | _ => res end) in *.
      set (s1 := match rev cs1 with [] => s | (k, x) :: _ => write s k (x, u) end) in *.
      assert (Inv : wf_state s1 /\ grows s0 s1 /\ own s0 s1 (cs1 ++ cs2) /\ seg s1 res1 cs1 u /\ seg s1 u cs2 w /\ is_list s1 w [] /\
        Forall2 (rep s1) (map snd cs1) dk /\ Forall2 (rep s1) (map snd cs2) dt /\ s_cells s1 !! l = Some (a, u)).
      { split; [exact (wf_runs _ _ _ _ _ W Rm)|]. unfold s1, res1. clear Rm s1 res1.
        assert (O' : own s0 s (cs1 ++ cs2)).
        { apply (own_incl _ _ _ _ O); [|exact D3]. intros p Ip. apply in_app_or in Ip. apply in_or_app. destruct Ip; [left|right; right]; assumption. }
        destruct cs1 as [|p cs1'] using rev_ind.
        - cbn [rev]. inversion S1; subst. repeat (apply conj; [assumption || constructor|]). assumption.
        - clear IHcs1'. rewrite rev_app_distr. cbn [rev app]. destruct p as [k x].
          replace (match cs1' ++ [(k, x)] with [] => u | _ => res end) with res by (destruct cs1'; reflexivity).
          destruct (seg_last _ _ _ _ _ _ S1) as [Ek Nk].
          assert (Ik : In (k, x) ((cs1' ++ [(k, x)]) ++ cs2)) by (apply in_or_app; left; apply in_or_app; right; left; reflexivity).
          assert (Dk : ~ In k (map fst cs1') /\ ~ In k (map fst cs2)).
          { rewrite <- app_assoc in D3. rewrite map_app in D3. cbn in D3. apply NoDup_remove_2 in D3. split; intros C; apply D3, in_or_app; auto. }
          destruct Dk as [Dk1 Dk2].
          assert (Sep : forall y k', In (k', y) ((cs1' ++ [(k, x)]) ++ cs2) -> ~ part s y k) by (intros y k' Iy; exact (own_sep _ _ _ O' _ _ _ _ Ik Iy)).
          assert (RF : forall cs' dd, incl cs' ((cs1' ++ [(k, x)]) ++ cs2) -> Forall2 (rep s) (map snd cs') dd -> Forall2 (rep (write s k (x, u))) (map snd cs') dd).
          { intros cs' dd I F. revert dd F. induction cs' as [|[k' y] cs' IHc]; intros dd F; inversion F; subst; constructor.
            - apply rep_write; [assumption|]. eapply Sep. apply I. left. reflexivity.
            - apply IHc; [|assumption]. intros q Iq. apply I. right. exact Iq. }
          split; [apply grows_write; [exact W0|exact G|exact (own_new _ _ _ O' _ _ Ik)]|].
          split; [apply own_write; [exact O'|exact Sep]|].
          split; [eapply seg_relink; [exact S1|exact Dk1]|].
          split; [apply seg_write; [exact S2'|exact Dk2]|].
          split; [eapply is_list_nil_write; eassumption|].
          split; [apply RF; [apply incl_appl, incl_refl|exact F1]|].
          split; [apply RF; [apply incl_appr, incl_refl|exact F2']|].
          rewrite write_other; [exact El|]. intros ->. apply D1. rewrite map_app. apply in_or_app. right. left. reflexivity. }
      destruct Inv as (W1 & G1 & O1 & S1' & S2'' & Lw1 & F1' & F2'' & El1).
      destruct (IH cs2 cs1 dk s1 u res1 w W1 G1 O1 S1' S2'' Lw1 F1' F2'' Fl1 (Forall_inv_tail Fl2) K) as (cs' & res' & s' & dt' & R & H).
      exists cs', res', s', dt'. split.
      * eapply runs_loop_step; [|exact R]. rsteps. rewrite (nilb_cell _ _ _ _ _ El Na). rsteps. cbn [car_of]. rewrite (cell_some _ _ _ El). cbn [fst].
        eapply runs_bind; [exact Rb|]. rewrite Bool.eqb_reflx. rsteps. cbn [car_of]. rewrite (cell_some _ _ _ El). cbn [fst].
        eapply runs_bind; [exact Rm|]. rsteps. cbn [cdr_of]. rewrite (cell_some _ _ _ El1). apply runs_ret.
      * destruct H as (H1 & H2 & H3 & H4 & H5 & H6 & H7). repeat (apply conj; [assumption|]). apply keeps_no; assumption.
    + assert (Yes : kept_if drop dcol d).
      { unfold kept_if. destruct drop, b; try discriminate.
        - intros C. apply Hb in C. discriminate.
        - apply Hb. reflexivity. }
      destruct (IH cs2 (cs1 ++ [(l, a)]) (dk ++ [d]) s u res w W G) as (cs' & res' & s' & dt' & R & H); try assumption.
      * rewrite <- app_assoc. exact O.
      * eapply seg_app; [exact S1|]. econstructor; [exact El|exact Na|constructor].
      * rewrite map_app. apply Forall2_app; [exact F1|]. repeat constructor. exact Ra.
      * apply Forall_app. split; [exact Fl1|]. repeat constructor. exact (Forall_inv Fl2).
      * exact (Forall_inv_tail Fl2).
      * apply Forall_app. split; [exact K|]. repeat constructor. exact Yes.
      * exists cs', res', s', (d :: dt'). split.
        -- eapply runs_loop_step; [|exact R]. rsteps. rewrite (nilb_cell _ _ _ _ _ El Na). rsteps. cbn [car_of]. rewrite (cell_some _ _ _ El). cbn [fst].
           eapply runs_bind; [exact Rb|]. rewrite Eb. rsteps. cbn [cdr_of]. rewrite (cell_some _ _ _ El). apply runs_ret.
        -- destruct H as (H1 & H2 & H3 & H4 & H5 & H6 & H7). rewrite <- app_assoc in H6. repeat (apply conj; [assumption|]). apply keeps_yes; assumption.
Qed.
Lemma keeps_compose {A} (P Q : A -> Prop) xs ys : keeps P xs ys -> forall zs, keeps Q ys zs -> keeps (fun x => P x /\ Q x) xs zs.
Proof.
  intros H. induction H; intros zs H2.
  - inversion H2; subst. constructor.
  - inversion H2; subst; [apply keeps_yes; auto|apply keeps_no; [tauto|auto]].
  - apply keeps_no; [tauto|auto].
Qed.
Lemma keeps_iff {A} (P Q : A -> Prop) xs ys : (forall x, P x <-> Q x) -> keeps P xs ys -> keeps Q xs ys.
Proof. intros E H. induction H; [constructor|apply keeps_yes|apply keeps_no]; auto; [apply E; auto|rewrite <- E; auto]. Qed.
Lemma keeps_all {A} (P : A -> Prop) xs : (forall x, P x) -> keeps P xs xs.
Proof. intros H. induction xs; [constructor|apply keeps_yes; auto]. Qed.
Lemma keeps_Forall {A} (P Q : A -> Prop) xs ys : keeps P xs ys -> Forall Q xs -> Forall Q ys.
Proof. intros H. induction H; intros F; [constructor|constructor|]; try (apply IHkeeps; exact (Forall_inv_tail F)). exact (Forall_inv F). Qed.
Lemma run_prune_go who drop s0 cols dss : wf_state s0 -> Forall2 (set_arg s0) cols dss ->
  forall s res cs w ds, wf_state s -> grows s0 s -> own s0 s cs -> seg s res cs w -> is_list s w [] -> Forall2 (rep s) (map snd cs) ds -> Forall frameless ds ->
  exists v cs' w' ds' s', runs denote (prune_go who drop cols res) s (Done (Ok v)) s' /\ grows s0 s' /\ seg s' v cs' w' /\ is_list s' w' [] /\
    Forall2 (rep s') (map snd cs') ds' /\ keeps (fun d => Forall (fun dcol => kept_if drop dcol d) dss) ds ds'.
Proof.
  intros W0 F. induction F as [|col dcol cols dss Sc F IH]; intros s res cs w ds W G O S Lw Fr Fl.
  - exists res, cs, w, ds, s. split; [apply runs_ret|]. repeat (apply conj; [assumption|]). apply keeps_all. intros d. constructor.
  - destruct (run_prune_one s0 drop col dcol W0 Sc ds cs [] [] s res res w) as (cs1 & res1 & s1 & ds1 & R1 & W1 & G1 & O1 & S1 & Lw1 & F1 & K1); try assumption; try constructor.
    destruct (IH s1 res1 cs1 w ds1 W1 G1 O1 S1 Lw1 F1 (keeps_Forall _ _ _ _ K1 Fl)) as (v & cs2 & w2 & ds2 & s2 & R2 & G2 & S2 & L2 & F2 & K2).
    exists v, cs2, w2, ds2, s2. split.
    + cbn [prune_go]. destruct (set_arg_list _ _ _ Sc) as (xs & L). rewrite (is_list_listp _ _ _ L). cbn [negb]. eapply runs_bind; [exact R1|exact R2].
    + repeat (apply conj; [assumption|]). eapply keeps_iff; [|exact (keeps_compose _ _ _ _ K1 _ K2)].
      intros d. cbn. split; [intros [A B]; constructor; assumption|]. intros H. split; [exact (Forall_inv H)|exact (Forall_inv_tail H)].
Qed.
Lemma run_prune who drop col ds cols dss env s : wf_state s -> set_arg s col ds -> Forall2 (set_arg s) cols dss -> exists v ds' s',
  runs denote (prune_impl who drop (col :: cols) env) s (Done (Ok v)) s' /\ grows s s' /\ set_arg s' v ds' /\
  keeps (fun d => Forall (fun dcol => kept_if drop dcol d) dss) ds ds'.
Proof.
  intros W (xs & L & N & Fr & Fl) F.
  destruct (copy_chain s ds s col xs W (grows_refl s) L N Fr) as (v & cs & w & s1 & R1 & G1 & W1 & S1 & Lw & O1 & F1 & _).
  destruct (run_prune_go who drop s cols dss W F s1 v cs w ds W1 G1 O1 S1 Lw F1 Fl) as (v' & cs' & w' & ds' & s' & R & G & S & Lw' & F' & K).
  exists v', ds', s'. split.
  - unfold prune_impl. cbn [arg nth tl]. unfold arg. cbn [nth]. rewrite (is_list_listp _ _ _ L). cbn [negb]. eapply runs_bind; [exact R1|exact R].
  - split; [exact G|]. split; [|exact K]. exists (map snd cs'). split; [exact (seg_list _ _ _ _ S Lw')|]. split; [exact (seg_no_nils _ _ _ _ S)|].
    split; [exact F'|exact (keeps_Forall _ _ _ _ K Fl)].
Qed.
Lemma run_intersection col ds cols dss env s : wf_state s -> set_arg s col ds -> Forall2 (set_arg s) cols dss -> exists v ds' s',
  applies "intersection" (col :: cols) env s (Done (Ok v)) s' /\ grows s s' /\ set_arg s' v ds' /\ keeps (fun d => Forall (In d) dss) ds ds'.
Proof.
  intros W S F. destruct (run_prune "intersection" false col ds cols dss env (entering "intersection" env s)) as (v & ds' & s' & R & G & A & K).
  - apply wf_entering, W.
  - revert S. apply set_arg_grows, grows_entering.
  - apply (Forall2_impl _ _ _ _ F). intros c d. apply set_arg_grows, grows_entering.
  - exists v, ds', s'. split; [applies; exact R|]. split; [eapply grows_trans; [apply grows_entering|exact G]|]. auto.
Qed.
Lemma run_complement col ds cols dss env s : wf_state s -> set_arg s col ds -> Forall2 (set_arg s) cols dss -> exists v ds' s',
  applies "complement" (col :: cols) env s (Done (Ok v)) s' /\ grows s s' /\ set_arg s' v ds' /\ keeps (fun d => Forall (fun dcol => ~ In d dcol) dss) ds ds'.
Proof.
  intros W S F. destruct (run_prune "complement" true col ds cols dss env (entering "complement" env s)) as (v & ds' & s' & R & G & A & K).
  - apply wf_entering, W.
  - revert S. apply set_arg_grows, grows_entering.
  - apply (Forall2_impl _ _ _ _ F). intros c d. apply set_arg_grows, grows_entering.
  - exists v, ds', s'. split; [applies; exact R|]. split; [eapply grows_trans; [apply grows_entering|exact G]|]. auto.
Qed.

(** *** C11, C12 *)
Lemma run_equal_prim name v1 v2 d1 d2 env s : In name ["=="; "eqv?"; "eq?"; "equal?"] -> frameless d1 -> frameless d2 -> rep s v1 d1 -> rep s v2 d2 ->
  exists b, applies name [v1; v2] env s (Done (Ok (VBool b))) (entering name env s) /\ (b = true <-> d1 = d2).
Proof.
  intros I F1 F2 R1 R2. pose proof (grows_entering name env s) as G.
  destruct (run_equal (entering name env s) d1 F1 v1 v2 d2 (rep_grows _ _ _ _ G R1) (rep_grows _ _ _ _ G R2) F2) as (b & R & H).
  exists b. split; [|exact H].
  destruct I as [<-|[<-|[<-|[<-|[]]]]]; (applies; unfold equal_impl; eapply runs_bind; [exact R|apply runs_ret]).
Qed.
Lemma run_not_equal_prim name v1 v2 d1 d2 env s : In name ["!="; "neq?"] -> frameless d1 -> frameless d2 -> rep s v1 d1 -> rep s v2 d2 ->
  exists b, applies name [v1; v2] env s (Done (Ok (VBool b))) (entering name env s) /\ (b = true <-> d1 <> d2).
Proof.
  intros I F1 F2 R1 R2. pose proof (grows_entering name env s) as G.
  destruct (run_equal (entering name env s) d1 F1 v1 v2 d2 (rep_grows _ _ _ _ G R1) (rep_grows _ _ _ _ G R2) F2) as (b & R & H).
  exists (negb b). split.
  - destruct I as [<-|[<-|[]]]; (applies; unfold not_equal_impl; eapply runs_bind; [exact R|apply runs_ret]).
  - unfold agrees in H. destruct b; cbn [negb]; split; intros A; try discriminate; try reflexivity.
    + exfalso. apply A, H. reflexivity.
    + intros C. apply H in C. discriminate.
Qed.
Lemma run_copy v d env s : wf_state s -> rep s v d -> exists v' s',
  applies "copy" [v] env s (Done (Ok v')) s' /\ grows s s' /\ rep s' v' d /\
  (forall k, part s' v k -> part s' v' k -> s_cells s' !! k = Some (VNil, VNil)) /\
  (forall s2, s_strs s2 = s_strs s' -> (forall k, ~ part s' v k \/ s_cells s' !! k = Some (VNil, VNil) -> same_at s' s2 k) -> rep s2 v' d) /\
  (forall s2, s_strs s2 = s_strs s' -> (forall k, ~ part s' v' k \/ s_cells s' !! k = Some (VNil, VNil) -> same_at s' s2 k) -> rep s2 v d).
Proof.
  intros W R. pose proof (grows_entering "copy" env s) as G0. pose proof (wf_entering "copy" env _ W) as W0.
  pose proof (rep_grows _ _ _ _ G0 R) as R0.
  destruct (run_copy_tree d _ v W0 R0) as (v' & s' & Ru & G & R' & _ & N).
  pose proof (rep_grows _ _ _ _ G R0) as Rv.
  assert (Dis : forall k, part s' v k -> part s' v' k -> s_cells s' !! k = Some (VNil, VNil)).
  { intros k P P'. destruct (N k P') as [C|C]; [|exact C]. pose proof (part_old _ _ _ W0 (part_back _ _ _ _ G P _ R0) _ R0) as [B _]. lia. }
  exists v', s'. split; [applies; eapply runs_bind; [exact Ru|apply runs_ret]|]. split; [eapply grows_trans; [exact G0|exact G]|].
  split; [exact R'|]. split; [exact Dis|]. split; intros s2 St S.
  - apply (rep_local _ _ _ _ R'); [|exact St]. intros k P. apply S. destruct (N k P) as [C|C]; [left|right; exact C].
    intros P2. pose proof (part_old _ _ _ W0 (part_back _ _ _ _ G P2 _ R0) _ R0) as [B _]. lia.
  - apply (rep_local _ _ _ _ Rv); [|exact St]. intros k P. apply S.
    pose proof (part_old _ _ _ W0 (part_back _ _ _ _ G P _ R0) _ R0) as [B _].
    destruct (s_cells s' !! k) as [[a b]|] eqn:E.
    + destruct a, b; try (right; reflexivity); left; intros P2; destruct (N k P2) as [C|C]; try lia; congruence.
    + left. intros P2. destruct (N k P2) as [C|C]; [lia|congruence].
Qed.
