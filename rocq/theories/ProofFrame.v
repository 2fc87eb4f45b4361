(** Proofs of C23, C24, C49. *)
From Verif Require Export SpecFrame ProofApply ProofEnv.
From Verif Require Import StrFacts ProofForm.
From Coq Require Import Permutation.
From stdpp Require Import list.
From Verif Require Import Data.
Local Open Scope string_scope.
Local Open Scope list_scope.
Local Open Scope Z_scope.

(** *** Choices *)
Lemma oc_refl s : only_choices s s.
Proof. destruct s; reflexivity. Qed.
Lemma oc_trans a b c : only_choices a b -> only_choices b c -> only_choices a c.
Proof. unfold only_choices. intros H1 H2. rewrite H2, H1. reflexivity. Qed.
Lemma oc_frame s s' l : only_choices s s' -> frame_at s' l = frame_at s l.
Proof. intros ->. reflexivity. Qed.
Lemma oc_choice s : only_choices s (snd (next_choice s)).
Proof. unfold next_choice. destruct (s_oracle s); [apply oc_refl|reflexivity]. Qed.
Lemma permute_oc {A} n : forall (l : list A) s, n = length l -> exists l' s',
  runs denote (permute n l) s (Done l') s' /\ only_choices s s' /\ Permutation l l'.
Proof.
  induction n as [|n IH]; intros l s Hn.
  - exists l, s. split; [apply runs_ret|]. split; [apply oc_refl|reflexivity].
  - destruct l as [|a l]; [discriminate|]. cbn [permute].
    set (L := a :: l) in *. set (z := fst (next_choice s)). set (s1 := snd (next_choice s)).
    assert (R1 : runs denote (do_op OChoose) s (Done z) s1) by (apply runs_op; cbn; unfold z, s1; destruct (next_choice s); reflexivity).
    assert (B : (Z.to_nat (z mod Z.of_nat (length L)) < length L)%nat).
    { pose proof (Z.mod_pos_bound z (Z.of_nat (length L))) as B. unfold L in *. cbn [length] in *. lia. }
    destruct (nth_error L (Z.to_nat (z mod Z.of_nat (length L)))) as [x|] eqn:E; [|apply nth_error_None in E; lia].
    pose proof (remove_nth_perm _ _ _ E) as P.
    destruct (IH (remove_nth (Z.to_nat (z mod Z.of_nat (length L))) L) s1) as (l' & s2 & R2 & G2 & P2).
    { apply Permutation_length in P. cbn in P. unfold L in *. cbn in *. lia. }
    exists (x :: l'), s2. split; [|split; [eapply oc_trans; [apply oc_choice|exact G2]|rewrite P; constructor; exact P2]].
    eapply runs_bind; [exact R1|]. cbv zeta. rewrite E. eapply runs_bind; [exact R2|apply runs_ret].
Qed.
Lemma range_oc {A} (l : list A) s : exists l' s', runs denote (range_map l) s (Done l') s' /\ only_choices s s' /\ Permutation l l'.
Proof. apply permute_oc. reflexivity. Qed.

Lemma parent_key k : is_parent_key k = true <-> names_parent k.
Proof. apply has_suffix_spec. Qed.
Definition parent_value (s : state) (f : loc) (v : val) : Prop := v <> VNil /\ exists k, In (k, v) (frame_at s f) /\ names_parent k.
Lemma parents_run f s : exists ps s', runs denote (parents_of f) s (Done ps) s' /\ only_choices s s' /\ forall v, In v ps <-> parent_value s f v.
Proof.
  unfold parents_of. destruct (range_oc (frame_at s f) s) as (l & s' & R & C & P).
  eexists _, s'. split; [|split; [exact C|]].
  - op1. eapply runs_bind; [exact R|apply runs_ret].
  - intros v. rewrite in_map_iff. split.
    + intros ([k w] & <- & H). apply filter_In in H. cbn [fst snd] in *. destruct H as [H1 H2]. apply andb_prop in H2. destruct H2 as [H2 H3].
      split; [intros E; rewrite E in H3; discriminate|]. exists k. split; [exact (Permutation_in _ (Permutation_sym P) H1)|apply parent_key, H2].
    + intros (N & k & I & K). exists (k, v). split; [reflexivity|]. apply filter_In. split; [exact (Permutation_in _ P I)|]. cbn [fst snd].
      apply parent_key in K. rewrite K. destruct v; try reflexivity. congruence.
Qed.

Lemma ploc_spec l ls : ploc_mem l ls = true <-> In l ls.
Proof.
  induction ls as [|x ls IH]; cbn [ploc_mem]; [split; [discriminate|intros []]|]. rewrite orb_true_iff, IH. cbn [In].
  split; intros [H|H]; auto; [left; symmetry; apply Pos.eqb_eq, H|left; apply Pos.eqb_eq; congruence].
Qed.

Lemma filter_le {A} (g1 g2 : A -> bool) l : (forall x, g1 x = true -> g2 x = true) -> (length (List.filter g1 l) <= length (List.filter g2 l))%nat.
Proof.
  intros H. induction l as [|x l IH]; cbn [List.filter]; [lia|]. specialize (H x). destruct (g1 x), (g2 x); cbn [length]; try lia.
Qed.
Section search.
  Context (s0 : state) (k : string).
  Definition known : list loc := map fst (map_to_list (s_frames s0)).
  Definition unvisited (vis : list loc) : nat := length (List.filter (fun l => negb (ploc_mem l vis)) known).
  Lemma unvisited_mono v1 v2 : incl v1 v2 -> (unvisited v2 <= unvisited v1)%nat.
  Proof.
    intros I. unfold unvisited. induction known as [|x l IH]; cbn [List.filter]; [reflexivity|].
    destruct (ploc_mem x v1) eqn:E1; destruct (ploc_mem x v2) eqn:E2; cbn [negb length]; try lia.
    apply ploc_spec in E1. apply I, ploc_spec in E1. congruence.
  Qed.
  Lemma unvisited_less f vis : s_frames s0 !! f <> None -> ploc_mem f vis = false -> (unvisited (f :: vis) < unvisited vis)%nat.
  Proof.
    intros K V. assert (I : In f known).
    { destruct (s_frames s0 !! f) as [m|] eqn:E; [|congruence]. apply elem_of_map_to_list in E. apply elem_of_list_In in E. apply in_map_iff. exists (f, m). auto. }
    unfold unvisited. induction known as [|x l IH]; [destruct I|]. cbn [List.filter].
    assert (M : (length (List.filter (fun l => negb (ploc_mem l (f :: vis))) l) <= length (List.filter (fun l => negb (ploc_mem l vis)) l))%nat).
    { apply filter_le. intros y Y. cbn [ploc_mem] in Y. destruct (Pos.eqb y f), (ploc_mem y vis); cbn in *; congruence. }
    destruct I as [->|I].
    - rewrite V. cbn [ploc_mem]. rewrite Pos.eqb_refl. cbn [orb negb length]. apply Nat.lt_succ_r, M.
    - specialize (IH I). cbn [ploc_mem]. destruct (Pos.eqb x f), (ploc_mem x vis); cbn [orb negb length] in *; try (apply -> Nat.succ_lt_mono); try (eapply Nat.lt_trans; [|apply Nat.lt_succ_diag_r]); exact IH.
  Qed.
  (** What a visited frame without an answer looks like. *)
  Definition frames_only (g : loc) : Prop := forall v, parent_value s0 g v -> exists h, v = VFrame h.
  Definition barren (g : loc) (vis : list loc) : Prop := slot s0 g k = None /\ frames_only g /\ forall p, parent s0 g p -> In p vis.
  Definition news (vis vis' : list loc) : Prop := incl vis vis' /\ forall g, In g vis' -> In g vis \/ barren g vis'.
  Definition has_result (f : loc) (vis : list loc) (o : outcome (bool * list loc)) : Prop :=
    match o with
    | Panicked _ => ~ proper_parents s0 f
    | Done (true, _) => exists g, reaches s0 f g /\ slot s0 g k <> None
    | Done (false, vis') => In f vis' /\ news vis vis'
    end.
  Lemma barren_mono g v1 v2 : incl v1 v2 -> barren g v1 -> barren g v2.
  Proof. intros I (A & B & C). repeat apply conj; auto. Qed.
  Lemma news_trans a b c : news a b -> news b c -> news a c.
  Proof.
    intros [I1 H1] [I2 H2]. split; [intros x X; auto|]. intros g G. destruct (H2 g G) as [G2|B]; [|auto].
    destruct (H1 g G2) as [G1|B]; [auto|]. right. exact (barren_mono _ _ _ I2 B).
  Qed.
  Lemma parent_of_value f p : parent s0 f p <-> parent_value s0 f (VFrame p).
  Proof. unfold parent, parent_value. split; [intros H; split; [discriminate|exact H]|intros [_ H]; exact H]. Qed.
  Lemma proper_up f p : parent s0 f p -> proper_parents s0 f -> proper_parents s0 p.
  Proof. intros P H g G. apply H. exact (reaches_up _ _ _ _ P G). Qed.

  Lemma has_parents n ps : (forall f vis s, (unvisited vis < n)%nat -> only_choices s0 s ->
      exists o s', runs denote (call (RHasSlot k f vis)) s o s' /\ only_choices s0 s' /\ has_result f vis o) ->
    forall vis s, (unvisited vis < n)%nat -> only_choices s0 s ->
    exists o s', runs denote (has_slot_parents k ps vis) s o s' /\ only_choices s0 s' /\
    match o with
    | Panicked _ => exists v, In v ps /\ match v with VFrame p => ~ proper_parents s0 p | _ => True end
    | Done (true, _) => exists p g, In (VFrame p) ps /\ reaches s0 p g /\ slot s0 g k <> None
    | Done (false, vis') => news vis vis' /\ (forall v, In v ps -> exists p, v = VFrame p /\ In p vis')
    end.
  Proof.
    intros IH. induction ps as [|v ps IHp]; intros vis s U C.
    - exists (Done (false, vis)), s. split; [apply runs_ret|]. split; [exact C|]. split; [|intros v []]. split; [intros x X; exact X|auto].
    - cbn [has_slot_parents].
      destruct v as [|t l| |z|x|b|l|x|l|l|x|l|l|l|l|p|l|l]; try (eexists (Panicked _), s; (split; [apply runs_panic|]); (split; [exact C|]); eexists; split; [left; reflexivity|exact Logic.I]).
      destruct (IH p vis s U C) as (o & s1 & R & C1 & H). destruct o as [[[|] vis1]|w].
      + exists (Done (true, vis1)), s1. split; [eapply runs_bind; [exact R|apply runs_ret]|]. split; [exact C1|].
        destruct H as (g & G & N). exists p, g. split; [left; reflexivity|]. auto.
      + destruct H as [I1 N1]. destruct (IHp vis1 s1) as (o & s2 & R2 & C2 & H); [pose proof (unvisited_mono _ _ (proj1 N1)); lia|exact C1|].
        exists o, s2. split; [eapply runs_bind; [exact R|exact R2]|]. split; [exact C2|]. destruct o as [[[|] vis2]|w].
        * destruct H as (q & g & Q & H). exists q, g. split; [right; exact Q|exact H].
        * destruct H as [N2 H]. split; [exact (news_trans _ _ _ N1 N2)|]. intros v [<-|V]; [|auto]. exists p. split; [reflexivity|]. apply (proj1 N2), I1.
        * destruct H as (v & V & H). exists v. split; [right; exact V|exact H].
      + exists (Panicked w), s1. split; [apply runs_bind_panic, R|]. split; [exact C1|]. exists (VFrame p). split; [left; reflexivity|exact H].
  Qed.
  Lemma has_run n : forall f vis s, (unvisited vis < n)%nat -> only_choices s0 s ->
    exists o s', runs denote (call (RHasSlot k f vis)) s o s' /\ only_choices s0 s' /\ has_result f vis o.
  Proof.
    induction n as [|n IH]; intros f vis s U C; [lia|].
    setoid_rewrite call_iff. cbn [denote]. unfold has_slot_body.
    destruct (ploc_mem f vis) eqn:V.
    { exists (Done (false, vis)), s. split; [apply runs_ret|]. split; [exact C|]. split; [apply ploc_spec, V|]. split; [intros x X; exact X|auto]. }
    assert (E : frame_at s f = frame_at s0 f) by exact (oc_frame _ _ _ C).
    destruct (slot s0 f k) as [v|] eqn:S; unfold slot in S.
    { exists (Done (true, f :: vis)), s. split; [op1; rewrite E, S; apply runs_ret|]. split; [exact C|]. exists f. split; [constructor|unfold slot; congruence]. }
    destruct (existsb (fun kv => is_parent_key (fst kv)) (frame_at s0 f)) eqn:X.
    - assert (F : s_frames s0 !! f <> None) by (intros F; unfold frame_at in X; rewrite F in X; discriminate).
      pose proof (unvisited_less f vis F V) as UL.
      destruct (parents_run f s) as (ps & s1 & R & C1 & P). pose proof (oc_trans _ _ _ C C1) as C01.
      destruct (has_parents n ps IH (f :: vis) s1) as (o & s2 & R2 & C2 & H); [lia|exact C01|].
      assert (P' : forall v, In v ps <-> parent_value s0 f v) by (intros v; rewrite P; unfold parent_value; rewrite E; reflexivity).
      exists o, s2. split; [op1; rewrite E, S; op1; rewrite E, X; eapply runs_bind; [exact R|exact R2]|]. split; [exact C2|].
      destruct o as [[[|] vis']|w]; cbn [has_result].
      + destruct H as (p & g & I & G & N). exists g. split; [|exact N]. apply (reaches_up _ _ p); [apply parent_of_value, P', I|exact G].
      + destruct H as [[I N] H]. split; [apply I; left; reflexivity|]. split; [intros x Hx; apply I; right; exact Hx|].
        intros g G. destruct (N g G) as [[<-|G']|B]; auto. right. split; [exact S|]. split.
        * intros v Hv. apply P', H in Hv. destruct Hv as (p & -> & _). exists p. reflexivity.
        * intros p Hp. apply parent_of_value, P', H in Hp. destruct Hp as (q & [= <-] & Q). exact Q.
      + destruct H as (v & I & H). apply P' in I. intros PP. destruct I as [Nv (k' & I & K)].
        destruct (PP f (reaches_self _ _) _ _ I K) as [->|(h & ->)]; [congruence|].
        apply H. apply (proper_up f); [|exact PP]. exists k'. auto.
    - exists (Done (false, f :: vis)), s. split; [op1; rewrite E, S; op1; rewrite E, X; apply runs_ret|]. split; [exact C|].
      split; [left; reflexivity|]. split; [intros x Hx; right; exact Hx|]. intros g [<-|G]; [|auto]. right. split; [exact S|].
      assert (NP : forall v, ~ parent_value s0 f v).
      { intros v (_ & k' & I & K). apply parent_key in K. cut (existsb (fun kv : string * val => is_parent_key (fst kv)) (frame_at s0 f) = true); [congruence|]. apply existsb_exists. exists (k', v). auto. }
      split; [intros v Hv; destruct (NP v Hv)|]. intros p Hp. apply parent_of_value in Hp. destruct (NP _ Hp).
  Qed.
  (** A set of barren frames that is closed. *)
  Lemma barren_all f vis : In f vis -> (forall g, In g vis -> barren g vis) -> forall g, reaches s0 f g -> barren g vis.
  Proof. intros I H g G. induction G as [f|f p g P G IH]; [apply H, I|]. apply IH. apply (H f I), P. Qed.
End search.

Lemma asks_run f k s : exists o s', asks_slot f k s o s' /\ only_choices s s' /\
  match o with
  | Done true => exists g, reaches s f g /\ slot s g k <> None
  | Done false => proper_parents s f /\ forall g, reaches s f g -> slot s g k = None
  | Panicked _ => ~ proper_parents s f
  end.
Proof.
  destruct (has_run s k (Datatypes.S (unvisited s [])) f [] s) as (o & s' & R & C & H); [lia|apply oc_refl|].
  exists (match o with Done (b, _) => Done b | Panicked w => Panicked w end), s'. split; [|split; [exact C|]].
  - unfold asks_slot, has_slot. destruct o as [[b vis]|w]; [eapply runs_bind; [exact R|apply runs_ret]|apply runs_bind_panic, R].
  - destruct o as [[[|] vis]|w]; [exact H| |exact H]. destruct H as [I [_ N]].
    assert (B : forall g, In g vis -> barren s k g vis) by (intros g G; destruct (N g G) as [[]|B]; exact B).
    split.
    + intros g G k' v Iv K. destruct (barren_all s k f vis I B g G) as (_ & F & _).
      destruct (is_nil v) eqn:Ev; [left; destruct v; try discriminate; reflexivity|right]. apply F. split; [intros ->; discriminate|]. exists k'. split; assumption.
    + intros g G. apply (barren_all s k f vis I B g G).
Qed.

Section fetch.
  Context (s0 : state) (k : string).
  Notation unvisited := (unvisited s0).
  Definition spent (g : loc) (vis : list loc) : Prop := slot s0 g k = Some VNil \/ (slot s0 g k = None /\ forall p, parent s0 g p -> In p vis).
  Definition fetched (vis vis' : list loc) : Prop := incl vis vis' /\ forall g, In g vis' -> In g vis \/ spent g vis'.
  Definition get_result (f : loc) (vis : list loc) (o : outcome (val * list loc)) : Prop :=
    match o with
    | Panicked _ => ~ proper_parents s0 f
    | Done (VNil, vis') => In f vis' /\ fetched vis vis'
    | Done (v, _) => exists g, inherits s0 k f g v
    end.
  Lemma spent_mono g v1 v2 : incl v1 v2 -> spent g v1 -> spent g v2.
  Proof. intros I [A|(A & C)]; [left; exact A|right; auto]. Qed.
  Lemma fetched_trans a b c : fetched a b -> fetched b c -> fetched a c.
  Proof.
    intros [I1 H1] [I2 H2]. split; [intros x X; auto|]. intros g G. destruct (H2 g G) as [G2|B]; [|auto].
    destruct (H1 g G2) as [G1|B]; [auto|]. right. exact (spent_mono _ _ _ I2 B).
  Qed.
  Lemma get_parents n ps : (forall f vis s, (unvisited vis < n)%nat -> only_choices s0 s ->
      exists o s', runs denote (call (RGetSlot k f vis)) s o s' /\ only_choices s0 s' /\ get_result f vis o) ->
    forall vis s, (unvisited vis < n)%nat -> only_choices s0 s ->
    exists o s', runs denote (get_slot_parents k ps vis) s o s' /\ only_choices s0 s' /\
    match o with
    | Panicked _ => exists v, In v ps /\ match v with VFrame p => ~ proper_parents s0 p | _ => True end
    | Done (VNil, vis') => fetched vis vis' /\ (forall p, In (VFrame p) ps -> In p vis')
    | Done (v, _) => exists p g, In (VFrame p) ps /\ inherits s0 k p g v
    end.
  Proof.
    intros IH. induction ps as [|v ps IHp]; intros vis s U C.
    - exists (Done (VNil, vis)), s. split; [apply runs_ret|]. split; [exact C|]. split; [|intros v []]. split; [intros x X; exact X|auto].
    - cbn [get_slot_parents].
      destruct v as [|t l| |z|x|b|l|x|l|l|x|l|l|l|l|p|l|l]; try (eexists (Panicked _), s; (split; [apply runs_panic|]); (split; [exact C|]); eexists; split; [left; reflexivity|exact Logic.I]).
      destruct (IH p vis s U C) as (o & s1 & R & C1 & H). destruct o as [[v vis1]|w].
      + destruct (is_nil v) eqn:Ev.
        * destruct v; try discriminate. destruct H as [I1 N1]. destruct (IHp vis1 s1) as (o & s2 & R2 & C2 & H); [pose proof (unvisited_mono s0 _ _ (proj1 N1)); lia|exact C1|].
          exists o, s2. split; [eapply runs_bind; [exact R|exact R2]|]. split; [exact C2|]. destruct o as [[v vis2]|w].
          -- assert (X : v <> VNil -> (exists q g, In (VFrame q) ps /\ inherits s0 k q g v) -> exists q g, In (VFrame q) (VFrame p :: ps) /\ inherits s0 k q g v)
               by (intros _ (q & g & Q & H1); exists q, g; split; [right; exact Q|exact H1]).
             destruct v; try (apply X; [discriminate|exact H]).
             destruct H as [N2 H]. split; [exact (fetched_trans _ _ _ N1 N2)|]. intros q [[= <-]|V]; [|auto]. apply (proj1 N2), I1.
          -- destruct H as (v & V & H). exists v. split; [right; exact V|exact H].
        * exists (Done (v, vis1)), s1. split; [eapply runs_bind; [exact R|cbv beta iota; rewrite Ev; apply runs_ret]|]. split; [exact C1|].
          assert (X : (exists g, inherits s0 k p g v) -> exists q g, In (VFrame q) (VFrame p :: ps) /\ inherits s0 k q g v) by (intros (g & G); exists p, g; split; [left; reflexivity|exact G]).
          destruct v; try discriminate; exact (X H).
      + exists (Panicked w), s1. split; [apply runs_bind_panic, R|]. split; [exact C1|]. exists (VFrame p). split; [left; reflexivity|exact H].
  Qed.
  Lemma get_run n : forall f vis s, (unvisited vis < n)%nat -> only_choices s0 s ->
    exists o s', runs denote (call (RGetSlot k f vis)) s o s' /\ only_choices s0 s' /\ get_result f vis o.
  Proof.
    induction n as [|n IH]; intros f vis s U C; [lia|].
    setoid_rewrite call_iff. cbn [denote]. unfold get_slot_body.
    destruct (ploc_mem f vis) eqn:V.
    { exists (Done (VNil, vis)), s. split; [apply runs_ret|]. split; [exact C|]. split; [apply ploc_spec, V|]. split; [intros x X; exact X|auto]. }
    assert (E : frame_at s f = frame_at s0 f) by exact (oc_frame _ _ _ C).
    destruct (slot s0 f k) as [v|] eqn:S; pose proof S as S1; unfold slot in S1.
    { exists (Done (v, f :: vis)), s. split; [op1; rewrite E, S1; apply runs_ret|]. split; [exact C|].
      assert (X : exists g, inherits s0 k f g v) by (exists f; constructor; exact S).
      destruct v; try exact X. split; [left; reflexivity|]. split; [intros x Hx; right; exact Hx|]. intros g [<-|G]; [right; left; exact S|auto]. }
    destruct (parents_run f s) as (ps & s1 & R & C1 & P). pose proof (oc_trans _ _ _ C C1) as C01.
    assert (P' : forall v, In v ps <-> parent_value s0 f v) by (intros v; rewrite P; unfold parent_value; rewrite E; reflexivity).
    destruct ps as [|p0 ps0].
    { exists (Done (VNil, f :: vis)), s1. split; [op1; rewrite E, S1; eapply runs_bind; [exact R|apply runs_ret]|]. split; [exact C01|].
      split; [left; reflexivity|]. split; [intros x Hx; right; exact Hx|]. intros g [<-|G]; [|auto]. right. right. split; [exact S|].
      intros p Hp. apply parent_of_value, P' in Hp. destruct Hp. }
    set (ps := p0 :: ps0) in *.
    assert (F : s_frames s0 !! f <> None).
    { intros F. destruct (proj1 (P' p0) (or_introl eq_refl)) as (_ & k' & I & _). unfold frame_at in I. rewrite F in I. destruct I. }
    pose proof (unvisited_less s0 f vis F V) as UL.
    destruct (get_parents n ps IH (f :: vis) s1) as (o & s2 & R2 & C2 & H); [lia|exact C01|].
    exists o, s2. split; [op1; rewrite E, S1; eapply runs_bind; [exact R|exact R2]|]. split; [exact C2|].
    destruct o as [[v vis']|w]; cbn [get_result].
    - assert (X : (exists p g, In (VFrame p) ps /\ inherits s0 k p g v) -> exists g, inherits s0 k f g v).
      { intros (p & g & I & G). exists g. apply (inherits_up _ _ _ p); [exact S|apply parent_of_value, P', I|exact G]. }
      destruct v; try exact (X H). destruct H as [[I N] H]. split; [apply I; left; reflexivity|]. split; [intros x Hx; apply I; right; exact Hx|].
      intros g G. destruct (N g G) as [[<-|G']|B]; auto. right. right. split; [exact S|].
      intros p Hp. apply parent_of_value, P', H in Hp. exact Hp.
    - destruct H as (v & I & H). apply P' in I. intros PP. destruct I as [Nv (k' & I & K)].
      destruct (PP f (reaches_self _ _) _ _ I K) as [->|(h & ->)]; [congruence|].
      apply H. apply (proper_up s0 f); [|exact PP]. exists k'. auto.
  Qed.
End fetch.
Lemma reads_run f k s : exists o s', reads_slot f k s o s' /\ only_choices s s' /\
  match o with
  | Done v => (v <> VNil /\ exists g, inherits s k f g v) \/ (v = VNil /\ forall g w, inherits s k f g w -> w = VNil)
  | Panicked _ => ~ proper_parents s f
  end.
Proof.
  destruct (get_run s k (Datatypes.S (unvisited s [])) f [] s) as (o & s' & R & C & H); [lia|apply oc_refl|].
  exists (match o with Done (b, _) => Done b | Panicked w => Panicked w end), s'. split; [|split; [exact C|]].
  - unfold reads_slot, get_slot. destruct o as [[b vis]|w]; [eapply runs_bind; [exact R|apply runs_ret]|apply runs_bind_panic, R].
  - destruct o as [[v vis]|w]; [|exact H].
    destruct (is_nil v) eqn:Ev; [|left; split; [destruct v; discriminate|destruct v; try discriminate; exact H]].
    right. destruct v; try discriminate. split; [reflexivity|]. destruct H as [I [_ N]].
    assert (B : forall g, In g vis -> spent s k g vis) by (intros g G; destruct (N g G) as [[]|B]; exact B).
    clear -I B. intros g w G. revert I. induction G as [f w S|f p g w S P G IH]; intros I.
    + destruct (B f I) as [E|[E _]]; congruence.
    + apply IH. destruct (B f I) as [E|[_ E]]; [congruence|exact (E p P)].
Qed.
Lemma inherits_iff s k f : (exists g, reaches s f g /\ slot s g k <> None) <-> exists g v, inherits s k f g v.
Proof.
  split.
  - intros (g & G & N). induction G as [f|f p g P G IH].
    + destruct (slot s f k) as [v|] eqn:E; [|congruence]. exists f, v. constructor. exact E.
    + destruct (slot s f k) as [v|] eqn:E; [exists f, v; constructor; exact E|]. destruct (IH N) as (h & v & H). exists h, v. exact (inherits_up _ _ _ _ _ _ E P H).
  - intros (g & v & H). exists g. induction H as [f v E|f p g v E P H [R N]]; [split; [constructor|congruence]|split; [exact (reaches_up _ _ _ _ P R)|exact N]].
Qed.

(** The facts about slots do not see choices. *)
Lemma oc_slot s s' f k : only_choices s s' -> slot s' f k = slot s f k.
Proof. intros ->. reflexivity. Qed.
Lemma reaches_same s s' f g : (forall l, frame_at s' l = frame_at s l) -> reaches s f g -> reaches s' f g.
Proof. intros E H. induction H as [f|f p g (k & I & K) G IH]; [constructor|]. eapply reaches_up; [|exact IH]. exists k. rewrite E. auto. Qed.
Lemma inherits_same s s' k f g v : (forall l, frame_at s' l = frame_at s l) -> inherits s k f g v -> inherits s' k f g v.
Proof.
  intros E H. induction H as [f v S|f p g v S (k' & I & K) G IH].
  - constructor. unfold slot in *. rewrite E. exact S.
  - eapply inherits_up; [unfold slot in *; rewrite E; exact S| |exact IH]. exists k'. rewrite E. auto.
Qed.
Lemma proper_same s s' f : (forall l, frame_at s' l = frame_at s l) -> proper_parents s f -> proper_parents s' f.
Proof. intros E H g G k v I. rewrite E in I. revert I. apply H. apply (reaches_same s' s); [intros; symmetry; apply E|exact G]. Qed.
Lemma asks_from f k s s0 : (forall l, frame_at s0 l = frame_at s l) -> exists o s', asks_slot f k s0 o s' /\ only_choices s0 s' /\
  match o with
  | Done true => exists g, reaches s f g /\ slot s g k <> None
  | Done false => proper_parents s f /\ forall g, reaches s f g -> slot s g k = None
  | Panicked _ => ~ proper_parents s f
  end.
Proof.
  intros E. assert (E' : forall l, frame_at s l = frame_at s0 l) by (intros l; symmetry; apply E).
  destruct (asks_run f k s0) as (o & s' & A & C & H). exists o, s'. split; [exact A|]. split; [exact C|]. destruct o as [[|]|w].
  - destruct H as (g & G & N). exists g. split; [exact (reaches_same _ _ _ _ E' G)|]. unfold slot in *. rewrite <- E. exact N.
  - destruct H as [P H]. split; [exact (proper_same _ _ _ E' P)|]. intros g G. unfold slot in *. rewrite <- E. apply H. exact (reaches_same _ _ _ _ E G).
  - intros P. apply H. exact (proper_same _ _ _ E P).
Qed.
Lemma reads_from f k s s0 : (forall l, frame_at s0 l = frame_at s l) -> exists o s', reads_slot f k s0 o s' /\ only_choices s0 s' /\
  match o with
  | Done v => (v <> VNil /\ exists g, inherits s k f g v) \/ (v = VNil /\ forall g w, inherits s k f g w -> w = VNil)
  | Panicked _ => ~ proper_parents s f
  end.
Proof.
  intros E. assert (E' : forall l, frame_at s l = frame_at s0 l) by (intros l; symmetry; apply E).
  destruct (reads_run f k s0) as (o & s' & A & C & H). exists o, s'. split; [exact A|]. split; [exact C|]. destruct o as [v|w].
  - destruct H as [[N (g & G)]|[-> H]]; [left|right].
    + split; [exact N|]. exists g. exact (inherits_same _ _ _ _ _ _ E' G).
    + split; [reflexivity|]. intros g w G. exact (H g w (inherits_same _ _ _ _ _ _ E G)).
  - intros P. apply H. exact (proper_same _ _ _ E P).
Qed.
(** *** C23 *)
Lemma naked_true k : naked k -> naked_name k = true.
Proof. intros H. apply has_suffix_spec, H. Qed.
Lemma entering_frame n env s l : frame_at (entering n env s) l = frame_at s l.
Proof. reflexivity. Qed.
Lemma asks_iff {B} f k (c : bool -> prog B) s o s' o1 s1 : asks_slot f k s o1 s1 ->
  (runs denote (bind (has_slot f k) c) s o s' <-> match o1 with Done b => runs denote (c b) s1 o s' | Panicked w => o = Panicked w /\ s' = s1 end).
Proof.
  intros A. destruct o1 as [b|w]; [apply then_iff, A|]. split.
  - intros H. apply bind_iff in H. destruct H as (o2 & s2 & R & H). destruct (runs_det _ _ _ _ _ _ _ _ A R) as [<- <-]. exact H.
  - intros [-> ->]. apply runs_bind_panic, A.
Qed.
Lemma reads_iff {B} f k (c : val -> prog B) s o s' o1 s1 : reads_slot f k s o1 s1 ->
  (runs denote (bind (get_slot f k) c) s o s' <-> match o1 with Done b => runs denote (c b) s1 o s' | Panicked w => o = Panicked w /\ s' = s1 end).
Proof.
  intros A. destruct o1 as [b|w]; [apply then_iff, A|]. split.
  - intros H. apply bind_iff in H. destruct H as (o2 & s2 & R & H). destruct (runs_det _ _ _ _ _ _ _ _ A R) as [<- <-]. exact H.
  - intros [-> ->]. apply runs_bind_panic, A.
Qed.
Lemma has_slot_any f k env s : naked k -> exists o s', applies "has-slot?" [VFrame f; VSym k] env s o s' /\ only_choices (entering "has-slot?" env s) s' /\
  match o with
  | Done (Ok v) => (v = VBool true /\ exists g, reaches s f g /\ slot s g k <> None) \/
                   (v = VBool false /\ proper_parents s f /\ forall g, reaches s f g -> slot s g k = None)
  | Done (Err _) => False
  | Panicked _ => ~ proper_parents s f
  end.
Proof.
  intros K. set (s0 := entering "has-slot?" env s). destruct (asks_from f k s s0 (fun _ => eq_refl)) as (o & s' & A & C & H).
  exists (match o with Done b => Done (Ok (VBool b)) | Panicked w => Panicked w end), s'.
  split; [|split; [exact C|]].
  - applies. unfold has_slot_impl. cbn [arg nth need_frame need_naked]. rewrite (naked_true k K). apply (asks_iff _ _ _ _ _ _ _ _ A). destruct o; [apply runs_ret|auto].
  - destruct o as [[|]|w]; [left|right|exact H]; split; try reflexivity; exact H.
Qed.
Lemma has_slot_iff f k env s : naked k -> proper_parents s f -> exists b s',
  applies "has-slot?" [VFrame f; VSym k] env s (Done (Ok (VBool b))) s' /\ only_choices (entering "has-slot?" env s) s' /\
  (b = true <-> exists g, reaches s f g /\ slot s g k <> None).
Proof.
  intros K P. destruct (has_slot_any f k env s K) as (o & s' & A & C & H). destruct o as [[v|m]|w]; [|destruct H|destruct (H P)].
  destruct H as [[-> H]|[-> [_ H]]].
  - exists true, s'. split; [exact A|]. split; [exact C|]. tauto.
  - exists false, s'. split; [exact A|]. split; [exact C|]. split; [discriminate|]. intros (g & G & N). destruct (N (H g G)).
Qed.
Lemma has_slot_bad f k env s : naked k -> ~ proper_parents s f -> (forall g, reaches s f g -> slot s g k = None) ->
  exists w s', applies "has-slot?" [VFrame f; VSym k] env s (Panicked w) s'.
Proof.
  intros K P N. destruct (has_slot_any f k env s K) as (o & s' & A & C & H). destruct o as [[v|m]|w]; [|destruct H|eauto].
  destruct H as [[-> (g & G & X)]|[-> [H _]]]; [destruct (X (N g G))|destruct (P H)].
Qed.
Lemma asks_own f k v s : slot s f k = Some v -> asks_slot f k s (Done true) s /\ reads_slot f k s (Done v) s.
Proof.
  unfold slot. intros E. unfold asks_slot, has_slot, reads_slot, get_slot. split.
  - apply (runs_bind denote _ _ (call (RHasSlot k f [])) _ s (true, [f]) s); [|apply runs_ret]. apply call_iff. cbn [denote]. unfold has_slot_body. cbn [ploc_mem]. op1. rewrite E. apply runs_ret.
  - apply (runs_bind denote _ _ (call (RGetSlot k f [])) _ s (v, [f]) s); [|apply runs_ret]. apply call_iff. cbn [denote]. unfold get_slot_body. cbn [ploc_mem]. op1. rewrite E. apply runs_ret.
Qed.
Lemma get_slot_own f k v env s : naked k -> slot s f k = Some v ->
  applies "get-slot" [VFrame f; VSym k] env s (Done (Ok v)) (entering "get-slot" env s) /\
  applies "get-slot-or-nil" [VFrame f; VSym k] env s (Done (Ok v)) (entering "get-slot-or-nil" env s).
Proof.
  intros K E. split.
  - destruct (asks_own f k v (entering "get-slot" env s) E) as [A R]. applies. unfold get_slot_impl. cbn [arg nth need_frame need_naked]. rewrite (naked_true k K).
    apply (asks_iff _ _ _ _ _ _ _ _ A). cbn [negb]. apply (reads_iff _ _ _ _ _ _ _ _ R). apply runs_ret.
  - destruct (asks_own f k v (entering "get-slot-or-nil" env s) E) as [A R]. applies. unfold get_slot_or_nil_impl. cbn [arg nth need_frame need_naked]. rewrite (naked_true k K).
    apply (reads_iff _ _ _ _ _ _ _ _ R). apply runs_ret.
Qed.
(** The value found, when there is one. *)
Lemma finds_slot f k s s0 : (forall l, frame_at s0 l = frame_at s l) -> proper_parents s f -> (exists g, reaches s f g /\ slot s g k <> None) ->
  exists g v s1 s2, asks_slot f k s0 (Done true) s1 /\ reads_slot f k s1 (Done v) s2 /\ only_choices s0 s2 /\ inherits s k f g v.
Proof.
  intros E P X. destruct (asks_from f k s s0 E) as (o & s1 & A & C & H). destruct o as [[|]|w]; [| |destruct (H P)].
  2: { destruct H as [_ H]. destruct X as (g & G & N). destruct (N (H g G)). }
  destruct (reads_from f k s s1) as (o & s2 & R & C2 & H2); [intros l; rewrite (oc_frame _ _ _ C); apply E|]. pose proof (oc_trans _ _ _ C C2) as C02.
  destruct o as [v|w]; [|destruct (H2 P)]. destruct H2 as [[_ (g & G)]|[-> Z]].
  - exists g, v, s1, s2. auto.
  - apply inherits_iff in X. destruct X as (g & w & G). pose proof (Z _ _ G). subst w. exists g, VNil, s1, s2. auto.
Qed.
Lemma finds_no_slot f k s s0 : (forall l, frame_at s0 l = frame_at s l) -> proper_parents s f -> ~ (exists g, reaches s f g /\ slot s g k <> None) ->
  exists s1, asks_slot f k s0 (Done false) s1 /\ only_choices s0 s1.
Proof.
  intros E P X. destruct (asks_from f k s s0 E) as (o & s1 & A & C & H). destruct o as [[|]|w]; [destruct (X H)| |destruct (H P)]. exists s1. auto.
Qed.
Lemma get_slot_found f k env s : naked k -> proper_parents s f -> (exists g, reaches s f g /\ slot s g k <> None) ->
  exists g v s', applies "get-slot" [VFrame f; VSym k] env s (Done (Ok v)) s' /\ only_choices (entering "get-slot" env s) s' /\ inherits s k f g v.
Proof.
  intros K P X. set (s0 := entering "get-slot" env s). destruct (finds_slot f k s s0 (fun _ => eq_refl) P X) as (g & v & s1 & s2 & A & R & C & I).
  exists g, v, s2. split; [|split; [exact C|exact I]]. applies. unfold get_slot_impl. cbn [arg nth need_frame need_naked]. rewrite (naked_true k K).
  apply (asks_iff _ _ _ _ _ _ _ _ A). cbn [negb]. apply (reads_iff _ _ _ _ _ _ _ _ R). apply runs_ret.
Qed.
Lemma get_or_nil f k env s : naked k -> proper_parents s f ->
  exists v s', applies "get-slot-or-nil" [VFrame f; VSym k] env s (Done (Ok v)) s' /\ only_choices (entering "get-slot-or-nil" env s) s' /\
  ((exists g, inherits s k f g v) \/ (v = VNil /\ forall g, reaches s f g -> slot s g k = None)).
Proof.
  intros K P. set (s0 := entering "get-slot-or-nil" env s). destruct (reads_from f k s s0 (fun _ => eq_refl)) as (o & s2 & R & C & H).
  destruct o as [v|w]; [|destruct (H P)]. exists v, s2. split; [|split; [exact C|]].
  - applies. unfold get_slot_or_nil_impl. cbn [arg nth need_frame need_naked]. rewrite (naked_true k K). apply (reads_iff _ _ _ _ _ _ _ _ R). apply runs_ret.
  - destruct H as [[_ H]|[-> H]]; [left; exact H|].
    destruct (asks_run f k s) as (o & s1 & _ & _ & H1). destruct o as [[|]|w]; [| |destruct (H1 P)].
    + apply inherits_iff in H1. destruct H1 as (g & w & G). left. exists g. rewrite <- (H _ _ G). exact G.
    + right. split; [reflexivity|]. apply H1.
Qed.
Lemma get_slot_missing f k env s : naked k -> proper_parents s f -> (forall g, reaches s f g -> slot s g k = None) ->
  exists s', applies "get-slot" [VFrame f; VSym k] env s (Done (Err ("get-slot requires an existing slot, but was given " +++ k +++ "."))) s' /\
    only_choices (entering "get-slot" env s) s'.
Proof.
  intros K P X. set (s0 := entering "get-slot" env s). destruct (finds_no_slot f k s s0 (fun _ => eq_refl) P) as (s1 & A & C).
  { intros (g & G & N). destruct (N (X g G)). }
  exists s1. split; [|exact C]. applies. unfold get_slot_impl. cbn [arg nth need_frame need_naked]. rewrite (naked_true k K).
  apply (asks_iff _ _ _ _ _ _ _ _ A). cbn [negb]. unfold fail_got. eapply runs_bind; [apply call_iff; cbn [denote string_body]; apply runs_ret|apply runs_ret].
Qed.

(** *** C24 *)
Lemma put_slot_only f k v s : s_frames s !! f <> None ->
  only_frame f s (put_slot f k v s) /\ slot (put_slot f k v s) f k = Some v /\
  forall k', k' <> k -> slot (put_slot f k v s) f k' = slot s f k'.
Proof.
  intros F. destruct (s_frames s !! f) as [m|] eqn:E; [|congruence]. unfold put_slot, put. rewrite E.
  assert (Eq : frame_at (set_frames (<[f := aset k v (frame_at s f)]> (s_frames s)) s) f = aset k v (frame_at s f)).
  { unfold frame_at at 1. cbn [s_frames set_frames]. rewrite lookup_insert. reflexivity. }
  repeat apply conj.
  - reflexivity.
  - intros g N. unfold frame_at. cbn [s_frames set_frames]. rewrite lookup_insert_ne by congruence. reflexivity.
  - unfold slot. rewrite Eq. apply alookup_aset_eq.
  - intros k' N. unfold slot. rewrite Eq. apply alookup_aset_ne, N.
Qed.
Lemma set_slot_run f k v env s : naked k -> s_frames s !! f <> None -> let s0 := entering "set-slot!" env s in exists s',
  applies "set-slot!" [VFrame f; VSym k; v] env s (Done (Ok v)) s' /\ only_frame f s0 s' /\ slot s' f k = Some v /\
  forall k', k' <> k -> slot s' f k' = slot s f k'.
Proof.
  intros K F s0. exists (put_slot f k v s0). split; [|exact (put_slot_only f k v s0 F)].
  applies. unfold set_slot_impl. cbn [arg nth need_frame need_naked]. rewrite (naked_true k K). op1. apply runs_ret.
Qed.
Lemma set_slot_get f k v env s : naked k -> s_frames s !! f <> None -> exists s1,
  applies "set-slot!" [VFrame f; VSym k; v] env s (Done (Ok v)) s1 /\ forall env2,
  applies "get-slot" [VFrame f; VSym k] env2 s1 (Done (Ok v)) (entering "get-slot" env2 s1).
Proof.
  intros K F. destruct (set_slot_run f k v env s K F) as (s1 & A & _ & S & _). exists s1. split; [exact A|]. intros env2. apply (get_slot_own f k v env2 s1 K S).
Qed.
Lemma remove_slot_run f k env s : naked k -> s_frames s !! f <> None -> let s0 := entering "remove-slot!" env s in exists s',
  applies "remove-slot!" [VFrame f; VSym k] env s (Done (Ok (VBool (match slot s f k with Some _ => true | None => false end)))) s' /\
  only_frame f s0 s' /\ slot s' f k = None /\ forall k', k' <> k -> slot s' f k' = slot s f k'.
Proof.
  intros K F s0. destruct (s_frames s !! f) as [m|] eqn:E; [|congruence]. clear F.
  destruct (slot s f k) as [v|] eqn:S.
  - exists (set_frames (<[f := adel k (frame_at s f)]> (s_frames s)) s0).
    assert (Eq : frame_at (set_frames (<[f := adel k (frame_at s f)]> (s_frames s)) s0) f = adel k (frame_at s f)).
    { unfold frame_at at 1. cbn [s_frames set_frames]. rewrite lookup_insert. reflexivity. }
    split.
    + applies. unfold remove_slot_impl. cbn [arg nth need_frame need_naked]. eapply runs_bind; [apply runs_ret|]. cbv iota. rewrite (naked_true k K).
      apply (then_iff _ _ _ true (set_frames (<[f := adel k (frame_at s f)]> (s_frames s)) s0)); [|apply runs_ret].
      eapply runs_op. unfold slot in S. cbn [step_op]. change (frame_at (entering "remove-slot!" env s) f) with (frame_at s f). rewrite S. unfold put.
      change (s_frames (entering "remove-slot!" env s)) with (s_frames s). rewrite E. reflexivity.
    + repeat apply conj.
      * reflexivity.
      * intros g N. unfold frame_at. cbn [s_frames set_frames]. rewrite lookup_insert_ne by congruence. reflexivity.
      * unfold slot. rewrite Eq. apply alookup_adel_eq.
      * intros k' N. unfold slot. rewrite Eq. apply alookup_adel_ne, N.
  - exists s0. split.
    + applies. unfold remove_slot_impl. cbn [arg nth need_frame need_naked]. eapply runs_bind; [apply runs_ret|]. cbv iota. rewrite (naked_true k K).
      apply (then_iff _ _ _ false s0); [|apply runs_ret].
      eapply runs_op. unfold slot in S. cbn [step_op]. change (frame_at (entering "remove-slot!" env s) f) with (frame_at s f). rewrite S. reflexivity.
    + split; [|split; [exact S|reflexivity]]. split; [destruct s; reflexivity|reflexivity].
Qed.
Lemma clone_run f env s : wf_state s -> exists g s',
  applies "clone" [VFrame f] env s (Done (Ok (VFrame g))) s' /\ grows s s' /\ s_frames s !! g = None /\ frame_at s' g = frame_at s f /\
  forall l, l <> g -> frame_at s' l = frame_at s l.
Proof.
  intros W. set (s0 := entering "clone" env s). assert (W0 : wf_state s0) by apply wf_entering, W.
  exists (s_next s), (set_frames (<[s_next s := frame_at s f]> (s_frames s)) (bump s0)). repeat apply conj.
  - applies. unfold clone_impl. cbn [arg nth need_frame]. op1. op1. apply runs_ret.
  - eapply grows_trans; [apply grows_entering|]. exact (grows_frame s0 (frame_at s f) _ _ W0 eq_refl).
  - apply fresh_none. intros l x Hl. exact (wf_frames _ W _ _ Hl).
  - unfold frame_at at 1. cbn [s_frames set_frames]. rewrite lookup_insert. reflexivity.
  - intros l N. unfold frame_at. cbn [s_frames set_frames]. rewrite lookup_insert_ne by congruence. reflexivity.
Qed.
Lemma set_bang_slot n e env f v s s1 : evals e env (entering "set!" env s) (Done (Ok v)) s1 ->
  local_binding s1 env n = None -> e_frame (env_at s1 env) = Some f -> s_frames s1 !! f <> None ->
  proper_parents s1 f -> (exists g, reaches s1 f g /\ slot s1 g (slot_name n) <> None) ->
  exists s2 s', only_choices s1 s2 /\ applies "set!" [VSym n; e] env s (Done (Ok v)) s' /\ only_frame f s2 s' /\
    slot s' f (slot_name n) = Some v /\ forall k, k <> slot_name n -> slot s' f k = slot s1 f k.
Proof.
  intros Ev L Fr F P X. destruct (finds_slot f (slot_name n) s1 s1 (fun _ => eq_refl) P X) as (g & w & s2 & s3 & A & _ & _ & _).
  assert (C : only_choices s1 s2). { destruct (asks_run f (slot_name n) s1) as (o & s2' & A' & C & _). destruct (runs_det _ _ _ _ _ _ _ _ A A') as [_ ->]. exact C. }
  assert (F2 : s_frames s2 !! f <> None) by (rewrite C; exact F).
  exists s2, (put_slot f (slot_name n) v s2). split; [exact C|]. split.
  - apply set_iff. eexists (Done (Ok v)), s1. split; [exact Ev|]. unfold sets. rewrite L, Fr. exists (Done true), s2. split; [exact A|]. split; reflexivity.
  - destruct (put_slot_only f (slot_name n) v s2 F2) as (O & S & S'). split; [exact O|]. split; [exact S|]. intros k N. rewrite (S' k N). exact (oc_slot _ _ _ _ C).
Qed.

(** *** C49 *)
Lemma send_found f k vs env s : wf_state s -> naked k -> no_nils vs -> proper_parents s f -> (exists g, reaches s f g /\ slot s g k <> None) ->
  exists g v s1, inherits s k f g v /\ only_choices (entering "send" env s) s1 /\
  match v with
  | VFun fl => symbolp (f_params (fn_code (fun_at s fl))) = false ->
      exists l s2, grows s1 s2 /\ is_list s2 l vs /\
      forall o s', applies "send" (VFrame f :: VSym k :: vs) env s o s' <-> calls_function fl (Some f) as_it_is l (length vs) env s2 o s'
  | _ => forall o s', applies "send" (VFrame f :: VSym k :: vs) env s o s' <->
      fails ("send requires a function slot, but was given a slot containing a " +++ type_name v +++ ".") s1 o s'
  end.
Proof.
  intros W K N P X. set (s0 := entering "send" env s). assert (W0 : wf_state s0) by apply wf_entering, W.
  destruct (finds_slot f k s s0 (fun _ => eq_refl) P X) as (g & v & s1 & s2 & A & R & C & I).
  exists g, v, s2. split; [exact I|]. split; [exact C|].
  assert (B : forall o s', applies "send" (VFrame f :: VSym k :: vs) env s o s' <->
    runs denote (match v with VFun fl => params <- tail_list 2 (VFrame f :: VSym k :: vs) ;; fun_apply fl params env (Some f) false | _ => not_function_slot "send" v end) s2 o s').
  { intros o s'. body_of. unfold send_impl. cbn [arg nth need_frame need_naked]. rewrite (naked_true k K).
    refine (iff_trans (asks_iff _ _ _ _ _ _ _ _ A) _). cbn [negb]. exact (reads_iff _ _ _ _ _ _ _ _ R). }
  destruct v as [|t l| |z|x|b|l|x|fl|l|x|l|l|l|l|h|l|l]; try (intros o s'; rewrite B; apply fail_iff).
  intros Sy. assert (W2 : wf_state s2) by (eapply wf_runs; [eapply wf_runs; [exact W0|exact A]|exact R]).
  pose proof (new_tail_list vs VNil [] s2 W2 N (il_nil _)) as L. rewrite app_nil_r in L. destruct (new_tail_grows vs VNil s2 W2) as [G _].
  exists (fst (new_tail vs VNil s2)), (snd (new_tail vs VNil s2)). split; [exact G|]. split; [exact L|]. intros o s'. rewrite B.
  unfold tail_list. change (skipn 2 (VFrame f :: VSym k :: vs)) with vs. rewrite (then_iff _ _ _ _ _ _ _ (new_tail_run _ _ _)).
  apply fun_apply_iff; [exact L|].
  assert (H : s_funs (snd (new_tail vs VNil s2)) = s_funs s2).
  { clear. induction vs as [|v vs IH]; [reflexivity|]. cbn [new_tail]. destruct (new_tail vs VNil s2) as [t s1]. cbn [snd] in *. destruct v; exact IH. }
  unfold fun_at. rewrite H. assert (H2 : s_funs s2 = s_funs s) by (rewrite C; reflexivity). rewrite H2. exact Sy.
Qed.
Lemma send_missing f k vs env s : naked k -> proper_parents s f -> (forall g, reaches s f g -> slot s g k = None) ->
  exists s', applies "send" (VFrame f :: VSym k :: vs) env s (Done (Err ("send requires an existing slot, but was given " +++ k +++ "."))) s' /\
    only_choices (entering "send" env s) s'.
Proof.
  intros K P X. set (s0 := entering "send" env s). destruct (finds_no_slot f k s s0 (fun _ => eq_refl) P) as (s1 & A & C).
  { intros (g & G & N). destruct (N (X g G)). }
  exists s1. split; [|exact C]. applies. unfold send_impl. cbn [arg nth need_frame need_naked]. rewrite (naked_true k K).
  apply (asks_iff _ _ _ _ _ _ _ _ A). cbn [negb]. unfold fail_got. eapply runs_bind; [apply call_iff; cbn [denote string_body]; apply runs_ret|apply runs_ret].
Qed.
(** Names inside a method. *)
Lemma method_reads n env f s : has_suffix ":" n = false -> local_binding s env n = None -> e_frame (env_at s env) = Some f ->
  proper_parents s f -> (exists g, reaches s f g /\ slot s g (slot_name n) <> None) ->
  exists g v s1, inherits s (slot_name n) f g v /\ only_choices s s1 /\ evals (VSym n) env s (Done (Ok v)) (noted true v s1).
Proof.
  intros Nk L Fr P X. destruct (finds_slot f (slot_name n) s s (fun _ => eq_refl) P X) as (g & v & s1 & s2 & A & R & C & I).
  exists g, v, s2. split; [exact I|]. split; [exact C|]. apply symbol_iff. rewrite Nk. unfold finds. rewrite L, Fr.
  exists (Done true), s1. split; [exact A|]. exists (Done v), s2. split; [exact R|]. destruct v; split; reflexivity.
Qed.
(** self inside a method *)
Lemma method_self fl f env s : wf_state s ->
  let f0 := fn_code (fun_at s fl) in
  let s2 := add_binding (s_next s) (VSym "self") (VFrame f) (open_env (f_name f0) (f_env f0) (Some f) s) in
  (forall argument args got o s', calls_function fl (Some f) argument args got env s o s' <->
    bind_if_any (s_next s) "parentProcess" (option_map VProc (fn_proc (fun_at s2 fl))) s2 (fun s3 =>
      if enough (f_varargs f0) (f_req f0) got then passes argument (s_next s) (runs_body f0 (s_next s)) (f_params f0) args s3
      else fails (arity_msg (f_name f0) (f_varargs f0) (f_req f0) (Z.of_nat got)) s3) o s') /\
  e_frame (env_at s2 (s_next s)) = Some f /\ e_parent (env_at s2 (s_next s)) = Some (f_env f0) /\
  evals (VSym "self") (s_next s) s2 (Done (Ok (VFrame f))) s2.
Proof.
  intros W f0 s2. set (s1 := open_env (f_name f0) (f_env f0) (Some f) s) in *.
  assert (E1 : s_envs s1 !! (s_next s : loc) = Some (Env (f_name f0) (Some (f_env f0)) (Some f) [] (e_restricted (env_at s (f_env f0))))).
  { unfold s1, open_env. destruct (Pos.eqb (f_env f0) (s_global s)); cbn [s_envs set_envs set_tops]; apply lookup_insert. }
  assert (L1 : local_binding s1 (s_next s) "self" = None). { unfold local_binding, env_at. rewrite E1. reflexivity. }
  assert (E2 : s_envs s2 !! (s_next s : loc) = Some (Env (f_name f0) (Some (f_env f0)) (Some f) [("self", s_next s1)] (e_restricted (env_at s (f_env f0))))).
  { unfold s2, add_binding, put. cbn [s_envs set_envs set_binds bump]. rewrite E1. cbn [s_envs set_envs]. rewrite lookup_insert.
    unfold env_at. rewrite E1. reflexivity. }
  repeat apply conj.
  - intros argument args got o s'. unfold calls_function. fold f0. fold s1. cbn [bind_if_any]. unfold then_bind, bind_here. cbn [name_of]. rewrite L1. reflexivity.
  - unfold env_at. rewrite E2. reflexivity.
  - unfold env_at. rewrite E2. reflexivity.
  - apply symbol_iff. cbn [has_suffix]. change (has_suffix ":" "self") with false. cbv iota. unfold finds, local_binding, env_at. rewrite E2. unfold default, id. cbn [e_binds].
    change (alookup "self" [("self", s_next s1)]) with (Some (s_next s1)). cbv iota.
    assert (V : value_in s2 (s_next s1) = VFrame f).
    { unfold value_in, bind_at, s2, add_binding. cbn [s_binds set_envs set_binds bump]. rewrite lookup_insert. reflexivity. }
    rewrite V. split; reflexivity.
Qed.

(** Examples: two frames that are each other's prototype; k: is only in the second. *)
Definition two_frames (s : state) : state :=
  set_frames (<[1000%positive := [("a:", VInt 1); ("p*:", VFrame 1001%positive)]]> (<[1001%positive := [("k:", VInt 2); ("q*:", VFrame 1000%positive)]]> ∅)) s.
Lemma two_frames_case s : naked "k:" /\ proper_parents (two_frames s) 1000%positive /\ reaches (two_frames s) 1000%positive 1001%positive /\
  reaches (two_frames s) 1001%positive 1000%positive /\ inherits (two_frames s) "k:" 1000%positive 1001%positive (VInt 2).
Proof.
  split; [exists "k"; reflexivity|].
  assert (F1 : frame_at (two_frames s) 1000%positive = [("a:", VInt 1); ("p*:", VFrame 1001%positive)]) by reflexivity.
  assert (F2 : frame_at (two_frames s) 1001%positive = [("k:", VInt 2); ("q*:", VFrame 1000%positive)]) by reflexivity.
  assert (P1 : parent (two_frames s) 1000%positive 1001%positive) by (exists "p*:"; rewrite F1; split; [right; left; reflexivity|exists "p"; reflexivity]).
  assert (P2 : parent (two_frames s) 1001%positive 1000%positive) by (exists "q*:"; rewrite F2; split; [right; left; reflexivity|exists "q"; reflexivity]).
  assert (H : forall f g, reaches (two_frames s) f g -> f = 1000%positive \/ f = 1001%positive -> g = 1000%positive \/ g = 1001%positive).
  { intros f g R. induction R as [f|f p g (k & I & _) R IH]; [auto|]. intros [->| ->]; apply IH; rewrite ?F1, ?F2 in I; destruct I as [I|[I|[]]]; inversion I; auto. }
  split; [|split; [|split]].
  - intros g G k v I K. apply parent_key in K. destruct (H _ _ G (or_introl eq_refl)) as [->| ->]; rewrite ?F1, ?F2 in I; destruct I as [I|[I|[]]]; injection I as <- <-; try discriminate; eauto.
  - eapply reaches_up; [exact P1|constructor].
  - eapply reaches_up; [exact P2|constructor].
  - eapply inherits_up; [reflexivity|exact P1|constructor; reflexivity].
Qed.
Definition odd_parent (s : state) : state := set_frames (<[1000%positive := [("p*:", VInt 3)]]> ∅) s.
Lemma odd_parent_case s : ~ proper_parents (odd_parent s) 1000%positive /\ forall g, reaches (odd_parent s) 1000%positive g -> slot (odd_parent s) g "k:" = None.
Proof.
  assert (F1 : frame_at (odd_parent s) 1000%positive = [("p*:", VInt 3)]) by reflexivity.
  split.
  - intros P. destruct (P 1000%positive (reaches_self _ _) "p*:" (VInt 3)) as [E|(h & E)]; [rewrite F1; left; reflexivity|exists "p"; reflexivity|discriminate|discriminate].
  - intros g G. inversion G as [|? p ? (k & I & _) _]; subst; [reflexivity|]. rewrite F1 in I. destruct I as [I|[]]. inversion I.
Qed.
(** A frame with a method, and an environment inside a call of it. *)
Definition with_method (s : state) : state :=
  set_frames (<[1000%positive := [("x:", VInt 1); ("m:", VFun 1001%positive)]]> (s_frames s))
    (set_envs (<[1002%positive := Env "m" (Some (s_global s)) (Some 1000%positive) [] false]> (s_envs s)) s).
Lemma with_method_case s : let s' := with_method s in
  local_binding s' 1002%positive "x" = None /\ e_frame (env_at s' 1002%positive) = Some 1000%positive /\ s_frames s' !! (1000%positive : loc) <> None /\
  proper_parents s' 1000%positive /\ reaches s' 1000%positive 1000%positive /\ slot s' 1000%positive "x:" = Some (VInt 1) /\
  inherits s' "m:" 1000%positive 1000%positive (VFun 1001%positive).
Proof.
  intros s'. assert (E : s_envs s' !! (1002%positive : loc) = Some (Env "m" (Some (s_global s)) (Some 1000%positive) [] false)) by apply lookup_insert.
  assert (F : s_frames s' !! (1000%positive : loc) = Some [("x:", VInt 1); ("m:", VFun 1001%positive)]) by apply lookup_insert.
  assert (F1 : frame_at s' 1000%positive = [("x:", VInt 1); ("m:", VFun 1001%positive)]) by (unfold frame_at; rewrite F; reflexivity).
  assert (R : forall g, reaches s' 1000%positive g -> g = 1000%positive).
  { intros g G. inversion G as [|? p ? (k & I & _) _]; subst; [reflexivity|]. rewrite F1 in I. destruct I as [I|[I|[]]]; inversion I. }
  repeat apply conj.
  - unfold local_binding, env_at. rewrite E. reflexivity.
  - unfold env_at. rewrite E. reflexivity.
  - intros X. rewrite X in F. discriminate.
  - intros g G k v I K. rewrite (R g G), F1 in I. apply parent_key in K. destruct I as [I|[I|[]]]; injection I as <- <-; discriminate.
  - constructor.
  - unfold slot. rewrite F1. reflexivity.
  - constructor. unfold slot. rewrite F1. reflexivity.
Qed.
