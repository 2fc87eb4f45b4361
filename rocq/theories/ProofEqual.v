(** Proofs of C65. *)
From Coq Require Import SpecFloat.
From Verif Require Import SpecEqual ProofTree ProofSet ProofFrame ProofFill.
From stdpp Require Import list.
From Verif Require Import Data.
Local Open Scope string_scope.
Local Open Scope list_scope.
Local Open Scope Z_scope.

Section NodeInd.
  Variable P : node -> Prop.
  Hypothesis Hint : forall z, P (NInt z).
  Hypothesis Hfloat : forall f, P (NFloat f).
  Hypothesis Hbool : forall b, P (NBool b).
  Hypothesis Hstr : forall t, P (NStr t).
  Hypothesis Hsym : forall t, P (NSym t).
  Hypothesis Hbytes : forall bs, P (NBytes bs).
  Hypothesis Href : forall v, P (NRef v).
  Hypothesis Hlist : forall ns, Forall P ns -> P (NList ns).
  Hypothesis Hframe : forall ns, Forall (fun q : string * node => P (snd q)) ns -> P (NFrame ns).
  Fixpoint node_ind2 (d : node) : P d :=
    match d with
    | NInt z => Hint z
    | NFloat f => Hfloat f
    | NBool b => Hbool b
    | NStr t => Hstr t
    | NSym t => Hsym t
    | NBytes bs => Hbytes bs
    | NRef v => Href v
    | NList ns => Hlist ns ((fix go l : Forall P l :=
        match l with [] => List.Forall_nil _ | x :: r => List.Forall_cons _ x r (node_ind2 x) (go r) end) ns)
    | NFrame ns => Hframe ns ((fix go l : Forall (fun q : string * node => P (snd q)) l :=
        match l with [] => List.Forall_nil _ | (n, x) :: r => List.Forall_cons _ (n, x) r (node_ind2 x) (go r) end) ns)
    end.
End NodeInd.

Lemma st_list_inv s v ns : stands s v (NList ns) -> exists xs, is_list s v xs /\ Forall2 (stands s) xs ns.
Proof. intros H. inversion H; subst. eauto. Qed.
Lemma st_frame_inv s v ns : stands s v (NFrame ns) -> exists l m, v = VFrame l /\ s_frames s !! (l : loc) = Some m /\ List.NoDup (map fst m) /\
  Forall2 (fun p q => fst p = fst q /\ stands s (snd p) (snd q)) m ns.
Proof. intros H. inversion H; subst. eauto 10. Qed.
Lemma st_grows n : forall s s' v, grows s s' -> stands s v n -> stands s' v n.
Proof.
  induction n as [z0|f0|b0|t0|t0|bs0|v0|ns IH|ns IH] using node_ind2; intros s s' v G H.
  - inversion H; constructor.
  - inversion H; constructor.
  - inversion H; constructor.
  - inversion H; subst. constructor. apply (g_strs _ _ G). assumption.
  - inversion H; constructor.
  - inversion H; subst. constructor. apply (g_bytes _ _ G). assumption.
  - inversion H; subst. constructor. assumption.
  - destruct (st_list_inv _ _ _ H) as (xs & L & F). econstructor; [exact (is_list_grows _ _ _ _ G L)|].
    clear H L. revert IH. induction F as [|x q xs ns E F IHF]; intros IH; constructor.
    + apply (Forall_inv IH _ _ _ G E).
    + apply IHF, (Forall_inv_tail IH).
  - destruct (st_frame_inv _ _ _ H) as (l & m & -> & E & N & F).
    apply (st_frame _ _ m); [apply (g_frames _ _ G), E|exact N|].
    clear H E N. revert IH. induction F as [|x q xs ns [E1 E2] F IHF]; intros IH; constructor.
    + split; [exact E1|apply (Forall_inv IH _ _ _ G E2)].
    + apply IHF, (Forall_inv_tail IH).
Qed.
Lemma oc_grows s s' : only_choices s s' -> grows s s'.
Proof. intros ->. constructor; cbn; try reflexivity; try (intros ? ? E; exact E). exists []. split; [reflexivity|constructor]. Qed.
Lemma st_oc s s' v n : only_choices s s' -> stands s v n -> stands s' v n.
Proof. intros C. apply st_grows, oc_grows, C. Qed.

(** ** Floats *)
Lemma same_number_eqb f g : f32_eqb f g = true <-> same_number f g.
Proof.
  unfold same_number, f32_eqb, SFeqb. split.
  - intros H. destruct f as [a|a| |a m e], g as [b|b| |b m' e']; cbn [SFcompare] in H;
      repeat match type of H with context [if ?c then _ else _] => destruct c end; try discriminate H;
      try (left; split; [reflexivity|discriminate]); try (right; eexists _, _; split; reflexivity);
      (destruct (Z.compare_spec e e'); try discriminate H; subst e'; left; split; [|discriminate]; f_equal;
       destruct (Pos.compare_cont Eq m m') eqn:E; try discriminate H; apply Pos.compare_eq; exact E).
  - intros [[<- H]|(a & b & -> & ->)]; [|reflexivity]. destruct f as [a|a| |a m e]; cbn [SFcompare]; [reflexivity|destruct a; reflexivity|congruence|].
    rewrite Z.compare_refl. fold (Pos.compare m m). rewrite Pos.compare_refl. destruct a; reflexivity.
Qed.
Lemma same_number_refl f : f <> S754_nan -> same_number f f.
Proof. intros H. left. auto. Qed.
Lemma same_number_sym f g : same_number f g -> same_number g f.
Proof. intros [[-> H]|(a & b & -> & ->)]; [left; auto|right; eauto]. Qed.
Lemma same_number_trans f g h : same_number f g -> same_number g h -> same_number f h.
Proof. intros [[-> H]|(a & b & -> & ->)] H2; [exact H2|]. destruct H2 as [[<- _]|(c & d & _ & ->)]; right; eauto. Qed.

(** ** The relation *)
Lemma assoc_unique {A} (m : list (string * A)) k x y : List.NoDup (map fst m) -> In (k, x) m -> In (k, y) m -> x = y.
Proof.
  induction m as [|[k' z] m IH]; intros N H1 H2; [destruct H1|]. cbn [map fst] in N. apply List.NoDup_cons_iff in N as [N1 N2].
  destruct H1 as [H1|H1], H2 as [H2|H2]; [congruence| | |auto]; exfalso; apply N1, in_map_iff;
    [injection H1 as -> ->; exists (k, y); auto|injection H2 as -> ->; exists (k, x); auto].
Qed.
Lemma alookup_some {A} k (m : list (string * A)) x : alookup k m = Some x -> In (k, x) m.
Proof.
  induction m as [|[k' y] m IH]; cbn; [discriminate|]. destruct (str_eqb_spec k k') as [->|]; [intros [= ->]; auto|auto].
Qed.
Lemma alookup_none {A} k (m : list (string * A)) : alookup k m = None <-> ~ In k (map fst m).
Proof.
  induction m as [|[k' y] m IH]; cbn; [tauto|]. destruct (str_eqb_spec k k') as [->|N].
  - split; [discriminate|]. intros H. destruct H. auto.
  - rewrite IH. split; [intros H [E|E]; [congruence|contradiction]|tauto].
Qed.
Lemma forall2_left {A B} (R : A -> B -> Prop) l1 l2 x : Forall2 R l1 l2 -> In x l1 -> exists y, In y l2 /\ R x y.
Proof. induction 1 as [|a b l1 l2 H F IH]; [intros []|]. intros [->|I]; [exists b; split; [left; reflexivity|exact H]|]. destruct (IH I) as (y & I' & R'). exists y. split; [right; exact I'|exact R']. Qed.
Lemma forall2_right {A B} (R : A -> B -> Prop) l1 l2 y : Forall2 R l1 l2 -> In y l2 -> exists x, In x l1 /\ R x y.
Proof. induction 1 as [|a b l1 l2 H F IH]; [intros []|]. intros [->|I]; [exists a; split; [left; reflexivity|exact H]|]. destruct (IH I) as (x & I' & R'). exists x. split; [right; exact I'|exact R']. Qed.
Lemma slot_keys s (m : list (string * val)) (ns : list (string * node)) : Forall2 (fun p q => fst p = fst q /\ stands s (snd p) (snd q)) m ns -> map fst m = map fst ns.
Proof. induction 1 as [|p q m ns [E _] F IH]; [reflexivity|]. cbn [map]. congruence. Qed.
(** One value stands for one tree, up to sameness. *)
Lemma stands_same s n1 : clear n1 -> forall v n2, stands s v n1 -> stands s v n2 -> same n1 n2.
Proof.
  induction n1 as [z0|f0|b0|t0|t0|bs0|v0|ns IH|ns IH] using node_ind2; intros C v n2 H1 H2.
  1-6: inversion H1; subst; inversion H2; subst; try discriminate;
    try (match goal with H : is_list _ _ _ |- _ => inversion H end; fail);
    try (match goal with A : ?x = Some ?a, B : ?x = Some ?b |- _ => rewrite A in B; injection B as <- end); try (constructor; fail).
  - constructor. apply same_number_refl. inversion C. assumption.
  - inversion H1; subst. destruct v0; try discriminate; inversion H2; subst; try constructor;
      match goal with H : is_list _ _ _ |- _ => inversion H end.
  - destruct (st_list_inv _ _ _ H1) as (xs & L1 & F1). inversion H2; subst; try (inversion L1; fail).
    + exfalso. inversion L1; subst; discriminate.
    + match goal with H : is_list s v ?ys |- _ => rename ys into xs'; rename H into L2 end.
      rewrite <- (is_list_det _ _ _ L1 _ L2) in *. constructor. inversion C as [| | | | | | |? Fd|]; subst.
      match goal with H : Forall2 (stands s) _ ns0 |- _ => rename H into F0 end. clear H1 H2 L1 L2 C.
      revert ns0 F0 IH Fd. induction F1 as [|x q ys ns E F IHF]; intros ns0 F0 IH Fd; inversion F0; subst; [constructor|].
      constructor; [apply (Forall_inv IH (Forall_inv Fd) x); assumption|].
      apply IHF; [assumption|apply (Forall_inv_tail IH)|apply (Forall_inv_tail Fd)].
  - destruct (st_frame_inv _ _ _ H1) as (l & m & -> & E & N & F). inversion H2 as [| | | | | |? O|? ? ? L|? m' ns' E' N' F']; subst; [discriminate|inversion L|].
    rewrite E in E'. injection E' as <-. constructor.
    + intros k. rewrite <- (slot_keys _ _ _ F), <- (slot_keys _ _ _ F'). reflexivity.
    + intros k x y Ix Iy. destruct (forall2_right _ _ _ _ F Ix) as ([k1 v1] & I1 & E1 & S1). destruct (forall2_right _ _ _ _ F' Iy) as ([k2 v2] & I2 & E2 & S2).
      cbn [fst snd] in *. subst k1 k2. rewrite (assoc_unique _ _ _ _ N' I1 I2) in S1. inversion C as [| | | | | | | |? Fc]; subst.
      apply (proj1 (List.Forall_forall _ _) IH _ Ix) with (v := v2); [|exact S1|exact S2]. apply (proj1 (List.Forall_forall _ _) Fc _ Ix).
Qed.
Lemma same_sym a : forall b, same a b -> same b a.
Proof.
  induction a as [z0|f0|b0|t0|t0|bs0|v0|ns IH|ns IH] using node_ind2; intros b H; inversion H; subst; try (constructor; fail).
  - constructor. apply same_number_sym. assumption.
  - constructor. match goal with H : Forall2 same ns _ |- _ => rename H into F end. clear H. revert IH. induction F as [|x y ns ms E F IHF]; intros IH; constructor.
    + apply (Forall_inv IH), E.
    + apply IHF, (Forall_inv_tail IH).
  - constructor.
    + intros k. symmetry. auto.
    + intros k x y Ix Iy. apply (proj1 (List.Forall_forall _ _) IH (k, y) Iy). cbn [snd]. eauto.
Qed.
Lemma same_trans a : forall b c, same a b -> same b c -> same a c.
Proof.
  induction a as [z0|f0|b0|t0|t0|bs0|v0|ns IH|ns IH] using node_ind2; intros b c H1 H2; inversion H1; subst; inversion H2; subst; try (constructor; fail).
  - constructor. eapply same_number_trans; eassumption.
  - constructor. match goal with H : Forall2 same ns _, H' : Forall2 same ms _ |- _ => rename H into F; rename H' into F' end. clear H1 H2. revert ms0 F' IH. induction F as [|x y ns ms E F IHF]; intros ms0 F' IH; inversion F'; subst; constructor.
    + eapply (Forall_inv IH); eassumption.
    + apply IHF; [assumption|apply (Forall_inv_tail IH)].
  - match goal with A : forall k, In k (map fst ns) <-> In k (map fst ?b), B : forall k, In k (map fst ?b) <-> In k (map fst ?c) |- _ => rename A into K1; rename B into K2 end. constructor.
    + intros k. rewrite K1. apply K2.
    + intros k x y Ix Iy. assert (Ik : In k (map fst ns)) by (apply in_map_iff; exists (k, x); auto). apply K1, in_map_iff in Ik as ([k' z] & Ek & Iz). cbn in Ek. subst k'.
      apply (proj1 (List.Forall_forall _ _) IH (k, x) Ix z); cbn [snd]; eauto.
Qed.
Lemma same_refl s v a : clear a -> stands s v a -> same a a.
Proof. intros C S. exact (stands_same s a C v a S S). Qed.

(** ** The code *)
Definition answers (s : state) (v1 v2 : val) (P : Prop) : Prop :=
  exists b s', runs denote (call (REqual v1 v2)) s (Done b) s' /\ only_choices s s' /\ agrees b P.
Definition equals (n1 : node) : Prop := clear n1 -> forall s v1 v2 n2, stands s v1 n1 -> stands s v2 n2 -> clear n2 -> answers s v1 v2 (same n1 n2).
Lemma equal_lists_st : forall ns1, Forall equals ns1 -> Forall clear ns1 -> forall s xs, Forall2 (stands s) xs ns1 ->
  forall ys ns2 v1 v2, is_list s v1 xs -> is_list s v2 ys -> Forall2 (stands s) ys ns2 -> Forall clear ns2 -> length xs = length ys ->
  exists b s', runs denote (equal_lists v1 v2) s (Done b) s' /\ only_choices s s' /\ agrees b (Forall2 same ns1 ns2).
Proof.
  induction ns1 as [|n1 ns1 IHF]; intros IH Fl s xs F ys ns2 v1 v2 L1 L2 F2 Fl2 Hl; inversion F as [|x ? xs' ? E F']; subst.
  - destruct ys; [|discriminate]. inversion F2; subst. exists true, s. split; [|split; [apply oc_refl|apply agrees_true; constructor]].
    apply runs_loop_stop. rsteps. rewrite (is_list_nil_inv _ _ L1). apply runs_ret.
  - destruct ys as [|y ys]; [discriminate|]. inversion F2 as [|? n2 ? ns2' E2 F2']; subst.
    destruct (is_list_cons_inv _ _ _ _ L1) as (A1 & A2 & A3 & _).
    destruct (is_list_cons_inv _ _ _ _ L2) as (B1 & B2 & B3 & _).
    destruct (Forall_inv IH (Forall_inv Fl) s x y n2 E E2 (Forall_inv Fl2)) as (b & s1 & Rb & Cb & Hb).
    pose proof (oc_grows _ _ Cb) as G1.
    destruct b.
    + assert (D1 : cdr_of s1 v1 = cdr_of s v1) by (rewrite Cb; destruct v1; reflexivity). assert (D2 : cdr_of s1 v2 = cdr_of s v2) by (rewrite Cb; destruct v2; reflexivity).
      destruct (IHF (Forall_inv_tail IH) (Forall_inv_tail Fl) s1 xs') with (ys := ys) (ns2 := ns2') (v1 := cdr_of s v1) (v2 := cdr_of s v2) as (c & s2 & Rc & Cc & Hc).
      * apply (Forall2_impl _ _ _ _ F'). intros p q. apply st_grows, G1.
      * apply (is_list_grows _ _ _ _ G1), A3.
      * apply (is_list_grows _ _ _ _ G1), B3.
      * apply (Forall2_impl _ _ _ _ F2'). intros p q. apply st_grows, G1.
      * apply (Forall_inv_tail Fl2).
      * cbn in Hl; lia.
      * exists c, s2. split; [|split; [exact (oc_trans _ _ _ Cb Cc)|]].
        -- eapply runs_loop_step; [|exact Rc]. rsteps. rewrite A1. rsteps. rewrite A2, B2.
           eapply runs_bind; [exact Rb|]. rewrite <- D1, <- D2. rsteps.
        -- unfold agrees in *. rewrite Hc. assert (same n1 n2) by (apply Hb; reflexivity). split; [intros H0; constructor; assumption|intros H0; inversion H0; assumption].
    + exists false, s1. split; [|split; [exact Cb|]].
      * apply runs_loop_stop. rsteps. rewrite A1. rsteps. rewrite A2, B2. eapply runs_bind; [exact Rb|]. apply runs_ret.
      * apply agrees_false. intros H0. inversion H0; subst. assert (false = true) by (apply Hb; assumption). discriminate.
Qed.
Lemma st_nilb s v n : stands s v n -> nilb s v = true -> n = NList [].
Proof.
  intros H N. inversion H; subst; try discriminate.
  - destruct v; discriminate.
  - destruct xs as [|x xs]; [inversion H1; reflexivity|]. destruct (is_list_cons_inv _ _ _ _ H0) as (E & _). congruence.
Qed.
Lemma st_nil_nilb s v : stands s v (NList []) -> nilb s v = true.
Proof. intros H. destruct (st_list_inv _ _ _ H) as (xs & L & F). inversion F; subst. exact (is_list_nil_inv _ _ L). Qed.
Definition node_tag (d : node) : Z :=
  match d with NInt _ => 4 | NFloat _ => 5 | NBool _ => 6 | NStr _ => 7 | NSym _ => 8 | NBytes _ => 12 | NRef v => type_tag v | NList _ => 1 | NFrame _ => 13 end.
Lemma st_tag s v d : stands s v d -> is_nil v = false -> type_tag v = node_tag d.
Proof. intros H N. inversion H; subst; try reflexivity. inversion H0; subst; try reflexivity. discriminate. Qed.
Lemma same_tag a b : same a b -> node_tag a = node_tag b.
Proof. intros H. inversion H; reflexivity. Qed.
Lemma st_ptr s v1 v2 d1 d2 : stands s v1 d1 -> stands s v2 d2 -> ptr_eqb v1 v2 = true -> v1 = v2.
Proof.
  intros R1 R2 E. destruct v1, v2; try discriminate E; cbn in E; try reflexivity;
  try (apply Pos.eqb_eq in E; subst; reflexivity); [|apply str_eqb_eq in E; subst; reflexivity].
  apply Pos.eqb_eq in E; subst. assert (T : forall t l d, stands s (VCell t l) d -> t = TCons).
  { intros tt l1 dd H. inversion H; subst; [discriminate|]. inversion H0; reflexivity. }
  rewrite (T _ _ _ R1), (T _ _ _ R2). reflexivity.
Qed.
Lemma st_not_alist s v d : stands s v d -> is_nil v = false -> alistp v = false /\ dottedp v = false.
Proof.
  intros H N. inversion H; subst; try (split; reflexivity); [destruct v; try discriminate; split; reflexivity|].
  inversion H0; subst; try (split; reflexivity). discriminate.
Qed.
Lemma prelude s v1 v2 n1 n2 : stands s v1 n1 -> stands s v2 n2 -> clear n1 ->
  (node_tag n2 = node_tag n1 -> exists b s', runs denote (equal_rest v1 v2) s (Done b) s' /\ only_choices s s' /\ agrees b (same n1 n2)) ->
  answers s v1 v2 (same n1 n2).
Proof.
  intros R1 R2 Fl1 Hr. unfold answers.
  cut (exists b s', runs denote (equal_body v1 v2) s (Done b) s' /\ only_choices s s' /\ agrees b (same n1 n2)).
  { intros (b & s' & R & A). exists b, s'. split; [apply (runs_do_call denote _ (REqual v1 v2)); exact R|exact A]. }
  unfold equal_body. destruct (ptr_eqb v1 v2 && negb (floatp v1)) eqn:Ep.
  { exists true, s. split; [apply runs_ret|]. split; [apply oc_refl|]. apply agrees_true. apply andb_true_iff in Ep. destruct Ep as [Ep _].
    rewrite (st_ptr _ _ _ _ _ R1 R2 Ep) in R1. exact (stands_same _ _ Fl1 _ _ R1 R2). }
  destruct (nilb s v1 && nilb s v2) eqn:En.
  { apply andb_true_iff in En. destruct En as [En1 En2]. exists true, s. split; [|split; [apply oc_refl|]].
    - rsteps. rewrite En1. rsteps. rewrite En2. apply runs_ret.
    - apply agrees_true. rewrite (st_nilb _ _ _ R1 En1), (st_nilb _ _ _ R2 En2). constructor. constructor. }
  assert (Out : forall p b s', runs denote p s (Done b) s' /\ only_choices s s' /\ agrees b (same n1 n2) -> exists b s', runs denote
      (nd <- nilp v1 ;; no <- (if nd : bool then nilp v2 else Ret false) ;; if nd && no then Ret true else p) s (Done b) s' /\ only_choices s s' /\ agrees b (same n1 n2)).
  { intros p b s' (H1 & H2). exists b, s'. split; [|exact H2].
    rsteps. destruct (nilb s v1); rsteps; cbn [andb] in *; [rewrite En|]; exact H1. }
  destruct (is_nil v1 || is_nil v2) eqn:Ei.
  { apply (Out _ false s). split; [apply runs_ret|]. split; [apply oc_refl|]. apply agrees_false. intros Sm.
    assert (N : n1 = NList [] /\ n2 = NList []).
    { apply orb_true_iff in Ei. destruct Ei as [Ei|Ei].
      - destruct v1; try discriminate. assert (n1 = NList []) by (apply (st_nilb _ _ _ R1); reflexivity). subst n1. inversion Sm as [| | | | | | |? ? F|]; subst. inversion F; subst. auto.
      - destruct v2; try discriminate. assert (n2 = NList []) by (apply (st_nilb _ _ _ R2); reflexivity). subst n2. inversion Sm as [| | | | | | |? ? F|]; subst. inversion F; subst. auto. }
    destruct N as [-> ->]. rewrite (st_nil_nilb _ _ R1), (st_nil_nilb _ _ R2) in En. discriminate. }
  apply orb_false_iff in Ei. destruct Ei as [Ei1 Ei2].
  destruct (st_not_alist _ _ _ R1 Ei1) as [Ea Ed]. rewrite Ea, Ed. cbv zeta.
  rewrite (st_tag _ _ _ R1 Ei1), (st_tag _ _ _ R2 Ei2).
  destruct (Z.eqb_spec (node_tag n2) (node_tag n1)) as [Et|Et]; cbn [negb].
  - destruct (Hr Et) as (b & s' & H). exact (Out _ b s' H).
  - apply (Out _ false s). split; [apply runs_ret|]. split; [apply oc_refl|]. apply agrees_false. intros Sm. apply same_tag in Sm. congruence.
Qed.
(** The slots of one frame against another, in any order. *)
Lemma equal_slots_st s0 fo (m2 : list (string * val)) (ns2 : list (string * node)) : s_frames s0 !! (fo : loc) = Some m2 -> List.NoDup (map fst m2) -> Forall2 (fun p q => fst p = fst q /\ stands s0 (snd p) (snd q)) m2 ns2 -> Forall (fun q => clear (snd q)) ns2 ->
  forall (m1 : list (string * val)) (ns1 : list (string * node)), Forall2 (fun p q => fst p = fst q /\ stands s0 (snd p) (snd q)) m1 ns1 -> Forall (fun q => equals (snd q)) ns1 -> Forall (fun q => clear (snd q) /\ snd q <> NList []) ns1 ->
  forall s, only_choices s0 s -> exists b s', runs denote (equal_slots m1 fo) s (Done b) s' /\ only_choices s0 s' /\
    agrees b (forall k x, In (k, x) ns1 -> exists y, In (k, y) ns2 /\ same x y).
Proof.
  intros E2 N2 F2 C2 m1 ns1 F1. induction F1 as [|[k v] [k' x] m1 ns1 [Ek S1] F1 IHF]; intros IH Cl s C.
  - exists true, s. split; [apply runs_ret|]. split; [exact C|]. apply agrees_true. intros k x [].
  - cbn [fst snd] in *. subst k'. destruct (Forall_inv Cl) as [Cx Nx]. cbn [snd] in Cx, Nx.
    assert (Fr : frame_at s fo = m2). { unfold frame_at. rewrite C. cbn [s_frames set_oracle]. rewrite E2. reflexivity. }
    assert (Found : exists y n, stands s (match alookup k m2 with Some w => w | None => VNil end) n /\ clear n /\
       (same x n <-> exists y, In (k, y) ns2 /\ same x y) /\ y = n).
    { destruct (alookup k m2) as [w|] eqn:Ea.
      - apply alookup_some in Ea. destruct (forall2_left _ _ _ _ F2 Ea) as ([k2 n] & In2 & Ek2 & Sn). cbn [fst snd] in *. subst k2. exists n, n.
        split; [apply (st_oc _ _ _ _ C), Sn|]. split; [apply (proj1 (List.Forall_forall _ _) C2 _ In2)|]. split; [|reflexivity]. split; [eauto|].
        intros (y & Iy & Sy). assert (y = n); [|congruence]. apply (assoc_unique ns2 k); [rewrite <- (slot_keys _ _ _ F2); exact N2|exact Iy|exact In2].
      - exists (NList []), (NList []). split; [econstructor; [apply il_nil|constructor]|]. split; [constructor; constructor|]. split; [|reflexivity]. split.
        + intros Sm. exfalso. inversion Sm as [| | | | | | |? ? F|]; subst. inversion F; subst. congruence.
        + intros (y & Iy & _). exfalso. apply alookup_none in Ea. apply Ea. rewrite (slot_keys _ _ _ F2). apply in_map_iff. exists (k, y). auto. }
    destruct Found as (_ & n & Sn & Cn & Hn & _).
    destruct (Forall_inv IH Cx s v (match alookup k m2 with Some w => w | None => VNil end) n (st_oc _ _ _ _ C S1) Sn Cn) as (b & s1 & Rb & Cb & Hb).
    pose proof (oc_trans _ _ _ C Cb) as C1. cbn [snd] in Hb.
    assert (Step : forall o s', runs denote (if b then equal_slots m1 fo else Ret false) s1 o s' -> runs denote (equal_slots ((k, v) :: m1) fo) s o s').
    { intros o s' R. cbn [equal_slots]. eapply runs_bind; [apply runs_op; reflexivity|]. cbv beta. rewrite Fr. eapply runs_bind; [exact Rb|]. exact R. }
    destruct b.
    + destruct (IHF (Forall_inv_tail IH) (Forall_inv_tail Cl) s1 C1) as (c & s2 & Rc & Cc & Hc). exists c, s2. split; [apply Step; exact Rc|]. split; [exact Cc|].
      unfold agrees in *. rewrite Hc. split.
      * intros H k0 x0 [[= -> ->]|I0]; [|eauto]. apply Hn, Hb. reflexivity.
      * intros H k0 x0 I0. apply H. right. exact I0.
    + exists false, s1. split; [apply Step; apply runs_ret|]. split; [exact C1|]. apply agrees_false. intros H. assert (false = true); [|discriminate]. apply Hb, Hn, H. left. reflexivity.
Qed.
Lemma equals_all n1 : equals n1.
Proof.
  induction n1 as [z1|f1|b1|t1|t1|bs1|r1|ns IH|ns IH] using node_ind2; intros Fl1 s v1 v2 n2 R1 R2 Fl2.
  all: apply (prelude _ _ _ _ _ R1 R2 Fl1); intros Et.
  - inversion R1; subst. inversion R2; subst; try discriminate Et; [|destruct v2; discriminate].
    exists (z1 =? z), s. split; [apply runs_ret|]. split; [apply oc_refl|]. unfold agrees. rewrite Z.eqb_eq. split; [intros ->; constructor|intros Hs; inversion Hs; reflexivity].
  - inversion R1; subst. inversion R2; subst; try discriminate Et; [|destruct v2; discriminate].
    exists (f32_eqb f1 f), s. split; [apply runs_ret|]. split; [apply oc_refl|]. unfold agrees. rewrite same_number_eqb. split; [intros H; constructor; exact H|intros Hs; inversion Hs; assumption].
  - inversion R1; subst. inversion R2; subst; try discriminate Et; [|destruct v2; discriminate].
    exists (Bool.eqb b1 b), s. split; [apply runs_ret|]. split; [apply oc_refl|]. unfold agrees. rewrite Bool.eqb_true_iff. split; [intros ->; constructor|intros Hs; inversion Hs; reflexivity].
  - inversion R1; subst. inversion R2; subst; try discriminate Et; [|destruct v2; discriminate].
    exists (str_eqb t1 t), s. split; [|split; [apply oc_refl|unfold agrees; rewrite str_eqb_eq; split; [intros ->; constructor|intros Hs; inversion Hs; reflexivity]]].
    unfold equal_rest. cbn [listp pairp alistp orb]. rsteps. repeat match goal with H : s_strs s !! _ = Some _ |- _ => rewrite (str_some _ _ _ H); clear H end. apply runs_ret.
  - inversion R1; subst. inversion R2; subst; try discriminate Et; [|destruct v2; discriminate].
    exists (str_eqb t1 t), s. split; [apply runs_ret|]. split; [apply oc_refl|]. unfold agrees; rewrite str_eqb_eq; split; [intros ->; constructor|intros Hs; inversion Hs; reflexivity].
  - inversion R1; subst. inversion R2; subst; try discriminate Et.
    + exists (bytes_eqb bs1 bs), s. split; [|split; [apply oc_refl|unfold agrees; rewrite bytes_eqb_eq; split; [intros ->; constructor|intros Hs; inversion Hs; reflexivity]]].
      unfold equal_rest. cbn [listp pairp alistp orb]. rsteps. repeat match goal with H : s_bytes s !! _ = Some _ |- _ => rewrite (bytes_some _ _ _ H); clear H end. apply runs_ret.
    + exists false, s. split; [|split; [apply oc_refl|apply agrees_false; intros Hs; inversion Hs]]. destruct v2; try discriminate; apply runs_ret.
  - inversion R1; subst. exists (ptr_eqb r1 v2), s. split; [|split; [apply oc_refl|]].
    + destruct r1; try discriminate; destruct v2; try discriminate Et; cbn [listp pairp alistp orb]; try apply runs_ret;
      try (inversion R2; subst; discriminate Et); inversion R2; subst; try discriminate; match goal with H : is_list _ _ _ |- _ => inversion H end.
    + unfold agrees. rewrite ptr_eqb_opaque by assumption. inversion R2; subst; try (split; [intros ->; discriminate|intros Hs; inversion Hs; fail]).
      * split; [intros ->; constructor|intros Hs; inversion Hs; reflexivity].
      * split; [intros ->|intros Hs; inversion Hs]. destruct v2; try discriminate; match goal with H : is_list _ _ _ |- _ => inversion H end.
  - destruct (st_list_inv _ _ _ R1) as (xs & L1 & F1).
    assert (exists ns2, n2 = NList ns2) as [ns2 ->].
    { destruct n2; try discriminate Et; [|eauto]. inversion R2; subst. destruct v; discriminate. }
    destruct (st_list_inv _ _ _ R2) as (ys & L2 & F2).
    unfold equal_rest. rewrite (is_list_listp _ _ _ L1).
    inversion Fl1; subst. inversion Fl2; subst.
    destruct (Z.eqb_spec (Z.of_nat (length xs)) (Z.of_nat (length ys))) as [El|El].
    + destruct (equal_lists_st ns IH ltac:(assumption) s xs F1 ys ns2 v1 v2 L1 L2 F2 ltac:(assumption) ltac:(lia)) as (b & s' & Rb & Cb & Hb).
      exists b, s'. split; [|split; [exact Cb|]].
      * eapply runs_bind; [apply runs_length, L1|]. eapply runs_bind; [apply runs_length, L2|]. rewrite El, Z.eqb_refl. exact Rb.
      * unfold agrees in *. rewrite Hb. split; [intros H; constructor; exact H|intros Hs; inversion Hs; assumption].
    + exists false, s. split; [|split; [apply oc_refl|]].
      * eapply runs_bind; [apply runs_length, L1|]. eapply runs_bind; [apply runs_length, L2|].
        destruct (Z.eqb_spec (Z.of_nat (length xs)) (Z.of_nat (length ys))); [congruence|]. apply runs_ret.
      * apply agrees_false. intros H. inversion H as [| | | | | | |? ? F|]; subst. apply Forall2_length in F, F1, F2. lia.
  - destruct (st_frame_inv _ _ _ R1) as (f & m1 & -> & E1 & N1 & F1).
    assert (exists ns2, n2 = NFrame ns2) as [ns2 ->].
    { destruct n2; try discriminate Et; [|eauto]. inversion R2; subst. destruct v; discriminate. }
    destruct (st_frame_inv _ _ _ R2) as (g & m2 & -> & E2 & N2 & F2).
    inversion Fl1 as [| | | | | | | |? Cl1]; subst. inversion Fl2 as [| | | | | | | |? Cl2]; subst.
    assert (Fr1 : frame_at s f = m1) by (unfold frame_at; rewrite E1; reflexivity). assert (Fr2 : frame_at s g = m2) by (unfold frame_at; rewrite E2; reflexivity).
    unfold equal_rest. cbn [listp pairp alistp orb].
    destruct (Nat.eqb_spec (length m1) (length m2)) as [El|El].
    + destruct (range_oc m1 s) as (m1' & s1 & Rr & Cr & Pr).
      assert (P2 : exists ns1, Permutation ns ns1 /\ Forall2 (fun p q => fst p = fst q /\ stands s (snd p) (snd q)) m1' ns1).
      { clear -F1 Pr. revert ns F1. induction Pr as [|x l l' P IHP|x y l|a b c P1 IH1 P2 IH2]; intros ns F1.
        - inversion F1; subst. exists []. split; [constructor|constructor].
        - inversion F1 as [|? q ? ns' H F]; subst. destruct (IHP _ F) as (ns1 & Q & F'). exists (q :: ns1). split; [constructor; exact Q|constructor; assumption].
        - inversion F1 as [|? q1 ? ns' H1 F]; subst. inversion F as [|? q2 ? ns'' H2 F']; subst. exists (q2 :: q1 :: ns''). split; [apply perm_swap|constructor; [exact H2|constructor; [exact H1|exact F']]].
        - destruct (IH1 _ F1) as (ns1 & Q1 & F'). destruct (IH2 _ F') as (ns2 & Q2 & F''). exists ns2. split; [exact (Permutation_trans Q1 Q2)|exact F'']. }
      destruct P2 as (ns1 & Pn & F1').
      assert (Perm : forall Q : string * node -> Prop, Forall Q ns -> Forall Q ns1). { intros Q H. apply List.Forall_forall. intros q I. apply (proj1 (List.Forall_forall _ _) H). apply (Permutation_in _ (Permutation_sym Pn) I). }
      assert (Cl2' : Forall (fun q : string * node => clear (snd q)) ns2). { apply List.Forall_forall. intros q I. apply (proj1 (List.Forall_forall _ _) Cl2 _ I). }
      destruct (equal_slots_st s g m2 ns2 E2 N2 F2 Cl2' m1' ns1 F1' (Perm _ IH) (Perm _ Cl1) s1 Cr) as (b & s2 & Rb & Cb & Hb).
      exists b, s2. split; [|split; [exact Cb|]].
      * eapply runs_bind; [apply runs_op; reflexivity|]. cbv beta. eapply runs_bind; [apply runs_op; reflexivity|]. cbv beta. rewrite Fr1, Fr2, El, Nat.eqb_refl. cbn [negb].
        eapply runs_bind; [exact Rr|]. exact Rb.
      * unfold agrees in *. rewrite Hb. split.
        -- intros H. assert (Inc : forall k, In k (map fst ns) -> In k (map fst ns2)).
           { intros k I. apply in_map_iff in I as ([k' x] & <- & I). destruct (H k' x (Permutation_in _ Pn I)) as (y & Iy & _). apply in_map_iff. exists (k', y). auto. }
           constructor.
           ++ intros k. split; [apply Inc|]. intros I. refine (NoDup_length_incl _ _ _ k I); [rewrite <- (slot_keys _ _ _ F1); exact N1| |exact Inc].
              rewrite <- (slot_keys _ _ _ F1), <- (slot_keys _ _ _ F2), !map_length. lia.
           ++ intros k x y Ix Iy. destruct (H k x (Permutation_in _ Pn Ix)) as (z & Iz & Sz). assert (y = z) as ->; [|exact Sz].
              apply (assoc_unique ns2 k); [rewrite <- (slot_keys _ _ _ F2); exact N2|exact Iy|exact Iz].
        -- intros H. inversion H as [| | | | | | | |? ? K V]. clear H; intros k x Ix. apply (Permutation_in _ (Permutation_sym Pn)) in Ix.
           assert (I : In k (map fst ns)) by (apply in_map_iff; exists (k, x); auto). apply K, in_map_iff in I as ([k' y] & Ek & Iy). cbn in Ek. subst k'. exists y. split; [exact Iy|eauto].
    + exists false, s. split; [|split; [apply oc_refl|]].
      * eapply runs_bind; [apply runs_op; reflexivity|]. cbv beta. eapply runs_bind; [apply runs_op; reflexivity|]. cbv beta. rewrite Fr1, Fr2.
        destruct (Nat.eqb_spec (length m1) (length m2)); [contradiction|]. apply runs_ret.
      * apply agrees_false. intros H. inversion H as [| | | | | | | |? ? K V]. apply El. rewrite <- (map_length fst m1), <- (map_length fst m2), (slot_keys _ _ _ F1), (slot_keys _ _ _ F2).
        apply Nat.le_antisymm; apply NoDup_incl_length; try (intros k; apply K).
        -- rewrite <- (slot_keys _ _ _ F1). exact N1.
        -- rewrite <- (slot_keys _ _ _ F2). exact N2.
Qed.

(** ** The primitives *)
Lemma run_same name v1 v2 n1 n2 env s : In name ["=="; "eqv?"; "eq?"; "equal?"] -> clear n1 -> clear n2 -> stands s v1 n1 -> stands s v2 n2 ->
  exists b s', applies name [v1; v2] env s (Done (Ok (VBool b))) s' /\ only_choices (entering name env s) s' /\ (b = true <-> same n1 n2).
Proof.
  intros I C1 C2 R1 R2. pose proof (grows_entering name env s) as G.
  destruct (equals_all n1 C1 (entering name env s) v1 v2 n2 (st_grows _ _ _ _ G R1) (st_grows _ _ _ _ G R2) C2) as (b & s' & R & C & H).
  exists b, s'. split; [|split; [exact C|exact H]].
  destruct I as [<-|[<-|[<-|[<-|[]]]]]; (applies; unfold equal_impl; eapply runs_bind; [exact R|apply runs_ret]).
Qed.
Lemma run_different name v1 v2 n1 n2 env s : In name ["!="; "neq?"] -> clear n1 -> clear n2 -> stands s v1 n1 -> stands s v2 n2 ->
  exists b s', applies name [v1; v2] env s (Done (Ok (VBool b))) s' /\ only_choices (entering name env s) s' /\ (b = true <-> ~ same n1 n2).
Proof.
  intros I C1 C2 R1 R2. pose proof (grows_entering name env s) as G.
  destruct (equals_all n1 C1 (entering name env s) v1 v2 n2 (st_grows _ _ _ _ G R1) (st_grows _ _ _ _ G R2) C2) as (b & s' & R & C & H).
  exists (negb b), s'. split; [|split; [exact C|]].
  - destruct I as [<-|[<-|[]]]; (applies; unfold not_equal_impl; eapply runs_bind; [exact R|apply runs_ret]).
  - unfold agrees in H. destruct b; cbn [negb]; split; intros A; try discriminate; try reflexivity.
    + exfalso. apply A, H. reflexivity.
    + intros Q. apply H in Q. discriminate.
Qed.
(** Two different frames, each holding itself. *)
Lemma loops n : forall f g k s o s', f <> g -> s_frames s !! (f : loc) = Some [(k, VFrame f)] -> s_frames s !! (g : loc) = Some [(k, VFrame g)] ->
  run denote n (call (REqual (VFrame f) (VFrame g))) s <> Some (o, s').
Proof.
  induction n as [|n IH]; intros f g k s o s' N E1 E2 H; [discriminate H|].
  unfold call in H. rewrite run_call in H. destruct (run denote n (denote bool (REqual (VFrame f) (VFrame g))) s) as [[o1 s1]|] eqn:R; [|discriminate H]. clear H.
  change (run denote n (equal_body (VFrame f) (VFrame g)) s = Some (o1, s1)) in R. unfold equal_body in R. cbn [ptr_eqb floatp negb] in R.
  destruct (Pos.eqb_spec f g) as [|_]; [contradiction|]. cbn [andb] in R.
  assert (Nf : forall l t, runs denote (nilp (VFrame l)) t (Done false) t) by (intros; apply runs_nilp).
  apply (run_then _ _ _ _ _ _ _ _ (Nf f s)) in R. cbv beta iota in R. rewrite run_bind, run_ret in R.
  cbn [andb is_nil orb alistp dottedp type_tag listp pairp negb] in R. cbv zeta in R. rewrite Z.eqb_refl in R. cbn [negb] in R.
  apply (run_then _ _ _ _ (frame_at s f) s) in R; [|apply runs_op; reflexivity]. apply (run_then _ _ _ _ (frame_at s g) s) in R; [|apply runs_op; reflexivity].
  unfold frame_at in R. rewrite E1, E2 in R. cbn [length List.length Nat.eqb negb] in R.
  destruct (range_oc [(k, VFrame f)] s) as (l & s2 & Rr & Cr & Pr). apply Permutation_length_1_inv in Pr. subst l.
  apply (run_then _ _ _ _ _ _ _ _ Rr) in R. cbn [equal_slots] in R. apply (run_then _ _ _ _ (alookup k (frame_at s2 g)) s2) in R; [|apply runs_op; reflexivity].
  apply run_bind_inv in R as (o2 & s3 & R & _). unfold frame_at in R.
  assert (Fg : s_frames s2 !! g = Some [(k, VFrame g)]) by (rewrite Cr; exact E2). rewrite Fg in R. assert (Ek : str_eqb k k = true) by (apply str_eqb_eq; reflexivity). match type of R with context [REqual _ ?w] => assert (Ew : w = VFrame g) by (cbn; rewrite Ek; reflexivity) end. rewrite Ew in R.
  eapply (IH f g k); [exact N| | |exact R]; rewrite Cr; cbn [s_frames set_oracle]; assumption.
Qed.
Lemma never_equal name f g k env s : In name ["=="; "eqv?"; "eq?"; "equal?"] -> f <> g -> s_frames s !! (f : loc) = Some [(k, VFrame f)] -> s_frames s !! (g : loc) = Some [(k, VFrame g)] ->
  forall o s', ~ applies name [VFrame f; VFrame g] env s o s'.
Proof.
  intros I N E1 E2 o s' A.
  assert (H : runs denote (b <- call (REqual (VFrame f) (VFrame g)) ;; lisp_bool b) (entering name env s) o s').
  { destruct I as [<-|[<-|[<-|[<-|[]]]]]; (eapply applies_inv in A; [|reflexivity]); exact A. }
  destruct H as [n H]. apply run_bind_inv in H as (o1 & s1 & H & _). eapply (loops n f g k); [exact N| | |exact H]; assumption.
Qed.
