(** Proofs of C11, C12. *)
From Verif Require Export SpecTree RunFacts.
From stdpp Require Import list.
From Verif Require Import Data.
Local Open Scope string_scope.
Local Open Scope list_scope.
Local Open Scope Z_scope.

Section datum_induction.
  Variable P : datum -> Prop.
  Hypothesis Hint : forall z, P (DInt z).
  Hypothesis Hbool : forall b, P (DBool b).
  Hypothesis Hstr : forall t, P (DStr t).
  Hypothesis Hsym : forall t, P (DSym t).
  Hypothesis Hbytes : forall bs, P (DBytes bs).
  Hypothesis Href : forall v, P (DRef v).
  Hypothesis Hlist : forall ds, Forall P ds -> P (DList ds).
  Hypothesis Hframe : forall ds, Forall (fun q : string * datum => P (snd q)) ds -> P (DFrame ds).
  Fixpoint datum_ind2 (d : datum) : P d :=
    match d with
    | DInt z => Hint z
    | DBool b => Hbool b
    | DStr t => Hstr t
    | DSym t => Hsym t
    | DBytes bs => Hbytes bs
    | DRef v => Href v
    | DList ds => Hlist ds ((fix go l : Forall P l :=
        match l with [] => List.Forall_nil _ | x :: r => List.Forall_cons _ x r (datum_ind2 x) (go r) end) ds)
    | DFrame ds => Hframe ds ((fix go l : Forall (fun q : string * datum => P (snd q)) l :=
        match l with [] => List.Forall_nil _ | (n, x) :: r => List.Forall_cons _ (n, x) r (datum_ind2 x) (go r) end) ds)
    end.
End datum_induction.

Lemma rep_list_inv s v ds : rep s v (DList ds) -> exists xs, is_list s v xs /\ Forall2 (rep s) xs ds.
Proof. intros H. inversion H; subst. eauto. Qed.
Lemma rep_frame_inv s v ds : rep s v (DFrame ds) -> exists l m m', v = VFrame l /\ s_frames s !! (l : loc) = Some m /\ NoDup (map fst m) /\
  Permutation m m' /\ Forall2 (fun p q => fst p = fst q /\ rep s (snd p) (snd q)) m' ds.
Proof. intros H. inversion H; subst. eauto 10. Qed.

(** A tree is still there when the state grew. *)
Lemma rep_grows d : forall s s' v, grows s s' -> rep s v d -> rep s' v d.
Proof.
  induction d as [z0|b0|t0|t0|bs0|v0|ds IH|ds IH] using datum_ind2; intros s s' v G H.
  - inversion H; constructor.
  - inversion H; constructor.
  - inversion H; subst. constructor. apply (g_strs _ _ G). assumption.
  - inversion H; constructor.
  - inversion H; subst. constructor. apply (g_bytes _ _ G). assumption.
  - inversion H; subst. constructor. assumption.
  - destruct (rep_list_inv _ _ _ H) as (xs & L & F). econstructor; [exact (is_list_grows _ _ _ _ G L)|].
    clear H L. revert IH. induction F as [|x q xs ds E F IHF]; intros IH; constructor.
    + apply (Forall_inv IH _ _ _ G E).
    + apply IHF, (Forall_inv_tail IH).
  - destruct (rep_frame_inv _ _ _ H) as (l & m & m' & -> & E & N & P & F).
    apply (rep_frame _ _ m m'); [apply (g_frames _ _ G), E|exact N|exact P|].
    clear H E N P. revert IH. induction F as [|x q xs ds [E1 E2] F IHF]; intros IH; constructor.
    + split; [exact E1|apply (Forall_inv IH _ _ _ G E2)].
    + apply IHF, (Forall_inv_tail IH).
Qed.

(** *** C11 *)
Definition agrees (b : bool) (P : Prop) : Prop := b = true <-> P.
Lemma agrees_true (P : Prop) : P -> agrees true P.
Proof. intros H. split; auto. Qed.
Lemma agrees_false (P : Prop) : ~ P -> agrees false P.
Proof. intros H. split; [discriminate|intros; contradiction]. Qed.
Lemma bytes_eqb_eq a : forall b, bytes_eqb a b = true <-> a = b.
Proof.
  induction a as [|x a IH]; intros [|y b]; cbn; try (split; [discriminate|discriminate]); [split; reflexivity|].
  rewrite andb_true_iff, Z.eqb_eq, IH. split; [intros [-> ->]; reflexivity|intros [= -> ->]; auto].
Qed.
Lemma ptr_eqb_opaque a b : opaque a = true -> ptr_eqb a b = true <-> a = b.
Proof.
  intros Ha. destruct a, b; try discriminate; cbn; rewrite ?Pos.eqb_eq, ?str_eqb_eq; split; try discriminate; congruence.
Qed.
Lemma rep_fun s v : forall d1 d2, rep s v d1 -> rep s v d2 -> frameless d1 -> d1 = d2.
Proof.
  intros d1. revert v. induction d1 as [z0|b0|t0|t0|bs0|v0|ds IH|ds IH] using datum_ind2; intros v d2 H1 H2 Fl.
  1-5: inversion H1; subst; inversion H2; subst; try congruence; try discriminate;
       match goal with H : is_list _ _ _ |- _ => inversion H end.
  - inversion H1; subst. destruct v0; try discriminate; inversion H2; subst; try reflexivity;
      match goal with H : is_list _ _ _ |- _ => inversion H end.
  - destruct (rep_list_inv _ _ _ H1) as (xs & L1 & F1). inversion H2; subst; try (inversion L1; fail).
    + exfalso. inversion L1; subst; discriminate.
    + match goal with H : is_list s v ?ys |- _ => rename ys into xs'; rename H into L2 end.
      rewrite <- (is_list_det _ _ _ L1 _ L2) in *. f_equal. inversion Fl as [| | | | | |? Fd]; subst.
      match goal with H : Forall2 (rep s) _ ds0 |- _ => rename H into F0 end. clear H1 H2 L1 L2 Fl.
      revert ds0 F0 IH Fd. induction F1 as [|x q ys ds E F IHF]; intros ds0 F0 IH Fd; inversion F0; subst; [reflexivity|].
      f_equal; [apply (Forall_inv IH _ _ E); [assumption|apply (Forall_inv Fd)]|].
      apply IHF; [assumption|apply (Forall_inv_tail IH)|apply (Forall_inv_tail Fd)].
  - inversion Fl.
Qed.
Lemma equal_lists_run s :
  forall xs ds1, Forall2 (rep s) xs ds1 ->
  Forall (fun d1 => frameless d1 -> forall v1 v2 d2, rep s v1 d1 -> rep s v2 d2 -> frameless d2 ->
            exists b, runs denote (call (REqual v1 v2)) s (Done b) s /\ agrees b (d1 = d2)) ds1 ->
  Forall frameless ds1 ->
  forall ys ds2 v1 v2, is_list s v1 xs -> is_list s v2 ys -> Forall2 (rep s) ys ds2 -> Forall frameless ds2 -> length xs = length ys ->
  exists b, runs denote (equal_lists v1 v2) s (Done b) s /\ agrees b (ds1 = ds2).
Proof.
  induction 1 as [|x d1 xs ds1 E F IHF]; intros IH Fl ys ds2 v1 v2 L1 L2 F2 Fl2 Hl.
  - destruct ys; [|discriminate]. inversion F2; subst. exists true. split; [|apply agrees_true; reflexivity].
    apply runs_loop_stop. rsteps. rewrite (is_list_nil_inv _ _ L1). apply runs_ret.
  - destruct ys as [|y ys]; [discriminate|]. inversion F2 as [|? d2 ? ds2' E2 F2']; subst.
    destruct (is_list_cons_inv _ _ _ _ L1) as (A1 & A2 & A3 & _).
    destruct (is_list_cons_inv _ _ _ _ L2) as (B1 & B2 & B3 & _).
    destruct (Forall_inv IH (Forall_inv Fl) x y d2 E E2 (Forall_inv Fl2)) as (b & Rb & Hb).
    destruct b.
    + destruct (IHF (Forall_inv_tail IH) (Forall_inv_tail Fl) ys ds2' (cdr_of s v1) (cdr_of s v2) A3 B3 F2' (Forall_inv_tail Fl2)) as (c & Rc & Hc);
        [cbn in Hl; lia|].
      exists c. split.
      * eapply runs_loop_step; [|exact Rc]. rsteps. rewrite A1. rsteps. rewrite A2, B2.
        eapply runs_bind; [exact Rb|]. rsteps.
      * unfold agrees in *. rewrite Hc. assert (d1 = d2) as -> by (apply Hb; reflexivity). split; [congruence|intros [= ->]; reflexivity].
    + exists false. split.
      * apply runs_loop_stop. rsteps. rewrite A1. rsteps. rewrite A2, B2. eapply runs_bind; [exact Rb|]. apply runs_ret.
      * apply agrees_false. intros [= -> ->]. assert (false = true) by (apply Hb; reflexivity). discriminate.
Qed.
Lemma rep_nilb s v d : rep s v d -> nilb s v = true -> d = DList [].
Proof.
  intros H N. inversion H; subst; try discriminate.
  - destruct v; discriminate.
  - destruct xs as [|x xs]; [inversion H1; reflexivity|]. destruct (is_list_cons_inv _ _ _ _ H0) as (E & _). congruence.
Qed.
Lemma rep_nil_nilb s v : rep s v (DList []) -> nilb s v = true.
Proof. intros H. destruct (rep_list_inv _ _ _ H) as (xs & L & F). inversion F; subst. exact (is_list_nil_inv _ _ L). Qed.
Definition tag_of (d : datum) : Z :=
  match d with DInt _ => 4 | DBool _ => 6 | DStr _ => 7 | DSym _ => 8 | DBytes _ => 12 | DRef v => type_tag v | DList _ => 1 | DFrame _ => 13 end.
Lemma rep_tag s v d : rep s v d -> is_nil v = false -> type_tag v = tag_of d.
Proof. intros H N. inversion H; subst; try reflexivity. inversion H0; subst; try reflexivity. discriminate. Qed.
Lemma rep_ptr s v1 v2 d1 d2 : rep s v1 d1 -> rep s v2 d2 -> ptr_eqb v1 v2 = true -> v1 = v2.
Proof.
  intros R1 R2 E. destruct v1, v2; try discriminate E; cbn in E; try reflexivity;
  try (apply Pos.eqb_eq in E; subst; reflexivity); [|apply str_eqb_eq in E; subst; reflexivity].
  apply Pos.eqb_eq in E; subst. assert (T : forall t l d, rep s (VCell t l) d -> t = TCons).
  { intros tt l1 dd H. inversion H; subst; [discriminate|]. inversion H0; reflexivity. }
  rewrite (T _ _ _ R1), (T _ _ _ R2). reflexivity.
Qed.
Lemma rep_not_alist s v d : rep s v d -> is_nil v = false -> alistp v = false /\ dottedp v = false.
Proof.
  intros H N. inversion H; subst; try (split; reflexivity); [destruct v; try discriminate; split; reflexivity|].
  inversion H0; subst; try (split; reflexivity). discriminate.
Qed.
Definition equal_rest (d o : val) : prog bool :=
  if listp d then
    ld <- length_of d ;; lo <- length_of o ;;
    if negb (ld =? lo) then Ret false else equal_lists d o
  else
    match d, o with
    | VFrame fd, VFrame fo =>
        sd <- do_op (OFrameAll fd) ;; so <- do_op (OFrameAll fo) ;;
        if negb (Nat.eqb (length sd) (length so)) then Ret false
        else sd <- range_map sd ;; equal_slots sd fo
    | VBytes a, VBytes b =>
        x <- do_op (OBytesGet a) ;; y <- do_op (OBytesGet b) ;; Ret (bytes_eqb x y)
    | VInt a, VInt b => Ret (a =? b)
    | VFloat a, VFloat b => Ret (f32_eqb a b)
    | VBool a, VBool b => Ret (Bool.eqb a b)
    | VStr a, VStr b => x <- do_op (OStrGet a) ;; y <- do_op (OStrGet b) ;; Ret (str_eqb x y)
    | VSym a, VSym b => Ret (str_eqb a b)
    | _, _ => Ret (ptr_eqb d o)
    end.
Lemma equal_prelude s v1 v2 d1 d2 : rep s v1 d1 -> rep s v2 d2 -> frameless d1 ->
  (tag_of d2 = tag_of d1 -> exists b, runs denote (equal_rest v1 v2) s (Done b) s /\ agrees b (d1 = d2)) ->
  exists b, runs denote (call (REqual v1 v2)) s (Done b) s /\ agrees b (d1 = d2).
Proof.
  intros R1 R2 Fl1 Hr.
  cut (exists b, runs denote (equal_body v1 v2) s (Done b) s /\ agrees b (d1 = d2)).
  { intros (b & R & A). exists b. split; [apply (runs_do_call denote _ (REqual v1 v2)); exact R|exact A]. }
  unfold equal_body. destruct (ptr_eqb v1 v2 && negb (floatp v1)) eqn:Ep.
  { exists true. split; [apply runs_ret|]. apply agrees_true. apply andb_true_iff in Ep. destruct Ep as [Ep _].
    rewrite (rep_ptr _ _ _ _ _ R1 R2 Ep) in R1. exact (rep_fun _ _ _ _ R1 R2 Fl1). }
  destruct (nilb s v1 && nilb s v2) eqn:En.
  { apply andb_true_iff in En. destruct En as [En1 En2]. exists true. split.
    - rsteps. rewrite En1. rsteps. rewrite En2. apply runs_ret.
    - apply agrees_true. rewrite (rep_nilb _ _ _ R1 En1), (rep_nilb _ _ _ R2 En2). reflexivity. }
  assert (Out : forall p b, runs denote p s (Done b) s /\ agrees b (d1 = d2) -> exists b, runs denote
      (nd <- nilp v1 ;; no <- (if nd : bool then nilp v2 else Ret false) ;; if nd && no then Ret true else p) s (Done b) s /\ agrees b (d1 = d2)).
  { intros p b [H1 H2]. exists b. split; [|exact H2].
    rsteps. destruct (nilb s v1); rsteps; cbn [andb] in *; [rewrite En|]; exact H1. }
  destruct (is_nil v1 || is_nil v2) eqn:Ei.
  { apply (Out _ false). split; [apply runs_ret|]. apply agrees_false. intros <-.
    assert (N : d1 = DList []).
    { apply orb_true_iff in Ei. destruct Ei as [Ei|Ei].
      - destruct v1; try discriminate. apply (rep_nilb _ _ _ R1). reflexivity.
      - destruct v2; try discriminate. apply (rep_nilb _ _ _ R2). reflexivity. }
    subst d1. rewrite (rep_nil_nilb _ _ R1), (rep_nil_nilb _ _ R2) in En. discriminate. }
  apply orb_false_iff in Ei. destruct Ei as [Ei1 Ei2].
  destruct (rep_not_alist _ _ _ R1 Ei1) as [Ea Ed]. rewrite Ea, Ed. cbv zeta.
  rewrite (rep_tag _ _ _ R1 Ei1), (rep_tag _ _ _ R2 Ei2).
  destruct (Z.eqb_spec (tag_of d2) (tag_of d1)) as [Et|Et]; cbn [negb].
  - destruct (Hr Et) as (b & H). exact (Out _ b H).
  - apply (Out _ false). split; [apply runs_ret|]. apply agrees_false. congruence.
Qed.
Lemma run_equal s d1 : frameless d1 -> forall v1 v2 d2, rep s v1 d1 -> rep s v2 d2 -> frameless d2 -> 
  exists b, runs denote (call (REqual v1 v2)) s (Done b) s /\ agrees b (d1 = d2).
Proof.
  induction d1 as [z1|b1|t1|t1|bs1|r1|ds IH|ds IH] using datum_ind2; intros Fl1 v1 v2 d2 R1 R2 Fl2; [..|inversion Fl1].
  all: apply (equal_prelude _ _ _ _ _ R1 R2 Fl1); intros Et.
  - inversion R1; subst. inversion R2; subst; try discriminate Et; [|destruct v2; discriminate].
    cbn [listp pairp alistp orb]. exists (z1 =? z). split; [apply runs_ret|]. unfold agrees. rewrite Z.eqb_eq. split; congruence.
  - inversion R1; subst. inversion R2; subst; try discriminate Et; [|destruct v2; discriminate].
    exists (Bool.eqb b1 b). split; [apply runs_ret|]. unfold agrees. rewrite Bool.eqb_true_iff. split; congruence.
  - inversion R1; subst. inversion R2; subst; try discriminate Et; [|destruct v2; discriminate].
    exists (str_eqb t1 t). split; [|unfold agrees; rewrite str_eqb_eq; split; congruence].
    unfold equal_rest. cbn [listp pairp alistp orb]. rsteps. repeat match goal with H : s_strs s !! _ = Some _ |- _ => rewrite (str_some _ _ _ H); clear H end. apply runs_ret.
  - inversion R1; subst. inversion R2; subst; try discriminate Et; [|destruct v2; discriminate].
    exists (str_eqb t1 t). split; [apply runs_ret|]. unfold agrees; rewrite str_eqb_eq; split; congruence.
  - inversion R1; subst. inversion R2; subst; try discriminate Et.
    + exists (bytes_eqb bs1 bs). split; [|unfold agrees; rewrite bytes_eqb_eq; split; congruence].
      unfold equal_rest. cbn [listp pairp alistp orb]. rsteps. repeat match goal with H : s_bytes s !! _ = Some _ |- _ => rewrite (bytes_some _ _ _ H); clear H end. apply runs_ret.
    + exists false. split; [|apply agrees_false; discriminate]. destruct v2; try discriminate; apply runs_ret.
  - inversion R1; subst. exists (ptr_eqb r1 v2). split.
    + destruct r1; try discriminate; destruct v2; try discriminate Et; cbn [listp pairp alistp orb]; try apply runs_ret;
      try (inversion R2; subst; discriminate Et); inversion R2; subst; try discriminate; match goal with H : is_list _ _ _ |- _ => inversion H end.
    + unfold agrees. rewrite ptr_eqb_opaque by assumption. inversion R2; subst; try (split; [intros ->; discriminate|discriminate]).
      * split; [congruence|congruence].
      * split; [intros ->|discriminate]. destruct v2; try discriminate; match goal with H : is_list _ _ _ |- _ => inversion H end.
  - destruct (rep_list_inv _ _ _ R1) as (xs & L1 & F1).
    assert (exists ds2, d2 = DList ds2) as [ds2 ->].
    { destruct d2; try discriminate Et; [|eauto]. inversion R2; subst. destruct v; discriminate. }
    destruct (rep_list_inv _ _ _ R2) as (ys & L2 & F2).
    unfold equal_rest. rewrite (is_list_listp _ _ _ L1).
    inversion Fl1; subst. inversion Fl2; subst.
    destruct (Z.eqb_spec (Z.of_nat (length xs)) (Z.of_nat (length ys))) as [El|El].
    + destruct (equal_lists_run s xs ds F1 IH ltac:(assumption) ys ds2 v1 v2 L1 L2 F2 ltac:(assumption) ltac:(lia)) as (b & Rb & Hb).
      exists b. split.
      * eapply runs_bind; [apply runs_length, L1|]. eapply runs_bind; [apply runs_length, L2|]. rewrite El, Z.eqb_refl. exact Rb.
      * unfold agrees in *. rewrite Hb. split; congruence.
    + exists false. split.
      * eapply runs_bind; [apply runs_length, L1|]. eapply runs_bind; [apply runs_length, L2|].
        destruct (Z.eqb_spec (Z.of_nat (length xs)) (Z.of_nat (length ys))); [congruence|]. apply runs_ret.
      * apply agrees_false. intros [= ->]. apply Forall2_length in F1, F2. congruence.
Qed.

(** *** C12 *)
Lemma grows_choice s : grows s (snd (next_choice s)).
Proof. unfold next_choice. destruct (s_oracle s); [apply grows_refl|]. constructor; cbn; try apply kept_refl; try reflexivity. exists []. split; [reflexivity|constructor]. Qed.
Lemma remove_nth_perm {A} (l : list A) : forall i x, nth_error l i = Some x -> Permutation l (x :: remove_nth i l).
Proof.
  induction l as [|y l IH]; intros [|i] x E; cbn in *; try discriminate; [injection E as ->; reflexivity|].
  rewrite (IH _ _ E) at 1. apply perm_swap.
Qed.
Lemma runs_permute {A} n : forall (l : list A) s, wf_state s -> n = length l -> exists l' s',
  runs denote (permute n l) s (Done l') s' /\ grows s s' /\ Permutation l l'.
Proof.
  induction n as [|n IH]; intros l s W Hn.
  - exists l, s. split; [apply runs_ret|]. split; [apply grows_refl|reflexivity].
  - destruct l as [|a l]; [discriminate|]. cbn [permute].
    set (L := a :: l) in *. set (z := fst (next_choice s)). set (s1 := snd (next_choice s)).
    assert (R1 : runs denote (do_op OChoose) s (Done z) s1) by (apply runs_op; cbn; unfold z, s1; destruct (next_choice s); reflexivity).
    pose proof (wf_runs _ _ _ _ _ W R1) as W1.
    assert (B : (Z.to_nat (z mod Z.of_nat (length L)) < length L)%nat).
    { pose proof (Z.mod_pos_bound z (Z.of_nat (length L))) as B. unfold L in *. cbn [length] in *. lia. }
    destruct (nth_error L (Z.to_nat (z mod Z.of_nat (length L)))) as [x|] eqn:E; [|apply nth_error_None in E; lia].
    pose proof (remove_nth_perm _ _ _ E) as P.
    destruct (IH (remove_nth (Z.to_nat (z mod Z.of_nat (length L))) L) s1 W1) as (l' & s2 & R2 & G2 & P2).
    { apply Permutation_length in P. cbn in P. unfold L in *. cbn in *. lia. }
    exists (x :: l'), s2. split; [|split; [eapply grows_trans; [apply grows_choice|exact G2]|rewrite P; constructor; exact P2]].
    eapply runs_bind; [exact R1|]. cbv zeta. rewrite E. eapply runs_bind; [exact R2|apply runs_ret].
Qed.
Lemma part_car_inv s v x y k : s_cells s !! (x : loc) = Some y -> part s (VCell v x) k -> k = x \/ part s (fst y) k \/ part s (snd y) k.
Proof. intros E H. inversion H; subst; [auto| |]; rewrite E in *; match goal with H : Some _ = Some _ |- _ => injection H as -> end; auto. Qed.
Lemma part_frame_inv s (l : loc) m k : s_frames s !! l = Some m -> part s (VFrame l) k -> k = l \/ exists n x, In (n, x) m /\ part s x k.
Proof. intros E H. inversion H; subst; [auto|]. rewrite E in *. match goal with H : Some _ = Some _ |- _ => injection H as -> end. eauto. Qed.
(** Parts of a tree were there before the state grew. *)
Lemma part_back s s' v k : grows s s' -> part s' v k -> forall d, rep s v d -> part s v k.
Proof.
  intros G H. induction H as [t l|l|l|t l a b k E P IH|t l a b k E P IH|l m n x k E I P IH]; intros D R.
  - constructor.
  - constructor.
  - constructor.
  - inversion R as [| | | | | |? xs ds L F|]; subst; [discriminate|]. inversion L as [| |? E0|? a0 d0 ys E0 N T]; subst.
    + pose proof (g_cells _ _ G _ _ E0) as E1. rewrite E in E1. injection E1 as -> ->. inversion P.
    + pose proof (g_cells _ _ G _ _ E0) as E1. rewrite E in E1. injection E1 as -> ->. inversion F; subst.
      eapply part_car; [exact E0|]. eapply IH. eassumption.
  - inversion R as [| | | | | |? xs ds L F|]; subst; [discriminate|]. inversion L as [| |? E0|? a0 d0 ys E0 N T]; subst.
    + pose proof (g_cells _ _ G _ _ E0) as E1. rewrite E in E1. injection E1 as -> ->. inversion P.
    + pose proof (g_cells _ _ G _ _ E0) as E1. rewrite E in E1. injection E1 as -> ->. inversion F; subst.
      eapply part_cdr; [exact E0|]. eapply IH. econstructor; eassumption.
  - destruct D; try (inversion R; fail); [inversion R; subst; discriminate|inversion R as [| | | | | |? ? ? L|]; subst; inversion L|].
    destruct (rep_frame_inv _ _ _ R) as (l' & m0 & m' & [= <-] & E0 & N0 & P0 & F).
    pose proof (g_frames _ _ G _ _ E0) as E1. rewrite E in E1. injection E1 as ->.
    eapply part_slot; [exact E0|exact I|].
    apply (Permutation_in _ P0) in I. clear -I F IH. induction F as [|p q ps qs [_ E] F IHF]; [destruct I|].
    destruct I as [->|I]; [exact (IH _ E)|exact (IHF I)].
Qed.
(** Parts exist: below [s_next]. *)
Lemma part_old s v k : wf_state s -> part s v k -> forall d, rep s v d -> (k < s_next s)%positive /\ (s_cells s !! k <> None \/ s_bytes s !! k <> None \/ s_frames s !! k <> None).
Proof.
  intros W H. induction H as [t l|l|l|t l a b k E P IH|t l a b k E P IH|l m n x k E I P IH]; intros D R.
  - inversion R as [| | | | | |? xs ds L F|]; subst; [discriminate|]. inversion L as [| |? E0|? a0 d0 ys E0 N T]; subst;
      (split; [apply (wf_cells _ W _ _ E0)|left; congruence]).
  - inversion R as [| | | |? ? E0| |? xs ds L F|]; subst; [|discriminate|inversion L]. split; [apply (wf_bytes _ W _ _ E0)|right; left; congruence].
  - inversion R as [| | | | | |? xs ds L F|? ? ? ? E0]; subst; [discriminate|inversion L|]. split; [apply (wf_frames _ W _ _ E0)|right; right; congruence].
  - inversion R as [| | | | | |? xs ds L F|]; subst; [discriminate|]. inversion L as [| |? E0|? a0 d0 ys E0 N T]; subst.
    + rewrite E in E0. injection E0 as -> ->. inversion P.
    + rewrite E in E0. injection E0 as -> ->. inversion F; subst. eapply IH. eassumption.
  - inversion R as [| | | | | |? xs ds L F|]; subst; [discriminate|]. inversion L as [| |? E0|? a0 d0 ys E0 N T]; subst.
    + rewrite E in E0. injection E0 as -> ->. inversion P.
    + rewrite E in E0. injection E0 as -> ->. inversion F; subst. eapply IH. econstructor; eassumption.
  - destruct D; try (inversion R; fail); [inversion R; subst; discriminate|inversion R as [| | | | | |? ? ? L|]; subst; inversion L|].
    destruct (rep_frame_inv _ _ _ R) as (l' & m0 & m' & [= <-] & E0 & N0 & P0 & F).
    rewrite E in E0. injection E0 as ->.
    apply (Permutation_in _ P0) in I. clear -I F IH. induction F as [|p q ps qs [_ E] F IHF]; [destruct I|].
    destruct I as [->|I]; [exact (IH _ E)|exact (IHF I)].
Qed.
(** A tree only depends on its parts and on the strings. *)
Lemma rep_local d : forall s s2 v, rep s v d -> (forall k, part s v k -> same_at s s2 k) -> s_strs s2 = s_strs s -> rep s2 v d.
Proof.
  induction d as [z0|b0|t0|t0|bs0|v0|ds IH|ds IH] using datum_ind2; intros s s2 v H S St.
  - inversion H; constructor.
  - inversion H; constructor.
  - inversion H; subst. constructor. rewrite St. assumption.
  - inversion H; constructor.
  - inversion H; subst. constructor. destruct (S l (part_bytes _ _)) as (_ & E & _). rewrite E. assumption.
  - inversion H; subst. constructor. assumption.
  - destruct (rep_list_inv _ _ _ H) as (xs & L & F). clear H.
    cut (is_list s2 v xs /\ Forall2 (rep s2) xs ds); [intros [A B]; econstructor; eassumption|].
    revert ds IH F. induction L as [| |l E|l a b xs E N T IHL]; intros ds IH F.
    + inversion F; subst. split; constructor.
    + inversion F; subst. split; constructor.
    + inversion F; subst. split; constructor. destruct (S l (part_cell _ _ _)) as (E2 & _). rewrite E2. exact E.
    + inversion F as [|? q ? qs R F']; subst. destruct (S l (part_cell _ _ _)) as (E2 & _).
      destruct (IHL (fun k Hk => S k (part_cdr _ _ _ _ _ _ E Hk)) _ (Forall_inv_tail IH) F') as [A B].
      split; [econstructor; [rewrite E2; exact E|exact N|exact A]|constructor; [|exact B]].
      apply (Forall_inv IH _ _ _ R); [|exact St]. intros k Hk. exact (S k (part_car _ _ _ _ _ _ E Hk)).
  - destruct (rep_frame_inv _ _ _ H) as (l & m & m' & -> & E & N & P & F). clear H.
    destruct (S l (part_frame _ _)) as (_ & _ & E2).
    apply (rep_frame _ _ m m'); [rewrite E2; exact E|exact N|exact P|].
    assert (I : forall p, In p m' -> In p m) by (intros p; apply (Permutation_in _ (Permutation_sym P))).
    clear N P E2. revert IH. induction F as [|[n x] [n' q] ps qs [E1 R] F IHF]; intros IH; constructor.
    + split; [exact E1|]. apply (Forall_inv IH _ _ _ R); [|exact St]. intros k Hk.
      apply S. eapply part_slot; [exact E|apply I; left; reflexivity|exact Hk].
    + apply IHF; [|apply (Forall_inv_tail IH)]. intros p Hp. apply I. right. exact Hp.
Qed.

(** What copying builds: every part is new, or an empty list. *)
Definition news (s s' : state) (v : val) : Prop :=
  forall k, part s' v k -> (s_next s <= k)%positive \/ s_cells s' !! k = Some (VNil, VNil).
Definition copies (s : state) (v : val) (d : datum) (v' : val) (s' : state) : Prop :=
  runs denote (call (RCopy v)) s (Done v') s' /\ grows s s' /\ rep s' v' d /\ (v' = VNil -> v = VNil) /\ news s s' v'.
Lemma news_later s s1 s2 v d : rep s1 v d -> grows s1 s2 -> news s s1 v -> news s s2 v.
Proof.
  intros R G N k H. destruct (N k (part_back _ _ _ _ G H _ R)) as [C|C]; [left; exact C|right; exact (g_cells _ _ G _ _ C)].
Qed.
Lemma news_earlier s s1 s2 v : grows s s1 -> news s1 s2 v -> news s s2 v.
Proof. intros G N k H. destruct (N k H) as [C|C]; [left|right; exact C]. pose proof (g_next _ _ G). lia. Qed.
Lemma news_atom s s' v : (forall k, ~ part s' v k) -> news s s' v.
Proof. intros H k P. destruct (H k P). Qed.
Lemma copies_wf s v d v' s' : wf_state s -> copies s v d v' s' -> wf_state s'.
Proof. intros W (R & _). exact (wf_runs _ _ _ _ _ W R). Qed.
Lemma copies_self s v d : rep s v d -> copy_body v = Ret v -> (forall k, ~ part s v k) -> copies s v d v s.
Proof.
  intros R E N. split; [apply (runs_do_call denote _ (RCopy v)); cbn [denote]; rewrite E; apply runs_ret|].
  split; [apply grows_refl|]. split; [exact R|]. split; [auto|apply news_atom, N].
Qed.
Lemma aset_new {A} n (x : A) l : ~ In n (map fst l) -> aset n x l = l ++ [(n, x)].
Proof.
  induction l as [|[k y] l IH]; intros H; [reflexivity|]. cbn [aset]. destruct (str_eqb_spec n k) as [->|N].
  - destruct H. left. reflexivity.
  - cbn [app]. rewrite IH; [reflexivity|]. intros C. apply H. right. exact C.
Qed.
Definition slot_rep (s : state) (p : string * val) (q : string * datum) : Prop := fst p = fst q /\ rep s (snd p) (snd q).
Lemma run_copy_slots ps qs : Forall (fun q : string * datum => forall s v, wf_state s -> rep s v (snd q) -> exists v' s', copies s v (snd q) v' s') qs ->
  forall s0 s acc qacc, wf_state s -> grows s0 s -> Forall2 (slot_rep s) ps qs -> Forall2 (slot_rep s) acc qacc -> NoDup (map fst acc ++ map fst ps) ->
  Forall (fun p => news s0 s (snd p)) acc ->
  exists m s', runs denote (copy_slots ps acc) s (Done m) s' /\ grows s s' /\ Forall2 (slot_rep s') m (qacc ++ qs) /\ map fst m = map fst acc ++ map fst ps /\
    Forall (fun p => news s0 s' (snd p)) m.
Proof.
  intros IH. revert ps. induction IH as [|q qs Hq _ IHq]; intros ps s0 s acc qacc W G0 F Fa N Na; inversion F as [|[n x] ? ps' ? [E R] F']; subst.
  - exists acc, s. rewrite !app_nil_r. split; [apply runs_ret|]. split; [apply grows_refl|]. split; [exact Fa|]. split; [reflexivity|exact Na].
  - cbn [fst snd] in *. destruct (Hq s x W R) as (x' & s1 & C). pose proof (copies_wf _ _ _ _ _ W C) as W1. destruct C as (R1 & G1 & Rx & _ & Nx).
    assert (Nn : ~ In n (map fst acc)).
    { cbn [map fst] in N. apply NoDup_remove_2 in N. intros C. apply N, in_or_app. left. exact C. }
    destruct (IHq ps' s0 s1 (acc ++ [(n, x')]) (qacc ++ [q])) as (m & s2 & R2 & G2 & F2 & E2 & N2).
    + exact W1.
    + exact (grows_trans _ _ _ G0 G1).
    + apply (Forall2_impl _ _ _ _ F'). intros p q' [A B]. split; [exact A|exact (rep_grows _ _ _ _ G1 B)].
    + apply Forall2_app.
      * apply (Forall2_impl _ _ _ _ Fa). intros p q' [A B]. split; [exact A|exact (rep_grows _ _ _ _ G1 B)].
      * repeat constructor; assumption.
    + rewrite map_app, <- app_assoc. exact N.
    + apply Forall_app. split.
      * clear -Fa Na G1. induction Fa as [|p q' ps qs [_ A] Fa IH]; constructor.
        -- exact (news_later _ _ _ _ _ A G1 (Forall_inv Na)).
        -- apply IH, (Forall_inv_tail Na).
      * apply List.Forall_cons; [|constructor]. exact (news_earlier _ _ _ _ G0 Nx).
    + exists m, s2. split; [cbn [copy_slots]; eapply runs_bind; [exact R1|]; rewrite (aset_new _ _ _ Nn); exact R2|].
      split; [exact (grows_trans _ _ _ G1 G2)|]. rewrite <- app_assoc in F2. split; [exact F2|].
      split; [rewrite E2, map_app, <- app_assoc; reflexivity|exact N2].
Qed.
Lemma run_copy_tree d : forall s v, wf_state s -> rep s v d -> exists v' s', copies s v d v' s'.
Proof.
  induction d as [z0|b0|t0|t0|bs0|v0|ds IH|ds IH] using datum_ind2; intros s v W H.
  - exists v, s. apply copies_self; [exact H| |]; inversion H; subst; [reflexivity|]. intros k P. inversion P.
  - exists v, s. apply copies_self; [exact H| |]; inversion H; subst; [reflexivity|]. intros k P. inversion P.
  - exists v, s. apply copies_self; [exact H| |]; inversion H; subst; [reflexivity|]. intros k P. inversion P.
  - exists v, s. apply copies_self; [exact H| |]; inversion H; subst; [reflexivity|]. intros k P. inversion P.
  - inversion H; subst. exists (VBytes (s_next s)), (set_bytes (<[s_next s := bs0]> (s_bytes s)) (bump s)).
    split; [|split; [|split; [|split; [discriminate|]]]].
    + apply (runs_do_call denote _ (RCopy (VBytes l))). cbn [denote copy_body]. rsteps. rewrite (bytes_some s l bs0) by assumption. rsteps.
    + eapply grows_bytes; [exact W|reflexivity].
    + constructor. cbn. apply lookup_insert.
    + intros k P. inversion P; subst. left. reflexivity.
  - exists v, s. apply copies_self; [exact H| |]; inversion H; subst; destruct v0; try discriminate; try reflexivity; intros k P; inversion P.
  - destruct (rep_list_inv _ _ _ H) as (xs & L & F). clear H. revert s v xs W L F. induction IH as [|q qs Hq _ IHq]; intros s v xs W L F.
    + inversion F; subst. exists v, s. split; [|split; [apply grows_refl|split; [econstructor; [exact L|constructor]|split; [auto|]]]].
      * apply (runs_do_call denote _ (RCopy v)). cbn [denote]. pose proof (is_list_nil_inv _ _ L) as E.
        inversion L; subst; try apply runs_ret. cbn [copy_body]. rsteps. rewrite E. apply runs_ret.
      * intros k P. inversion L; subst; try (inversion P; fail). match goal with H : s_cells s !! _ = Some (VNil, VNil) |- _ => destruct (part_car_inv _ _ _ _ _ H P) as [->|[Q|Q]]; [right; exact H|inversion Q|inversion Q] end.
    + inversion F as [|x ? ys ? R F']; subst. destruct (is_list_cons_inv _ _ _ _ L) as (E1 & E2 & E3 & l & ->).
      destruct (Hq s x W R) as (x' & s1 & C1). pose proof (copies_wf _ _ _ _ _ W C1) as W1. destruct C1 as (R1 & G1 & Rx & Nilx & Nx).
      assert (Ecd : cdr_of s1 (VCell TCons l) = cdr_of s (VCell TCons l)).
      { inversion L as [| | |? ? b ? E0 N0 T0]; subst. cbn. rewrite (cell_some _ _ _ E0), (cell_some _ _ _ (g_cells _ _ G1 _ _ E0)). reflexivity. }
      destruct (IHq s1 (cdr_of s (VCell TCons l)) ys W1 (is_list_grows _ _ _ _ G1 E3)) as (t' & s2 & C2).
      { apply (Forall2_impl _ _ _ _ F'). intros p q' A. exact (rep_grows _ _ _ _ G1 A). }
      pose proof (copies_wf _ _ _ _ _ W1 C2) as W2. destruct C2 as (R2 & G2 & Rt & Nilt & Nt).
      pose proof (grows_new_cell s2 x' t' W2) as G3. set (s3 := set_cells (<[s_next s2 := (x', t')]> (s_cells s2)) (bump s2)) in *.
      destruct (rep_list_inv _ _ _ Rt) as (zs & Lt & Ft).
      assert (Hc : s_cells s3 !! s_next s2 = Some (x', t')) by apply cell_new.
      exists (VCell TCons (s_next s2)), s3. split; [|split; [|split; [|split; [discriminate|]]]].
      * apply (runs_do_call denote _ (RCopy (VCell TCons l))). cbn [denote copy_body]. rsteps. rewrite E1. rsteps. rewrite E2.
        eapply runs_bind; [exact R1|]. rsteps. rewrite Ecd. eapply runs_bind; [exact R2|]. rsteps.
      * exact (grows_trans _ _ _ G1 (grows_trans _ _ _ G2 G3)).
      * apply (rep_list _ _ (x' :: zs)).
        -- apply (il_cons _ _ _ t'); [exact Hc| |exact (is_list_grows _ _ _ _ G3 Lt)].
           inversion L as [| | |? ? b ? E0 N0 T0]; subst. cbn in Nilt. rewrite (cell_some _ _ _ E0) in Nilt. cbn in Nilt.
           destruct N0 as [N0|N0]; [left|right]; intros C; [apply N0; cbn; rewrite (cell_some _ _ _ E0) in *; auto|auto].
        -- constructor; [exact (rep_grows _ _ _ _ (grows_trans _ _ _ G2 G3) Rx)|].
           apply (Forall2_impl _ _ _ _ Ft). intros p q' A. exact (rep_grows _ _ _ _ G3 A).
      * intros k P. destruct (part_car_inv _ _ _ _ _ Hc P) as [->|[Q|Q]]; cbn [fst snd] in *.
        -- left. pose proof (g_next _ _ G1). pose proof (g_next _ _ G2). lia.
        -- exact (news_later _ _ _ _ _ Rx (grows_trans _ _ _ G2 G3) Nx k Q).
        -- exact (news_later _ _ _ _ _ Rt G3 (news_earlier _ _ _ _ G1 Nt) k Q).
  - destruct (rep_frame_inv _ _ _ H) as (l & m & m' & -> & E & N & P & F). clear H.
    destruct (runs_permute (length m) m s W eq_refl) as (m1 & s1 & R1 & G1 & P1).
    pose proof (wf_runs _ _ _ _ _ W R1) as W1.
    (* the chosen order is another order of the same slots *)
    assert (PF : forall (A B : Type) (Q : A -> B -> Prop) (a a' : list A) b, Permutation a a' -> Forall2 Q a b -> exists b', Permutation b b' /\ Forall2 Q a' b').
    { intros A B Q a a' b Pa. revert b. induction Pa; intros b0 Fb.
      - inversion Fb; subst. exists []. split; constructor.
      - inversion Fb; subst. destruct (IHPa _ H3) as (b' & Pb & Fb'). exists (y :: b'). split; constructor; assumption.
      - inversion Fb; subst. inversion H3; subst. exists (y1 :: y0 :: l'0). split; [constructor|repeat constructor; assumption].
      - destruct (IHPa1 _ Fb) as (b1 & P2 & F2). destruct (IHPa2 _ F2) as (b2 & P3 & F3). exists b2. split; [etransitivity; eassumption|exact F3]. }
    destruct (PF _ _ _ m' m1 ds (Permutation_trans (Permutation_sym P) P1) F) as (ds1 & Pd & F1).
    assert (N1 : NoDup (map fst m1)) by (apply (Permutation_NoDup (Permutation_map fst P1)), N).
    destruct (run_copy_slots m1 ds1) with (s0 := s) (s := s1) (acc := @nil (string * val)) (qacc := @nil (string * datum)) as (m2 & s2 & R2 & G2 & F2 & E2 & N2).
    + apply (Permutation_Forall Pd), IH.
    + exact W1.
    + exact G1.
    + apply (Forall2_impl _ _ _ _ F1). intros p q [A B]. split; [exact A|exact (rep_grows _ _ _ _ G1 B)].
    + constructor.
    + exact N1.
    + constructor.
    + cbn [app] in *. pose proof (wf_runs _ _ _ _ _ W1 R2) as W2.
      set (s3 := set_frames (<[s_next s2 := m2]> (s_frames s2)) (bump s2)).
      assert (G3 : grows s2 s3) by (eapply grows_frame; [exact W2|reflexivity]).
      assert (Hf : s_frames s3 !! s_next s2 = Some m2) by (cbn; apply lookup_insert).
      assert (F3 : Forall2 (slot_rep s3) m2 ds1).
      { apply (Forall2_impl _ _ _ _ F2). intros p q [A B]. split; [exact A|exact (rep_grows _ _ _ _ G3 B)]. }
      destruct (PF _ _ (fun b a => slot_rep s3 a b) ds1 ds m2 (Permutation_sym Pd)) as (m3 & P3 & F4).
      { apply (proj2 (Forall2_flip (slot_rep s3) _ _)), F3. }
      exists (VFrame (s_next s2)), s3. split; [|split; [|split; [|split; [discriminate|]]]].
      * apply (runs_do_call denote _ (RCopy (VFrame l))). cbn [denote copy_body]. rsteps.
        assert (Ef : frame_at s l = m) by (unfold frame_at; rewrite E; reflexivity).
        rewrite Ef. eapply runs_bind; [exact R1|]. eapply runs_bind; [exact R2|]. rsteps.
      * exact (grows_trans _ _ _ G1 (grows_trans _ _ _ G2 G3)).
      * apply (rep_frame _ _ m2 m3); [exact Hf|rewrite E2; exact N1|exact P3|].
        exact (proj1 (Forall2_flip (slot_rep s3) _ _) F4).
      * intros k Q. destruct (part_frame_inv _ _ _ _ Hf Q) as [->|(n & x & Im & Qx)].
        -- left. pose proof (g_next _ _ G1). pose proof (g_next _ _ G2). lia.
        -- pose proof (proj1 (List.Forall_forall _ _) N2 _ Im) as Nx. cbn [snd] in Nx.
           assert (exists q, rep s2 x q) as [q Rq].
           { clear -F2 Im. induction F2 as [|[a b] q ps qs [_ A] F2 IH]; [destruct Im|]. destruct Im as [[= -> ->]|Im]; [eauto|auto]. }
           exact (news_later _ _ _ _ _ Rq G3 Nx k Qx).
Qed.
