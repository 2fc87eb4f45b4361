(** Lemmas for executing the model symbolically, used by the functional properties. *)
From Verif Require Export SpecCall ProofWf BaseFacts.
From stdpp Require Import list.
Local Open Scope string_scope.
Local Open Scope list_scope.
Local Open Scope Z_scope.

Notation runs' := (runs denote).

(** *** Growing states *)
Lemma kept_refl {A} (m : Pmap A) : kept m m.
Proof. intros l x H; exact H. Qed.
Lemma kept_trans {A} (a b c : Pmap A) : kept a b -> kept b c -> kept a c.
Proof. intros H1 H2 l x H. auto. Qed.
Lemma grows_refl s : grows s s.
Proof. constructor; try apply kept_refl; try reflexivity. exists []. split; [reflexivity|constructor]. Qed.
Lemma grows_trans a b c : grows a b -> grows b c -> grows a c.
Proof.
  intros H1 H2. destruct (g_log _ _ H1) as (n1 & E1 & F1), (g_log _ _ H2) as (n2 & E2 & F2).
  destruct H1, H2. constructor; try (eapply kept_trans; eassumption); try congruence.
  - eapply Pos.le_trans; eassumption.
  - exists (n2 ++ n1).
    rewrite E2, E1, app_assoc. split; [reflexivity|]. apply Forall_app. split; assumption.
Qed.
Lemma kept_new {A} (m : Pmap A) (l : loc) x : m !! l = None -> kept m (<[l := x]> m).
Proof.
  intros H k y Hy. destruct (Pos.eqb_spec l k) as [<-|N]; [congruence|]. rewrite lookup_insert_ne by exact N. exact Hy.
Qed.
Lemma fresh_none {A} s (m : Pmap A) : in_range s m -> m !! s_next s = None.
Proof.
  intros H. destruct (m !! s_next s) eqn:E; [|reflexivity]. destruct (H _ _ E) as [_ H2]. lia.
Qed.
Lemma log_same s : exists new, s_log s = new ++ s_log s /\ Forall quiet new.
Proof. exists []. split; [reflexivity|constructor]. Qed.
Ltac grows_new :=
  constructor; cbn; try apply kept_refl; try reflexivity;
  first [lia | apply log_same | apply kept_new, fresh_none; intros ? ? ?; eauto using wf_cells, wf_strs, wf_bytes, wf_frames, wf_funs, wf_macros, wf_envs, wf_binds, wf_chans, wf_procs, wf_atoms | idtac].
Lemma grows_cons s t a d s' l : wf_state s -> step_op (OCons t a d) s = Some (l, s') -> grows s s'.
Proof. intros W [= <- <-]. grows_new. Qed.
Lemma grows_str s x s' l : wf_state s -> step_op (OStrNew x) s = Some (l, s') -> grows s s'.
Proof. intros W [= <- <-]. grows_new. Qed.
Lemma grows_bytes s x s' l : wf_state s -> step_op (OBytesNew x) s = Some (l, s') -> grows s s'.
Proof. intros W [= <- <-]. grows_new. Qed.
Lemma grows_frame s x s' l : wf_state s -> step_op (OFrameNew x) s = Some (l, s') -> grows s s'.
Proof. intros W [= <- <-]. grows_new. Qed.
Lemma grows_entering n env s : grows s (entering n env s).
Proof.
  constructor; cbn; try apply kept_refl; try reflexivity.
  exists [EPrim n env]. split; [reflexivity|]. constructor; [exists n, env; reflexivity|constructor].
Qed.
Lemma wf_entering n env s : wf_state s -> wf_state (entering n env s).
Proof. intros [ ]. constructor; assumption. Qed.
Lemma wf_runs A (p : prog A) s o s' : wf_state s -> runs denote p s o s' -> wf_state s'.
Proof. intros W [n H]. exact (wf_run _ _ _ _ _ _ W H). Qed.

(** *** Reading cells *)
Definition car_of (s : state) (v : val) : val := match v with VCell _ l => fst (cell_at s l) | _ => VNil end.
Definition cdr_of (s : state) (v : val) : val := match v with VCell _ l => snd (cell_at s l) | _ => VNil end.
Definition nilb (s : state) (v : val) : bool :=
  match v with
  | VNil | VNoCell => true
  | VCell _ l => is_nil (fst (cell_at s l)) && is_nil (snd (cell_at s l))
  | _ => false
  end.
Lemma runs_car v s : runs denote (car v) s (Done (car_of s v)) s.
Proof. destruct v; cbn [car car_of]; try apply runs_ret. apply runs_op. reflexivity. Qed.
Lemma runs_cdr v s : runs denote (cdr v) s (Done (cdr_of s v)) s.
Proof. destruct v; cbn [cdr cdr_of]; try apply runs_ret. apply runs_op. reflexivity. Qed.
Lemma runs_nilp v s : runs denote (nilp v) s (Done (nilb s v)) s.
Proof.
  destruct v; cbn [nilp nilb]; try apply runs_ret. eapply runs_vis; [reflexivity|].
  destruct (is_nil (fst (cell_at s l))); cbn [andb]; [|apply runs_ret]. eapply runs_vis; [reflexivity|]. apply runs_ret.
Qed.
Lemma bind_assoc {A B C} (p : prog A) (f : A -> prog B) (g : B -> prog C) s o s' :
  runs denote (bind p (fun x => bind (f x) g)) s o s' -> runs denote (bind (bind p f) g) s o s'.
Proof.
  intros [n H]. exists n. rewrite run_bind in *. rewrite run_bind.
  destruct (run denote n p s) as [[[x|w] s1]|]; [|exact H|exact H]. rewrite run_bind in H. exact H.
Qed.
Lemma runs_cons t a d s :
  runs denote (cons_t t a d) s (Done (VCell t (s_next s)))
    (set_cells (<[s_next s := (a, d)]> (s_cells s)) (bump s)).
Proof. eapply runs_vis; [reflexivity|apply runs_ret]. Qed.
Lemma runs_new_str x s :
  runs denote (new_str x) s (Done (VStr (s_next s))) (set_strs (<[s_next s := x]> (s_strs s)) (bump s)).
Proof. eapply runs_vis; [reflexivity|apply runs_ret]. Qed.

(** *** Lists *)
Lemma cell_some s (l : loc) x : s_cells s !! l = Some x -> cell_at s l = x.
Proof. unfold cell_at. intros ->. reflexivity. Qed.
Lemma str_some s (l : loc) x : s_strs s !! l = Some x -> str_at s l = x.
Proof. unfold str_at. intros ->. reflexivity. Qed.
Lemma bytes_some s (l : loc) x : s_bytes s !! l = Some x -> bytes_at s l = x.
Proof. unfold bytes_at. intros ->. reflexivity. Qed.
Lemma is_list_grows s s' v xs : grows s s' -> is_list s v xs -> is_list s' v xs.
Proof.
  intros G H. induction H.
  - constructor.
  - constructor.
  - constructor. apply (g_cells _ _ G). assumption.
  - econstructor; [apply (g_cells _ _ G); eassumption|assumption|assumption].
Qed.
Lemma is_list_nil_inv s v : is_list s v [] -> nilb s v = true.
Proof.
  intros H. inversion H; subst; try reflexivity. cbn. rewrite (cell_some _ _ _ H0). reflexivity.
Qed.
Lemma is_list_cons_inv s v x xs : is_list s v (x :: xs) ->
  nilb s v = false /\ car_of s v = x /\ is_list s (cdr_of s v) xs /\ exists l, v = VCell TCons l.
Proof.
  intros H. inversion H as [| | |l a d ys E N T]; subst. cbn. rewrite (cell_some _ _ _ E). cbn.
  split; [destruct x; destruct d; cbn; try reflexivity; destruct N; congruence|]. eauto.
Qed.
Lemma is_list_pairp s v xs : is_list s v xs -> pairp v = true.
Proof. intros H; inversion H; reflexivity. Qed.
Lemma is_list_listp s v xs : is_list s v xs -> listp v = true.
Proof. intros H; inversion H; reflexivity. Qed.
Lemma is_list_det s v xs : is_list s v xs -> forall ys, is_list s v ys -> xs = ys.
Proof.
  intros H. induction H; intros ys H2; inversion H2; subst; try reflexivity; try congruence.
  - assert (E : (a, d) = (VNil, VNil)) by congruence. injection E as -> ->. destruct H3; congruence.
  - assert (E : (a, d) = (VNil, VNil)) by congruence. injection E as -> ->. destruct H0; congruence.
  - assert (E : (a0, d0) = (a, d)) by congruence. injection E as -> ->. f_equal. auto.
Qed.

(** Stepping through straight-line code. *)
Ltac rstep :=
  match goal with
  | |- runs _ (Ret _) _ _ _ => apply runs_ret
  | |- runs _ (ok _) _ _ _ => apply runs_ret
  | |- runs _ (fail _) _ _ _ => apply runs_ret
  | |- runs _ (bind_ok (ok _) _) _ _ _ => eapply runs_bind_ok; [apply runs_ret|]
  | |- runs _ (bind_ok (Ret (Ok _)) _) _ _ _ => eapply runs_bind_ok; [apply runs_ret|]
  | |- runs _ (bind (Ret _) _) _ _ _ => cbn [bind]
  | |- runs _ (bind (ok _) _) _ _ _ => unfold ok at 1; cbn [bind]
  | |- runs _ (bind (bind _ _) _) _ _ _ => apply bind_assoc
  | |- runs _ (bind (nilp _) _) _ _ _ => eapply runs_bind; [apply runs_nilp|]
  | |- runs _ (bind (car _) _) _ _ _ => eapply runs_bind; [apply runs_car|]
  | |- runs _ (bind (cdr _) _) _ _ _ => eapply runs_bind; [apply runs_cdr|]
  | |- runs _ (car _) _ _ _ => apply runs_car
  | |- runs _ (cdr _) _ _ _ => apply runs_cdr
  | |- runs _ (nilp _) _ _ _ => apply runs_nilp
  | |- runs _ (bind (Data.cons _ _) _) _ _ _ => eapply runs_bind; [apply runs_cons|]
  | |- runs _ (bind (cons_t _ _ _) _) _ _ _ => eapply runs_bind; [apply runs_cons|]
  | |- runs _ (Data.cons _ _) _ _ _ => apply runs_cons
  | |- runs _ (cons_t _ _ _) _ _ _ => apply runs_cons
  | |- runs _ (bind empty_cons _) _ _ _ => eapply runs_bind; [apply runs_cons|]
  | |- runs _ empty_cons _ _ _ => apply runs_cons
  | |- runs _ (bind (new_str _) _) _ _ _ => eapply runs_bind; [apply runs_new_str|]
  | |- runs _ (new_str _) _ _ _ => apply runs_new_str
  | |- runs _ (bind (do_op _) _) _ _ _ => eapply runs_bind; [apply runs_op; reflexivity|]
  | |- runs _ (do_op _) _ _ _ => apply runs_op; reflexivity
  | |- runs _ (Vis _ _) _ _ _ => eapply runs_vis; [reflexivity|]
  end.
Ltac rsteps := cbv beta iota zeta; repeat (rstep; cbv beta iota zeta).

(** *** The loop over the cells of a list, when the body does not touch existing cells *)
Lemma for_cells_list {S R} (body : S -> val -> prog (S + R)) fin (I : list val -> S -> state -> Prop) :
  (forall dn x rest c st s, wf_state s -> is_list s c (x :: rest) -> I dn st s ->
     exists st' s', runs denote (body st c) s (Done (inl st')) s' /\ grows s s' /\ I (dn ++ [x]) st' s') ->
  forall xs dn v st s,
  wf_state s -> is_list s v xs -> I dn st s ->
  exists st' s1, I (dn ++ xs) st' s1 /\ grows s s1 /\ wf_state s1 /\
    forall o s2, runs denote (fin st') s1 o s2 -> runs denote (for_cells body fin v st) s o s2.
Proof.
  intros Hb xs. induction xs as [|x xs IH]; intros dn v st s W L HI.
  - exists st, s. rewrite app_nil_r. split; [exact HI|]. split; [apply grows_refl|]. split; [exact W|].
    intros o s2 Hr. destruct o as [r|w].
    + apply runs_loop_stop. rsteps. rewrite (is_list_nil_inv _ _ L). eapply runs_bind; [exact Hr|apply runs_ret].
    + apply runs_loop_panic. rsteps. rewrite (is_list_nil_inv _ _ L). apply runs_bind_panic. exact Hr.
  - destruct (Hb _ _ _ _ _ _ W L HI) as (st1 & s1 & R1 & G1 & I1).
    destruct (is_list_cons_inv _ _ _ _ L) as (E1 & E2 & E3 & l & ->).
    pose proof (wf_runs _ _ _ _ _ W R1) as W1.
    pose proof (is_list_grows _ _ _ _ G1 L) as L1.
    destruct (is_list_cons_inv _ _ _ _ L1) as (_ & _ & E3' & _).
    destruct (IH (dn ++ [x]) (cdr_of s1 (VCell TCons l)) st1 s1 W1 E3' I1) as (st' & s2 & I2 & G2 & W2 & Hr).
    exists st', s2. rewrite <- app_assoc in I2. split; [exact I2|]. split; [eapply grows_trans; eassumption|].
    split; [exact W2|]. intros o s3 H. eapply runs_loop_step; [|apply (Hr _ _ H)].
    rsteps. rewrite E1. eapply runs_bind; [exact R1|]. cbv beta iota. rsteps.
Qed.

(** When the body changes nothing at all. *)
Lemma for_cells_pure {S R} (body : S -> val -> prog (S + R)) fin (f : S -> val -> S) s o s2 :
  (forall st x rest c, is_list s c (x :: rest) -> runs denote (body st c) s (Done (inl (f st x))) s) ->
  forall xs v st, is_list s v xs ->
  runs denote (fin (fold_left f xs st)) s o s2 -> runs denote (for_cells body fin v st) s o s2.
Proof.
  intros Hb xs. induction xs as [|x xs IH]; intros v st L H.
  - destruct o as [r|w].
    + apply runs_loop_stop. rsteps. rewrite (is_list_nil_inv _ _ L). eapply runs_bind; [exact H|apply runs_ret].
    + apply runs_loop_panic. rsteps. rewrite (is_list_nil_inv _ _ L). apply runs_bind_panic. exact H.
  - destruct (is_list_cons_inv _ _ _ _ L) as (E1 & E2 & E3 & l & ->).
    eapply runs_loop_step; [|apply (IH (cdr_of s (VCell TCons l)) (f st x)); [exact E3|exact H]].
    rsteps. rewrite E1. eapply runs_bind; [apply (Hb _ _ _ _ L)|]. cbv beta iota. rsteps.
Qed.
Lemma runs_to_array s v xs : is_list s v xs -> runs denote (to_array v) s (Done xs) s.
Proof.
  intros L. unfold to_array. eapply runs_bind.
  - eapply (for_cells_pure _ _ (fun acc x => x :: acc)); [|exact L|apply runs_ret].
    intros st x rest c Lc. destruct (is_list_cons_inv _ _ _ _ Lc) as (_ & <- & _). rsteps.
  - assert (E : forall acc, rev (fold_left (fun (acc : list val) x => x :: acc) xs acc) = rev acc ++ xs).
    { clear. induction xs as [|x xs IH]; intros acc; cbn [fold_left]; [rewrite app_nil_r; reflexivity|].
      rewrite IH. cbn [rev]. rewrite <- app_assoc. reflexivity. }
    rewrite (E []). apply runs_ret.
Qed.
Lemma runs_length s v xs : is_list s v xs -> runs denote (length_of v) s (Done (Z.of_nat (length xs))) s.
Proof.
  assert (F : forall (l : list val) n, fold_left (fun n _ => n + 1) l n = n + Z.of_nat (length l)).
  { induction l as [|x l IH]; intros n; cbn [fold_left length]; [lia|]; rewrite IH; lia. }
  intros L. inversion L as [| |l E|l a d ys E N T]; subst; try apply runs_ret; cbn [length_of];
  (eapply (for_cells_pure _ _ (fun n _ => n + 1)); [intros; rsteps|exact L|]);
  rewrite F, Z.add_0_l; apply runs_ret.
Qed.

(** *** Built-ins by name *)
Lemma applies_of name p vs env s o s' :
  table name = Some p -> runs denote (p_body p vs env) (entering name env s) o s' -> applies name vs env s o s'.
Proof.
  intros H R. exists p. unfold table in H. revert H. generalize all_prims. intros l. induction l as [|q l IH]; [discriminate|].
  cbn. destruct (str_eqb name (p_name q)) eqn:E.
  - intros [= ->]. apply str_eqb_eq in E. auto.
  - intros H. destruct (IH H) as (? & ? & ?). auto.
Qed.
Definition distinct_names (l : list prim) : bool :=
  (fix go l := match l with [] => true | p :: r => negb (existsb (fun q => str_eqb (p_name p) (p_name q)) r) && go r end) l.
Lemma table_distinct : distinct_names all_prims = true.
Proof. vm_compute. reflexivity. Qed.
Lemma table_unique l : distinct_names l = true ->
  forall p q, In p l -> In q l -> p_name p = p_name q -> p = q.
Proof.
  induction l as [|a l IH]; intros D p q Hp Hq E; [destruct Hp|].
  cbn in D. apply andb_true_iff in D. destruct D as [D1 D2]. apply negb_true_iff in D1.
  assert (N : forall x, In x l -> p_name a <> p_name x).
  { intros x Hx Ex. assert (T : existsb (fun q => str_eqb (p_name a) (p_name q)) l = true); [|congruence].
    apply existsb_exists. exists x. split; [exact Hx|apply str_eqb_eq, Ex]. }
  destruct Hp as [->|Hp], Hq as [->|Hq]; auto.
  - exfalso. apply (N q Hq E).
  - exfalso. apply (N p Hp). congruence.
Qed.
Lemma applies_det name vs env s o1 s1 o2 s2 :
  applies name vs env s o1 s1 -> applies name vs env s o2 s2 -> o1 = o2 /\ s1 = s2.
Proof.
  intros (p & P1 & P2 & P3) (q & Q1 & Q2 & Q3).
  assert (p = q) as -> by (apply (table_unique _ table_distinct); auto; congruence).
  exact (runs_det _ _ _ _ _ _ _ _ P3 Q3).
Qed.
Lemma table_in name p : table name = Some p -> In p all_prims /\ p_name p = name.
Proof.
  unfold table. generalize all_prims. intros l. induction l as [|q l IH]; [discriminate|].
  cbn. destruct (str_eqb name (p_name q)) eqn:E.
  - intros [= ->]. apply str_eqb_eq in E. auto.
  - intros H. destruct (IH H). auto.
Qed.
Lemma applies_inv name p vs env s o s' :
  table name = Some p -> applies name vs env s o s' -> runs denote (p_body p vs env) (entering name env s) o s'.
Proof.
  intros T (q & Q1 & Q2 & Q3). destruct (table_in _ _ T) as [P1 P2].
  assert (p = q) as -> by (apply (table_unique _ table_distinct); auto; congruence). exact Q3.
Qed.
Ltac applies := eapply applies_of; [reflexivity|cbn [p_body func special rfunc rspecial]].

(** *** Building lists *)
(** Elements as Go's list building stores them: nil becomes an empty list. *)
Lemma elem_as_grows s s' x y : grows s s' -> elem_as s x y -> elem_as s' x y.
Proof. intros G [H|[H1 H2]]; [left; exact H|right; split; [exact H1|exact (is_list_grows _ _ _ _ G H2)]]. Qed.
Lemma elems_as_grows s s' xs ys : grows s s' -> Forall2 (elem_as s) xs ys -> Forall2 (elem_as s') xs ys.
Proof. intros G H. induction H; constructor; eauto using elem_as_grows. Qed.
Lemma elems_no_nil s xs ys : Forall2 (elem_as s) xs ys -> Forall (fun x => x <> VNil) xs -> ys = xs.
Proof.
  intros H. induction H as [|x y xs ys H _ IH]; intros F; [reflexivity|]. inversion F; subst.
  destruct H as [[-> _]|[H _]]; [|congruence]. rewrite IH by assumption. reflexivity.
Qed.
Lemma cell_new s a d : s_cells (set_cells (<[s_next s := (a, d)]> (s_cells s)) (bump s)) !! s_next s = Some (a, d).
Proof. cbn. apply lookup_insert. Qed.
Lemma grows_new_cell s a d : wf_state s -> grows s (set_cells (<[s_next s := (a, d)]> (s_cells s)) (bump s)).
Proof. intros W. apply (grows_cons s TCons a d _ (s_next s) W). reflexivity. Qed.
Lemma wf_new_cell s a d : wf_state s -> wf_state (set_cells (<[s_next s := (a, d)]> (s_cells s)) (bump s)).
Proof. intros W. apply (wf_runs _ _ _ _ _ W (runs_cons TCons a d s)). Qed.
Lemma runs_elem x s : wf_state s -> exists y s',
  runs denote (if is_nil x then empty_cons else Ret x) s (Done y) s' /\ grows s s' /\ elem_as s' x y /\ y <> VNil.
Proof.
  intros W. destruct x; cbn [is_nil];
    try (eexists _, s; split; [apply runs_ret|]; split; [apply grows_refl|]; split; [left; split; [reflexivity|discriminate]|discriminate]).
  eexists _, _. split; [apply runs_cons|]. split; [apply grows_new_cell, W|]. split; [|discriminate].
  right. split; [reflexivity|]. apply il_empty, cell_new.
Qed.
Lemma runs_mk_tail xs : forall tl ts s, wf_state s -> is_list s tl ts -> exists v ys s',
  runs denote (mk_tail xs tl) s (Done v) s' /\ grows s s' /\ Forall2 (elem_as s') xs ys /\ is_list s' v (ys ++ ts).
Proof.
  induction xs as [|x xs IH]; intros tl ts s W L.
  - exists tl, [], s. split; [apply runs_ret|]. split; [apply grows_refl|]. split; [constructor|exact L].
  - destruct (IH tl ts s W L) as (v1 & ys & s1 & R1 & G1 & F1 & L1). pose proof (wf_runs _ _ _ _ _ W R1) as W1.
    destruct (runs_elem x s1 W1) as (y & s2 & R2 & G2 & F2 & N2). pose proof (wf_runs _ _ _ _ _ W1 R2) as W2.
    pose proof (grows_new_cell s2 y v1 W2) as G3.
    eexists _, (y :: ys), _. split.
    { cbn [mk_tail]. eapply runs_bind; [exact R1|]. eapply runs_bind; [exact R2|]. apply runs_cons. }
    split; [eapply grows_trans; [exact G1|]; eapply grows_trans; [exact G2|exact G3]|].
    split.
    { constructor; [exact (elem_as_grows _ _ _ _ G3 F2)|].
      exact (elems_as_grows _ _ _ _ (grows_trans _ _ _ G2 G3) F1). }
    cbn [app]. eapply il_cons; [apply cell_new|left; exact N2|].
    exact (is_list_grows _ _ _ _ (grows_trans _ _ _ G2 G3) L1).
Qed.
Lemma runs_array_to_list xs s : wf_state s -> exists v ys s',
  runs denote (array_to_list xs) s (Done v) s' /\ grows s s' /\ Forall2 (elem_as s') xs ys /\ is_list s' v ys /\
  v <> VNil /\ v <> VNoCell.
Proof.
  intros W. destruct xs as [|x xs].
  - eexists _, [], _. split; [apply runs_cons|]. split; [apply grows_new_cell, W|]. split; [constructor|].
    split; [apply il_empty, cell_new|]. split; discriminate.
  - destruct (runs_mk_tail (x :: xs) VNil [] s W (il_nil _)) as (v & ys & s' & R & G & F & L).
    exists v, ys, s'. rewrite app_nil_r in L. repeat (split; [assumption|]).
    inversion F; subst. inversion L; subst. split; discriminate.
Qed.
(** The common case: no element is a Go nil. *)
Lemma runs_array_to_list_exact xs s : wf_state s -> Forall (fun x => x <> VNil) xs -> exists v s',
  runs denote (array_to_list xs) s (Done v) s' /\ grows s s' /\ is_list s' v xs.
Proof.
  intros W F. destruct (runs_array_to_list xs s W) as (v & ys & s' & R & G & E & L & _).
  rewrite (elems_no_nil _ _ _ E F) in L. eauto 6.
Qed.
