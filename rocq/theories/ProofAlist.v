(** Proofs of C35. *)
From Verif Require Export SpecData.
From Verif Require Import ProofEval ProofCall RunFacts ProofList ProofTree ProofSet.
From stdpp Require Import list.
From Verif Require Import Data.
Local Open Scope string_scope.
Local Open Scope list_scope.
Local Open Scope Z_scope.

Lemma atomic_frameless d : atomic d -> frameless d.
Proof. destruct d; cbn; intros []; constructor. Qed.
Lemma atomic_not_cell s v d : rep s v d -> atomic d -> forall t l, v <> VCell t l.
Proof. intros R A t l ->. inversion R; subst; cbn in *; try discriminate; assumption. Qed.
Lemma atomic_not_nil s v d : rep s v d -> atomic d -> v <> VNil.
Proof. intros R A ->. inversion R; subst; cbn in *; try discriminate; assumption. Qed.
Lemma atomic_not_pair s v d : rep s v d -> atomic d -> pairp v = false.
Proof. intros R A. destruct R; try reflexivity; try contradiction. destruct v; cbn in *; try reflexivity; discriminate. Qed.
Lemma alist_grows s s' v es : grows s s' -> is_alist s v es -> is_alist s' v es.
Proof.
  intros G H. induction H as [v L|t l tp p k d x rest es T1 T2 E1 E2 R A H IH]; [apply al_end, (is_list_grows _ _ _ _ G L)|].
  eapply al_entry; eauto using rep_grows; eapply (g_cells _ _ G); eassumption.
Qed.
Definition key_dec (s : state) (k : val) (d : datum) (es : list entry) : Prop := Forall (fun e => e_key e = d \/ e_key e <> d) es.
(** One look at the first pair. *)
Lemma look s k0 d0 : rep s k0 d0 -> frameless d0 -> forall t l tp p k d x rest, t = TCons \/ t = TAlist -> tp = TCons \/ tp = TAlistCell ->
  s_cells s !! (l : loc) = Some (VCell tp p, rest) -> s_cells s !! (p : loc) = Some (k, x) -> rep s k d -> atomic d ->
  nilb s (VCell t l) = false /\ nilb s (VCell tp p) = false /\ car_of s (VCell t l) = VCell tp p /\ cdr_of s (VCell t l) = rest /\
  car_of s (VCell tp p) = k /\ cdr_of s (VCell tp p) = x /\ negb (dottedp (VCell tp p)) && negb (pairp (VCell tp p)) = false /\
  exists b, runs denote (call (REqual k k0)) s (Done b) s /\ agrees b (d = d0).
Proof.
  intros R0 F0 t l tp p k d x rest T1 T2 E1 E2 R A. cbn [nilb car_of cdr_of]. rewrite (cell_some _ _ _ E1), (cell_some _ _ _ E2). cbn [fst snd is_nil andb].
  split; [reflexivity|]. split. { pose proof (atomic_not_nil _ _ _ R A). destruct k; try reflexivity. congruence. }
  repeat (split; [reflexivity|]). split; [destruct T2 as [-> | ->]; reflexivity|].
  apply (run_equal s d (atomic_frameless _ A) k k0 d0 R R0 F0).
Qed.
Lemma runs_assoc s k0 d0 v es : rep s k0 d0 -> frameless d0 -> is_alist s v es ->
  (exists e tp, leads es d0 e /\ (tp = TCons \/ tp = TAlistCell) /\ runs denote (assoc k0 v) s (Done (Ok (VCell tp (e_pair e)))) s) \/
  (~ In d0 (map e_key es) /\ runs denote (assoc k0 v) s (Done (Ok VNil)) s).
Proof.
  intros R0 F0 H. induction H as [v L|t l tp p k d x rest es T1 T2 E1 E2 R A H IH].
  - right. split; [intros []|]. apply for_cells_end; [exact (is_list_nil_inv _ _ L)|apply runs_ret].
  - destruct (look s k0 d0 R0 F0 t l tp p k d x rest T1 T2 E1 E2 R A) as (N1 & N2 & C1 & C2 & C3 & C4 & P & b & Rb & Hb).
    assert (Body : runs denote (pair <- car (VCell t l) ;;
               if negb (dottedp pair) && negb (pairp pair) then Ret (inr (Err alist_err))
               else
                 k <- car pair ;; e <- call (REqual k k0) ;;
                 if e : bool then Ret (inr (Ok pair)) else Ret (inl tt)) s (Done (if b then inr (Ok (VCell tp p)) else inl tt)) s).
    { eapply runs_bind; [apply runs_car|]. rewrite C1, P. eapply runs_bind; [apply runs_car|]. rewrite C3. eapply runs_bind; [exact Rb|]. destruct b; apply runs_ret. }
    destruct b.
    + left. exists (Entry p d x), tp. split; [exists [], es; split; [reflexivity|]; split; [apply Hb; reflexivity|intros []]|]. split; [exact T2|].
      eapply for_cells_stop; [exact N1|exact Body].
    + assert (Nd : d <> d0). { intros Q. apply Hb in Q. discriminate. }
      destruct IH as [(e & tp' & (pre & post & -> & K & Np) & T' & Rr)|(Ni & Rr)].
      * left. exists e, tp'. split; [exists (Entry p d x :: pre), post; split; [reflexivity|]; split; [exact K|intros [Q|Q]; [exact (Nd Q)|exact (Np Q)]]|]. split; [exact T'|].
        eapply for_cells_next; [exact N1|exact Body|]. change (rest_of s (VCell t l)) with (cdr_of s (VCell t l)). rewrite C2. exact Rr.
      * right. split; [intros [Q|Q]; [exact (Nd Q)|exact (Ni Q)]|].
        eapply for_cells_next; [exact N1|exact Body|]. change (rest_of s (VCell t l)) with (cdr_of s (VCell t l)). rewrite C2. exact Rr.
Qed.
Lemma alist_entering name env s v es : is_alist s v es -> is_alist (entering name env s) v es.
Proof. apply alist_grows, grows_entering. Qed.
Lemma rep_entering name env s v d : rep s v d -> rep (entering name env s) v d.
Proof. apply rep_grows, grows_entering. Qed.
Lemma run_assoc name k0 d0 v es env s : In name lookups -> rep s k0 d0 -> frameless d0 -> is_alist s v es ->
  (exists e tp, leads es d0 e /\ (tp = TCons \/ tp = TAlistCell) /\ applies name [k0; v] env s (Done (Ok (VCell tp (e_pair e)))) (entering name env s)) \/
  (~ In d0 (map e_key es) /\ applies name [k0; v] env s (Done (Ok VNil)) (entering name env s)).
Proof.
  intros I R0 F0 H. destruct (runs_assoc _ k0 d0 v es (rep_entering name env _ _ _ R0) F0 (alist_entering name env _ _ _ H)) as [(e & tp & Le & T & R)|(N & R)].
  - left. exists e, tp. split; [exact Le|]. split; [exact T|]. destruct I as [<-|[<-|[<-|[]]]]; applies; exact R.
  - right. split; [exact N|]. destruct I as [<-|[<-|[<-|[]]]]; applies; exact R.
Qed.
(** *** acons *)
Definition revalued (p : loc) (x : val) (es : list entry) : list entry :=
  map (fun e => if bool_decide (e_pair e = p) then Entry p (e_key e) x else e) es.
Lemma alist_cells s v es : is_alist s v es -> Forall (fun e => exists k, s_cells s !! e_pair e = Some (k, e_val e) /\ rep s k (e_key e) /\ atomic (e_key e)) es.
Proof. intros H. induction H; constructor; eauto. Qed.
Lemma rep_atomic_cells s s' v d : rep s v d -> atomic d -> s_strs s' = s_strs s -> s_bytes s' = s_bytes s -> rep s' v d.
Proof. intros R A E1 E2. destruct R; cbn in A; try contradiction; constructor; try assumption; congruence. Qed.
Lemma alist_put s v es (p : loc) k0 x0 x : is_alist s v es -> s_cells s !! p = Some (k0, x0) -> (forall t l, k0 <> VCell t l) -> k0 <> VNil -> is_alist (put_cell s p (k0, x)) v (revalued p x es).
Proof.
  intros H E Nc Nn. induction H as [v L|t l tp q k d y rest es T1 T2 E1 E2 R A H IH].
  - apply al_end. inversion L; subst; try constructor. cbn. rewrite lookup_insert_ne; [assumption|]. intros ->. congruence.
  - cbn [revalued map e_pair e_key]. fold (revalued p x es). assert (l <> p) by (intros ->; rewrite E1 in E; injection E as <- <-; exact (Nc _ _ eq_refl)).
    assert (E1' : s_cells (put_cell s p (k0, x)) !! l = Some (VCell tp q, rest)). { cbn. rewrite lookup_insert_ne; [assumption|congruence]. }
    assert (R' : rep (put_cell s p (k0, x)) k d) by (apply (rep_atomic_cells s); auto).
    destruct (bool_decide_reflect (q = p)) as [->|Nq].
    + rewrite E2 in E. injection E as <- <-. eapply al_entry; eauto. apply lookup_insert.
    + eapply al_entry; eauto. cbn. rewrite lookup_insert_ne; [assumption|congruence].
Qed.
Lemma grows_cons (t : ctag) a d s : wf_state s -> grows s (set_cells (<[s_next s := (a, d)]> (s_cells s)) (bump s)).
Proof. intros W. exact (grows_new_cell s a d W). Qed.
Lemma wf_cons (t : ctag) a d s : wf_state s -> wf_state (set_cells (<[s_next s := (a, d)]> (s_cells s)) (bump s)).
Proof. intros W. exact (wf_runs _ _ _ _ _ W (runs_cons t a d s)). Qed.
Lemma runs_acons_new s k d x v es : wf_state s -> rep s k d -> atomic d -> is_alist s v es -> ~ In d (map e_key es) -> exists p r s',
  runs denote (acons k x v) s (Done r) s' /\ grows s s' /\ (s_next s <= p)%positive /\ is_alist s' r (Entry p d x :: es).
Proof.
  intros W R A H N. destruct (runs_assoc s k d v es R (atomic_frameless _ A) H) as [(e & tp & (pre & post & -> & K & _) & _)|(_ & Ra)].
  { exfalso. apply N. rewrite map_app. apply in_app_iff. right. left. exact K. }
  set (s1 := set_cells (<[s_next s := (k, x)]> (s_cells s)) (bump s)).
  set (s2 := set_cells (<[s_next s1 := (VCell TAlistCell (s_next s), v)]> (s_cells s1)) (bump s1)).
  assert (W1 : wf_state s1) by exact (wf_cons TCons k x s W).
  assert (G1 : grows s s1) by exact (grows_cons TCons k x s W).
  assert (G2 : grows s1 s2) by exact (grows_cons TCons _ _ s1 W1).
  exists (s_next s), (VCell TAlist (s_next s1)), s2. split; [|split; [exact (grows_trans _ _ _ G1 G2)|split; [lia|]]].
  - unfold acons. eapply runs_bind; [exact Ra|]. cbv zeta. eapply runs_bind; [apply runs_nilp|]. cbn [nilb]. eapply runs_bind; [apply runs_cons|]. apply runs_cons.
  - eapply al_entry; [right; reflexivity|right; reflexivity|apply lookup_insert|apply (g_cells _ _ G2), lookup_insert| | |].
    + exact (rep_grows _ _ _ _ (grows_trans _ _ _ G1 G2) R). + exact A. + exact (alist_grows _ _ _ _ (grows_trans _ _ _ G1 G2) H).
Qed.
Lemma runs_acons_old s k d x v es e : rep s k d -> atomic d -> is_alist s v es -> leads es d e -> exists k0,
  rep s k0 d /\ s_cells s !! e_pair e = Some (k0, e_val e) /\ runs denote (acons k x v) s (Done v) (put_cell s (e_pair e) (k0, x)) /\
  is_alist (put_cell s (e_pair e) (k0, x)) v (revalued (e_pair e) x es).
Proof.
  intros R A H (pre & post & -> & K & Np). pose proof (alist_cells _ _ _ H) as Hc. rewrite List.Forall_forall in Hc.
  destruct (Hc e) as (k0 & E & Rk & Ak). { apply in_app_iff. right. left. reflexivity. }
  assert (e' : forall e', leads (pre ++ e :: post) d e' -> e' = e).
  { intros e' (pre' & post' & Q & K' & Np'). revert pre' Np' Q. clear -K K' Np. induction pre as [|y pre IH]; intros [|y' pre'] Np' Q; cbn in Q; injection Q as Q1 Q2.
    - symmetry. exact Q1.
    - exfalso. apply Np'. left. rewrite <- Q1. exact K.
    - exfalso. apply Np. left. rewrite Q1. exact K'.
    - apply (IH (fun Z => Np (or_intror Z)) pre' (fun Z => Np' (or_intror Z)) Q2). }
  exists k0. rewrite K in Rk, Ak. split; [exact Rk|]. split; [exact E|]. split.
  - destruct (runs_assoc s k d v _ R (atomic_frameless _ A) H) as [(e1 & tp & Le & T & Ra)|(N & _)].
    + rewrite (e' _ Le) in Ra. unfold acons. eapply runs_bind; [exact Ra|]. cbv zeta. eapply runs_bind; [apply runs_nilp|]. cbn [nilb]. rewrite (cell_some _ _ _ E). cbn [fst snd].
      pose proof (atomic_not_nil _ _ _ Rk Ak). replace (is_nil k0) with false by (destruct k0; try reflexivity; congruence). cbn [andb].
      eapply runs_bind; [|apply runs_ret]. unfold set_cdr. apply runs_op. cbn [step_op]. rewrite (cell_some _ _ _ E). cbn [fst]. unfold put. rewrite E. reflexivity.
    + exfalso. apply N. rewrite map_app. apply in_app_iff. right. left. exact K.
  - eapply alist_put; [exact H|exact E|exact (atomic_not_cell _ _ _ Rk Ak)|exact (atomic_not_nil _ _ _ Rk Ak)].
Qed.
Lemma revalued_keys p x es : map e_key (revalued p x es) = map e_key es.
Proof. induction es as [|e es IH]; cbn; [reflexivity|]. fold (revalued p x es). rewrite IH. destruct (bool_decide _); reflexivity. Qed.
Lemma run_acons_new k d x v es env s : wf_state s -> rep s k d -> atomic d -> is_alist s v es -> ~ In d (map e_key es) -> exists p r s',
  applies "acons" [k; x; v] env s (Done (Ok r)) s' /\ grows s s' /\ (s_next s <= p)%positive /\ is_alist s' r (Entry p d x :: es).
Proof.
  intros W R A H N. destruct (runs_acons_new (entering "acons" env s) k d x v es (wf_entering _ _ _ W) (rep_entering _ _ _ _ _ R) A (alist_entering _ _ _ _ _ H) N) as (p & r & s' & Ra & G & L & Ha).
  exists p, r, s'. split; [|split; [exact (grows_into _ _ _ _ G)|split; [exact L|exact Ha]]].
  applies. unfold acons_impl. cbn [arg nth]. rewrite (atomic_not_pair _ _ _ R A). eapply runs_bind; [exact Ra|apply runs_ret].
Qed.
Lemma run_acons_none k d x env s : wf_state s -> rep s k d -> atomic d -> exists p r s',
  applies "acons" [k; x] env s (Done (Ok r)) s' /\ grows s s' /\ (s_next s <= p)%positive /\ is_alist s' r [Entry p d x].
Proof.
  intros W R A. destruct (runs_acons_new (entering "acons" env s) k d x VNil [] (wf_entering _ _ _ W) (rep_entering _ _ _ _ _ R) A (al_end _ _ (il_nil _)) (fun F => F)) as (p & r & s' & Ra & G & L & Ha).
  exists p, r, s'. split; [|split; [exact (grows_into _ _ _ _ G)|split; [exact L|exact Ha]]].
  applies. unfold acons_impl. cbn [arg nth]. rewrite (atomic_not_pair _ _ _ R A). eapply runs_bind; [exact Ra|apply runs_ret].
Qed.
Lemma run_acons_old k d x v es e env s : rep s k d -> atomic d -> is_alist s v es -> leads es d e -> exists k0,
  rep s k0 d /\ s_cells s !! e_pair e = Some (k0, e_val e) /\
  applies "acons" [k; x; v] env s (Done (Ok v)) (put_cell (entering "acons" env s) (e_pair e) (k0, x)) /\
  is_alist (put_cell (entering "acons" env s) (e_pair e) (k0, x)) v (revalued (e_pair e) x es).
Proof.
  intros R A H Le. destruct (runs_acons_old (entering "acons" env s) k d x v es e (rep_entering _ _ _ _ _ R) A (alist_entering _ _ _ _ _ H) Le) as (k0 & Rk & E & Ra & Ha).
  exists k0. split; [|split; [exact E|split; [|exact Ha]]].
  - assert (Ak : atomic d) by exact A. apply (rep_atomic_cells (entering "acons" env s)); auto.
  - applies. unfold acons_impl. cbn [arg nth]. rewrite (atomic_not_pair _ _ _ R A). eapply runs_bind; [exact Ra|apply runs_ret].
Qed.
Lemma run_acons_same k d x v es e env s : rep s k d -> atomic d -> is_alist s v es -> leads es d e -> exists k0,
  s_cells s !! e_pair e = Some (k0, e_val e) /\
  applies "acons" [k; x; v] env s (Done (Ok v)) (put_cell (entering "acons" env s) (e_pair e) (k0, x)).
Proof. intros R A H Le. destruct (run_acons_old k d x v es e env s R A H Le) as (k0 & _ & E & Ap & _). exists k0. auto. Qed.
(** *** The map *)
Lemma leads_cons e0 es d e : leads (e0 :: es) d e <-> (e = e0 /\ e_key e0 = d) \/ (e_key e0 <> d /\ leads es d e).
Proof.
  split.
  - intros (pre & post & Q & K & N). destruct pre as [|y pre]; cbn in Q; injection Q as -> ->; [left; auto|]. right. split; [intros Z; apply N; left; exact Z|].
    exists pre, post. split; [reflexivity|]. split; [exact K|]. intros Z. apply N. right. exact Z.
  - intros [[-> K]|[N (pre & post & -> & K & Np)]]; [exists [], es; auto|]. exists (e0 :: pre), post. split; [reflexivity|]. split; [exact K|]. intros [Z|Z]; auto.
Qed.
Lemma maps_cons e0 es d x : maps (e0 :: es) d x <-> (x = e_val e0 /\ e_key e0 = d) \/ (e_key e0 <> d /\ maps es d x).
Proof.
  split.
  - intros (e & Le & V). apply leads_cons in Le as [[-> K]|[N Le]]; [left; auto|]. right. split; [exact N|]. exists e. auto.
  - intros [[-> K]|[N (e & Le & V)]]; [exists e0|exists e]; split; auto; apply leads_cons; auto.
Qed.
Lemma maps_in es d x : maps es d x -> In d (map e_key es).
Proof. intros (e & (pre & post & -> & K & _) & _). rewrite map_app. apply in_app_iff. right. left. exact K. Qed.
Lemma leads_in es d e : leads es d e -> In e es /\ e_key e = d.
Proof. intros (pre & post & -> & K & _). split; [apply in_app_iff; right; left; reflexivity|exact K]. Qed.
Lemma maps_revalued s v es d e x : is_alist s v es -> leads es d e -> forall d' y, maps (revalued (e_pair e) x es) d' y <-> (d' = d /\ y = x) \/ (d' <> d /\ maps es d' y).
Proof.
  intros H Le. pose proof (alist_cells _ _ _ H) as Hc. assert (He : exists k, s_cells s !! e_pair e = Some (k, e_val e) /\ rep s k d /\ atomic d).
  { rewrite List.Forall_forall in Hc. destruct (leads_in _ _ _ Le) as [I <-]. exact (Hc _ I). }
  destruct He as (k & E & Rk & Ak).
  assert (Same : forall e', In e' es -> e_pair e' = e_pair e -> e_key e' = d).
  { intros e' I Q. rewrite List.Forall_forall in Hc. destruct (Hc _ I) as (k' & E' & R' & A'). rewrite Q, E in E'. injection E' as <- _.
    exact (rep_fun s k _ _ R' Rk (atomic_frameless _ A')). }
  clear Hc H. revert Le Same. induction es as [|e0 es IH]; intros Le Same d' y; [destruct Le as ([] & ? & Q & _); discriminate|].
  cbn [revalued map]. fold (revalued (e_pair e) x es). apply leads_cons in Le as [[-> K]|[N Le]].
  - rewrite bool_decide_eq_true_2 by reflexivity. rewrite !maps_cons. cbn [e_key e_val]. rewrite K. clear IH. 
    assert (M : d' <> d -> maps (revalued (e_pair e0) x es) d' y <-> maps es d' y).
    { intros Nd. assert (Same' : forall e', In e' es -> e_pair e' = e_pair e0 -> e_key e' = d) by (intros; apply Same; [right|]; assumption).
      clear -Nd Same'. induction es as [|e1 es IH]; [reflexivity|]. cbn [revalued map]. fold (revalued (e_pair e0) x es).
      assert (IH' := IH (fun e' I => Same' e' (or_intror I))). destruct (bool_decide_reflect (e_pair e1 = e_pair e0)) as [Q|Q]; rewrite !maps_cons; cbn [e_key e_val]; [|rewrite IH'; reflexivity].
      pose proof (Same' e1 (or_introl eq_refl) Q) as K1. rewrite K1, IH'. split; (intros [[_ Z]|Z]; [congruence|right; exact Z]). }
    split.
    + intros [[-> <-]|[Z Mx]]; [left; auto|]. right. split; [congruence|]. right. split; [exact Z|]. apply M; [congruence|exact Mx].
    + intros [[-> ->]|[Nd [[_ Z]|[Z Mx]]]]; [left; auto|congruence|]. right. split; [exact Z|]. apply M; assumption.
  - assert (IH' := IH Le (fun e' I => Same e' (or_intror I)) d' y).
    assert (Q : e_pair e0 <> e_pair e). { intros Q. apply N. apply Same; [left; reflexivity|exact Q]. }
    rewrite bool_decide_eq_false_2 by exact Q. rewrite !maps_cons, IH'. split.
    + intros [[-> <-]|[Z [[-> ->]|[Nd Mx]]]]; [right; split; [congruence|left; auto]|left; auto|right; split; [exact Nd|right; auto]].
    + intros [[-> ->]|[Nd [[-> <-]|[Z Mx]]]]; [right; split; [exact N|left; auto]|left; auto|right; split; [exact Z|right; auto]].
Qed.
Lemma in_keys_dec s v es k d : rep s k d -> atomic d -> is_alist s v es -> (exists e, leads es d e) \/ ~ In d (map e_key es).
Proof. intros R A H. destruct (runs_assoc s k d v es R (atomic_frameless _ A) H) as [(e & tp & Le & _)|(N & _)]; eauto. Qed.
Lemma run_acons_map k d x v es env s : wf_state s -> rep s k d -> atomic d -> is_alist s v es -> exists r s' es',
  applies "acons" [k; x; v] env s (Done (Ok r)) s' /\ is_alist s' r es' /\
  (forall d' y, maps es' d' y <-> (d' = d /\ y = x) \/ (d' <> d /\ maps es d' y)) /\
  (List.NoDup (map e_key es) -> List.NoDup (map e_key es')) /\ (In d (map e_key es) -> map e_key es' = map e_key es).
Proof.
  intros W R A H. destruct (in_keys_dec s v es k d R A H) as [(e & Le)|N].
  - destruct (run_acons_old k d x v es e env s R A H Le) as (k0 & _ & _ & Ap & Ha). eexists v, _, _. split; [exact Ap|]. split; [exact Ha|].
    split; [exact (maps_revalued s v es d e x H Le)|]. rewrite revalued_keys. auto.
  - destruct (run_acons_new k d x v es env s W R A H N) as (p & r & s' & Ap & G & L & Ha). exists r, s', (Entry p d x :: es). split; [exact Ap|]. split; [exact Ha|]. split.
    + intros d' y. rewrite maps_cons. cbn [e_key e_val]. split; [intros [[-> <-]|[Z M]]; [left; auto|right; auto]|].
      intros [[-> ->]|[Z M]]; [left; auto|right; auto].
    + split; [|contradiction]. intros Nd. cbn. constructor; [exact N|exact Nd].
Qed.
(** *** dissoc *)
Definition plain (e : entry) : datum * val := (e_key e, e_val e).
Lemma runs_dissoc_go s0 k0 d0 v es : is_alist s0 v es -> forall s, wf_state s -> grows s0 s -> rep s0 k0 d0 -> frameless d0 -> List.NoDup (map e_key es) -> forall acc es1,
  is_alist s acc es1 -> (forall d, In d (map e_key es) -> ~ In d (map e_key es1)) -> exists r s' es' ,
  runs denote (for_cells (fun acc c =>
               pair <- car c ;;
               if negb (dottedp pair) && negb (pairp pair) then Ret (inr (Err alist_err))
               else
                 k <- car pair ;; e <- call (REqual k k0) ;;
                 if e : bool then Ret (inl acc)
                 else k <- car pair ;; v <- cdr pair ;; acc' <- acons k v acc ;; Ret (inl acc'))
            (fun acc => ok acc) v acc) s (Done (Ok r)) s' /\ grows s s' /\ is_alist s' r es' /\
  exists kept, keeps (fun e => e_key e <> d0) es kept /\ map plain es' = rev (map plain kept) ++ map plain es1.
Proof.
  intros H. induction H as [v L|t l tp p k d x rest es T1 T2 E1 E2 R A H IH]; intros s W G R0 F0 Nd acc es1 Ha Hd.
  - exists acc, s, es1. split; [|split; [apply grows_refl|split; [exact Ha|exists []; split; [constructor|reflexivity]]]].
    apply for_cells_end; [exact (is_list_nil_inv _ _ (is_list_grows _ _ _ _ G L))|apply runs_ret].
  - pose proof (g_cells _ _ G _ _ E1) as E1'. pose proof (g_cells _ _ G _ _ E2) as E2'. pose proof (rep_grows _ _ _ _ G R) as R'. pose proof (rep_grows _ _ _ _ G R0) as R0'.
    destruct (look s k0 d0 R0' F0 t l tp p k d x rest T1 T2 E1' E2' R' A) as (N1 & N2 & C1 & C2 & C3 & C4 & P & b & Rb & Hb).
    cbn [map e_key] in Nd. apply List.NoDup_cons_iff in Nd as [Nin Nd].
    destruct b.
    + destruct (IH s W G R0 F0 Nd acc es1 Ha) as (r & s' & es' & Rr & G' & Ha' & kept & Hk & Hm).
      { intros d' I. apply Hd. right. exact I. }
      exists r, s', es'. split; [|split; [exact G'|split; [exact Ha'|exists kept; split; [|exact Hm]]]].
      * eapply for_cells_next; [exact N1| |].
        -- eapply runs_bind; [apply runs_car|]. rewrite C1, P. eapply runs_bind; [apply runs_car|]. rewrite C3. eapply runs_bind; [exact Rb|]. apply runs_ret.
        -- change (rest_of s (VCell t l)) with (cdr_of s (VCell t l)). rewrite C2. exact Rr.
      * apply keeps_no; [|exact Hk]. intros Q. apply Q. apply Hb. reflexivity.
    + destruct (runs_acons_new s k d x acc es1 W R' A Ha) as (p' & acc' & s1 & Ra & G1 & _ & Ha1). { apply Hd. left. reflexivity. }
      destruct (IH s1 (wf_runs _ _ _ _ _ W Ra) (grows_trans _ _ _ G G1) R0 F0 Nd acc' (Entry p' d x :: es1) Ha1) as (r & s' & es' & Rr & G' & Ha' & kept & Hk & Hm).
      { intros d' I [Q|Q]; [cbn in Q; subst d'; exact (Nin I)|]. exact (Hd d' (or_intror I) Q). }
      exists r, s', es'. split; [|split; [exact (grows_trans _ _ _ G1 G')|split; [exact Ha'|exists (Entry p d x :: kept); split]]].
      * eapply for_cells_next; [exact N1| |].
        -- eapply runs_bind; [apply runs_car|]. rewrite C1, P. eapply runs_bind; [apply runs_car|]. rewrite C3. eapply runs_bind; [exact Rb|]. 
           eapply runs_bind; [apply runs_car|]. rewrite C3. eapply runs_bind; [apply runs_cdr|]. rewrite C4. eapply runs_bind; [exact Ra|]. apply runs_ret.
        -- assert (C2' : rest_of s1 (VCell t l) = rest). { cbn. rewrite (cell_some _ _ _ (g_cells _ _ G1 _ _ E1')). reflexivity. } rewrite C2'. exact Rr.
      * apply keeps_yes; [|exact Hk]. cbn. intros Q. apply Hb in Q. discriminate.
      * rewrite Hm. cbn [map rev plain e_key e_val]. rewrite <- app_assoc. reflexivity.
Qed.
Lemma keeps_in {A} (P : A -> Prop) xs ys : keeps P xs ys -> forall x, In x ys <-> In x xs /\ P x.
Proof.
  intros H. induction H as [|x xs ys Hp H IH|x xs ys Hp H IH]; intros y; cbn.
  - tauto.
  - rewrite IH. split; [intros [->|[I Q]]; auto|intros [[->|I] Q]; auto].
  - rewrite IH. split; [intros [I Q]; auto|intros [[->|I] Q]; [contradiction|auto]].
Qed.
Lemma keeps_nodup {A B} (P : A -> Prop) (f : A -> B) xs ys : keeps P xs ys -> List.NoDup (map f xs) -> List.NoDup (map f ys).
Proof.
  intros H. induction H as [|x xs ys Hp H IH|x xs ys Hp H IH]; intros N; cbn in *; [constructor| |apply List.NoDup_cons_iff in N as [_ N]; auto].
  apply List.NoDup_cons_iff in N as [N1 N2]. apply List.NoDup_cons_iff. split; [|auto]. intros Q. apply N1. apply in_map_iff in Q as (y & <- & I).
  apply in_map_iff. exists y. split; [reflexivity|]. apply (keeps_in _ _ _ H) in I. tauto.
Qed.
Lemma maps_nodup es : List.NoDup (map e_key es) -> forall d x, maps es d x <-> In (d, x) (map plain es).
Proof.
  induction es as [|e es IH]; intros N d x; cbn.
  - split; [intros M; destruct (maps_in _ _ _ M)|intros []].
  - apply List.NoDup_cons_iff in N as [N1 N2]. rewrite maps_cons, IH by exact N2. unfold plain at 2. split.
    + intros [[-> <-]|[_ I]]; auto.
    + intros [[= <- <-]|I]; [auto|]. right. split; [|exact I]. intros Q. apply N1. rewrite Q. apply in_map_iff in I as (e' & Q' & I). unfold plain in Q'. injection Q' as <- _. apply in_map. exact I.
Qed.
Lemma keys_plain es : map e_key es = map fst (map plain es).
Proof. rewrite map_map. reflexivity. Qed.
Lemma run_dissoc k0 d0 v es env s : wf_state s -> rep s k0 d0 -> frameless d0 -> is_alist s v es -> List.NoDup (map e_key es) -> exists r s' es',
  applies "dissoc" [k0; v] env s (Done (Ok r)) s' /\ grows s s' /\ is_alist s' r es' /\ List.NoDup (map e_key es') /\
  (forall d y, maps es' d y <-> d <> d0 /\ maps es d y).
Proof.
  intros W R F H N. destruct (runs_dissoc_go (entering "dissoc" env s) k0 d0 v es (alist_entering _ _ _ _ _ H) _ (wf_entering _ _ _ W) (grows_refl _) (rep_entering _ _ _ _ _ R) F N VNil []
    (al_end _ _ (il_nil _)) (fun d _ Q => Q)) as (r & s' & es' & Rr & G & Ha & kept & Hk & Hm).
  rewrite app_nil_r in Hm. assert (Nk : List.NoDup (map e_key kept)) by exact (keeps_nodup _ _ _ _ Hk N).
  assert (N' : List.NoDup (map e_key es')). { rewrite keys_plain, Hm, map_rev, <- keys_plain. apply List.NoDup_rev. exact Nk. }
  exists r, s', es'. split; [applies; unfold dissoc_impl, dissoc; cbn [arg nth]; exact Rr|]. split; [exact (grows_into _ _ _ _ G)|]. split; [exact Ha|]. split; [exact N'|].
  intros d y. rewrite (maps_nodup _ N'), (maps_nodup _ N), Hm, <- in_rev. rewrite !in_map_iff. split.
  - intros (e & Q & I). apply (keeps_in _ _ _ Hk) in I as [I Ne]. unfold plain in Q. injection Q as <- <-. split; [exact Ne|]. exists e. auto.
  - intros [Nd (e & Q & I)]. exists e. split; [exact Q|]. apply (keeps_in _ _ _ Hk). split; [exact I|]. unfold plain in Q. injection Q as <- <-. exact Nd.
Qed.

(** A state with an association list of two entries. *)
Lemma alist_sample s : wf_state s -> exists s' r p q, wf_state s' /\ is_alist s' r [Entry q (DSym "b") (VInt 2); Entry p (DSym "a") (VInt 1)] /\ p <> q.
Proof.
  intros W. destruct (runs_acons_new s (VSym "a") (DSym "a") (VInt 1) VNil [] W (rep_sym _ _) I (al_end _ _ (il_nil _)) (fun F => F)) as (p & r & s1 & R1 & G1 & L1 & H1).
  pose proof (wf_runs _ _ _ _ _ W R1) as W1.
  destruct (runs_acons_new s1 (VSym "b") (DSym "b") (VInt 2) r _ W1 (rep_sym _ _) I H1) as (q & r2 & s2 & R2 & G2 & L2 & H2). { intros [Q|[]]; discriminate. }
  exists s2, r2, p, q. split; [exact (wf_runs _ _ _ _ _ W1 R2)|]. split; [exact H2|]. intros ->.
  pose proof (alist_cells _ _ _ H1) as C. rewrite List.Forall_forall in C. destruct (C _ (or_introl eq_refl)) as (k & E & _). pose proof (wf_cells _ W1 _ _ E) as [_ B]. cbn in B. lia.
Qed.
