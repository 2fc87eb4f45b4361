(** Proofs of C35: alist and pairlis. *)
From Verif Require Export ProofAlist.
From Verif Require Import ProofEval ProofCall RunFacts ProofList ProofTree ProofSet ProofWf.
From stdpp Require Import list.
From Verif Require Import Data.
Local Open Scope string_scope.
Local Open Scope list_scope.
Local Open Scope Z_scope.

(** acons on entries of which those with the key are newer than [s0]. *)
Lemma grows_put_new s0 s (p : loc) x : wf_state s0 -> grows s0 s -> (s_next s0 <= p)%positive -> grows s0 (put_cell s p x).
Proof.
  intros W G L. destruct G. unfold put_cell. split; cbn [s_cells set_cells]; try assumption.
  intros l c H. cbn. rewrite lookup_insert_ne; [auto|]. intros ->. destruct (wf_cells _ W _ _ H) as [_ B]. cbn in B. lia.
Qed.
Definition newer (s0 : state) (es es' : list entry) : Prop := forall e, In e es' -> (s_next s0 <= e_pair e)%positive \/ In e es.
Lemma runs_acons_fresh s0 s k d x v es : wf_state s0 -> wf_state s -> grows s0 s -> rep s k d -> atomic d -> is_alist s v es ->
  (forall e, In e es -> e_key e = d -> (s_next s0 <= e_pair e)%positive) ->
  exists r s' es', runs denote (acons k x v) s (Done r) s' /\ wf_state s' /\ grows s0 s' /\ is_alist s' r es' /\ newer s0 es es' /\
  (forall d' y, maps es' d' y <-> (d' = d /\ y = x) \/ (d' <> d /\ maps es d' y)) /\
  (List.NoDup (map e_key es) -> List.NoDup (map e_key es')) /\ (forall d', In d' (map e_key es') <-> d' = d \/ In d' (map e_key es)).
Proof.
  intros W0 W G R A H N. destruct (in_keys_dec s v es k d R A H) as [(e & Le)|No].
  - destruct (runs_acons_old s k d x v es e R A H Le) as (k0 & Rk & E & Ra & Ha). destruct (leads_in _ _ _ Le) as [I K].
    eexists v, _, _. split; [exact Ra|]. split; [exact (wf_runs _ _ _ _ _ W Ra)|]. split; [apply grows_put_new; auto|]. split; [exact Ha|]. repeat apply conj.
    + intros e' I'. unfold revalued in I'. apply in_map_iff in I' as (e1 & <- & I1). destruct (bool_decide_reflect (e_pair e1 = e_pair e)) as [Q|Q].
      * left. pose proof (N e I K). cbn. lia.
      * right. exact I1.
    + exact (maps_revalued s v es d e x H Le).
    + rewrite revalued_keys. auto.
    + intros d'. rewrite revalued_keys. split; [auto|]. intros [->|I']; [|exact I']. rewrite <- K. apply in_map, I.
  - destruct (runs_acons_new s k d x v es W R A H No) as (p & r & s' & Ra & G' & L & Ha).
    exists r, s', (Entry p d x :: es). split; [exact Ra|]. split; [exact (wf_runs _ _ _ _ _ W Ra)|]. split; [exact (grows_trans _ _ _ G G')|]. split; [exact Ha|]. repeat apply conj.
    + intros e' [<-|I']; [left; cbn|right; exact I']. pose proof (g_next _ _ G). lia.
    + intros d' y. rewrite maps_cons. cbn [e_key e_val]. split; [intros [[-> <-]|[Z M]]; [left; auto|right; auto]|].
      intros [[-> ->]|[Z M]]; [left; auto|right; auto].
    + intros Nd. cbn. constructor; [exact No|exact Nd].
    + intros d'. cbn [map e_key In]. split; intros [Q|Q]; auto.
Qed.

(** *** alist *)
Lemma runs_alist v es ps s : is_alist s v es -> is_list s v ps -> wf_state s -> exists r s' es',
  runs denote (call (RAlist v)) s (Done r) s' /\ wf_state s' /\ grows s s' /\ is_alist s' r es' /\
  (forall e, In e es' -> (s_next s <= e_pair e)%positive) /\ List.NoDup (map e_key es') /\ (forall d y, maps es' d y <-> maps es d y).
Proof.
  intros H. revert ps. induction H as [v L|t l tp p k d x rest es T1 T2 E1 E2 R A H IH]; intros ps Ls W.
  - exists VNil, s, []. split; [|split; [exact W|split; [apply grows_refl|split; [apply al_end, il_nil|split; [intros e []|split; [constructor|reflexivity]]]]]].
    apply call_iff. cbn [denote]. unfold alist_body. apply (then_iff _ _ _ _ _ _ _ (runs_nilp v s)). rewrite (is_list_nil_inv _ _ L). apply runs_ret.
  - assert (Q : t = TCons /\ exists ps', is_list s rest ps').
    { inversion Ls as [| |l' E|l' a' d' xs' E N' L']; subst; split; try reflexivity; rewrite E1 in E; [discriminate|]. injection E as <- <-. eauto. }
    destruct Q as [-> (ps' & L')]. destruct (IH ps' L' W) as (r & s1 & es1 & Rr & W1 & G1 & Ha & Nw & Nd & M).
    destruct (runs_acons_fresh s s1 k d x r es1 W W1 G1 (rep_grows _ _ _ _ G1 R) A Ha) as (r2 & s2 & es2 & Ra & W2 & G2 & Ha2 & Nw2 & M2 & Nd2 & _).
    { intros e I _. exact (Nw e I). }
    exists r2, s2, es2. split; [|split; [exact W2|split; [exact G2|split; [exact Ha2|split; [|split; [exact (Nd2 Nd)|]]]]]].
    + apply call_iff. cbn [denote]. unfold alist_body. apply (then_iff _ _ _ _ _ _ _ (runs_nilp _ s)). cbn [nilb]. rewrite (cell_some _ _ _ E1). cbn [fst snd is_nil andb pairp].
      apply (then_iff _ _ _ _ _ _ _ (runs_car _ s)). cbn [car_of]. rewrite (cell_some _ _ _ E1). cbn [fst].
      apply (then_iff _ _ _ _ _ _ _ (runs_car _ s)). cbn [car_of]. rewrite (cell_some _ _ _ E2). cbn [fst].
      apply (then_iff _ _ _ _ _ _ _ (runs_cdr _ s)). cbn [cdr_of]. rewrite (cell_some _ _ _ E2). cbn [snd].
      apply (then_iff _ _ _ _ _ _ _ (runs_cdr _ s)). cbn [cdr_of]. rewrite (cell_some _ _ _ E1). cbn [snd].
      apply (then_iff _ _ _ _ _ _ _ Rr). exact Ra.
    + intros e I. destruct (Nw2 e I) as [B|I']; [exact B|exact (Nw e I')].
    + intros d' y. rewrite M2, maps_cons. cbn [e_key e_val]. rewrite M. split; [intros [[-> ->]|[Z Q]]; auto|intros [[-> <-]|[Z Q]]; auto].
Qed.
Lemma run_alist v es ps env s : wf_state s -> is_alist s v es -> is_list s v ps -> exists r s' es',
  applies "alist" [v] env s (Done (Ok r)) s' /\ grows s s' /\ is_alist s' r es' /\
  (forall e, In e es' -> (s_next s <= e_pair e)%positive) /\ List.NoDup (map e_key es') /\ (forall d y, maps es' d y <-> maps es d y).
Proof.
  intros W H L. destruct (runs_alist v es ps (entering "alist" env s) (alist_entering _ _ _ _ _ H) (is_list_cells s (entering "alist" env s) _ _ eq_refl L) (wf_entering _ _ _ W)) as (r & s' & es' & R & _ & G & Ha & Nw & Nd & M).
  exists r, s', es'. split; [|split; [exact (grows_into _ _ _ _ G)|split; [exact Ha|split; [exact Nw|split; [exact Nd|exact M]]]]].
  applies. unfold alist_impl. cbn [arg nth]. eapply runs_bind; [exact R|apply runs_ret].
Qed.

(** *** pairlis *)
Lemma last_value_nil d x : ~ last_value [] d x.
Proof. intros ([|? ?] & post & Q & _); discriminate. Qed.
Lemma last_value_cons d0 x0 kvs d x : last_value ((d0, x0) :: kvs) d x <-> last_value kvs d x \/ (~ In d (map fst kvs) /\ d = d0 /\ x = x0).
Proof.
  split.
  - intros ([|q pre] & post & Q & N); cbn in Q.
    + injection Q as -> -> ->. right. auto.
    + injection Q as <- ->. left. exists pre, post. auto.
  - intros [(pre & post & -> & N)|(N & -> & ->)]; [exists ((d0, x0) :: pre), post|exists [], kvs]; auto.
Qed.
Lemma last_value_in kvs d x : last_value kvs d x -> In d (map fst kvs).
Proof. intros (pre & post & -> & _). rewrite map_app. apply in_app_iff. right. left. reflexivity. Qed.
Definition pairlis_loop (keys : val) (st : val * val * bool) : prog (res val) :=
  for_cells (fun st c =>
               let '(vc, result, bad) := st in
               key <- car c ;; kn <- nilp key ;;
               value <- car vc ;; result' <- acons key value result ;;
               vc' <- cdr vc ;;
               Ret (inl (vc', result', bad || kn)))
            (fun st => let '(_, result, bad) := st in
                       if bad : bool then fail "Assoc list keys can not be nil" else ok result)
            keys st.
Lemma runs_pairlis_go s0 : wf_state s0 -> forall ks ds xs keys values s acc es, Forall2 (rep s0) ks ds -> List.Forall atomic ds -> length xs = length ks ->
  is_list s0 keys ks -> is_list s0 values xs -> wf_state s -> grows s0 s -> is_alist s acc es ->
  (forall e, In e es -> In (e_key e) ds -> (s_next s0 <= e_pair e)%positive) ->
  exists r s' es', runs denote (pairlis_loop keys (values, acc, false)) s (Done (Ok r)) s' /\ grows s0 s' /\ is_alist s' r es' /\
  (forall d y, maps es' d y <-> last_value (combine ds xs) d y \/ (~ In d ds /\ maps es d y)) /\
  (List.NoDup (map e_key es) -> List.NoDup (map e_key es')).
Proof.
  intros W0 ks. induction ks as [|k ks IH]; intros ds xs keys values s acc es R A Len Lk Lv W G Ha N.
  - inversion R; subst. exists acc, s, es. split; [|split; [exact G|split; [exact Ha|split; [|auto]]]].
    + apply for_cells_end; [exact (is_list_nil_inv _ _ (is_list_grows _ _ _ _ G Lk))|apply runs_ret].
    + intros d y. cbn [combine]. split; [intros M; right; split; [intros []|exact M]|intros [Q|[_ M]]; [destruct (last_value_nil _ _ Q)|exact M]].
  - destruct xs as [|x xs]; [discriminate|]. injection Len as Len. inversion R as [|? d ? ds' Rk R']; subst. inversion A as [|? ? Ak A']; subst.
    pose proof (is_list_grows _ _ _ _ G Lk) as Lk1. pose proof (is_list_grows _ _ _ _ G Lv) as Lv1.
    destruct (runs_acons_fresh s0 s k d x acc es W0 W G (rep_grows _ _ _ _ G Rk) Ak Ha) as (r1 & s1 & es1 & Ra & W1 & G1 & Ha1 & Nw & M1 & Nd1 & Ks).
    { intros e I K. apply N; [exact I|]. left. congruence. }
    destruct (is_list_cons_inv _ _ _ _ Lk) as (_ & _ & Lk0 & lk & ->). destruct (is_list_cons_inv _ _ _ _ Lv) as (_ & _ & Lv0 & lv & ->).
    destruct (is_list_cons_inv _ _ _ _ Lk1) as (B1 & B2 & B3 & _). destruct (is_list_cons_inv _ _ _ _ Lv1) as (C1 & C2 & C3 & _).
    assert (Keep : forall l, s_cells s0 !! (l : loc) <> None -> forall s2, grows s0 s2 -> cdr_of s2 (VCell TCons l) = cdr_of s0 (VCell TCons l)).
    { intros l H s2 G2. destruct (s_cells s0 !! l) as [c|] eqn:E; [|congruence]. cbn. rewrite (cell_some _ _ _ E), (cell_some _ _ _ (g_cells _ _ G2 _ _ E)). reflexivity. }
    assert (Hk : s_cells s0 !! (lk : loc) <> None) by (clear -Lk; inversion Lk; congruence). assert (Hv : s_cells s0 !! (lv : loc) <> None) by (clear -Lv; inversion Lv; congruence).
    destruct (IH ds' xs (cdr_of s0 (VCell TCons lk)) (cdr_of s0 (VCell TCons lv)) s1 r1 es1 R' A' Len Lk0 Lv0 W1 G1 Ha1) as (r & s' & es' & Rr & G' & Ha' & M' & Nd').
    { intros e I Q. destruct (Nw e I) as [B|I']; [exact B|]. apply N; [exact I'|right; exact Q]. }
    exists r, s', es'. split; [|split; [exact G'|split; [exact Ha'|split; [|auto]]]].
    + unfold pairlis_loop. eapply for_cells_next; [exact B1| |].
      * apply (then_iff _ _ _ _ _ _ _ (runs_car _ s)). change (car_of s (VCell TCons lk)) with (fst (cell_at s lk)) in B2. cbn [car_of]. rewrite B2.
        apply (then_iff _ _ _ _ _ _ _ (runs_nilp k s)). apply (then_iff _ _ _ _ _ _ _ (runs_car _ s)). cbn [car_of] in C2 |- *. rewrite C2.
        apply (then_iff _ _ _ _ _ _ _ Ra). apply (then_iff _ _ _ _ _ _ _ (runs_cdr _ s1)). rewrite (Keep lv Hv s1 G1).
        assert (Z : nilb s k = false). { pose proof (atomic_not_cell _ _ _ Rk Ak) as Nc. pose proof (atomic_not_nil _ _ _ Rk Ak) as Nn. pose proof (atomic_not_pair _ _ _ Rk Ak) as Np. clear -Nc Np. destruct k; try reflexivity; try discriminate Np. destruct (Nc _ _ eq_refl). }
        rewrite Z. apply runs_ret.
      * change (rest_of s1 (VCell TCons lk)) with (cdr_of s1 (VCell TCons lk)). rewrite (Keep lk Hk s1 G1). exact Rr.
    + intros d' y. cbn [combine]. rewrite M', M1, last_value_cons. assert (Dom : map fst (combine ds' xs) = ds').
      { assert (L2 : length xs = length ds') by (rewrite Len; exact (Forall2_length _ _ _ R')). clear -L2. revert xs L2. induction ds' as [|d ds' IH]; intros [|x xs] L2; cbn in *; try congruence. f_equal. apply IH. congruence. }
      rewrite Dom. cbn [In]. split.
      * intros [Q|[Nin [[-> ->]|[Nd M]]]]; [auto|auto|]. right. split; [intros [Z|Z]; congruence|exact M].
      * intros [[Q|(Nin & -> & ->)]|[Nin M]]; [auto|auto|]. right. split; [tauto|]. right. split; [intros ->; apply Nin; left; reflexivity|exact M].
Qed.
Lemma list_pairp s v xs : is_list s v xs -> pairp v = true.
Proof. intros L. inversion L; reflexivity. Qed.
Lemma run_pairlis keys values ks ds xs acc es env s : wf_state s -> is_list s keys ks -> is_list s values xs -> length xs = length ks ->
  Forall2 (rep s) ks ds -> List.Forall atomic ds -> is_alist s acc es -> pairp acc = true -> (forall d, In d ds -> ~ In d (map e_key es)) ->
  exists r s' es', applies "pairlis" [keys; values; acc] env s (Done (Ok r)) s' /\ grows s s' /\ is_alist s' r es' /\
  (forall d y, maps es' d y <-> last_value (combine ds xs) d y \/ (~ In d ds /\ maps es d y)) /\
  (List.NoDup (map e_key es) -> List.NoDup (map e_key es')).
Proof.
  intros W Lk Lv Len R A Ha P D. set (s0 := entering "pairlis" env s).
  assert (Lk0 : is_list s0 keys ks) by exact (is_list_cells s s0 _ _ eq_refl Lk). assert (Lv0 : is_list s0 values xs) by exact (is_list_cells s s0 _ _ eq_refl Lv).
  destruct (runs_pairlis_go s0 (wf_entering _ _ _ W) ks ds xs keys values s0 acc es) as (r & s' & es' & Rr & G & Ha' & M & Nd); try assumption.
  { clear -R. induction R; constructor; [apply rep_entering|]; assumption. }
  { exact (wf_entering _ _ _ W). }
  { apply grows_refl. }
  { exact (alist_entering _ _ _ _ _ Ha). }
  { intros e I Q. destruct (D _ Q). apply in_map, I. }
  exists r, s', es'. split; [|split; [exact (grows_into _ _ _ _ G)|split; [exact Ha'|split; [exact M|exact Nd]]]].
  applies. unfold pairlis_impl. cbn [arg nth]. rewrite (list_pairp _ _ _ Lk), (list_pairp _ _ _ Lv), P. cbn [negb].
  apply (then_iff _ _ _ _ _ _ _ (runs_length _ _ _ Lk0)). apply (then_iff _ _ _ _ _ _ _ (runs_length _ _ _ Lv0)). rewrite Len, Z.eqb_refl. cbn [negb].
  apply (then_iff _ _ _ _ _ _ _ (runs_nilp acc s0)). rewrite andb_false_r. exact Rr.
Qed.
Lemma run_pairlis_none keys values ks ds xs env s : wf_state s -> is_list s keys ks -> is_list s values xs -> length xs = length ks ->
  Forall2 (rep s) ks ds -> List.Forall atomic ds ->
  exists r s' es', applies "pairlis" [keys; values] env s (Done (Ok r)) s' /\ grows s s' /\ is_alist s' r es' /\
  (forall d y, maps es' d y <-> last_value (combine ds xs) d y) /\ List.NoDup (map e_key es').
Proof.
  intros W Lk Lv Len R A. destruct (run_pairlis keys values ks ds xs VNil [] env s W Lk Lv Len R A (al_end _ _ (il_nil _)) eq_refl (fun _ _ F => F)) as (r & s' & es' & Ap & G & Ha & M & Nd).
  exists r, s', es'. split; [applies; apply (applies_iff "pairlis" _ _ _ _ _ _ eq_refl) in Ap; exact Ap|]. split; [exact G|]. split; [exact Ha|]. split; [|apply Nd; constructor].
  intros d y. rewrite M. split; [intros [Q|[_ Q]]; [exact Q|destruct (maps_in _ _ _ Q)]|auto].
Qed.
Lemma run_pairlis_lengths keys values ks xs more env s : is_list s keys ks -> is_list s values xs -> length xs <> length ks ->
  applies "pairlis" (keys :: values :: more) env s (Done (Err "Pairlis requires the same number of keys and values")) (entering "pairlis" env s).
Proof.
  intros Lk Lv Len. set (s0 := entering "pairlis" env s).
  assert (Lk0 : is_list s0 keys ks) by exact (is_list_cells s s0 _ _ eq_refl Lk). assert (Lv0 : is_list s0 values xs) by exact (is_list_cells s s0 _ _ eq_refl Lv).
  applies. unfold pairlis_impl. cbn [arg nth]. rewrite (list_pairp _ _ _ Lk), (list_pairp _ _ _ Lv). cbn [negb].
  apply (then_iff _ _ _ _ _ _ _ (runs_length _ _ _ Lk0)). apply (then_iff _ _ _ _ _ _ _ (runs_length _ _ _ Lv0)).
  replace (Z.of_nat (length ks) =? Z.of_nat (length xs)) with false by (symmetry; apply Z.eqb_neq; lia). apply runs_ret.
Qed.
Lemma run_pairlis_bad keys values more env s :
  (pairp keys = false -> applies "pairlis" (keys :: values :: more) env s (Done (Err "First arg of pairlis must be a list")) (entering "pairlis" env s)) /\
  (pairp keys = true -> pairp values = false -> applies "pairlis" (keys :: values :: more) env s (Done (Err "Second arg of Pairlis must be a list")) (entering "pairlis" env s)).
Proof.
  split; [intros H|intros H H2]; applies; unfold pairlis_impl; cbn [arg nth]; rewrite H; cbn [negb]; [|rewrite H2; cbn [negb]]; apply runs_ret.
Qed.
Lemma pairs_sample s : wf_state s -> exists s' r p, wf_state s' /\ is_list s' r [VCell TCons p] /\ is_alist s' r [Entry p (DSym "a") (VInt 1)].
Proof.
  intros W. set (s1 := set_cells (<[s_next s := (VSym "a", VInt 1)]> (s_cells s)) (bump s)). assert (W1 : wf_state s1) by exact (ProofAlist.wf_cons TCons _ _ s W).
  set (s2 := set_cells (<[s_next s1 := (VCell TCons (s_next s), VNil)]> (s_cells s1)) (bump s1)). exists s2, (VCell TCons (s_next s1)), (s_next s).
  split; [exact (ProofAlist.wf_cons TCons _ _ s1 W1)|]. assert (G2 : grows s1 s2) by exact (ProofAlist.grows_cons TCons _ _ s1 W1). split.
  - eapply il_cons; [apply lookup_insert|left; discriminate|constructor].
  - eapply al_entry; [left; reflexivity|left; reflexivity|apply lookup_insert|apply (g_cells _ _ G2), lookup_insert|apply rep_sym|exact Logic.I|apply al_end, il_nil].
Qed.
