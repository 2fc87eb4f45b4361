(** Proofs for C62. *)
From Verif Require Export SpecMore ProofQuasi ProofAlist ProofFrame ProofList ProofData ProofMath.
From Verif Require Import ProofEval ProofApply ProofForm ProofHigher ProofJson ProofTree BaseFacts ProofWf.
From stdpp Require Import list.
From Verif Require Import Data.
Local Open Scope string_scope.
Local Open Scope list_scope.
Local Open Scope Z_scope.

(** *** Access paths *)
Lemma code_pos p n : path_code p n -> 1 <= n.
Proof. induction 1; lia. Qed.
Lemma field_car s v : field s "a" v = car_of s v.
Proof. destruct v; try reflexivity. cbn. unfold cell_at. destruct (s_cells s !! l) as [[a d]|]; reflexivity. Qed.
Lemma field_cdr s v : field s "d" v = cdr_of s v.
Proof. destruct v; try reflexivity. cbn. unfold cell_at. destruct (s_cells s !! l) as [[a d]|]; reflexivity. Qed.
Definition path_step : val * Z -> prog (val * Z + val) := fun st =>
  let '(l, p) := st in if p =? 1 then Ret (inr l) else l' <- (if Z.odd p then car l else cdr l) ;; Ret (inl (l', Z.shiftr p 1)).
Lemma path_loop p n : path_code p n -> forall v s, runs denote (loop path_step (v, n)) s (Done (follow s p v)) s.
Proof.
  induction 1 as [|p n H IH|p n H IH]; intros v s.
  - apply runs_loop_stop. apply runs_ret.
  - pose proof (code_pos _ _ H). eapply runs_loop_step; [|unfold follow; rewrite fold_right_app; exact (IH _ s)]. unfold path_step. destruct (Z.eqb_spec (2 * n + 1) 1); [lia|].
    replace (Z.odd (2 * n + 1)) with true by (symmetry; apply Z.odd_spec; exists n; reflexivity).
    eapply runs_bind; [apply runs_car|]. cbn [fold_right]. rewrite field_car. replace (Z.shiftr (2 * n + 1) 1) with n; [apply runs_ret|]. rewrite Z.shiftr_div_pow2 by lia. change (2 ^ 1) with 2. replace (2 * n + 1) with (1 + n * 2) by lia. rewrite Z.div_add by lia. reflexivity.
  - pose proof (code_pos _ _ H). eapply runs_loop_step; [|unfold follow; rewrite fold_right_app; exact (IH _ s)]. unfold path_step. destruct (Z.eqb_spec (2 * n) 1); [lia|].
    replace (Z.odd (2 * n)) with false by (rewrite Z.odd_mul; reflexivity).
    eapply runs_bind; [apply runs_cdr|]. cbn [fold_right]. rewrite field_cdr. replace (Z.shiftr (2 * n) 1) with n; [apply runs_ret|]. rewrite Z.shiftr_div_pow2 by lia. change (2 ^ 1) with 2. rewrite Z.mul_comm, Z.div_mul by lia. reflexivity.
Qed.
Lemma path_run p n v env s : path_code p n ->
  applies "general-car-cdr" [v; VInt n] env s (Done (Ok (follow s p v))) (entering "general-car-cdr" env s).
Proof.
  intros H. pose proof (code_pos _ _ H). applies. unfold general_car_cdr_impl. cbn [arg nth int_value]. destruct (Z.eqb_spec n 0); [lia|].
  eapply runs_bind; [exact (path_loop _ _ H v (entering "general-car-cdr" env s))|apply runs_ret].
Qed.
Lemma path_total n : 0 < n -> exists p, path_code p n.
Proof.
  intros H. revert H. pattern n. apply (well_founded_induction (Z.lt_wf 0)). clear n. intros n IH H.
  destruct (Z.eq_dec n 1) as [->|N1]; [exists []; constructor|]. pose proof (Z.div_mod n 2 ltac:(lia)) as D. pose proof (Z.mod_pos_bound n 2 ltac:(lia)) as M.
  destruct (IH (n / 2)) as [p P]; [split; [apply Z.div_pos; lia|apply Z.div_lt; lia]|apply Z.div_str_pos; lia|].
  destruct (Z.eq_dec (n mod 2) 0) as [E|E].
  - exists (p ++ ["d"%char]). replace n with (2 * (n / 2)) by lia. constructor. exact P.
  - exists (p ++ ["a"%char]). replace n with (2 * (n / 2) + 1) by lia. constructor. exact P.
Qed.
Lemma path_zero v env s : applies "general-car-cdr" [v; VInt 0] env s (Done (Err "general-car-cdr requires a non-zero path specifier")) (entering "general-car-cdr" env s).
Proof. applies. apply runs_ret. Qed.
Lemma path_not_number v w env s : (forall n, w <> VInt n) -> (forall f, w <> VFloat f) ->
  applies "general-car-cdr" [v; w] env s (Done (Err "general-car-cdr requires a non-zero path specifier")) (entering "general-car-cdr" env s).
Proof. intros N1 N2. applies. unfold general_car_cdr_impl. cbn [arg nth]. destruct w; try apply runs_ret; [destruct (N1 _ eq_refl)|destruct (N2 _ eq_refl)]. Qed.
Lemma path_step_on v p s : p <> 1 -> exists w, runs denote (path_step (v, p)) s (Done (inl (w, Z.shiftr p 1))) s.
Proof.
  intros N. unfold path_step. destruct (Z.eqb_spec p 1); [congruence|]. destruct (Z.odd p).
  - eexists. eapply runs_bind; [apply runs_car|apply runs_ret].
  - eexists. eapply runs_bind; [apply runs_cdr|apply runs_ret].
Qed.
Lemma path_forever st s o s' : runs denote (loop path_step st) s o s' -> snd st < 0 -> False.
Proof.
  revert st s o s'. apply (loop_ind path_step (fun st _ _ _ => snd st < 0 -> False)).
  - intros [v p] s r s1 R H. cbn [snd] in H. destruct (path_step_on v p s) as [w R2]; [lia|]. destruct (runs_det _ _ _ _ _ _ _ _ R R2) as [E _]. discriminate.
  - intros [v p] s r s1 R H. cbn [snd] in H. destruct (path_step_on v p s) as [w R2]; [lia|]. destruct (runs_det _ _ _ _ _ _ _ _ R R2) as [E _]. discriminate.
  - intros [v p] s st1 s1 o s2 R _ IH H. cbn [snd] in H. destruct (path_step_on v p s) as [w R2]; [lia|]. destruct (runs_det _ _ _ _ _ _ _ _ R R2) as [E _]. injection E as ->.
    apply IH. cbn [snd]. apply Z.shiftr_neg, H.
Qed.
Lemma path_negative v n env s o s' : n < 0 -> ~ applies "general-car-cdr" [v; VInt n] env s o s'.
Proof.
  intros Hn A. apply (applies_inv "general-car-cdr" (func "general-car-cdr" "2" general_car_cdr_impl) _ _ _ _ _ eq_refl) in A.
  cbn [p_body func] in A. unfold general_car_cdr_impl in A. cbn [arg nth int_value] in A. destruct (Z.eqb_spec n 0); [lia|].
  apply bind_iff in A. destruct A as (o1 & s1 & R & _). exact (path_forever _ _ _ _ R Hn).
Qed.

(** *** Flattening *)
Lemma listp_typed v : listp v = true <-> list_typed v.
Proof.
  split.
  - intros H. destruct v; try discriminate H; [left; reflexivity|right; right; exists l; destruct t; try discriminate H; auto|right; left; reflexivity].
  - intros [-> |[-> |(l & [-> | ->])]]; reflexivity.
Qed.
Lemma chained_walk s v vs : chained s v vs -> forall acc, runs denote (for_ptrs (fun acc i => x <- car i ;; Ret (x :: acc)) v acc) s (Done (rev vs ++ acc)) s.
Proof.
  induction 1 as [|v vs N H IH]; intros acc; [apply runs_loop_stop, runs_ret|]. eapply runs_loop_step.
  - replace (is_nil v) with false by (destruct v; try reflexivity; congruence). eapply runs_bind; [eapply runs_bind; [apply runs_car|apply runs_ret]|]. eapply runs_bind; [apply runs_cdr|apply runs_ret].
  - cbn [rev]. rewrite <- app_assoc. exact (IH (head_of s v :: acc)).
Qed.
Lemma chained_proper s v vs : nil_ended s v vs -> chained s v vs.
Proof.
  induction 1 as [|l a d xs E N _ IH]; [constructor|]. replace a with (head_of s (VCell TCons l)) by (cbn [head_of]; rewrite (cell_some _ _ _ E); reflexivity).
  constructor; [discriminate|]. cbn [rest_of]. rewrite (cell_some _ _ _ E). exact IH.
Qed.
Lemma flat_cells s xs : forall yss v acc, is_list s v xs -> Forall2 (contributes s) xs yss ->
  runs denote (for_cells (fun acc c => a <- car c ;; if listp a then acc' <- for_ptrs (fun acc i => x <- car i ;; Ret (x :: acc)) a acc ;; Ret (inl acc') else Ret (inl (a :: acc)))
         (fun acc => Ret acc) v acc) s (Done (rev (List.concat yss) ++ acc)) s.
Proof.
  induction xs as [|p ps IH]; intros vss v acc L F; inversion F as [|p' vs ps' vss' H F']; subst.
  - apply runs_loop_stop. rsteps. rewrite (is_list_nil_inv _ _ L). eapply runs_bind; apply runs_ret.
  - destruct (is_list_cons_inv _ _ _ _ L) as (E1 & E2 & E3 & l & ->). cbn [List.concat]. rewrite rev_app_distr, <- app_assoc.
    eapply runs_loop_step; [|apply (IH vss' (cdr_of s (VCell TCons l))); assumption]. rsteps. rewrite E1. rsteps. rewrite E2.
    destruct H as [x Nl|x vs T C].
    + destruct (listp x) eqn:Lx; [destruct Nl; apply listp_typed, Lx|]. eapply runs_bind; [apply runs_ret|]. cbv beta iota. rsteps.
    + rewrite (proj2 (listp_typed x) T). eapply runs_bind; [eapply runs_bind; [apply chained_walk, C|apply runs_ret]|]. cbv beta iota. rsteps.
Qed.
Lemma flatten_applies v xs yss env s : wf_state s -> v <> VNil -> is_list s v xs -> Forall2 (contributes s) xs yss -> exists r s',
  applies "flatten" [v] env s (Done (Ok r)) s' /\ grows s s' /\ list_of s' r (List.concat yss).
Proof.
  intros W N L F. destruct (runs_array_list_of (List.concat yss) (entering "flatten" env s) (wf_entering _ _ _ W)) as (r & s' & R & G & Lr).
  exists r, s'. split; [|split; [exact (grows_into _ _ _ _ G)|exact Lr]]. applies. unfold flatten_impl. cbn [arg nth]. eapply runs_bind; [|apply runs_ret].
  unfold flatten. destruct (is_nil v) eqn:En; [destruct v; discriminate || congruence|]. rewrite (is_list_listp _ _ _ L). cbn [negb].
  eapply runs_bind; [apply (flat_cells (entering "flatten" env s) xs yss v [])|]; [exact (is_list_entering _ _ _ _ _ L)| |rewrite app_nil_r, rev_involutive; exact R].
  clear - F. induction F as [|x ys xs yss H F IH]; constructor; [|exact IH]. destruct H as [x H|x vs T C]; [constructor; exact H|]. apply con_list; [exact T|].
  clear - C. induction C as [|v vs N C IH]; [constructor|]. exact (chained_more (entering "flatten" env s) v vs N IH).
Qed.
Lemma flatten_atom name v env s : In name ["flatten"; "flatten*"] -> v = VNil \/ ~ list_typed v -> applies name [v] env s (Done (Ok v)) (entering name env s).
Proof.
  intros [<-|[<-|[]]] H; applies.
  - unfold flatten_impl. cbn [arg nth]. eapply runs_bind; [|apply runs_ret]. unfold flatten. destruct H as [->|H]; [apply runs_ret|].
    destruct (is_nil v) eqn:En; [destruct v; try discriminate; destruct H; left; reflexivity|]. destruct (listp v) eqn:Lv; [destruct H; apply listp_typed, Lv|]. apply runs_ret.
  - unfold rec_flatten_impl. cbn [arg nth]. apply runs_do_call. cbn [denote]. unfold rec_flatten_body. destruct H as [->|H]; [apply runs_ret|].
    destruct (is_nil v) eqn:En; [destruct v; try discriminate; destruct H; left; reflexivity|]. destruct (listp v) eqn:Lv; [destruct H; apply listp_typed, Lv|]. apply runs_ret.
Qed.
Section spreads_induction.
  Variable s : state.
  Variable P : val -> list val -> Prop.
  Hypothesis Hnil : P VNil [].
  Hypothesis Hatom : forall x, ~ list_typed x -> P x [x].
  Hypothesis Hlist : forall x xs yss, x <> VNil -> is_list s x xs -> Forall2 (spreads s) xs yss -> Forall2 P xs yss ->
    P x (at_least_one (List.concat yss)).
  Fixpoint spreads_ind2 x ys (H : spreads s x ys) : P x ys :=
    match H in spreads _ x ys return P x ys with
    | spr_nil _ => Hnil
    | spr_atom _ x N => Hatom x N
    | spr_list _ x xs yss N L F =>
        Hlist x xs yss N L F
          ((fix all xs yss (F : Forall2 (spreads s) xs yss) : Forall2 P xs yss :=
              match F in Forall2 _ xs yss return Forall2 P xs yss with
              | List.Forall2_nil _ => List.Forall2_nil _
              | List.Forall2_cons x ys h t => List.Forall2_cons x ys (spreads_ind2 _ _ h) (all _ _ t)
              end) xs yss F)
    end.
End spreads_induction.
Lemma elem_trans s x y z : elem_as s x y -> elem_as s y z -> elem_as s x z.
Proof. intros [[-> N]|[-> E]] [[-> N2]|[-> E2]]; try congruence; [left; auto|right; auto|right; auto]. Qed.
Lemma elems_trans s xs ys : Forall2 (elem_as s) xs ys -> forall zs, Forall2 (elem_as s) ys zs -> Forall2 (elem_as s) xs zs.
Proof. induction 1 as [|x y xs ys H _ IH]; intros zs F; inversion F; subst; constructor; [eapply elem_trans; eassumption|auto]. Qed.
Lemma elems_grows s s' xs ys : grows s s' -> Forall2 (elem_as s) xs ys -> Forall2 (elem_as s') xs ys.
Proof. intros G F. induction F; constructor; [eapply elem_as_grows; eassumption|assumption]. Qed.
Lemma tail_ptrs vs : forall s, wf_state s -> exists zs, ptrs (snd (new_tail vs VNil s)) (fst (new_tail vs VNil s)) zs /\ Forall2 (elem_as (snd (new_tail vs VNil s))) vs zs.
Proof.
  induction vs as [|v vs IH]; intros s W; cbn [new_tail]; [exists []; split; constructor|]. destruct (IH s W) as (zs & P & F).
  destruct (new_tail_grows vs VNil s W) as [_ W1]. destruct (new_tail vs VNil s) as [t s1]. cbn [fst snd] in *.
  assert (K : exists v' s2, stored v s1 = (v', s2) /\ grows s1 s2 /\ wf_state s2 /\ elem_as s2 v v').
  { destruct v; try (eexists _, _; split; [reflexivity|]; split; [apply grows_refl|]; split; [exact W1|left; split; [reflexivity|discriminate]]).
    eexists _, _. split; [reflexivity|]. split; [apply grows_new_cell, W1|]. split; [apply wf_new_cell, W1|]. right. split; [reflexivity|]. apply il_empty, cell_new. }
  destruct K as (v' & s2 & -> & G & W2 & E). cbn [fst snd fresh_cell]. pose proof (grows_new_cell s2 v' t W2) as G2. exists (v' :: zs). split.
  - eapply ptrs_more; [apply cell_new|]. eapply ptrs_grows; [exact G2|]. eapply ptrs_grows; [exact G|exact P].
  - constructor; [eapply elem_as_grows; [exact G2|exact E]|]. eapply elems_grows; [exact G2|]. eapply elems_grows; [exact G|exact F].
Qed.
Lemma flat_array xs s : wf_state s -> exists r zs s', runs denote (array_to_list xs) s (Done r) s' /\ grows s s' /\ wf_state s' /\ list_of s' r xs /\
  ptrs s' r zs /\ Forall2 (elem_as s') (at_least_one xs) zs.
Proof.
  intros W. destruct (new_list_list_of xs s W) as [L G]. destruct (new_list_grows xs s W) as [_ W']. exists (fst (new_list xs s)).
  assert (K : exists zs, ptrs (snd (new_list xs s)) (fst (new_list xs s)) zs /\ Forall2 (elem_as (snd (new_list xs s))) (at_least_one xs) zs).
  { destruct xs as [|x xs]; [|exact (tail_ptrs (x :: xs) s W)]. exists [VNil]. split; [eapply ptrs_more; [apply cell_new|constructor]|].
    constructor; [right; split; [reflexivity|constructor]|constructor]. }
  destruct K as (zs & P & F). exists zs, (snd (new_list xs s)). split; [apply new_list_run|]. auto.
Qed.
Definition rec_cells v acc : prog (res (list val)) :=
  for_cells (fun acc c =>
           a <- car c ;;
           if listp a then
             r <- call (RRecFlat a) ;;
             match r with
             | Err m => Ret (inr (Err m))
             | Ok e => acc' <- for_ptrs (fun acc i => x <- car i ;; Ret (x :: acc)) e acc ;; Ret (inl acc')
             end
           else Ret (inl (a :: acc)))
         (fun acc => Ret (Ok acc)) v acc.
Definition flat_done (s : state) (x : val) (ys : list val) : Prop := list_typed x -> forall s1, grows s s1 -> wf_state s1 ->
  exists e s2 zs, runs denote (call (RRecFlat x)) s1 (Done (Ok e)) s2 /\ grows s1 s2 /\ wf_state s2 /\ ptrs s2 e zs /\ Forall2 (elem_as s2) ys zs.
Lemma rec_cells_run s xs yss : Forall2 (spreads s) xs yss -> Forall2 (flat_done s) xs yss -> forall v acc s1, grows s s1 -> wf_state s1 -> is_list s1 v xs ->
  exists zs s2, runs denote (rec_cells v acc) s1 (Done (Ok (rev zs ++ acc))) s2 /\ grows s1 s2 /\ wf_state s2 /\ Forall2 (elem_as s2) (List.concat yss) zs.
Proof.
  intros F D. induction D as [|x ys xs yss H D IH]; intros v acc s1 G1 W1 L.
  - exists [], s1. split; [|split; [apply grows_refl|split; [exact W1|constructor]]]. apply for_cells_end; [exact (is_list_nil_inv _ _ L)|apply runs_ret].
  - inversion F as [|? ? ? ? Sx F']; subst. destruct (is_list_cons_inv _ _ _ _ L) as (E1 & E2 & E3 & l & ->).
    assert (K : exists ws s2, runs denote (a <- car (VCell TCons l) ;;
        if listp a then r <- call (RRecFlat a) ;;
             match r with
             | Err m => Ret (inr (Err m))
             | Ok e => acc' <- for_ptrs (fun acc i => x <- car i ;; Ret (x :: acc)) e acc ;; Ret (inl acc')
             end
        else Ret (inl (a :: acc))) s1 (Done (@inl (list val) (res (list val)) (rev ws ++ acc))) s2 /\ grows s1 s2 /\ wf_state s2 /\ Forall2 (elem_as s2) ys ws).
    { destruct (listp x) eqn:Lx.
      - destruct (H (proj1 (listp_typed x) Lx) s1 G1 W1) as (e & s2 & zs & R & G2 & W2 & P & E). exists zs, s2. split; [|auto].
        eapply runs_bind; [apply runs_car|]. rewrite E2, Lx. eapply runs_bind; [exact R|]. cbv iota beta. eapply runs_bind; [apply walk_ptrs, P|apply runs_ret].
      - exists [x], s1. split; [|split; [apply grows_refl|split; [exact W1|]]].
        + eapply runs_bind; [apply runs_car|]. rewrite E2, Lx. apply runs_ret.
        + clear - Sx Lx. inversion Sx as [|x' N|x' xs' yss' N L' F2]; subst; [discriminate Lx| |].
          * constructor; [|constructor]. left. split; [reflexivity|]. intros ->. discriminate Lx.
          * apply is_list_listp in L'. congruence. }
    destruct K as (ws & s2 & R & G2 & W2 & E). destruct (IH F' (rest_of s2 (VCell TCons l)) (rev ws ++ acc) s2) as (zs & s3 & R3 & G3 & W3 & E4).
    + eapply grows_trans; eassumption.
    + exact W2.
    + destruct (is_list_cons_inv _ _ _ _ (is_list_grows _ _ _ _ G2 L)) as (_ & _ & Q & _). exact Q.
    + exists (ws ++ zs), s3. split; [|split; [eapply grows_trans; eassumption|split; [exact W3|]]].
      * unfold rec_cells. eapply for_cells_next; [exact E1|exact R|]. rewrite rev_app_distr, <- app_assoc. exact R3.
      * cbn [List.concat]. apply Forall2_app; [eapply elems_grows; [exact G3|exact E]|exact E4].
Qed.
Lemma rec_body s xs yss v s1 : Forall2 (spreads s) xs yss -> Forall2 (flat_done s) xs yss -> v <> VNil -> is_list s v xs -> grows s s1 -> wf_state s1 ->
  exists e s2 zs, runs denote (call (RRecFlat v)) s1 (Done (Ok e)) s2 /\ grows s1 s2 /\ wf_state s2 /\ list_of s2 e (List.concat yss) /\
    ptrs s2 e zs /\ Forall2 (elem_as s2) (at_least_one (List.concat yss)) zs.
Proof.
  intros F D N L G W. destruct (rec_cells_run s xs yss F D v [] s1 G W (is_list_grows _ _ _ _ G L)) as (ws & s2 & R & G2 & W2 & E).
  destruct (flat_array ws s2 W2) as (r & zs & s3 & R3 & G3 & W3 & L3 & P3 & E3). exists r, s3, zs. split; [|split; [eapply grows_trans; eassumption|split; [exact W3|split; [|split; [exact P3|]]]]].
  - apply runs_do_call. cbn [denote]. unfold rec_flatten_body. destruct (is_nil v) eqn:En; [destruct v; discriminate || congruence|]. rewrite (is_list_listp _ _ _ L). cbn [negb].
    eapply runs_bind; [exact R|]. cbv iota beta. rewrite app_nil_r, rev_involutive. eapply runs_bind; [exact R3|apply runs_ret].
  - destruct L3 as (us & E4 & L4). exists us. split; [|exact L4]. eapply elems_trans; [eapply elems_grows; [exact G3|exact E]|exact E4].
  - pose proof (elems_grows _ _ _ _ G3 E) as E5. destruct E5 as [|x y xs' ys' H1 H2]; [exact E3|]. eapply elems_trans; [constructor; eassumption|exact E3].
Qed.
Lemma flat_all s x ys : spreads s x ys -> flat_done s x ys.
Proof.
  revert x ys. apply (spreads_ind2 s (flat_done s)).
  - intros _ s1 G W. exists VNil, s1, []. split; [apply runs_do_call; apply runs_ret|]. split; [apply grows_refl|]. split; [exact W|]. split; constructor.
  - intros x N T. contradiction.
  - intros x xs yss N L F D T s1 G W. destruct (rec_body s xs yss x s1 F D N L G W) as (e & s2 & zs & R & G2 & W2 & _ & P & E). exists e, s2, zs. split; [exact R|]. split; [exact G2|]. split; [exact W2|]. split; [exact P|exact E].
Qed.
Lemma flatten_star_run v xs yss env s : wf_state s -> v <> VNil -> is_list s v xs -> Forall2 (spreads s) xs yss -> exists r s',
  applies "flatten*" [v] env s (Done (Ok r)) s' /\ grows s s' /\ list_of s' r (List.concat yss).
Proof.
  intros W N L F. assert (D : Forall2 (flat_done s) xs yss) by (clear - F; induction F; constructor; [apply flat_all|]; assumption).
  destruct (rec_body s xs yss v (entering "flatten*" env s) F D N L (grows_entering _ _ _) (wf_entering _ _ _ W)) as (e & s2 & zs & R & G2 & W2 & L2 & _).
  exists e, s2. split; [applies; exact R|]. split; [exact (grows_into _ _ _ _ G2)|exact L2].
Qed.

(** *** Looking up by value *)
Lemma rassoc_cells s x d v es : rep s x d -> frameless d -> is_alist s v es -> forall ds, Forall2 (fun e d' => rep s (e_val e) d' /\ frameless d') es ds ->
  (exists pre e post before after tp, es = pre ++ e :: post /\ ds = before ++ d :: after /\ length pre = length before /\ ~ In d before /\
     (tp = TCons \/ tp = TAlistCell) /\ runs denote (rassoc_impl [x; v] 1%positive) s (Done (Ok (VCell tp (e_pair e)))) s) \/
  (~ In d ds /\ runs denote (rassoc_impl [x; v] 1%positive) s (Done (Ok VNil)) s).
Proof.
  intros R0 F0 H. unfold rassoc_impl. cbn [arg nth]. induction H as [v L|t l tp p k dk y rest es T1 T2 E1 E2 R A H IH]; intros ds F.
  - inversion F; subst. right. split; [intros []|]. apply for_cells_end; [exact (is_list_nil_inv _ _ L)|apply runs_ret].
  - inversion F as [|e d1 es' ds' [Ry Fy] F']; subst. cbn [e_val] in Ry.
    assert (N1 : nilb s (VCell t l) = false) by (cbn [nilb]; rewrite (cell_some _ _ _ E1); reflexivity).
    destruct (run_equal s d1 Fy y x d Ry R0 F0) as (b & Rb & Hb).
    assert (Body : runs denote (pair <- car (VCell t l) ;;
               if negb (pairp pair) && negb (dottedp pair) then Ret (inr (Err "Assoc list must consist of dotted pairs"))
               else v <- cdr pair ;; e <- call (REqual v x) ;; if e : bool then Ret (inr (Ok pair)) else Ret (inl tt)) s (Done (if b then inr (Ok (VCell tp p)) else inl tt)) s).
    { eapply runs_bind; [apply runs_car|]. cbn [car_of]. rewrite (cell_some _ _ _ E1). cbn [fst].
      replace (negb (pairp (VCell tp p)) && negb (dottedp (VCell tp p)))%bool with false by (destruct T2 as [-> | ->]; reflexivity).
      eapply runs_bind; [apply runs_cdr|]. cbn [cdr_of]. rewrite (cell_some _ _ _ E2). cbn [snd]. eapply runs_bind; [exact Rb|]. destruct b; apply runs_ret. }
    destruct b.
    + left. exists [], (Entry p dk y), es, [], ds', tp. assert (d1 = d) as -> by (apply Hb; reflexivity). repeat (split; [reflexivity|]). split; [intros []|]. split; [exact T2|].
      eapply for_cells_stop; [exact N1|exact Body].
    + assert (Nd : d1 <> d). { intros Q. apply Hb in Q. discriminate. }
      assert (Nx : forall o s2, runs denote (for_cells (fun (_ : unit) c => pair <- car c ;;
               if negb (pairp pair) && negb (dottedp pair) then Ret (inr (Err "Assoc list must consist of dotted pairs"))
               else v <- cdr pair ;; e <- call (REqual v x) ;; if e : bool then Ret (inr (Ok pair)) else Ret (inl tt)) (fun _ => ok VNil) rest tt) s o s2 ->
               runs denote (for_cells (fun (_ : unit) c => pair <- car c ;;
               if negb (pairp pair) && negb (dottedp pair) then Ret (inr (Err "Assoc list must consist of dotted pairs"))
               else v <- cdr pair ;; e <- call (REqual v x) ;; if e : bool then Ret (inr (Ok pair)) else Ret (inl tt)) (fun _ => ok VNil) (VCell t l) tt) s o s2).
      { intros o s2 Q. eapply for_cells_next; [exact N1|exact Body|]. cbn [rest_of]. rewrite (cell_some _ _ _ E1). exact Q. }
      destruct (IH ds' F') as [(pre & e & post & before & after & tp' & -> & -> & Ln & Ni & T' & Rr)|(Ni & Rr)].
      * left. exists (Entry p dk y :: pre), e, post, (d1 :: before), after, tp'. repeat (split; [cbn; congruence|]).
        split; [intros [Q|Q]; [exact (Nd Q)|exact (Ni Q)]|]. split; [exact T'|]. apply Nx, Rr.
      * right. split; [intros [Q|Q]; [exact (Nd Q)|exact (Ni Q)]|]. apply Nx, Rr.
Qed.
Lemma rassoc_run x d v es ds env s : rep s x d -> frameless d -> is_alist s v es -> Forall2 (fun e d' => rep s (e_val e) d' /\ frameless d') es ds ->
  (exists pre e post before after tp, es = pre ++ e :: post /\ ds = before ++ d :: after /\ length pre = length before /\ ~ In d before /\
     (tp = TCons \/ tp = TAlistCell) /\ applies "rassoc" [x; v] env s (Done (Ok (VCell tp (e_pair e)))) (entering "rassoc" env s)) \/
  (~ In d ds /\ applies "rassoc" [x; v] env s (Done (Ok VNil)) (entering "rassoc" env s)).
Proof.
  intros R0 F0 H F. assert (F' : Forall2 (fun e d' => rep (entering "rassoc" env s) (e_val e) d' /\ frameless d') es ds).
  { clear - F. induction F as [|e d' es ds [A B] _ IH]; constructor; [split; [apply rep_entering, A|exact B]|exact IH]. }
  destruct (rassoc_cells _ x d v es (rep_entering "rassoc" env _ _ _ R0) F0 (alist_entering "rassoc" env _ _ _ H) ds F') as [(pre & e & post & before & after & tp & A1 & A2 & A3 & A4 & A5 & R)|(N & R)].
  - left. exists pre, e, post, before, after, tp. repeat (split; [assumption|]). applies. exact R.
  - right. split; [exact N|]. applies. exact R.
Qed.

(** *** Frames *)
Lemma given_slots args ps : keyed args ps -> forall acc s, exists m, runs denote (frame_slots args acc) s (Done (Ok m)) s /\
  forall k v, alookup k m = Some v <-> given_last ps k v \/ (~ In k (map fst ps) /\ alookup k acc = Some v).
Proof.
  induction 1 as [|k0 v0 vs ps N K IH]; intros acc s.
  - exists acc. split; [apply runs_ret|]. intros k v. split; [intros E; right; split; [intros []|exact E]|]. intros [(pre & post & E & _)|[_ E]]; [destruct pre; discriminate|exact E].
  - cbn [frame_slots need_naked]. rewrite (naked_true _ N). destruct (IH (aset k0 v0 acc) s) as (m & R & H). exists m. split; [exact R|]. intros k v. rewrite H. split.
    + intros [(pre & post & -> & Ni)|[Ni E]]; [left; exists ((k0, v0) :: pre), post; auto|]. rewrite alookup_aset in E. destruct (str_eqb_spec k k0) as [->|Nk].
      * injection E as ->. left. exists [], ps. auto.
      * right. split; [intros [Q|Q]; [cbn in Q; congruence|exact (Ni Q)]|exact E].
    + intros [(pre & post & E & Ni)|[Ni E]].
      * destruct pre as [|p pre].
        -- injection E as -> -> ->. right. split; [exact Ni|]. rewrite alookup_aset. destruct (str_eqb_spec k k); congruence.
        -- injection E as _ ->. left. exists pre, post. auto.
      * right. cbn [map In fst] in Ni. split; [tauto|]. rewrite alookup_aset. destruct (str_eqb_spec k k0) as [->|]; [destruct Ni; auto|exact E].
Qed.
Lemma keyed_even args ps : keyed args ps -> Nat.odd (length args) = false.
Proof. induction 1 as [|k v vs ps N K IH]; [reflexivity|exact IH]. Qed.
Lemma make_frame_run args ps env s : wf_state s -> keyed args ps -> exists (f : loc) s', applies "make-frame" args env s (Done (Ok (VFrame f))) s' /\
  grows s s' /\ s_frames s !! f = None /\ forall k v, slot s' f k = Some v <-> given_last ps k v.
Proof.
  intros W K. destruct (given_slots _ _ K [] (entering "make-frame" env s)) as (m & R & H). eexists _, _. split; [|split; [|split]].
  - applies. unfold make_frame_impl. rewrite (keyed_even _ _ K). eapply runs_bind; [exact R|]. cbv iota beta. eapply runs_bind; [apply runs_op; reflexivity|apply runs_ret].
  - eapply grows_trans; [apply grows_entering|]. exact (grows_frame (entering "make-frame" env s) m _ _ (wf_entering _ _ _ W) eq_refl).
  - apply (fresh_none (entering "make-frame" env s) (s_frames s)). destruct (wf_entering "make-frame" env s W). assumption.
  - intros k v. unfold slot, frame_at. cbn. rewrite lookup_insert. cbn. rewrite H. split; [intros [E|[_ E]]; [exact E|discriminate]|auto].
Qed.
Lemma make_frame_odd args env s : Nat.odd (length args) = true ->
  applies "make-frame" args env s (Done (Err "Frames must be initialized with an even number of arguments.")) (entering "make-frame" env s).
Proof. intros O. applies. unfold make_frame_impl. rewrite O. apply runs_ret. Qed.
Lemma bad_slots args ps : keyed args ps -> forall k v post t acc s, (forall n, k = VSym n -> ~ naked n) -> SpecRead.prints k s t ->
  exists m, runs denote (frame_slots (args ++ k :: v :: post) acc) s (Done (Err m)) s.
Proof.
  induction 1 as [|k0 v0 vs ps N K IH]; intros k v post t acc s B P.
  - eexists. cbn [app frame_slots]. assert (Q : runs denote (fail_got (A := list (string * val)) "Frame keys must be naked symbols, but was given " k) s
      (Done (Err ("Frame keys must be naked symbols, but was given " +++ t +++ "."))) s) by (eapply runs_bind; [exact P|apply runs_ret]).
    unfold need_naked. destruct k; try exact Q. destruct (naked_name s0) eqn:E; [|exact Q]. exfalso. apply (B s0 eq_refl). apply has_suffix_spec, E.
  - cbn [app frame_slots need_naked]. rewrite (naked_true _ N). exact (IH k v post t _ s B P).
Qed.
Lemma odd_two {A} (a : list A) k v post : Nat.odd (length (a ++ k :: v :: post)) = Nat.odd (length a + length post).
Proof. rewrite app_length. cbn [length]. rewrite !Nat.add_succ_r. reflexivity. Qed.
Lemma make_frame_bad args ps k v post t env s : keyed args ps -> (forall n, k = VSym n -> ~ naked n) -> SpecRead.prints k (entering "make-frame" env s) t ->
  exists m, applies "make-frame" (args ++ k :: v :: post) env s (Done (Err m)) (entering "make-frame" env s).
Proof.
  intros K B P. destruct (Nat.odd (length (args ++ k :: v :: post))) eqn:O; [eexists; apply make_frame_odd, O|].
  destruct (bad_slots _ _ K k v post t [] _ B P) as (m & R). exists m. applies. unfold make_frame_impl. rewrite O. eapply runs_bind; [exact R|apply runs_ret].
Qed.
Lemma listing_run (g : string * val -> val) (f : loc) s : wf_state s ->
  exists ps r s', runs denote (sl <- do_op (OFrameAll f) ;; sl <- range_map sl ;; r <- array_to_list (map g sl) ;; ok r) s (Done (Ok r)) s' /\
    grows s s' /\ Permutation ps (frame_at s f) /\ list_of s' r (map g ps).
Proof.
  intros W. destruct (range_oc (frame_at s f) s) as (ps & s1 & R & C & P). assert (W1 : wf_state s1) by exact (wf_runs _ _ _ _ _ W R).
  destruct (runs_array_list_of (map g ps) s1 W1) as (r & s2 & R2 & G2 & L). exists ps, r, s2. split; [|split; [|split]].
  - eapply runs_bind; [apply runs_op; reflexivity|]. eapply runs_bind; [exact R|]. eapply runs_bind; [exact R2|apply runs_ret].
  - eapply grows_trans; [apply oc_grows, C|exact G2].
  - symmetry. exact P.
  - exact L.
Qed.
Lemma frame_keys_run (f : loc) env s : wf_state s -> exists ps r s', applies "frame-keys" [VFrame f] env s (Done (Ok r)) s' /\ grows s s' /\
  Permutation ps (map fst (frame_at s f)) /\ is_list s' r (map VSym ps).
Proof.
  intros W. destruct (listing_run (fun kv => VSym (fst kv)) f _ (wf_entering "frame-keys" env s W)) as (ps & r & s' & R & G & P & L). exists (map fst ps), r, s'.
  split; [applies; exact R|]. split; [exact (grows_into _ _ _ _ G)|]. split; [exact (Permutation_map fst P)|]. rewrite map_map. destruct L as (ys & E & L).
  replace (map (fun x => VSym (fst x)) ps) with ys; [exact L|]. clear - E. remember (map _ ps) as xs eqn:Q. revert ps Q. induction E as [|x y xs ys H E IH]; intros [|p ps] Q; try discriminate; [reflexivity|].
  injection Q as -> Q. rewrite (IH ps Q). destruct H as [[-> _]|[H _]]; [reflexivity|discriminate].
Qed.
Lemma frame_values_run (f : loc) env s : wf_state s -> exists vs r s', applies "frame-values" [VFrame f] env s (Done (Ok r)) s' /\ grows s s' /\
  Permutation vs (map snd (frame_at s f)) /\ list_of s' r vs.
Proof.
  intros W. destruct (listing_run snd f _ (wf_entering "frame-values" env s W)) as (ps & r & s' & R & G & P & L). exists (map snd ps), r, s'.
  split; [applies; exact R|]. split; [exact (grows_into _ _ _ _ G)|]. split; [exact (Permutation_map snd P)|exact L].
Qed.
Lemma contributes_proper s v vs : nil_ended s v vs -> contributes s v vs.
Proof.
  intros H. apply con_list; [|apply chained_proper, H]. inversion H; subst; [left; reflexivity|right; right; eexists; left; reflexivity].
Qed.
(** *** Cases *)
Lemma nil_list_from xs s : wf_state s -> no_nils xs -> exists v s', grows s s' /\ wf_state s' /\ nil_ended s' v xs.
Proof.
  intros W N. destruct (new_tail_grows xs VNil s W) as [G W1]. pose proof (new_tail_nil_ended xs VNil [] s W N (ne_nil _)) as L. rewrite app_nil_r in L.
  eexists _, _. split; [exact G|]. split; [exact W1|exact L].
Qed.
Lemma nested_exist s : wf_state s -> exists s' v w r, wf_state s' /\ nil_ended s' v [VInt 1; VInt 2] /\ nil_ended s' w [VInt 3] /\ is_list s' r [v; w; VInt 7].
Proof.
  intros W. destruct (nil_list_from [VInt 1; VInt 2] s W) as (v & s1 & G1 & W1 & L1). { repeat constructor; discriminate. }
  destruct (nil_list_from [VInt 3] s1 W1) as (w & s2 & G2 & W2 & L2). { repeat constructor; discriminate. }
  destruct (nil_list_from [v; w; VInt 7] s2 W2) as (r & s3 & G3 & W3 & L3). { inversion L1; inversion L2; subst. repeat constructor; discriminate. }
  exists s3, v, w, r. split; [exact W3|]. split; [|split].
  - apply (nil_ended_kept s2); [apply g_cells, G3|]. apply (nil_ended_kept s1); [apply g_cells, G2|exact L1].
  - apply (nil_ended_kept s2); [apply g_cells, G3|exact L2].
  - exact (nil_ended_list _ _ _ L3).
Qed.
