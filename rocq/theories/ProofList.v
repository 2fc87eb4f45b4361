(** Proofs of C05-C07. *)
From Verif Require Export SpecList RunFacts.
From stdpp Require Import list.
From Verif Require Import Data.
Local Open Scope string_scope.
Local Open Scope list_scope.
Local Open Scope Z_scope.

(** Results of Go functions that build a list from an array. *)
Lemma runs_array_list_of xs s : wf_state s -> exists v s',
  runs denote (array_to_list xs) s (Done v) s' /\ grows s s' /\ list_of s' v xs.
Proof.
  intros W. destruct (runs_array_to_list xs s W) as (v & ys & s' & R & G & F & L & _).
  exists v, s'. split; [exact R|]. split; [exact G|]. exists ys. split; assumption.
Qed.
Lemma list_of_no_nils s v xs : list_of s v xs -> no_nils xs -> is_list s v xs.
Proof. intros (ys & F & L) N. rewrite (elems_no_nil _ _ _ F N) in L. exact L. Qed.
Lemma list_of_grows s s' v xs : grows s s' -> list_of s v xs -> list_of s' v xs.
Proof. intros G (ys & F & L). exists ys. split; [exact (elems_as_grows _ _ _ _ G F)|exact (is_list_grows _ _ _ _ G L)]. Qed.
Lemma list_of_length s v xs : list_of s v xs -> exists ys, is_list s v ys /\ length ys = length xs.
Proof. intros (ys & F & L). exists ys. split; [exact L|]. symmetry. exact (Forall2_length _ _ _ F). Qed.
Lemma grows_into name env s s' : grows (entering name env s) s' -> grows s s'.
Proof. intros G. eapply grows_trans; [apply grows_entering|exact G]. Qed.
Lemma is_list_entering name env s v xs : is_list s v xs -> is_list (entering name env s) v xs.
Proof. apply is_list_grows, grows_entering. Qed.

(** Lists exist: the hypotheses below are met in states reached from the start. *)
Lemma list_from s0 xs : wf_state s0 -> no_nils xs -> exists v s, grows s0 s /\ wf_state s /\ is_list s v xs.
Proof.
  intros W N. destruct (runs_array_to_list_exact xs s0 W N) as (v & s & R & G & L).
  exists v, s. split; [exact G|]. split; [exact (wf_runs _ _ _ _ _ W R)|exact L].
Qed.
Lemma two_lists_from s0 xs ys : wf_state s0 -> no_nils xs -> no_nils ys ->
  exists v w s, grows s0 s /\ wf_state s /\ is_list s v xs /\ is_list s w ys.
Proof.
  intros W0 Nx Ny. destruct (list_from s0 xs W0 Nx) as (v & s & G & W & L).
  destruct (list_from s ys W Ny) as (w & s' & G' & W' & L').
  exists v, w, s'. split; [exact (grows_trans _ _ _ G G')|]. split; [exact W'|].
  split; [exact (is_list_grows _ _ _ _ G' L)|exact L'].
Qed.
Lemma wf_bytes_new s bs : wf_state s -> wf_state (set_bytes (<[s_next s := bs]> (s_bytes s)) (bump s)).
Proof. exact (wf_step _ (OBytesNew bs) s _ _ eq_refl). Qed.
Lemma wf_frames_new s m : wf_state s -> wf_state (set_frames (<[s_next s := m]> (s_frames s)) (bump s)).
Proof. exact (wf_step _ (OFrameNew m) s _ _ eq_refl). Qed.
Lemma wf_start : wf_state start.
Proof. unfold start. apply wf_initial. Qed.
Lemma lists_exist xs : no_nils xs -> exists v s, grows start s /\ wf_state s /\ is_list s v xs.
Proof. exact (list_from start xs wf_start). Qed.
Lemma two_lists_exist xs ys : no_nils xs -> no_nils ys ->
  exists v w s, grows start s /\ wf_state s /\ is_list s v xs /\ is_list s w ys.
Proof. exact (two_lists_from start xs ys wf_start). Qed.

(** *** C05 *)
Lemma run_cons a d env s : wf_state s -> exists l s',
  applies "cons" [a; d] env s (Done (Ok (VCell TCons l))) s' /\ grows s s' /\
  s_cells s !! l = None /\ s_cells s' !! l = Some (a, d).
Proof.
  intros W. exists (s_next s). eexists. split; [applies; unfold cons_impl; cbn [arg nth]; rsteps|].
  split; [apply (grows_into "cons" env), (grows_new_cell (entering "cons" env s)), wf_entering, W|].
  split; [apply fresh_none; intros ? ? ?; eauto using wf_cells|cbn; apply lookup_insert].
Qed.
Lemma run_field letter v s : letter = "a"%char \/ letter = "d"%char -> 
  runs denote (if Ascii.eqb letter "a" then car v else if Ascii.eqb letter "d" then cdr v else Ret VNil) s (Done (field s letter v)) s.
Proof.
  intros [-> | ->]; cbn [Ascii.eqb Bool.eqb].
  - destruct v; cbn [car field]; try apply runs_ret. apply runs_op. cbn. unfold cell_at. destruct (s_cells s !! l) as [[a d]|]; reflexivity.
  - destruct v; cbn [cdr field]; try apply runs_ret. apply runs_op. cbn. unfold cell_at. destruct (s_cells s !! l) as [[a d]|]; reflexivity.
Qed.
Lemma field_other s x v : pairp v || alistp v || dottedp v = false -> field s x v = VNil.
Proof. destruct v as [|[] ?| | | | | | | | | | | | | | | |]; cbn; congruence. Qed.
Lemma follow_nil s w : follow s w VNil = VNil.
Proof. induction w as [|x w IH]; [reflexivity|]. cbn [follow fold_right]. fold (follow s w VNil). rewrite IH. reflexivity. Qed.
Lemma runs_walk_rev s w : Forall (fun x => x = "a"%char \/ x = "d"%char) w -> forall v,
  runs denote (walk_rev w v) s (Done (follow s (rev w) v)) s.
Proof.
  induction w as [|x w IH]; intros F v; [apply runs_ret|]. inversion F; subst. cbn [walk_rev rev].
  assert (E : follow s (rev w ++ [x]) v = follow s (rev w) (field s x v)) by (unfold follow; rewrite fold_right_app; reflexivity).
  rewrite E. destruct (pairp v || alistp v || dottedp v) eqn:P.
  - destruct v; try discriminate P.
    + cbn [field]. rewrite follow_nil. apply runs_ret.
    + eapply runs_bind; [apply run_field; assumption|]. apply IH; assumption.
    + eapply runs_bind; [apply run_field; assumption|]. apply IH; assumption.
  - rewrite (field_other _ _ _ P), follow_nil. destruct v; try discriminate P; apply runs_ret.
Qed.
Lemma runs_walk_list s w v : Forall (fun x => x = "a"%char \/ x = "d"%char) (list_ascii_of_string w) ->
  runs denote (walk_list w v) s (Done (follow s (list_ascii_of_string w) v)) s.
Proof.
  intros F. unfold walk_list. rewrite <- (rev_involutive (list_ascii_of_string w)) at 2. apply runs_walk_rev.
  apply List.Forall_rev, F.
Qed.
Lemma accessor_table w : accessor_letters w ->
  table (String "c" (string_of_list_ascii w +++ "r")) =
  Some (func (String "c" (string_of_list_ascii w +++ "r")) "1" (walk_impl (string_of_list_ascii w))).
Proof.
  intros [L F]. destruct w as [|a [|b [|c [|d [|]]]]]; cbn in L; try lia;
  repeat match goal with H : Forall _ (_ :: _) |- _ => inversion H; clear H; subst end;
  repeat match goal with H : _ \/ _ |- _ => destruct H; subst end; reflexivity.
Qed.
Lemma run_accessor w v env s : accessor_letters w ->
  applies (String "c" (string_of_list_ascii w +++ "r")) [v] env s (Done (Ok (follow s w v)))
    (entering (String "c" (string_of_list_ascii w +++ "r")) env s).
Proof.
  intros A. eapply applies_of; [apply accessor_table, A|]. cbn [p_body func]. unfold walk_impl. cbn [arg nth].
  eapply runs_bind; [apply runs_walk_list|].
  - rewrite list_ascii_of_string_of_list_ascii. apply A.
  - rewrite list_ascii_of_string_of_list_ascii. apply runs_ret.
Qed.
Lemma run_list vs env s : wf_state s -> exists v s',
  applies "list" vs env s (Done (Ok v)) s' /\ grows s s' /\ list_of s' v vs.
Proof.
  intros W. destruct (runs_array_list_of vs (entering "list" env s) (wf_entering _ _ _ W)) as (v & s' & R & G & L).
  exists v, s'. split; [applies; unfold list_impl; eapply runs_bind; [exact R|rsteps]|].
  split; [exact (grows_into _ _ _ _ G)|exact L].
Qed.
Lemma run_length v xs env s : is_list s v xs ->
  applies "length" [v] env s (Done (Ok (VInt (Z.of_nat (length xs))))) (entering "length" env s).
Proof.
  intros L. applies. unfold length_impl. cbn [arg nth]. eapply runs_bind; [apply runs_length, is_list_entering, L|rsteps].
Qed.
Lemma runs_append_items s vs xss : Forall2 (is_list s) vs xss -> runs denote (append_items vs) s (Done (List.concat xss)) s.
Proof.
  induction 1 as [|v xs vs xss L _ IH]; [apply runs_ret|]. cbn [append_items List.concat].
  rewrite (is_list_listp _ _ _ L). eapply runs_bind; [apply runs_to_array, L|]. eapply runs_bind; [exact IH|apply runs_ret].
Qed.
Lemma run_append vs xss env s : wf_state s -> vs <> [] -> Forall2 (is_list s) vs xss -> exists v s',
  applies "append" vs env s (Done (Ok v)) s' /\ grows s s' /\ list_of s' v (List.concat xss).
Proof.
  intros W N F. destruct (runs_array_list_of (List.concat xss) (entering "append" env s) (wf_entering _ _ _ W)) as (v & s' & R & G & L).
  exists v, s'. split; [|split; [exact (grows_into _ _ _ _ G)|exact L]].
  applies. unfold append_impl. destruct vs as [|x vs]; [congruence|].
  eapply runs_bind; [apply runs_append_items|].
  - apply (Forall2_impl _ _ _ _ F). intros y ys. apply is_list_entering.
  - eapply runs_bind; [exact R|rsteps].
Qed.
Lemma run_append_none env s : applies "append" [] env s (Done (Ok VNil)) (entering "append" env s).
Proof. applies. apply runs_ret. Qed.
Lemma run_reverse v xs env s : wf_state s -> is_list s v xs -> no_nils xs -> exists r s',
  applies "reverse" [v] env s (Done (Ok r)) s' /\ grows s s' /\ is_list s' r (rev xs).
Proof.
  intros W L N. pose proof (is_list_entering "reverse" env _ _ _ L) as L'. pose proof (wf_entering "reverse" env _ W) as W'.
  destruct (for_cells_list (fun acc c => a <- car c ;; acc' <- cons a acc ;; Ret (inl acc')) (fun acc => Ret acc)
    (fun dn acc s1 => no_nils dn -> is_list s1 acc (rev dn))) with (xs := xs) (dn := @nil val) (v := v) (st := VNil) (s := entering "reverse" env s)
    as (acc & s1 & I1 & G1 & W1 & H1).
  - intros dn x rest c st s1 W1 Lc I1. destruct (is_list_cons_inv _ _ _ _ Lc) as (_ & E & _ & _).
    eexists _, _. split; [rsteps|]. rewrite E. split; [apply grows_new_cell, W1|].
    intros Nn. apply Forall_app in Nn. destruct Nn as [N1 N2]. rewrite rev_app_distr. cbn [rev app].
    eapply il_cons; [apply cell_new|left; exact (Forall_inv N2)|].
    apply (is_list_grows _ _ _ _ (grows_new_cell s1 x st W1)), I1, N1.
  - exact W'.
  - exact L'.
  - intros _. apply il_nil.
  - cbn [app] in *. exists acc, s1. split; [|split; [exact (grows_into _ _ _ _ G1)|exact (I1 N)]].
    applies. unfold reverse_impl, reverse. cbn [arg nth]. destruct (is_nil v) eqn:En.
    + destruct v; try discriminate. assert (E : xs = []) by (inversion L; reflexivity). subst xs.
      specialize (H1 (Done acc) s1 (runs_ret _ _ _ _)).
      assert (H2 : runs denote (for_cells (fun acc c => a <- car c ;; acc' <- cons a acc ;; Ret (inl acc')) (fun acc => Ret acc) VNil VNil)
                     (entering "reverse" env s) (Done VNil) (entering "reverse" env s)).
      { apply runs_loop_stop. rsteps. cbn [nilb]. rsteps. }
      destruct (runs_det _ _ _ _ _ _ _ _ H1 H2) as [E1 E2]. injection E1 as ->. rewrite E2. eapply runs_bind; [apply runs_ret|rsteps].
    + rewrite (is_list_listp _ _ _ L). cbn [negb]. eapply runs_bind; [apply H1, runs_ret|rsteps].
Qed.
Lemma runs_cdr_times n : forall v xs s, is_list s v xs -> (n <= length xs)%nat ->
  exists c, runs denote (cdr_times n v) s (Done c) s /\ is_list s c (skipn n xs).
Proof.
  induction n as [|n IH]; intros v xs s L H.
  - exists v. split; [apply runs_ret|exact L].
  - destruct xs as [|x xs]; [cbn in H; lia|]. destruct (is_list_cons_inv _ _ _ _ L) as (_ & _ & T & _).
    destruct (IH _ _ _ T ltac:(cbn in H; lia)) as (c & R & Lc). exists c. split; [|exact Lc].
    cbn [cdr_times]. eapply runs_bind; [apply runs_cdr|exact R].
Qed.
Lemma runs_nth v xs n s : is_list s v xs -> runs denote (nth_of v n) s (Done (element xs n)) s.
Proof.
  intros L. unfold nth_of, element. destruct (is_nil v) eqn:En.
  - destruct v; try discriminate. assert (xs = []) as -> by (inversion L; reflexivity).
    cbn [orb]. destruct (n <? 1); [apply runs_ret|]. destruct (Z.to_nat (n - 1)); apply runs_ret.
  - cbn [orb]. destruct (Z.ltb_spec n 1); [apply runs_ret|].
    eapply runs_bind; [apply runs_length, L|]. destruct (Z.ltb_spec (Z.of_nat (length xs)) n).
    + rewrite nth_overflow by lia. apply runs_ret.
    + destruct (runs_cdr_times (Z.to_nat (n - 1)) v xs s L ltac:(lia)) as (c & R & Lc).
      eapply runs_bind; [exact R|].
      assert (K : (Z.to_nat (n - 1) < length xs)%nat) by lia.
      destruct (skipn (Z.to_nat (n - 1)) xs) as [|x rest] eqn:E.
      { apply (f_equal (@List.length val)) in E. rewrite skipn_length in E. cbn in E. lia. }
      destruct (is_list_cons_inv _ _ _ _ Lc) as (_ & Ec & _).
      replace (nth (Z.to_nat (n - 1)) xs VNil) with (car_of s c); [apply runs_car|].
      rewrite Ec. rewrite <- (firstn_skipn (Z.to_nat (n - 1)) xs), E.
      rewrite app_nth2; rewrite firstn_length_le by lia; [|lia]. rewrite Nat.sub_diag. reflexivity.
Qed.
Lemma run_nth v xs n env s : is_list s v xs ->
  applies "nth" [v; VInt n] env s (Done (Ok (element xs n))) (entering "nth" env s).
Proof.
  intros L. applies. unfold nth_impl. cbn [arg nth integerp negb int_value]. rewrite (is_list_pairp _ _ _ L). cbn [negb].
  eapply runs_bind; [apply runs_nth, is_list_entering, L|rsteps].
Qed.
Lemma run_list_ref v xs n env s : is_list s v xs -> - 2 ^ 63 <= n < 2 ^ 63 - 1 ->
  applies "list-ref" [v; VInt n] env s (Done (Ok (element xs (n + 1)))) (entering "list-ref" env s).
Proof.
  intros L Hn. applies. unfold list_ref_impl. cbn [arg nth integerp negb int_value]. rewrite (is_list_pairp _ _ _ L). cbn [negb].
  replace (wrap64 (n + 1)) with (n + 1).
  - eapply runs_bind; [apply runs_nth, is_list_entering, L|rsteps].
  - unfold wrap64, two63, two64. rewrite Z.mod_small; lia.
Qed.
Lemma run_ordinal name n v xs env s : In (name, n) ordinals -> is_list s v xs ->
  applies name [v] env s (Done (Ok (element xs n))) (entering name env s).
Proof.
  intros H L. eapply (applies_of _ (func name "1" (nth_const_impl n))).
  - unfold ordinals in H. cbn [In] in H. repeat (destruct H as [[= <- <-]|H]; [reflexivity|]). destruct H.
  - cbn [p_body func]. unfold nth_const_impl. cbn [arg nth]. eapply runs_bind; [apply runs_nth, is_list_entering, L|rsteps].
Qed.

(** *** C06 *)
Lemma runs_take_items size s : forall xs i v acc, is_list s v xs ->
  runs denote (loop (fun st : Z * val * list val =>
          let '(i, c, acc) := st in
          if i <? size then
            n <- nilp c ;;
            if n : bool then Ret (inr (rev acc))
            else a <- car c ;; d <- cdr c ;; Ret (inl (i + 1, d, a :: acc))
          else Ret (inr (rev acc))) (i, v, acc)) s (Done (rev acc ++ firstn (Z.to_nat (size - i)) xs)) s.
Proof.
  induction xs as [|x xs IH]; intros i v acc L.
  - rewrite firstn_nil, app_nil_r. apply runs_loop_stop. destruct (i <? size); [|apply runs_ret].
    rsteps. rewrite (is_list_nil_inv _ _ L). apply runs_ret.
  - destruct (is_list_cons_inv _ _ _ _ L) as (E1 & E2 & E3 & _). destruct (Z.ltb_spec i size).
    + eapply runs_loop_step.
      * destruct (Z.ltb_spec i size); [|lia]. rsteps. rewrite E1. rsteps.
      * rewrite E2. replace (Z.to_nat (size - i)) with (S (Z.to_nat (size - (i + 1)))) by lia. cbn [firstn].
        replace (rev acc ++ x :: firstn (Z.to_nat (size - (i + 1))) xs) with (rev (x :: acc) ++ firstn (Z.to_nat (size - (i + 1))) xs).
        { apply IH. exact E3. }
        cbn [rev]. rewrite <- app_assoc. reflexivity.
    + replace (Z.to_nat (size - i)) with 0%nat by lia. cbn [firstn]. rewrite app_nil_r.
      apply runs_loop_stop. destruct (Z.ltb_spec i size); [lia|]. apply runs_ret.
Qed.
Lemma runs_take size s v xs : is_list s v xs -> runs denote (take_items size v) s (Done (firstn (Z.to_nat size) xs)) s.
Proof. intros L. pose proof (runs_take_items size s xs 0 v [] L) as H. rewrite Z.sub_0_r in H. exact H. Qed.
Lemma runs_drop_from size s : forall xs i v, is_list s v xs -> exists c,
  runs denote (loop (fun st : Z * val =>
          let '(i, c) := st in
          if i <? size then
            n <- nilp c ;;
            if n : bool then Ret (inr c) else d <- cdr c ;; Ret (inl (i + 1, d))
          else Ret (inr c)) (i, v)) s (Done c) s /\ is_list s c (skipn (Z.to_nat (size - i)) xs).
Proof.
  induction xs as [|x xs IH]; intros i v L.
  - exists v. rewrite skipn_nil. split; [|exact L]. apply runs_loop_stop. destruct (i <? size); [|apply runs_ret].
    rsteps. rewrite (is_list_nil_inv _ _ L). apply runs_ret.
  - destruct (is_list_cons_inv _ _ _ _ L) as (E1 & E2 & E3 & _). destruct (Z.ltb_spec i size).
    + destruct (IH (i + 1) _ E3) as (c & R & Lc). exists c. split.
      * eapply runs_loop_step; [|exact R]. destruct (Z.ltb_spec i size); [|lia]. rsteps. rewrite E1. rsteps.
      * replace (Z.to_nat (size - i)) with (S (Z.to_nat (size - (i + 1)))) by lia. exact Lc.
    + exists v. replace (Z.to_nat (size - i)) with 0%nat by lia. split; [|exact L].
      apply runs_loop_stop. destruct (Z.ltb_spec i size); [lia|]. apply runs_ret.
Qed.
Lemma runs_drop size s v xs : is_list s v xs -> exists c, runs denote (drop_cells size v) s (Done c) s /\ is_list s c (skipn (Z.to_nat size) xs).
Proof. intros L. destruct (runs_drop_from size s xs 0 v L) as (c & R & H). rewrite Z.sub_0_r in H. exists c. split; assumption. Qed.
Lemma run_take n v xs env s : wf_state s -> is_list s v xs -> exists r s',
  applies "take" [VInt n; v] env s (Done (Ok r)) s' /\ grows s s' /\ list_of s' r (firstn (Z.to_nat n) xs).
Proof.
  intros W L. destruct (runs_array_list_of (firstn (Z.to_nat n) xs) (entering "take" env s) (wf_entering _ _ _ W)) as (r & s' & R & G & Lr).
  exists r, s'. split; [|split; [exact (grows_into _ _ _ _ G)|exact Lr]].
  applies. unfold take_impl. cbn [arg nth integerp negb int_value].
  assert (E : runs denote (items <- take_items n v ;; r <- array_to_list items ;; or_fail false "take requires a number as its first argument." r)
    (entering "take" env s) (Done (Ok r)) s').
  { eapply runs_bind; [apply runs_take, is_list_entering, L|]. eapply runs_bind; [exact R|apply runs_ret]. }
  inversion L; subst; exact E.
Qed.
Lemma run_drop n v xs env s : is_list s v xs -> exists r,
  applies "drop" [VInt n; v] env s (Done (Ok r)) (entering "drop" env s) /\ is_list s r (skipn (Z.to_nat n) xs).
Proof.
  intros L. destruct (runs_drop n (entering "drop" env s) v xs (is_list_entering _ _ _ _ _ L)) as (r & R & Lr).
  exists r. split.
  - applies. unfold drop_impl. cbn [arg nth integerp negb int_value].
    assert (E : runs denote (r <- drop_cells n v ;; or_fail false "drop requires a number as its first argument." r)
      (entering "drop" env s) (Done (Ok r)) (entering "drop" env s)).
    { eapply runs_bind; [exact R|apply runs_ret]. }
    inversion L; subst; exact E.
  - clear -Lr. remember (entering "drop" env s) as s1 eqn:E. induction Lr; subst.
    + constructor.
    + constructor.
    + constructor. exact H.
    + econstructor; eauto.
Qed.
Lemma is_list_same s s' v xs : s_cells s' = s_cells s -> is_list s' v xs -> is_list s v xs.
Proof. intros E L. induction L; econstructor; rewrite <- ?E; eauto. Qed.
Lemma run_list_head v xs n env s : wf_state s -> is_list s v xs -> exists r s',
  applies "list-head" [v; VInt n] env s (Done (Ok r)) s' /\ grows s s' /\ list_of s' r (firstn (Z.to_nat n) xs).
Proof.
  intros W L. destruct (runs_array_list_of (firstn (Z.to_nat n) xs) (entering "list-head" env s) (wf_entering _ _ _ W)) as (r & s' & R & G & Lr).
  exists r, s'. split; [|split; [exact (grows_into _ _ _ _ G)|exact Lr]].
  applies. unfold list_head_impl. cbn [arg nth integerp negb int_value]. rewrite (is_list_listp _ _ _ L).
  eapply runs_bind; [apply runs_take, is_list_entering, L|]. eapply runs_bind; [exact R|apply runs_ret].
Qed.
Lemma run_list_tail v xs n env s : is_list s v xs -> exists r,
  applies "list-tail" [v; VInt n] env s (Done (Ok r)) (entering "list-tail" env s) /\ is_list s r (skipn (Z.to_nat n) xs).
Proof.
  intros L. destruct (runs_drop n (entering "list-tail" env s) v xs (is_list_entering _ _ _ _ _ L)) as (r & R & Lr).
  exists r. split; [|exact (is_list_same s (entering _ _ s) _ _ eq_refl Lr)].
  applies. unfold list_tail_impl. cbn [arg nth integerp negb int_value]. rewrite (is_list_listp _ _ _ L).
  eapply runs_bind; [exact R|apply runs_ret].
Qed.
Lemma bytes_fresh s bs : wf_state s -> grows s (set_bytes (<[s_next s := bs]> (s_bytes s)) (bump s)).
Proof. intros W. eapply grows_bytes; [exact W|reflexivity]. Qed.
Lemma run_take_bytes n l bs env s : wf_state s -> s_bytes s !! (l : loc) = Some bs -> 0 <= n -> exists l' s',
  applies "take" [VInt n; VBytes l] env s (Done (Ok (VBytes l'))) s' /\ grows s s' /\
  s_bytes s !! l' = None /\ s_bytes s' !! l' = Some (firstn (Z.to_nat n) bs).
Proof.
  intros W Hl Hn. pose proof (bytes_some (entering "take" env s) l bs Hl) as E.
  exists (s_next s), (set_bytes (<[s_next s := firstn (Z.to_nat n) bs]> (s_bytes s)) (bump (entering "take" env s))).
  split; [|split; [|split; [|cbn; apply lookup_insert]]].
  - applies. unfold take_impl. cbn [arg nth integerp negb int_value]. rstep. rewrite E.
    destruct (Z.leb_spec (Z.of_nat (length bs)) n).
    + rewrite firstn_all2 by lia. rsteps. apply runs_ret.
    + destruct (Z.ltb_spec n 0); [lia|]. rsteps. apply runs_ret.
  - apply (grows_into "take" env), (bytes_fresh (entering "take" env s)), wf_entering, W.
  - apply fresh_none; intros ? ? ?; eauto using wf_bytes.
Qed.
Lemma run_drop_bytes n l bs env s : wf_state s -> s_bytes s !! (l : loc) = Some bs -> 0 <= n -> exists l' s',
  applies "drop" [VInt n; VBytes l] env s (Done (Ok (VBytes l'))) s' /\ grows s s' /\
  s_bytes s !! l' = None /\ s_bytes s' !! l' = Some (skipn (Z.to_nat n) bs).
Proof.
  intros W Hl Hn. pose proof (bytes_some (entering "drop" env s) l bs Hl) as E.
  exists (s_next s), (set_bytes (<[s_next s := skipn (Z.to_nat n) bs]> (s_bytes s)) (bump (entering "drop" env s))).
  split; [|split; [|split; [|cbn; apply lookup_insert]]].
  - applies. unfold drop_impl. cbn [arg nth integerp negb int_value]. rstep. rewrite E.
    destruct (Z.leb_spec (Z.of_nat (length bs)) n).
    + rewrite skipn_all2 by lia. rsteps. apply runs_ret.
    + destruct (Z.ltb_spec n 0); [lia|]. rsteps. apply runs_ret.
  - apply (grows_into "drop" env), (bytes_fresh (entering "drop" env s)), wf_entering, W.
  - apply fresh_none; intros ? ? ?; eauto using wf_bytes.
Qed.
Lemma run_take_bytes_negative name n l bs env s : In name ["take"; "drop"] -> s_bytes s !! (l : loc) = Some bs -> n < 0 -> exists w,
  applies name [VInt n; VBytes l] env s (Panicked w) (entering name env s).
Proof.
  intros Hn Hl H0. pose proof (bytes_some (entering name env s) l bs Hl) as E.
  exists slice_panic. destruct Hn as [<-|[<-|[]]]; applies; unfold take_impl, drop_impl; cbn [arg nth integerp negb int_value]; rstep; rewrite E;
  (destruct (Z.leb_spec (Z.of_nat (length bs)) n); [lia|]); (destruct (Z.ltb_spec n 0); [|lia]); apply runs_panic.
Qed.
Lemma runs_sublist first last s v xs : is_list s v xs -> 1 <= first < last ->
  runs denote (sublist_items first last v) s (Done (firstn (Z.to_nat (last - first)) (skipn (Z.to_nat (first - 1)) xs))) s.
Proof.
  intros L H. unfold sublist_items.
  assert (D : forall ys i v, is_list s v ys -> i <= first -> exists j c,
    runs denote (loop (fun st : Z * val => let '(i, c) := st in
               if i <? first then
                 n <- nilp c ;; if n : bool then Ret (inr (i, c)) else d <- cdr c ;; Ret (inl (i + 1, d))
               else Ret (inr (i, c))) (i, v)) s (Done (j, c)) s /\
    is_list s c (skipn (Z.to_nat (first - i)) ys) /\ (j = first \/ skipn (Z.to_nat (first - i)) ys = [])).
  { clear -H. induction ys as [|y ys IH]; intros i v L Hi.
    - exists i, v. rewrite skipn_nil. split; [|split; [exact L|right; reflexivity]].
      apply runs_loop_stop. destruct (i <? first); [|apply runs_ret]. rsteps. rewrite (is_list_nil_inv _ _ L). apply runs_ret.
    - destruct (is_list_cons_inv _ _ _ _ L) as (E1 & E2 & E3 & _). destruct (Z.ltb_spec i first) as [C|C].
      + destruct (IH (i + 1) _ E3 ltac:(lia)) as (j & c & R & Lc & J). exists j, c. split.
        * eapply runs_loop_step; [|exact R]. destruct (Z.ltb_spec i first); [|lia]. rsteps. rewrite E1. rsteps.
        * replace (Z.to_nat (first - i)) with (S (Z.to_nat (first - (i + 1)))) by lia. split; assumption.
      + exists i, v. replace (Z.to_nat (first - i)) with 0%nat by lia. split; [|split; [exact L|left; lia]].
        apply runs_loop_stop. destruct (Z.ltb_spec i first); [lia|]. apply runs_ret. }
  destruct (D xs 1 v L ltac:(lia)) as (j & c & R & Lc & J).
  eapply runs_bind; [exact R|]. cbv beta iota.
  pose proof (runs_take_items last s (skipn (Z.to_nat (first - 1)) xs) j c [] Lc) as T. cbn [rev app] in T.
  destruct J as [-> |E].
  - exact T.
  - rewrite E in *. rewrite !firstn_nil in *. exact T.
Qed.
Lemma run_sublist v xs first last env s : wf_state s -> is_list s v xs -> 1 <= first < last -> exists r s',
  applies "sublist" [v; VInt first; VInt last] env s (Done (Ok r)) s' /\ grows s s' /\
  list_of s' r (firstn (Z.to_nat (last - first)) (skipn (Z.to_nat (first - 1)) xs)).
Proof.
  intros W L H. destruct (runs_array_list_of (firstn (Z.to_nat (last - first)) (skipn (Z.to_nat (first - 1)) xs))
    (entering "sublist" env s) (wf_entering _ _ _ W)) as (r & s' & R & G & Lr).
  exists r, s'. split; [|split; [exact (grows_into _ _ _ _ G)|exact Lr]].
  applies. unfold sublist_impl. cbn [arg nth integerp negb int_value]. rewrite (is_list_listp _ _ _ L). cbn [negb].
  destruct (Z.leb_spec first 0); [lia|]. destruct (Z.leb_spec last 0); [lia|]. destruct (Z.leb_spec last first); [lia|].
  eapply runs_bind; [apply runs_sublist; [apply is_list_entering, L|exact H]|]. eapply runs_bind; [exact R|rsteps].
Qed.
Lemma run_sublist_empty v xs first last env s : is_list s v xs -> 1 <= last <= first ->
  applies "sublist" [v; VInt first; VInt last] env s (Done (Ok VNil)) (entering "sublist" env s).
Proof.
  intros L H. applies. unfold sublist_impl. cbn [arg nth integerp negb int_value]. rewrite (is_list_listp _ _ _ L). cbn [negb].
  destruct (Z.leb_spec first 0); [lia|]. destruct (Z.leb_spec last 0); [lia|]. destruct (Z.leb_spec last first); [|lia]. apply runs_ret.
Qed.
Lemma run_sublist_bad v xs first last env s : is_list s v xs -> first <= 0 \/ last <= 0 -> exists m,
  applies "sublist" [v; VInt first; VInt last] env s (Done (Err m)) (entering "sublist" env s).
Proof.
  intros L H. eexists. applies. unfold sublist_impl. cbn [arg nth integerp negb int_value]. rewrite (is_list_listp _ _ _ L). cbn [negb].
  destruct (Z.leb_spec first 0); [apply runs_ret|]. destruct (Z.leb_spec last 0); [apply runs_ret|lia].
Qed.
Lemma runs_last_pair s : forall xs v x, is_list s v (xs ++ [x]) -> exists c,
  runs denote (loop (fun c => d <- cdr c ;; n <- nilp d ;;
                        if n : bool then Ret (inr c)
                        else d <- cdr c ;;
                             if pairp d then d <- cdr c ;; Ret (inl d) else Ret (inr c)) v) s (Done c) s /\ is_list s c [x].
Proof.
  induction xs as [|y xs IH]; intros v x L; cbn [app] in L; destruct (is_list_cons_inv _ _ _ _ L) as (E1 & E2 & E3 & _).
  - exists v. split; [|exact L]. apply runs_loop_stop. rsteps. rewrite (is_list_nil_inv _ _ E3). apply runs_ret.
  - destruct (IH _ _ E3) as (c & R & Lc). exists c. split; [|exact Lc]. eapply runs_loop_step; [|exact R].
    assert (N : nilb s (cdr_of s v) = false).
    { destruct xs; cbn [app] in E3; apply (is_list_cons_inv _ _ _ _ E3). }
    rsteps. rewrite N. rsteps. rewrite (is_list_pairp _ _ _ E3). rsteps.
Qed.
Lemma run_last_pair v xs x env s : is_list s v (xs ++ [x]) -> exists c,
  applies "last-pair" [v] env s (Done (Ok c)) (entering "last-pair" env s) /\ is_list s c [x].
Proof.
  intros L. pose proof (is_list_entering "last-pair" env _ _ _ L) as L'.
  destruct (runs_last_pair (entering "last-pair" env s) xs v x L') as (c & R & Lc).
  exists c. split; [|exact (is_list_same s (entering _ _ s) _ _ eq_refl Lc)].
  applies. unfold last_pair_impl. cbn [arg nth].
  assert (N : nilb (entering "last-pair" env s) v = false) by (destruct xs; cbn [app] in L'; apply (is_list_cons_inv _ _ _ _ L')).
  rstep. rewrite N. rewrite (is_list_listp _ _ _ L). cbn [negb]. eapply runs_bind; [exact R|rsteps].
Qed.
Lemma run_last_pair_empty v env s : empty_list s v -> exists m,
  applies "last-pair" [v] env s (Done (Err m)) (entering "last-pair" env s).
Proof.
  intros L. eexists. applies. unfold last_pair_impl. cbn [arg nth]. rstep.
  rewrite (is_list_nil_inv _ _ (is_list_entering "last-pair" env _ _ _ L)). apply runs_ret.
Qed.

(** *** C07, pieces of a fixed size *)
Lemma chunks_done {A} n (gs : list (list A)) (c : list A) : (1 <= n)%nat -> Forall (fun g => length g = n) gs -> (length c <= n)%nat ->
  c <> [] -> chunks_of n (List.concat gs ++ c) (gs ++ [c]).
Proof.
  intros Hn F L N. split.
  - rewrite concat_app. cbn. rewrite app_nil_r. reflexivity.
  - intros before p E. apply app_inj_tail in E. destruct E as [<- <-]. split; [exact F|].
    destruct c; [congruence|]. cbn in *. lia.
Qed.
Lemma run_partition_size n v xs env s : wf_state s -> is_list s v xs -> 1 <= n -> exists r vs groups s',
  applies "partition" [VInt n; v] env s (Done (Ok r)) s' /\ grows s s' /\
  is_list s' r vs /\ Forall2 (list_of s') vs groups /\ chunks_of (Z.to_nat n) xs groups.
Proof.
  intros W L Hn. pose proof (is_list_entering "partition" env _ _ _ L) as L'. pose proof (wf_entering "partition" env _ W) as W'.
  set (body := fun (st : list val * list val) c => (let '(pieces, chunk) := st in
             a <- car c ;;
             if Z.of_nat (length chunk) <? n then Ret (inl (pieces, a :: chunk))
             else p <- array_to_list (rev chunk) ;; Ret (inl (p :: pieces, [a]))) : prog ((list val * list val) + list val)).
  set (fin := fun st : list val * list val => let '(pieces, chunk) := st in
              match chunk with
              | [] => Ret pieces
              | _ => p <- array_to_list (rev chunk) ;; Ret (p :: pieces)
              end).
  set (I := fun (dn : list val) (st : list val * list val) (s1 : state) => exists gs,
    Forall2 (list_of s1) (rev (fst st)) gs /\ no_nils (rev (fst st)) /\ Forall (fun g => length g = Z.to_nat n) gs /\ (length (snd st) <= Z.to_nat n)%nat /\
    List.concat gs ++ rev (snd st) = dn /\ (snd st = [] -> fst st = [] /\ dn = [])).
  destruct (for_cells_list (R := list val) body fin I) with (xs := xs) (dn := @nil val) (v := v) (st := (@nil val, @nil val)) (s := entering "partition" env s)
    as ([pieces chunk] & s1 & (gs & F1 & F2 & F3 & F4 & F5 & F6) & G1 & W1 & H1).
  - intros dn x rest c [pieces chunk] s1 W1 Lc (gs & F1 & F2 & F3 & F4 & F5 & F6). cbn [fst snd] in *.
    destruct (is_list_cons_inv _ _ _ _ Lc) as (_ & E & _ & _). unfold body.
    destruct (Z.ltb_spec (Z.of_nat (length chunk)) n).
    + exists (pieces, x :: chunk), s1. split; [rewrite <- E; rsteps|]. split; [apply grows_refl|].
      exists gs. cbn [fst snd length rev]. repeat apply conj; try assumption; [lia| |discriminate].
      rewrite app_assoc, F5. reflexivity.
    + destruct (runs_array_to_list (rev chunk) s1 W1) as (p & ys & s2 & R & G & Fy & Ly & Np & _).
      exists (p :: pieces, [x]), s2. split; [rewrite <- E; rsteps; eapply runs_bind; [exact R|apply runs_ret]|]. split; [exact G|].
      exists (gs ++ [rev chunk]). cbn [fst snd rev app length]. repeat apply conj; try discriminate.
      * apply Forall2_app; [|constructor; [exists ys; split; assumption|constructor]].
        apply (Forall2_impl _ _ _ _ F1). intros y z. apply list_of_grows, G.
      * apply Forall_app. split; [exact F2|]. repeat constructor. exact Np.
      * apply Forall_app. split; [exact F3|]. repeat constructor. rewrite rev_length. lia.
      * lia.
      * rewrite concat_app. cbn. rewrite app_nil_r, F5. reflexivity.
  - exact W'.
  - exact L'.
  - exists []. cbn. repeat split; constructor || lia || reflexivity.
  - cbn [fst snd app] in *.
    assert (P : exists pieces' gs' s2, runs denote (fin (pieces, chunk)) s1 (Done pieces') s2 /\ grows s1 s2 /\
      Forall2 (list_of s2) (rev pieces') gs' /\ no_nils (rev pieces') /\ chunks_of (Z.to_nat n) xs gs').
    { destruct chunk as [|x chunk1]; unfold fin.
      - destruct (F6 eq_refl) as [-> ->]. exists [], [], s1. split; [apply runs_ret|]. split; [apply grows_refl|].
        split; [constructor|]. split; [constructor|]. split; [reflexivity|]. intros [|]; discriminate.
      - destruct (runs_array_to_list (rev chunk1 ++ [x]) s1 W1) as (p & ys & s2 & R & G & Fy & Ly & Np & _).
        exists (p :: pieces), (gs ++ [rev chunk1 ++ [x]]), s2. split; [eapply runs_bind; [exact R|apply runs_ret]|]. split; [exact G|].
        cbn [rev]. split; [|split].
        + apply Forall2_app; [|constructor; [exists ys; split; assumption|constructor]].
          apply (Forall2_impl _ _ _ _ F1). intros y z. apply list_of_grows, G.
        + apply Forall_app. split; [exact F2|]. repeat constructor. exact Np.
        + rewrite <- F5. cbn [rev]. apply chunks_done; [lia|exact F3| |intros E0; apply app_eq_nil in E0; destruct E0; discriminate].
          rewrite app_length, rev_length. cbn in *. lia. }
    destruct P as (pieces' & gs' & s2 & R2 & G2 & Fg & Np & Ch).
    pose proof (wf_runs _ _ _ _ _ W1 R2) as W2.
    destruct (runs_array_to_list_exact (rev pieces') s2 W2 Np) as (r & s3 & R3 & G3 & L3).
    exists r, (rev pieces'), gs', s3. split; [|split; [|split; [exact L3|split; [|exact Ch]]]].
    + applies. unfold partition_impl. cbn [arg nth integerp negb andb]. rewrite (is_list_listp _ _ _ L). cbn [negb].
      unfold partition_by_size. destruct (Z.ltb_spec n 1); [lia|]. eapply runs_bind; [exact (H1 _ _ R2)|].
      eapply runs_bind; [exact R3|apply runs_ret].
    + apply (grows_into "partition" env). eapply grows_trans; [exact G1|]. eapply grows_trans; eassumption.
    + apply (Forall2_impl _ _ _ _ Fg). intros y z. apply list_of_grows, G3.
Qed.
Lemma run_partition_bad n v xs env s : is_list s v xs -> n < 1 -> exists m,
  applies "partition" [VInt n; v] env s (Done (Err m)) (entering "partition" env s).
Proof.
  intros L Hn. eexists. applies. unfold partition_impl. cbn [arg nth integerp negb andb]. rewrite (is_list_listp _ _ _ L). cbn [negb].
  unfold partition_by_size. destruct (Z.ltb_spec n 1); [apply runs_ret|lia].
Qed.

(** Laws that combine calls. *)
Lemma no_nils_app xs ys : no_nils xs -> no_nils ys -> no_nils (xs ++ ys).
Proof. intros. apply Forall_app. split; assumption. Qed.
Lemma append_two a b xs ys env s : wf_state s -> is_list s a xs -> is_list s b ys -> no_nils xs -> no_nils ys -> exists v s',
  applies "append" [a; b] env s (Done (Ok v)) s' /\ grows s s' /\ wf_state s' /\ is_list s' v (xs ++ ys).
Proof.
  intros W La Lb Na Nb. destruct (run_append [a; b] [xs; ys] env s W ltac:(discriminate)) as (v & s' & R & G & L).
  { repeat constructor; assumption. }
  exists v, s'. split; [exact R|]. split; [exact G|]. split.
  - destruct R as (p & _ & _ & R). exact (wf_runs _ _ _ _ _ (wf_entering _ _ _ W) R).
  - cbn in L. rewrite app_nil_r in L. apply list_of_no_nils; [exact L|apply no_nils_app; assumption].
Qed.
Lemma append_laws a b c xs ys zs env s : wf_state s -> is_list s a xs -> is_list s b ys -> is_list s c zs ->
  no_nils xs -> no_nils ys -> no_nils zs ->
  exists ab s1 abc s2 bc s3 abc' s4,
    applies "append" [a; b] env s (Done (Ok ab)) s1 /\ applies "append" [ab; c] env s1 (Done (Ok abc)) s2 /\
    applies "append" [b; c] env s2 (Done (Ok bc)) s3 /\ applies "append" [a; bc] env s3 (Done (Ok abc')) s4 /\
    is_list s4 abc ((xs ++ ys) ++ zs) /\ is_list s4 abc' (xs ++ (ys ++ zs)) /\
    exists us, is_list s4 abc us /\ is_list s4 abc' us.
Proof.
  intros W La Lb Lc Na Nb Nc.
  destruct (append_two a b xs ys env s W La Lb Na Nb) as (ab & s1 & R1 & G1 & W1 & L1).
  destruct (append_two ab c _ zs env s1 W1 L1 (is_list_grows _ _ _ _ G1 Lc) (no_nils_app _ _ Na Nb) Nc) as (abc & s2 & R2 & G2 & W2 & L2).
  pose proof (grows_trans _ _ _ G1 G2) as G12.
  destruct (append_two b c ys zs env s2 W2 (is_list_grows _ _ _ _ G12 Lb) (is_list_grows _ _ _ _ G12 Lc) Nb Nc) as (bc & s3 & R3 & G3 & W3 & L3).
  pose proof (grows_trans _ _ _ G12 G3) as G13.
  destruct (append_two a bc xs _ env s3 W3 (is_list_grows _ _ _ _ G13 La) L3 Na (no_nils_app _ _ Nb Nc)) as (abc' & s4 & R4 & G4 & W4 & L4).
  pose proof (is_list_grows _ _ _ _ (grows_trans _ _ _ G3 G4) L2) as L2'.
  exists ab, s1, abc, s2, bc, s3, abc', s4. repeat (split; [assumption|]).
  exists (xs ++ ys ++ zs). split; [rewrite app_assoc|]; assumption.
Qed.
Lemma reverse_twice v xs env s : wf_state s -> is_list s v xs -> no_nils xs -> exists r s1 r' s2,
  applies "reverse" [v] env s (Done (Ok r)) s1 /\ applies "reverse" [r] env s1 (Done (Ok r')) s2 /\ is_list s2 r' xs /\ is_list s2 v xs.
Proof.
  intros W L N. destruct (run_reverse v xs env s W L N) as (r & s1 & R1 & G1 & L1).
  assert (W1 : wf_state s1) by (destruct R1 as (p & _ & _ & R); exact (wf_runs _ _ _ _ _ (wf_entering _ _ _ W) R)).
  destruct (run_reverse r (rev xs) env s1 W1 L1) as (r' & s2 & R2 & G2 & L2).
  { unfold no_nils. apply List.Forall_rev, N. }
  rewrite rev_involutive in L2. exists r, s1, r', s2. repeat (split; [assumption|]).
  exact (is_list_grows _ _ _ _ (grows_trans _ _ _ G1 G2) L).
Qed.
Lemma take_drop_append n v xs env s : wf_state s -> is_list s v xs -> no_nils xs -> exists a s1 b s2 r s3,
  applies "take" [VInt n; v] env s (Done (Ok a)) s1 /\ applies "drop" [VInt n; v] env s1 (Done (Ok b)) s2 /\
  applies "append" [a; b] env s2 (Done (Ok r)) s3 /\ is_list s3 r xs.
Proof.
  intros W L N. destruct (run_take n v xs env s W L) as (a & s1 & R1 & G1 & L1).
  assert (W1 : wf_state s1) by (destruct R1 as (p & _ & _ & R); exact (wf_runs _ _ _ _ _ (wf_entering _ _ _ W) R)).
  destruct (run_drop n v xs env s1 (is_list_grows _ _ _ _ G1 L)) as (b & R2 & L2).
  assert (N1 : no_nils (firstn (Z.to_nat n) xs)) by (apply Forall_take, N).
  assert (N2 : no_nils (skipn (Z.to_nat n) xs)) by (apply Forall_drop, N).
  pose proof (grows_entering "drop" env s1) as G2.
  destruct (append_two a b (firstn (Z.to_nat n) xs) (skipn (Z.to_nat n) xs) env (entering "drop" env s1)) as (r & s3 & R3 & G3 & W3 & L3);
    [apply wf_entering, W1|exact (is_list_grows _ _ _ _ G2 (list_of_no_nils _ _ _ L1 N1))|exact (is_list_grows _ _ _ _ G2 L2)|exact N1|exact N2|].
  rewrite firstn_skipn in L3. eauto 12.
Qed.
