(** Proofs of C32. *)
From Verif Require Export ProofData.
From Verif Require SpecMath ProofMath.
From Verif Require Import ProofEval ProofCall RunFacts ProofList.
From stdpp Require Import list.
From Verif Require Import Data.
Local Open Scope string_scope.
Local Open Scope list_scope.
Local Open Scope Z_scope.

Lemma item_grows s s' v bs : grows s s' -> byte_item s v bs -> byte_item s' v bs.
Proof. intros G []; [constructor; assumption|]. constructor. apply (g_bytes _ _ G). assumption. Qed.
Lemma items_grow s s' vs bss : grows s s' -> Forall2 (byte_item s) vs bss -> Forall2 (byte_item s') vs bss.
Proof. intros G F. eapply Forall2_impl; [exact F|]. intros v bs. apply item_grows, G. Qed.
Lemma item_not_nil s v bs : byte_item s v bs -> v <> VNil.
Proof. intros []; discriminate. Qed.
Lemma items_no_nil s vs bss : Forall2 (byte_item s) vs bss -> no_nils vs.
Proof. intros F. induction F; constructor; auto. eapply item_not_nil; eassumption. Qed.
(** Bytearray objects in the list are allocated ones. *)

Lemma byte_cells s : forall xs v acc, is_list s v xs -> Forall (known_bytes s) xs ->
  let loop := for_cells (fun acc c =>
                 x <- car c ;;
                 match x with
                 | VInt b =>
                     if (b <? 0) || (255 <? b)
                     then Ret (inr (Err ("Byte arrays can only contain bytes, but found " +++ string_of_Z b +++ ".")))
                     else Ret (inl (acc ++ [b]))
                 | VBytes o => bs <- do_op (OBytesGet o) ;; Ret (inl (acc ++ bs))
                 | _ => Ret (inr (Err "Byte arrays can only contain numbers, but found a value of another type."))
                 end)
              (fun acc => ok acc) v acc in
  (exists bss, Forall2 (byte_item s) xs bss /\ runs denote loop s (Done (Ok (acc ++ List.concat bss))) s) \/
  ((~ exists bss, Forall2 (byte_item s) xs bss) /\ exists m, runs denote loop s (Done (Err m)) s).
Proof.
  intros xs. induction xs as [|x xs IH]; intros v acc L K; cbv zeta.
  - left. exists []. split; [constructor|]. cbn [List.concat]. rewrite app_nil_r. apply for_cells_end; [exact (is_list_nil_inv _ _ L)|apply runs_ret].
  - destruct (is_list_cons_inv _ _ _ _ L) as (E1 & E2 & E3 & l & ->). pose proof (Forall_inv K) as Kx. pose proof (Forall_inv_tail K) as K'.
    assert (Good : forall bs, byte_item s x bs -> runs denote (x <- car (VCell TCons l) ;;
                 match x with
                 | VInt b =>
                     if (b <? 0) || (255 <? b)
                     then Ret (inr (Err ("Byte arrays can only contain bytes, but found " +++ string_of_Z b +++ ".")))
                     else Ret (inl (acc ++ [b]))
                 | VBytes o => bs <- do_op (OBytesGet o) ;; Ret (inl (acc ++ bs))
                 | _ => Ret (inr (Err "Byte arrays can only contain numbers, but found a value of another type."))
                 end) s (Done (inl (acc ++ bs) : list Z + res (list Z))) s).
    { intros bs B. eapply runs_bind; [apply runs_car|]. rewrite E2. destruct B as [z [Z1 Z2]|o bs Eo].
      - destruct (Z.ltb_spec z 0); [lia|]. destruct (Z.ltb_spec 255 z); [lia|]. apply runs_ret.
      - eapply runs_bind; [apply runs_op; reflexivity|]. rewrite (bytes_some _ _ _ Eo). apply runs_ret. }
    assert (D : (exists bs, byte_item s x bs) \/ (~ (exists bs, byte_item s x bs) /\ exists m, runs denote (x <- car (VCell TCons l) ;;
                 match x with
                 | VInt b =>
                     if (b <? 0) || (255 <? b)
                     then Ret (inr (Err ("Byte arrays can only contain bytes, but found " +++ string_of_Z b +++ ".")))
                     else Ret (inl (acc ++ [b]))
                 | VBytes o => bs <- do_op (OBytesGet o) ;; Ret (inl (acc ++ bs))
                 | _ => Ret (inr (Err "Byte arrays can only contain numbers, but found a value of another type."))
                 end) s (Done (inr (Err m) : list Z + res (list Z))) s)).
    { clear Good. assert (Bad : (forall z, x = VInt z -> ~ is_byte z) -> (forall o, x <> VBytes o) -> ~ (exists bs, byte_item s x bs)).
      { intros B1 B2 (bs & B). destruct B as [z Hz|o]; [exact (B1 z eq_refl Hz)|exact (B2 _ eq_refl)]. }
      destruct x as [|[] ?| |z| | | | | | | |o| | | | | |]; try (right; split; [apply Bad; discriminate|]; eexists; eapply runs_bind; [apply runs_car|rewrite E2; apply runs_ret]; fail).
      - destruct (Z.ltb_spec z 0).
        + right. split; [apply Bad; [intros z' [= <-] [? ?]; lia|discriminate]|]. eexists. eapply runs_bind; [apply runs_car|rewrite E2]. rewrite (proj2 (Z.ltb_lt z 0)) by assumption. apply runs_ret.
        + destruct (Z.ltb_spec 255 z).
          * right. split; [apply Bad; [intros z' [= <-] [? ?]; lia|discriminate]|]. eexists. eapply runs_bind; [apply runs_car|rewrite E2]. rewrite (proj2 (Z.ltb_lt 255 z)) by assumption. rewrite orb_true_r. apply runs_ret.
          * left. eexists. constructor. split; lia.
      - left. cbn in Kx. destruct (s_bytes s !! o) as [bs|] eqn:Eo; [|congruence]. exists bs. constructor. exact Eo. }
    destruct D as [(bs & B)|(N & m & R)].
    + destruct (IH (cdr_of s (VCell TCons l)) (acc ++ bs) E3 K') as [(bss & F & R)|(N & m & R)].
      * left. exists (bs :: bss). split; [constructor; assumption|]. eapply for_cells_next; [exact E1|exact (Good bs B)|].
        cbn [List.concat]. rewrite app_assoc. exact R.
      * right. split; [intros (bss & F); apply N; inversion F; subst; eauto|]. exists m. eapply for_cells_next; [exact E1|exact (Good bs B)|exact R].
    + right. split; [intros (bss & F); apply N; inversion F; subst; eauto|]. exists m. eapply for_cells_stop; [exact E1|exact R].
Qed.
Lemma runs_list_to_bytes v xs s : is_list s v xs -> xs <> [] -> Forall (known_bytes s) xs ->
  (exists bss, Forall2 (byte_item s) xs bss /\ runs denote (list_to_bytes v) s (Done (Ok (List.concat bss))) s) \/
  ((~ exists bss, Forall2 (byte_item s) xs bss) /\ exists m, runs denote (list_to_bytes v) s (Done (Err m)) s).
Proof.
  intros L N K. destruct xs as [|x xs]; [congruence|]. destruct (is_list_cons_inv _ _ _ _ L) as (E1 & _ & _).
  assert (H : forall o s', runs denote (list_to_bytes v) s o s' <-> runs denote (for_cells (fun acc c =>
                 x <- car c ;;
                 match x with
                 | VInt b =>
                     if (b <? 0) || (255 <? b)
                     then Ret (inr (Err ("Byte arrays can only contain bytes, but found " +++ string_of_Z b +++ ".")))
                     else Ret (inl (acc ++ [b]))
                 | VBytes o => bs <- do_op (OBytesGet o) ;; Ret (inl (acc ++ bs))
                 | _ => Ret (inr (Err "Byte arrays can only contain numbers, but found a value of another type."))
                 end)
              (fun acc => ok acc) v []) s o s').
  { intros o s'. unfold list_to_bytes. rewrite (then_iff _ _ _ _ _ _ _ (runs_nilp v s)). rewrite E1, (is_list_listp _ _ _ L). reflexivity. }
  destruct (byte_cells s (x :: xs) v [] L K) as [(bss & F & R)|(B & m & R)].
  - left. exists bss. split; [exact F|]. apply H. exact R.
  - right. split; [exact B|]. exists m. apply H. exact R.
Qed.
Lemma fresh_bytes s : wf_state s -> s_bytes s !! s_next s = None.
Proof. intros W. apply fresh_none; intros ? ? ?; eauto using wf_bytes. Qed.
Lemma known_entering name env s xs : Forall (known_bytes s) xs -> Forall (known_bytes (entering name env s)) xs.
Proof. intros H. exact H. Qed.
Lemma items_known s xs bss : Forall2 (byte_item s) xs bss -> Forall (known_bytes s) xs.
Proof. intros F. induction F as [|v bs vs bss B F IH]; constructor; auto. destruct B as [|l bs E]; cbn; [exact I|congruence]. Qed.
Lemma item_same s s' v bs : s_bytes s' = s_bytes s -> byte_item s' v bs -> byte_item s v bs.
Proof. intros E []; [constructor; assumption|]. constructor. rewrite <- E. assumption. Qed.
Lemma items_same s s' vs bss : s_bytes s' = s_bytes s -> Forall2 (byte_item s') vs bss -> Forall2 (byte_item s) vs bss.
Proof. intros E F. eapply Forall2_impl; [exact F|]. intros v bs. apply item_same, E. Qed.
Lemma run_make name v xs env s : In name bytearray_makers -> wf_state s -> is_list s v xs -> xs <> [] -> Forall (known_bytes s) xs ->
  (exists bss r s', Forall2 (byte_item s) xs bss /\ applies name [v] env s (Done (Ok r)) s' /\ grows s s' /\ new_bytes s s' r (List.concat bss)) \/
  ((~ exists bss, Forall2 (byte_item s) xs bss) /\ exists m, applies name [v] env s (Done (Err m)) (entering name env s)).
Proof.
  intros I W L N K. destruct (runs_list_to_bytes v xs (entering name env s) (is_list_entering _ _ _ _ _ L) N K) as [(bss & F & R)|(B & m & R)].
  - left. exists bss, (VBytes (s_next s)). eexists. split; [exact (items_same s (entering name env s) _ _ eq_refl F)|]. split; [|split].
    + destruct I as [<-|[<-|[]]]; applies; unfold list_to_bytes_impl; cbn [arg nth]; (eapply runs_bind_ok; [exact R|]; rsteps).
    + apply (grows_into name env), (bytes_fresh (entering name env s)), wf_entering, W.
    + exists (s_next s). split; [reflexivity|]. split; [apply fresh_bytes, W|]. apply lookup_insert.
  - right. split; [intros (bss & F); apply B; exists bss; exact (items_same (entering name env s) s _ _ eq_refl F)|]. exists m. destruct I as [<-|[<-|[]]]; applies; unfold list_to_bytes_impl; cbn [arg nth]; (eapply runs_bind_err; exact R).
Qed.
Lemma run_make_nil name v env s : In name bytearray_makers -> at_end s v -> exists m, applies name [v] env s (Done (Err m)) (entering name env s).
Proof.
  intros I E. eexists. destruct I as [<-|[<-|[]]]; applies; unfold list_to_bytes_impl; cbn [arg nth];
  (eapply runs_bind_err; unfold list_to_bytes; eapply runs_bind; [apply runs_nilp|]; rewrite (proj1 (at_end_nilb (entering _ env s) v) E); apply runs_ret).
Qed.

Lemma run_bytes_list name l bs env s : In name ["bytearray->list"; "bytearray-to-list"] -> wf_state s -> s_bytes s !! (l : loc) = Some bs -> exists r s',
  applies name [VBytes l] env s (Done (Ok r)) s' /\ grows s s' /\ is_list s' r (map VInt bs).
Proof.
  intros I W E. assert (N : Forall (fun x => x <> VNil) (map VInt bs)). { apply List.Forall_forall. intros x Hx. apply in_map_iff in Hx as (z & <- & _). discriminate. }
  destruct (runs_array_to_list_exact (map VInt bs) _ (wf_entering name env s W) N) as (r & s' & R & G & L).
  exists r, s'. split; [|split; [exact (grows_into _ _ _ _ G)|exact L]].
  destruct I as [<-|[<-|[]]]; applies; unfold bytes_to_list_impl, need_bytes; cbn [arg nth];
  (eapply runs_bind; [apply runs_op; reflexivity|]; rewrite (bytes_some (entering _ env s) l bs E); eapply runs_bind; [exact R|apply runs_ret]).
Qed.
Lemma bytes_items s bs : Forall is_byte bs -> Forall2 (byte_item s) (map VInt bs) (map (fun z => [z]) bs).
Proof. intros F. induction F; cbn; constructor; auto. constructor. assumption. Qed.
Lemma concat_single {A} (l : list A) : List.concat (map (fun z => [z]) l) = l.
Proof. induction l as [|x l IH]; cbn; [reflexivity|]. rewrite IH. reflexivity. Qed.
Lemma items_bytes s bs bss : Forall2 (byte_item s) (map VInt bs) bss -> List.concat bss = bs.
Proof.
  revert bss. induction bs as [|b bs IH]; intros bss F; inversion F as [|? x ? bss' B F']; subst; [reflexivity|]. inversion B; subst. cbn. f_equal. auto.
Qed.
Lemma list_and_back v bs env s : wf_state s -> is_list s v (map VInt bs) -> bs <> [] -> Forall is_byte bs -> exists r s1 r' s2,
  applies "list->bytearray" [v] env s (Done (Ok r)) s1 /\ applies "bytearray->list" [r] env s1 (Done (Ok r')) s2 /\ is_list s2 r' (map VInt bs).
Proof.
  intros W L N F. destruct (run_make "list->bytearray" v (map VInt bs) env s) as [(bss & r & s1 & Fi & A & G & l & -> & _ & E)|(B & _)]; auto.
  - left. reflexivity.
  - destruct bs; [congruence|discriminate].
  - eapply items_known, bytes_items, F.
  - rewrite (items_bytes _ _ _ Fi) in E.
    destruct (run_bytes_list "bytearray->list" l bs env s1 (or_introl eq_refl) (wf_applies _ _ _ _ _ _ W A) E) as (r' & s2 & A2 & G2 & L2). eauto 10.
  - exfalso. apply B. eexists. apply bytes_items, F.
Qed.
Lemma bytes_and_back l bs env s : wf_state s -> s_bytes s !! (l : loc) = Some bs -> bs <> [] -> Forall is_byte bs -> exists r s1 r' s2,
  applies "bytearray->list" [VBytes l] env s (Done (Ok r)) s1 /\ applies "list->bytearray" [r] env s1 (Done (Ok r')) s2 /\ new_bytes s1 s2 r' bs.
Proof.
  intros W E N F. destruct (run_bytes_list "bytearray->list" l bs env s (or_introl eq_refl) W E) as (r & s1 & A & G & L).
  destruct (run_make "list->bytearray" r (map VInt bs) env s1) as [(bss & r' & s2 & Fi & A2 & G2 & Nb)|(B & _)]; auto.
  - left. reflexivity.
  - exact (wf_applies _ _ _ _ _ _ W A).
  - destruct bs; [congruence|discriminate].
  - eapply items_known, bytes_items, F.
  - rewrite (items_bytes _ _ _ Fi) in Nb. eauto 10.
  - exfalso. apply B. eexists. apply bytes_items, F.
Qed.
(** *** Positions *)
Lemma run_extract l bs i env s : s_bytes s !! (l : loc) = Some bs ->
  (exists b, 0 <= i /\ nth_error bs (Z.to_nat i) = Some b /\ applies "extract-byte" [VBytes l; VInt i] env s (Done (Ok (VInt b))) (entering "extract-byte" env s)) \/
  ((i < 0 \/ Z.of_nat (length bs) <= i) /\ exists m, applies "extract-byte" [VBytes l; VInt i] env s (Done (Err m)) (entering "extract-byte" env s)).
Proof.
  intros E. pose proof (bytes_some (entering "extract-byte" env s) l bs E) as E'. destruct (Z.leb_spec (Z.of_nat (length bs)) i) as [H|H].
  - right. split; [auto|]. eexists. applies. unfold extract_byte_impl, need_bytes. cbn [arg nth]. rstep. rewrite E'. rewrite (proj2 (Z.leb_le _ _)) by exact H. apply runs_ret.
  - destruct (Z.ltb_spec i 0) as [H0|H0].
    + right. split; [auto|]. eexists. applies. unfold extract_byte_impl, need_bytes. cbn [arg nth]. rstep. rewrite E'.
      rewrite (proj2 (Z.leb_gt _ _)) by exact H. rewrite (proj2 (Z.ltb_lt _ _)) by exact H0. apply runs_ret.
    + left. exists (nth (Z.to_nat i) bs 0). split; [exact H0|]. split; [apply nth_error_nth'; lia|]. applies. unfold extract_byte_impl, need_bytes. cbn [arg nth]. rstep. rewrite E'.
      rewrite (proj2 (Z.leb_gt _ _)) by exact H. rewrite (proj2 (Z.ltb_ge _ _)) by exact H0. apply runs_ret.
Qed.
Lemma replaced_set bs b : forall i, (i < length bs)%nat -> byte_replaced bs (Z.of_nat i) b (set_byte bs i b) /\ list_set bs i b = set_byte bs i b.
Proof.
  unfold set_byte. induction bs as [|x bs IH]; intros i L; [cbn in L; lia|]. destruct i as [|i].
  - split; [|reflexivity]. exists [], x, bs. auto.
  - cbn in L. destruct (IH i ltac:(lia)) as [(pre & y & post & E1 & E2 & E3) E4]. split.
    + exists (x :: pre), y, post. cbn [app firstn skipn]. split; [f_equal; exact E1|]. split; [cbn [length]; lia|]. f_equal. exact E3.
    + cbn [list_set firstn skipn app]. f_equal. exact E4.
Qed.
Lemma run_replace l bs i b env s : wf_state s -> s_bytes s !! (l : loc) = Some bs -> 0 <= i < Z.of_nat (length bs) -> is_byte b ->
  exists bs', byte_replaced bs i b bs' /\
  (exists r s', applies "replace-byte" [VBytes l; VInt i; VInt b] env s (Done (Ok r)) s' /\ grows s s' /\ new_bytes s s' r bs') /\
  applies "replace-byte!" [VBytes l; VInt i; VInt b] env s (Done (Ok (VBytes l))) (set_bytes (<[l := bs']> (s_bytes s)) (entering "replace-byte!" env s)).
Proof.
  intros W E I [B1 B2]. destruct (replaced_set bs b (Z.to_nat i)) as [Hr Hs]; [lia|]. rewrite Z2Nat.id in Hr by lia.
  exists (set_byte bs (Z.to_nat i) b). split; [exact Hr|]. split.
  - eexists (VBytes (s_next s)), _. split; [|split].
    + applies. unfold replace_byte_impl, need_bytes. cbn [arg nth]. rstep. rewrite (bytes_some (entering "replace-byte" env s) l bs E).
      rewrite (proj2 (Z.leb_gt _ _)) by lia. rewrite (proj2 (Z.ltb_ge _ _)) by lia. rewrite !(proj2 (Z.ltb_ge _ _)) by lia. cbn [orb]. rsteps.
    + apply (grows_into "replace-byte" env), (bytes_fresh (entering "replace-byte" env s)), wf_entering, W.
    + exists (s_next s). split; [reflexivity|]. split; [apply fresh_bytes, W|]. apply lookup_insert.
  - applies. unfold replace_byte_impl, need_bytes. cbn [arg nth]. rstep. rewrite (bytes_some (entering "replace-byte!" env s) l bs E).
    rewrite (proj2 (Z.leb_gt _ _)) by lia. rewrite (proj2 (Z.ltb_ge _ _)) by lia. rewrite !(proj2 (Z.ltb_ge _ _)) by lia. cbn [orb].
    eapply runs_bind; [|apply runs_ret]. apply runs_op. cbn [step_op]. rewrite (bytes_some (entering "replace-byte!" env s) l bs E), Hs.
    unfold put. change (s_bytes (entering "replace-byte!" env s)) with (s_bytes s). rewrite E. reflexivity.
Qed.
Lemma run_replace_bad name l bs i b env s : In name ["replace-byte"; "replace-byte!"] -> s_bytes s !! (l : loc) = Some bs ->
  ~ (0 <= i < Z.of_nat (length bs) /\ is_byte b) -> exists m, applies name [VBytes l; VInt i; VInt b] env s (Done (Err m)) (entering name env s).
Proof.
  intros I E H. pose proof (bytes_some (entering name env s) l bs E) as E'. unfold is_byte in H.
  destruct (Z.leb_spec (Z.of_nat (length bs)) i) as [H1|H1].
  { eexists. destruct I as [<-|[<-|[]]]; applies; unfold replace_byte_impl, need_bytes; cbn [arg nth]; rstep; rewrite E'; rewrite (proj2 (Z.leb_le _ _)) by exact H1; apply runs_ret. }
  destruct (Z.ltb_spec i 0) as [H2|H2].
  { eexists. destruct I as [<-|[<-|[]]]; applies; unfold replace_byte_impl, need_bytes; cbn [arg nth]; rstep; rewrite E'; rewrite (proj2 (Z.leb_gt _ _)) by exact H1; rewrite (proj2 (Z.ltb_lt _ _)) by exact H2; apply runs_ret. }
  assert (H3 : ((b <? 0) || (255 <? b))%bool = true). { destruct (Z.ltb_spec b 0); [reflexivity|]. destruct (Z.ltb_spec 255 b); [reflexivity|]. lia. }
  eexists. destruct I as [<-|[<-|[]]]; applies; unfold replace_byte_impl, need_bytes; cbn [arg nth]; rstep; rewrite E'; rewrite (proj2 (Z.leb_gt _ _)) by exact H1; rewrite (proj2 (Z.ltb_ge _ _)) by exact H2; rewrite H3; apply runs_ret.
Qed.
(** *** extract-bytes *)
Lemma runs_drop_bytes i l bs env s : s_bytes s !! (l : loc) = Some bs -> 0 <= i < Z.of_nat (length bs) ->
  runs denote (drop_impl [VInt i; VBytes l] env) s (Done (Ok (VBytes (s_next s)))) (set_bytes (<[s_next s := skipn (Z.to_nat i) bs]> (s_bytes s)) (bump s)).
Proof.
  intros E H. unfold drop_impl. cbn [arg nth integerp negb int_value]. rstep. rewrite (bytes_some _ _ _ E).
  rewrite (proj2 (Z.leb_gt _ _)) by lia. rewrite (proj2 (Z.ltb_ge _ _)) by lia. rsteps. apply runs_ret.
Qed.
Lemma runs_take_bytes n l bs env s : s_bytes s !! (l : loc) = Some bs -> 0 <= n ->
  runs denote (take_impl [VInt n; VBytes l] env) s (Done (Ok (VBytes (s_next s)))) (set_bytes (<[s_next s := firstn (Z.to_nat n) bs]> (s_bytes s)) (bump s)).
Proof.
  intros E H. unfold take_impl. cbn [arg nth integerp negb int_value]. rstep. rewrite (bytes_some _ _ _ E).
  destruct (Z.leb_spec (Z.of_nat (length bs)) n); [rewrite firstn_all2 by lia|rewrite (proj2 (Z.ltb_ge _ _)) by lia]; rsteps; apply runs_ret.
Qed.
Lemma run_extract_any l bs i n env s : wf_state s -> s_bytes s !! (l : loc) = Some bs -> 0 <= i < Z.of_nat (length bs) -> 0 <= n ->
  wrap64 (i + n) <= Z.of_nat (length bs) -> exists r s',
  applies "extract-bytes" [VBytes l; VInt i; VInt n] env s (Done (Ok r)) s' /\ grows s s' /\ new_bytes s s' r (firstn (Z.to_nat n) (skipn (Z.to_nat i) bs)).
Proof.
  intros W E H Hn Hw. set (s0 := entering "extract-bytes" env s). assert (W0 : wf_state s0) by apply wf_entering, W.
  set (s1 := set_bytes (<[s_next s0 := skipn (Z.to_nat i) bs]> (s_bytes s0)) (bump s0)).
  assert (W1 : wf_state s1) by apply wf_bytes_new, W0.
  exists (VBytes (s_next s1)), (set_bytes (<[s_next s1 := firstn (Z.to_nat n) (skipn (Z.to_nat i) bs)]> (s_bytes s1)) (bump s1)). split; [|split].
  - applies. fold s0. unfold extract_bytes_impl, need_bytes. cbn [arg nth]. rstep. rewrite (bytes_some s0 l bs E). cbv zeta.
    rewrite (proj2 (Z.ltb_ge i 0)) by lia. rewrite (proj2 (Z.leb_gt _ i)) by lia. cbn [orb]. rewrite (proj2 (Z.ltb_ge n 0)) by lia. rewrite (proj2 (Z.ltb_ge _ (wrap64 _))) by lia.
    eapply runs_bind_ok; [apply (runs_drop_bytes i l bs env s0 E H)|]. apply runs_take_bytes; [apply lookup_insert|exact Hn].
  - apply (grows_into "extract-bytes" env). eapply grows_trans; [apply (bytes_fresh s0), W0|apply (bytes_fresh s1), W1].
  - exists (s_next s1). split; [reflexivity|]. split; [|apply lookup_insert].
    destruct (s_bytes s !! s_next s1) as [x|] eqn:Q; [|exact Q]. exfalso. destruct (wf_bytes _ W _ _ Q) as [_ Q2]. cbn in Q2. lia.
Qed.
Lemma run_extract_bytes l bs i n env s : wf_state s -> s_bytes s !! (l : loc) = Some bs -> 0 <= i < Z.of_nat (length bs) -> 0 <= n ->
  i + n <= Z.of_nat (length bs) -> Z.of_nat (length bs) < 2 ^ 63 -> exists r s' pre mid post,
  applies "extract-bytes" [VBytes l; VInt i; VInt n] env s (Done (Ok r)) s' /\ grows s s' /\ new_bytes s s' r mid /\
  bs = pre ++ mid ++ post /\ Z.of_nat (length pre) = i /\ Z.of_nat (length mid) = n.
Proof.
  intros W E H Hn Hs Hb. destruct (run_extract_any l bs i n env s W E H Hn) as (r & s' & A & G & N).
  { rewrite ProofMath.wrap_same; [exact Hs|]. unfold SpecMath.int64. lia. }
  exists r, s', (firstn (Z.to_nat i) bs), (firstn (Z.to_nat n) (skipn (Z.to_nat i) bs)), (skipn (Z.to_nat n) (skipn (Z.to_nat i) bs)).
  repeat (split; [assumption|]). rewrite !firstn_skipn. split; [reflexivity|]. rewrite !firstn_length, skipn_length. split; lia.
Qed.
Lemma run_extract_bytes_bad l bs i n env s : s_bytes s !! (l : loc) = Some bs -> i < 0 \/ Z.of_nat (length bs) <= i \/ n < 0 \/ Z.of_nat (length bs) < i + n < 2 ^ 63 ->
  exists m, applies "extract-bytes" [VBytes l; VInt i; VInt n] env s (Done (Err m)) (entering "extract-bytes" env s).
Proof.
  intros E H. pose proof (bytes_some (entering "extract-bytes" env s) l bs E) as E'.
  destruct ((i <? 0) || (Z.of_nat (length bs) <=? i))%bool eqn:H1.
  { eexists. applies. unfold extract_bytes_impl, need_bytes. cbn [arg nth]. rstep. rewrite E'. cbv zeta. rewrite H1. apply runs_ret. }
  apply orb_false_iff in H1 as H1'. rewrite Z.ltb_ge, Z.leb_gt in H1'.
  destruct (Z.ltb_spec n 0) as [H2|H2].
  { eexists. applies. unfold extract_bytes_impl, need_bytes. cbn [arg nth]. rstep. rewrite E'. cbv zeta. rewrite H1. rewrite (proj2 (Z.ltb_lt _ _)) by exact H2. apply runs_ret. }
  eexists. applies. unfold extract_bytes_impl, need_bytes. cbn [arg nth]. rstep. rewrite E'. cbv zeta. rewrite H1. rewrite (proj2 (Z.ltb_ge _ _)) by exact H2.
  rewrite (proj2 (Z.ltb_lt _ (wrap64 _))); [apply runs_ret|]. rewrite ProofMath.wrap_same; [lia|]. unfold SpecMath.int64. lia.
Qed.
Lemma run_extract_overflow l bs i n env s : wf_state s -> s_bytes s !! (l : loc) = Some bs -> 0 <= i < Z.of_nat (length bs) -> Z.of_nat (length bs) < 2 ^ 63 ->
  n < 2 ^ 63 -> 2 ^ 63 <= i + n -> exists r s',
  applies "extract-bytes" [VBytes l; VInt i; VInt n] env s (Done (Ok r)) s' /\ new_bytes s s' r (skipn (Z.to_nat i) bs).
Proof.
  intros W E H Hb Hn Ho. destruct (run_extract_any l bs i n env s W E H) as (r & s' & A & G & N); [lia| |].
  { unfold wrap64, two63, two64. rewrite <- (Z_mod_plus_full _ (-1)). rewrite Z.mod_small; lia. }
  exists r, s'. split; [exact A|]. rewrite firstn_all2 in N; [exact N|]. rewrite skipn_length. lia.
Qed.
(** *** append-bytes *)
Lemma runs_appended l bs vs extra s : wf_state s -> s_bytes s !! (l : loc) = Some bs -> added_bytes s vs extra -> exists s1,
  runs denote (append_bytes_of (VBytes l :: vs)) s (Done (Ok (bs ++ extra))) s1 /\ grows s s1.
Proof.
  intros W E H. unfold append_bytes_of. cbn [arg nth need_bytes].
  assert (Fin : forall s1, grows s s1 -> runs denote (bs0 <- do_op (OBytesGet l);; ok (bs0 ++ extra)) s1 (Done (Ok (bs ++ extra))) s1).
  { intros s1 G. eapply runs_bind; [apply runs_op; reflexivity|]. rewrite (bytes_some s1 l bs (g_bytes _ _ G _ _ E)). apply runs_ret. }
  assert (Tail : forall vs bss, vs <> [] -> Forall2 (byte_item s) vs bss -> exists s1, grows s s1 /\
     runs denote (t <- tail_list 1 (VBytes l :: vs);; list_to_bytes t) s (Done (Ok (List.concat bss))) s1).
  { clear extra H Fin. intros vs' bss N F. unfold tail_list. cbn [skipn].
    destruct (runs_mk_tail vs' VNil [] s W (il_nil _)) as (t & ys & s1 & R & G & El & L). rewrite app_nil_r in L.
    rewrite (elems_no_nil _ _ _ El (items_no_nil _ _ _ F)) in L. exists s1. split; [exact G|]. eapply runs_bind; [exact R|].
    pose proof (items_grow _ _ _ _ G F) as F1.
    destruct (runs_list_to_bytes t vs' s1 L N (items_known _ _ _ F1)) as [(bss' & F' & R')|(B & _)]; [|exfalso; apply B; eauto].
    assert (bss' = bss); [|subst; exact R']. clear -F1 F'. revert bss' F'. induction F1 as [|v b vs bss B F IH]; intros bss' F'; inversion F' as [|? b' ? bss0 B' F0]; subst; [reflexivity|].
    f_equal; [|auto]. inversion B; subst; inversion B'; subst; congruence. }
  destruct H as [v xs bss L N F|vs bss N F].
  - destruct (runs_list_to_bytes v xs s L N (items_known _ _ _ F)) as [(bss' & F' & R')|(B & _)]; [|exfalso; apply B; eauto].
    assert (bss' = bss) as ->.
    { clear -F F'. revert bss' F'. induction F as [|v b vs bss B F IH]; intros bss' F'; inversion F' as [|? b' ? bss0 B' F0]; subst; [reflexivity|].
      f_equal; [|auto]. inversion B; subst; inversion B'; subst; congruence. }
    exists s. split; [|apply grows_refl]. eapply runs_bind_ok; [|apply Fin, grows_refl].
    pose proof (is_list_listp _ _ _ L) as Lp. inversion L; subst; cbn in Lp |- *; try exact R'.
  - destruct (Tail vs bss N F) as (s1 & G & R). destruct vs as [|v vs]; [congruence|]. destruct vs as [|v2 vs].
    + inversion F as [|? b ? bss0 B F0]; subst. inversion F0; subst. destruct B as [z Hz|o b Eo].
      * exists s1. split; [|exact G]. eapply runs_bind_ok; [exact R|]. apply Fin, G.
      * exists s. split; [|apply grows_refl]. eapply runs_bind_ok; [|apply Fin, grows_refl]. rstep. rewrite (bytes_some _ _ _ Eo). cbn [List.concat]. rewrite app_nil_r. apply runs_ret.
    + exists s1. split; [|exact G]. eapply runs_bind_ok; [|apply Fin, G]. destruct v; exact R.
Qed.
Lemma added_entering name env s vs bs : added_bytes s vs bs -> added_bytes (entering name env s) vs bs.
Proof.
  intros []; [eapply added_list; [apply is_list_entering; eassumption|assumption|]|apply added_args; [assumption|]]; (eapply items_grow; [apply grows_entering|assumption]).
Qed.
Lemma run_append_bytes l bs vs extra env s : wf_state s -> s_bytes s !! (l : loc) = Some bs -> added_bytes s vs extra ->
  (exists r s', applies "append-bytes" (VBytes l :: vs) env s (Done (Ok r)) s' /\ grows s s' /\ new_bytes s s' r (bs ++ extra)) /\
  (exists s1, grows s s1 /\ applies "append-bytes!" (VBytes l :: vs) env s (Done (Ok (VBytes l))) (set_bytes (<[l := bs ++ extra]> (s_bytes s1)) s1)).
Proof.
  intros W E H. split.
  - destruct (runs_appended l bs vs extra (entering "append-bytes" env s) (wf_entering _ _ _ W) E (added_entering _ _ _ _ _ H)) as (s1 & R & G).
    pose proof (wf_runs _ _ _ _ _ (wf_entering "append-bytes" env s W) R) as W1.
    exists (VBytes (s_next s1)). eexists. split; [|split].
    + applies. unfold append_bytes_impl. eapply runs_bind_ok; [exact R|]. rsteps.
    + eapply grows_trans; [exact (grows_into _ _ _ _ G)|]. apply bytes_fresh, W1.
    + exists (s_next s1). split; [reflexivity|]. split; [|apply lookup_insert].
      destruct (s_bytes s !! s_next s1) as [x|] eqn:Q; [|exact Q]. exfalso. destruct (wf_bytes _ W _ _ Q) as [_ Q2]. pose proof (g_next _ _ G) as Q3. cbn in Q3. lia.
  - destruct (runs_appended l bs vs extra (entering "append-bytes!" env s) (wf_entering _ _ _ W) E (added_entering _ _ _ _ _ H)) as (s1 & R & G).
    exists s1. split; [exact (grows_into _ _ _ _ G)|]. applies. unfold append_bytes_bang_impl. eapply runs_bind_ok; [exact R|]. cbn [arg nth].
    eapply runs_bind; [|apply runs_ret]. apply runs_op. cbn [step_op]. unfold put. rewrite (g_bytes _ _ G l bs E). reflexivity.
Qed.

(** A state with two bytearrays, a list of bytes, and a list that is not one. *)
Lemma bytes_sample s : wf_state s -> exists s' (l l2 : loc) v w, wf_state s' /\ s_bytes s' !! l = Some [1; 2; 255] /\ s_bytes s' !! l2 = Some [7] /\
  is_list s' v [VInt 0; VInt 255; VBytes l] /\ Forall2 (byte_item s') [VInt 0; VInt 255; VBytes l] [[0]; [255]; [1; 2; 255]] /\
  is_list s' w [VInt 256] /\ ~ (exists bss, Forall2 (byte_item s') [VInt 256] bss).
Proof.
  intros W. set (s1 := set_bytes (<[s_next s := [1; 2; 255]]> (s_bytes s)) (bump s)). assert (W1 : wf_state s1) by apply wf_bytes_new, W.
  assert (E1 : s_bytes s1 !! s_next s = Some [1; 2; 255]) by apply lookup_insert.
  set (s2 := set_bytes (<[s_next s1 := [7]]> (s_bytes s1)) (bump s1)). assert (W2 : wf_state s2) by apply wf_bytes_new, W1.
  assert (E2 : s_bytes s2 !! s_next s1 = Some [7]) by apply lookup_insert. assert (G2 : grows s1 s2) by apply bytes_fresh, W1.
  destruct (runs_array_to_list_exact [VInt 0; VInt 255; VBytes (s_next s)] s2 W2) as (v & s3 & R3 & G3 & L3). { repeat constructor; discriminate. }
  destruct (runs_array_to_list_exact [VInt 256] s3 (wf_runs _ _ _ _ _ W2 R3)) as (w & s4 & R4 & G4 & L4). { repeat constructor; discriminate. }
  exists s4, (s_next s), (s_next s1), v, w. split; [exact (wf_runs _ _ _ _ _ (wf_runs _ _ _ _ _ W2 R3) R4)|].
  assert (G : grows s2 s4) by exact (grows_trans _ _ _ G3 G4).
  assert (B1 : s_bytes s4 !! s_next s = Some [1; 2; 255]) by exact (g_bytes _ _ G _ _ (g_bytes _ _ G2 _ _ E1)).
  split; [exact B1|]. split; [exact (g_bytes _ _ G _ _ E2)|]. split; [exact (is_list_grows _ _ _ _ G4 L3)|]. split; [|split; [exact L4|]].
  - repeat (constructor; [constructor; unfold is_byte; lia|]). constructor; [constructor; exact B1|constructor].
  - intros (bss & F). inversion F as [|? ? ? ? B _]; subst. inversion B; subst. unfold is_byte in *. lia.
Qed.
