(** Facts about Go string operations: prefixes, reversal, splitting and joining. *)
From Verif Require Export NumText BaseFacts.
Local Open Scope string_scope.
Local Open Scope list_scope.
Local Open Scope Z_scope.

Lemma rev_onto s : forall acc, str_rev_onto s acc = str_rev s +++ acc.
Proof.
  unfold str_rev. induction s as [|c s IH]; intros acc; cbn [str_rev_onto]; [reflexivity|].
  rewrite IH, (IH (String c "")), str_app_assoc. reflexivity.
Qed.
Lemma str_rev_cons c s : str_rev (String c s) = str_rev s +++ String c "".
Proof. unfold str_rev at 1. cbn [str_rev_onto]. apply rev_onto. Qed.
Lemma str_rev_app a b : str_rev (a +++ b) = str_rev b +++ str_rev a.
Proof.
  induction a as [|c a IH]; cbn [str_app]; [symmetry; apply str_app_nil_r|].
  rewrite !str_rev_cons, IH, str_app_assoc. reflexivity.
Qed.
Lemma str_rev_rev s : str_rev (str_rev s) = s.
Proof. induction s as [|c s IH]; [reflexivity|]. rewrite str_rev_cons, str_rev_app, IH. reflexivity. Qed.
Lemma str_len_app a b : str_len (a +++ b) = str_len a + str_len b.
Proof. induction a as [|c a IH]; cbn [str_app str_len]; [reflexivity|]. rewrite IH. lia. Qed.
Lemma str_len_nonneg s : 0 <= str_len s.
Proof. induction s; cbn [str_len]; lia. Qed.
Lemma str_len_rev s : str_len (str_rev s) = str_len s.
Proof. induction s as [|c s IH]; [reflexivity|]. rewrite str_rev_cons, str_len_app, IH. cbn [str_len]. lia. Qed.
Lemma str_app_inj_l a b c : a +++ b = a +++ c -> b = c.
Proof. induction a as [|x a IH]; cbn [str_app]; [auto|]. intros [= H]. auto. Qed.
Lemma str_app_inj_r a b c : b +++ a = c +++ a -> b = c.
Proof. intros H. apply (f_equal str_rev) in H. rewrite !str_rev_app in H. apply str_app_inj_l in H. apply (f_equal str_rev) in H. rewrite !str_rev_rev in H. exact H. Qed.
Lemma strip_prefix_spec p : forall s r, strip_prefix p s = Some r <-> s = p +++ r.
Proof.
  induction p as [|c p IH]; intros s r; cbn [strip_prefix str_app].
  - split; [intros [= ->]; reflexivity|intros ->; reflexivity].
  - destruct s as [|d s]; [split; discriminate|]. destruct (Ascii.eqb_spec c d) as [<-|N].
    + rewrite IH. split; [intros ->; reflexivity|intros [= ->]; reflexivity].
    + split; [discriminate|intros [= -> _]; congruence].
Qed.
Lemma has_prefix_spec p s : has_prefix p s = true <-> exists r, s = p +++ r.
Proof.
  unfold has_prefix. destruct (strip_prefix p s) as [r|] eqn:E.
  - apply strip_prefix_spec in E. split; [intros _; exists r; exact E|reflexivity].
  - split; [discriminate|]. intros (r & H). apply strip_prefix_spec in H. congruence.
Qed.
Lemma has_suffix_spec p s : has_suffix p s = true <-> exists r, s = r +++ p.
Proof.
  unfold has_suffix. rewrite has_prefix_spec. split; intros (r & H).
  - exists (str_rev r). apply (f_equal str_rev) in H. rewrite str_rev_rev, str_rev_app, str_rev_rev in H. exact H.
  - exists (str_rev r). rewrite H. apply str_rev_app.
Qed.
Lemma contains_spec p s : str_contains s p = true <-> exists a b, s = a +++ p +++ b.
Proof.
  induction s as [|c s IH]; cbn [str_contains]; rewrite orb_true_iff, has_prefix_spec.
  - split; [intros [(r & H)|H]; [exists "", r; exact H|discriminate]|].
    intros (a & b & H). left. destruct a; [exists b; exact H|discriminate].
  - rewrite IH. split.
    + intros [(r & H)|(a & b & H)]; [exists "", r; exact H|]. exists (String c a), b. rewrite H. reflexivity.
    + intros (a & b & H). destruct a as [|d a]; [left; exists b; exact H|]. injection H as -> H. right. exists a, b. exact H.
Qed.

(** *** Splitting *)
Lemma split_skip sep a : forall s cur, split_go sep (a +++ s) (Z.to_nat (str_len a)) cur = split_go sep s 0 cur.
Proof.
  induction a as [|c a IH]; intros s cur; cbn [str_app str_len]; [reflexivity|].
  pose proof (str_len_nonneg a). replace (Z.to_nat (1 + str_len a)) with (S (Z.to_nat (str_len a))) by lia. cbn [split_go]. apply IH.
Qed.
Lemma split_at sep s cur : sep <> "" -> split_go sep (sep +++ s) 0 cur = str_rev cur :: split_go sep s 0 "".
Proof.
  intros N. destruct sep as [|c sep]; [congruence|]. cbn [str_app split_go].
  change (String c (sep +++ s)) with (String c sep +++ s). rewrite (proj2 (has_prefix_spec _ _)) by (exists s; reflexivity). f_equal.
  rewrite <- (split_skip (String c sep) sep s ""). f_equal. cbn [str_len]. pose proof (str_len_nonneg sep). lia.
Qed.
Lemma split_nonempty sep s : forall k cur, split_go sep s k cur <> [].
Proof. induction s as [|c s IH]; intros [|k] cur; cbn [split_go]; try discriminate; [destruct (has_prefix _ _); [discriminate|]|]; apply IH. Qed.
Lemma str_join_cons sep x l : l <> [] -> str_join sep (x :: l) = x +++ sep +++ str_join sep l.
Proof. destruct l; [congruence|reflexivity]. Qed.
Lemma join_split sep : sep <> "" -> forall n s cur, (Z.to_nat (str_len s) <= n)%nat -> str_join sep (split_go sep s 0 cur) = str_rev cur +++ s.
Proof.
  intros N. induction n as [|n IH]; intros s cur L.
  - destruct s as [|c s]; [cbn; rewrite str_app_nil_r; reflexivity|]. cbn [str_len] in L. pose proof (str_len_nonneg s). lia.
  - destruct s as [|c s]; [cbn; rewrite str_app_nil_r; reflexivity|].
    destruct (has_prefix sep (String c s)) eqn:P.
    + apply has_prefix_spec in P. destruct P as (r & P). rewrite P, split_at by exact N. rewrite str_join_cons by apply split_nonempty.
      rewrite IH; [cbn; reflexivity|]. apply (f_equal str_len) in P. rewrite str_len_app in P.
      assert (1 <= str_len sep) by (destruct sep; [congruence|]; cbn [str_len]; pose proof (str_len_nonneg sep); lia). lia.
    + cbn [split_go]. rewrite P. rewrite IH by (cbn [str_len] in L; pose proof (str_len_nonneg s); lia).
      rewrite str_rev_cons, str_app_assoc. reflexivity.
Qed.
(** A piece contains no separator: in [split_go] the pending text [cur] has no occurrence, also across its end. *)
Fixpoint str_avoids (c : ascii) (s : string) : bool :=
  match s with EmptyString => true | String d t => negb (Ascii.eqb c d) && str_avoids c t end.
Lemma split_one c x : str_avoids c x = true -> forall s cur,
  split_go (String c "") (x +++ s) 0 cur = split_go (String c "") s 0 (str_rev x +++ cur).
Proof.
  induction x as [|d x IH]; intros A s cur; cbn [str_app]; [reflexivity|]. cbn [str_avoids] in A.
  apply andb_true_iff in A. destruct A as [A1 A2]. cbn [split_go]. unfold has_prefix. cbn [strip_prefix].
  destruct (Ascii.eqb c d); [discriminate|].
  rewrite IH by exact A2. rewrite str_rev_cons, str_app_assoc. reflexivity.
Qed.
Lemma split_join c l : l <> [] -> Forall (fun x => str_avoids c x = true) l -> split_go (String c "") (str_join (String c "") l) 0 "" = l.
Proof.
  induction l as [|x l IH]; intros N F; [congruence|]. destruct l as [|y l].
  - cbn [str_join]. rewrite <- (str_app_nil_r x) at 1. rewrite split_one by exact (Forall_inv F). cbn. rewrite str_app_nil_r, str_rev_rev. reflexivity.
  - rewrite str_join_cons by discriminate. rewrite split_one by exact (Forall_inv F). rewrite str_app_nil_r.
    rewrite split_at by discriminate. rewrite str_rev_rev. f_equal. apply IH; [discriminate|exact (Forall_inv_tail F)].
Qed.
