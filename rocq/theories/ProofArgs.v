(** Proof of C36: what an argument-count specification accepts. *)
From Verif Require Export SpecEval StrFacts.
Local Open Scope string_scope.
Local Open Scope list_scope.
Local Open Scope Z_scope.

Lemma digit10 c d : 0 <= d < 10 -> byte_of c = byte_of (digit_char d) -> byte_of c = 48 + d.
Proof. intros H ->. rewrite digit_byte by lia. destruct (Z.ltb_spec d 10); lia. Qed.
Lemma digit_text_all s : digit_text 10 s -> all_digits s = true.
Proof.
  unfold digit_text. induction s as [|c s IH]; intros H; cbn [all_digits bytes_of_string] in *; [reflexivity|].
  inversion H as [|x l (d & D1 & D2) F]; subst. rewrite IH by exact F. pose proof (digit10 c d D1 D2). unfold is_digit. lia.
Qed.
Lemma digit_text_value s : digit_text 10 s -> forall acc any, dec_value s acc = fst (scan_number 10 (bytes_of_string s) acc any).
Proof.
  unfold digit_text. induction s as [|c s IH]; intros H acc any; cbn [dec_value bytes_of_string scan_number] in *; [reflexivity|].
  inversion H as [|x l (d & D1 & D2) F]; subst. rewrite D2, rune_digit_char by lia. rewrite <- D2, (digit10 c d D1 D2).
  rewrite (IH F _ true). f_equal. f_equal. lia.
Qed.
Lemma text_nonneg n : 0 <= n -> string_of_Z n = digits 10 n.
Proof. intros H. unfold string_of_Z. rewrite string_of_Z_base_eq. destruct (Z.ltb_spec n 0); [lia|reflexivity]. Qed.
Lemma text_digits n : 0 <= n -> digit_text 10 (string_of_Z n).
Proof. intros H. rewrite text_nonneg by exact H. apply digits_text; lia. Qed.
Lemma text_scan n : 0 <= n <= int64_max -> scan_int (string_of_Z n) = Some n.
Proof.
  intros H. unfold scan_int. rewrite (digit_text_value _ (text_digits n ltac:(lia)) 0 false). rewrite text_nonneg, digits_scan by lia.
  cbn [fst]. destruct (Z.leb_spec n int64_max); [reflexivity|lia].
Qed.
Lemma text_nonempty n : 0 <= n -> exists c t, string_of_Z n = String c t.
Proof. intros H. rewrite text_nonneg by exact H. pose proof (digits_nonempty 10 n). destruct (digits 10 n); [congruence|eauto]. Qed.
Lemma all_digits_avoid c s : is_digit c = false -> all_digits s = true -> str_avoids c s = true.
Proof.
  intros D. induction s as [|d s IH]; cbn [all_digits str_avoids]; [reflexivity|]. rewrite !andb_true_iff. intros [H1 H2]. split; [|auto].
  destruct (Ascii.eqb_spec c d) as [->|]; [congruence|reflexivity].
Qed.
Lemma span_all s r : all_digits s = true -> (match r with EmptyString => true | String c _ => negb (is_digit c) end) = true -> span_digits (s +++ r) = (s, r).
Proof.
  intros H N. induction s as [|c s IH]; cbn [str_app span_digits all_digits] in *.
  - destruct r as [|c r]; [reflexivity|]. cbn [span_digits]. destruct (is_digit c); [discriminate|reflexivity].
  - apply andb_true_iff in H. destruct H as [H1 H2]. rewrite H1, IH by exact H2. reflexivity.
Qed.
Definition restriction_of (t : count_term) : arg_restriction :=
  match t with AnyCount => ArgsAny | Exactly n => ArgsEq n | AtLeast n => ArgsGte n | Between lo hi => ArgsRange lo hi end.
Lemma parse_term_text t : sane t -> t <> AnyCount -> parse_term (term_text t) = Some (restriction_of t) /\ str_eqb (term_text t) "*" = false.
Proof.
  intros S N. destruct t as [|n|n|lo hi]; [congruence| | |]; cbn [sane term_text restriction_of] in *.
  - destruct (text_nonempty n ltac:(lia)) as (c & r & E). pose proof (digit_text_all _ (text_digits n ltac:(lia))) as D. split.
    + unfold parse_term. assert (J : is_just_num (string_of_Z n) = true) by (rewrite E in *; exact D). rewrite J, text_scan by lia. reflexivity.
    + rewrite E in *. destruct (str_eqb_spec (String c r) "*") as [H|]; [|reflexivity]. injection H as -> ->. discriminate.
  - destruct (text_nonempty n ltac:(lia)) as (c & r & E). pose proof (digit_text_all _ (text_digits n ltac:(lia))) as D. split; [|reflexivity].
    unfold parse_term. change (is_just_num (">=" +++ string_of_Z n)) with false. cbv iota.
    assert (J : is_gte (">=" +++ string_of_Z n) = true) by (rewrite E in *; exact D). rewrite J.
    change (str_drop 2 (">=" +++ string_of_Z n)) with (string_of_Z n). rewrite text_scan by lia. reflexivity.
  - destruct S as [S1 S2]. split; [|reflexivity]. unfold parse_term.
    change (is_just_num ("(" +++ string_of_Z lo +++ "," +++ string_of_Z hi +++ ")")) with false.
    change (is_gte ("(" +++ string_of_Z lo +++ "," +++ string_of_Z hi +++ ")")) with false. cbv iota.
    destruct (text_nonempty lo ltac:(lia)) as (c1 & r1 & E1), (text_nonempty hi ltac:(lia)) as (c2 & r2 & E2).
    assert (R : range_parts ("(" +++ string_of_Z lo +++ "," +++ string_of_Z hi +++ ")") = Some (string_of_Z lo, string_of_Z hi)).
    { cbn [range_parts str_app]. rewrite (span_all (string_of_Z lo) (String "," (string_of_Z hi +++ ")"))); [|apply digit_text_all, text_digits; lia|reflexivity].
      rewrite E1. rewrite (span_all (string_of_Z hi) ")"); [|apply digit_text_all, text_digits; lia|reflexivity]. rewrite E2. reflexivity. }
    rewrite R, !text_scan by lia. reflexivity.
Qed.
Lemma term_avoids t : sane t -> str_avoids "|" (term_text t) = true.
Proof.
  assert (A : forall a b, str_avoids "|" (a +++ b) = str_avoids "|" a && str_avoids "|" b).
  { intros a b. induction a as [|c a IH]; cbn [str_app str_avoids]; [reflexivity|]. rewrite IH, andb_assoc. reflexivity. }
  assert (N : forall n, 0 <= n -> str_avoids "|" (string_of_Z n) = true).
  { intros n H. apply all_digits_avoid; [reflexivity|]. apply digit_text_all, text_digits, H. }
  intros S. destruct t as [|n|n|lo hi]; cbn [sane term_text] in *; [reflexivity|apply N; lia| |]; rewrite ?A, ?N by lia; reflexivity.
Qed.
Lemma check_app a b n : check_count (a ++ b) n = check_count a n || check_count b n.
Proof. induction a as [|[|k|k|lo hi] a IH]; cbn [check_count app]; [reflexivity|reflexivity| | |]; match goal with |- context[if ?b then _ else _] => destruct b end; auto. Qed.
Lemma check_one t n : check_count [restriction_of t] (Z.of_nat n) = true <-> admits t n.
Proof.
  destruct t as [|k|k|lo hi]; cbn [restriction_of check_count admits]; [tauto| | |].
  - destruct (Z.eqb_spec (Z.of_nat n) k); [tauto|split; [discriminate|congruence]].
  - destruct (Z.leb_spec k (Z.of_nat n)); [tauto|split; [discriminate|lia]].
  - destruct (Z.leb_spec lo (Z.of_nat n)), (Z.leb_spec (Z.of_nat n) hi); cbn [andb]; split; try discriminate; try lia; reflexivity.
Qed.
Lemma parse_terms_text ts : Forall sane ts -> forall acc n,
  check_count (parse_terms (map term_text ts) acc) (Z.of_nat n) = true <-> check_count acc (Z.of_nat n) = true /\ ~ In AnyCount ts \/ accepts ts n.
Proof.
  unfold accepts. induction ts as [|t ts IH]; intros S acc n; cbn [map parse_terms].
  - cbn. split; [intros H; left; tauto|intros [H|(x & [] & _)]; apply H].
  - assert (D : t = AnyCount \/ t <> AnyCount) by (destruct t; [left; reflexivity|right; discriminate|right; discriminate|right; discriminate]).
    destruct D as [->|N].
    + cbn [term_text]. change (str_eqb "*" "*") with true. cbv iota. cbn [check_count]. split; [intros _; right|reflexivity].
      exists AnyCount. split; [left; reflexivity|exact I].
    + destruct (parse_term_text t (Forall_inv S) N) as [E1 E2]. rewrite E1, E2, IH by exact (Forall_inv_tail S).
      rewrite check_app, orb_true_iff, check_one. split.
      * intros [[[H|H] Hn]|(x & Hx & Hn)].
        -- left. split; [exact H|]. intros [E|E]; [congruence|auto].
        -- right. exists t. split; [left; reflexivity|exact H].
        -- right. exists x. split; [right; exact Hx|exact Hn].
      * intros [[H Hn]|(x & [<-|Hx] & Ha)].
        -- left. split; [left; exact H|]. intros E. apply Hn. right. exact E.
        -- destruct (in_dec (fun a b : count_term => ltac:(repeat decide equality)) AnyCount ts) as [I1|I1].
           ++ right. exists AnyCount. split; [exact I1|exact I].
           ++ left. split; [right; exact Ha|exact I1].
        -- right. exists x. split; assumption.
Qed.
Lemma counts_iff ts n : Forall sane ts -> check_count (parse_num_args (counts_text ts)) (Z.of_nat n) = true <-> accepts ts n.
Proof.
  intros S. unfold parse_num_args, counts_text. destruct ts as [|t ts].
  - cbn. unfold accepts. split; [discriminate|intros (x & [] & _)].
  - rewrite split_join; [|discriminate|].
    + rewrite parse_terms_text by exact S. split; [intros [[H _]|H]; [discriminate|exact H]|auto].
    + apply Forall_forall. intros x Hx. apply in_map_iff in Hx. destruct Hx as (y & <- & Hy). rewrite Forall_forall in S. apply term_avoids, S, Hy.
Qed.
