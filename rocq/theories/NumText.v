(** Facts about the text of integers and about ASCII text. *)
From Verif Require Export PrimMath BaseFacts.
Local Open Scope string_scope.
Local Open Scope list_scope.
Local Open Scope Z_scope.

Lemma byte_range c : 0 <= byte_of c < 256.
Proof. unfold byte_of. pose proof (N_ascii_bounded c). lia. Qed.
Lemma byte_of_ascii z : 0 <= z < 256 -> byte_of (ascii_of_byte z) = z.
Proof. intros H. unfold byte_of, ascii_of_byte. rewrite Z.mod_small by lia. rewrite N_ascii_embedding by lia. lia. Qed.
Lemma ascii_of_byte_of c : ascii_of_byte (byte_of c) = c.
Proof.
  unfold byte_of, ascii_of_byte. pose proof (N_ascii_bounded c). rewrite Z.mod_small by lia. rewrite N2Z.id. apply ascii_N_embedding.
Qed.
Lemma byte_inj a b : byte_of a = byte_of b -> a = b.
Proof. intros H. rewrite <- (ascii_of_byte_of a), <- (ascii_of_byte_of b), H. reflexivity. Qed.

(** *** ASCII text *)
Lemma decode_ascii l : Forall (fun b => 0 <= b < 128) l -> decode_go l 0 = l.
Proof.
  induction l as [|b l IH]; intros F; [reflexivity|]. cbn [decode_go decode_rune].
  inversion F; subst. destruct (Z.ltb_spec b 128); [|lia]. cbn. rewrite IH by assumption. reflexivity.
Qed.
Lemma runes_ascii s : is_ascii s = true -> runes_of_string s = bytes_of_string s.
Proof.
  intros H. apply decode_ascii. induction s as [|c s IH]; cbn in *; [constructor|].
  apply andb_true_iff in H. destruct H as [H1 H2]. unfold is_ascii_char in H1. apply Z.ltb_lt in H1.
  pose proof (byte_range c). constructor; [lia|auto].
Qed.
Lemma is_ascii_app a b : is_ascii (a +++ b) = is_ascii a && is_ascii b.
Proof. induction a as [|c a IH]; cbn; [reflexivity|]. rewrite IH, andb_assoc. reflexivity. Qed.
Lemma bytes_app a b : bytes_of_string (a +++ b) = bytes_of_string a ++ bytes_of_string b.
Proof. induction a as [|c a IH]; cbn; [reflexivity|]. rewrite IH. reflexivity. Qed.
Lemma str_app_nil_r a : a +++ "" = a.
Proof. induction a as [|c a IH]; cbn; [reflexivity|]. rewrite IH. reflexivity. Qed.
Lemma str_app_assoc a b c : (a +++ b) +++ c = a +++ (b +++ c).
Proof. induction a as [|x a IH]; cbn; [reflexivity|]. rewrite IH. reflexivity. Qed.

(** *** Digits *)
Lemma digit_byte d : 0 <= d < 16 -> byte_of (digit_char d) = if d <? 10 then 48 + d else 87 + d.
Proof. intros H. unfold digit_char. destruct (Z.ltb_spec d 10); apply byte_of_ascii; lia. Qed.
Lemma rune_digit_char base d : 2 <= base <= 16 -> 0 <= d < base -> rune_digit base (byte_of (digit_char d)) = Some d.
Proof.
  intros Hb Hd. rewrite digit_byte by lia. unfold rune_digit.
  destruct (Z.ltb_spec d 10).
  - replace ((48 <=? 48 + d) && (48 + d <=? 57)) with true by lia. replace (48 + d - 48) with d by lia.
    destruct (Z.ltb_spec d base); [reflexivity|lia].
  - replace ((48 <=? 87 + d) && (87 + d <=? 57)) with false by lia.
    replace ((97 <=? 87 + d) && (87 + d <=? 102)) with true by lia. replace (87 + d - 87) with d by lia.
    destruct (Z.ltb_spec d base); [reflexivity|lia].
Qed.
Definition digit_text (base : Z) (t : string) : Prop :=
  Forall (fun b => exists d, 0 <= d < base /\ b = byte_of (digit_char d)) (bytes_of_string t).
Lemma digits_pos_app fuel base : forall n acc, digits_pos fuel base n acc = digits_pos fuel base n "" +++ acc.
Proof.
  induction fuel as [|f IH]; intros n acc; cbn [digits_pos]; [reflexivity|].
  destruct (n <? base); [reflexivity|]. rewrite IH, (IH _ (String _ "")), str_app_assoc. reflexivity.
Qed.
Lemma digits_pos_spec base : 2 <= base <= 16 -> forall fuel n acc any,
  0 <= n -> n < 2 ^ Z.of_nat fuel -> (0 < fuel)%nat ->
  scan_number base (bytes_of_string (digits_pos fuel base n acc)) 0 any = scan_number base (bytes_of_string acc) n true.
Proof.
  intros Hb. induction fuel as [|f IH]; intros n acc any H0 H1 Hf; [lia|]. cbn [digits_pos].
  destruct (Z.ltb_spec n base).
  - cbn [bytes_of_string scan_number]. rewrite rune_digit_char by lia. reflexivity.
  - assert (1 <= n / base) by (apply Z.div_le_lower_bound; lia).
    assert (n / base < 2 ^ Z.of_nat f).
    { apply Z.div_lt_upper_bound; [lia|]. rewrite Nat2Z.inj_succ, Z.pow_succ_r in H1 by lia.
      apply Z.lt_le_trans with (2 * 2 ^ Z.of_nat f); [exact H1|]. apply Z.mul_le_mono_nonneg_r; lia. }
    assert (0 < f)%nat by (destruct f; [cbn in *; lia|lia]).
    rewrite IH by lia. cbn [bytes_of_string scan_number].
    pose proof (Z.mod_pos_bound n base ltac:(lia)). rewrite rune_digit_char by lia. f_equal.
    pose proof (Z.div_mod n base ltac:(lia)). lia.
Qed.
Lemma digits_pos_text base : 2 <= base <= 16 -> forall fuel n acc, 0 <= n ->
  digit_text base acc -> digit_text base (digits_pos fuel base n acc).
Proof.
  intros Hb. induction fuel as [|f IH]; intros n acc H0 Ha; cbn [digits_pos]; [exact Ha|].
  destruct (Z.ltb_spec n base).
  - constructor; [exists n; split; [lia|reflexivity]|exact Ha].
  - apply IH; [apply Z.div_pos; lia|]. constructor; [|exact Ha].
    exists (n mod base). split; [apply Z.mod_pos_bound; lia|reflexivity].
Qed.
Lemma digits_pos_nonempty base fuel n acc : (0 < fuel)%nat -> digits_pos fuel base n acc <> "".
Proof.
  revert n acc. induction fuel as [|f IH]; intros n acc Hf; [lia|]. cbn [digits_pos].
  destruct (n <? base); [discriminate|]. destruct f as [|f]; [discriminate|]. apply IH. lia.
Qed.
Lemma digit_text_ascii base t : base <= 16 -> digit_text base t -> is_ascii t = true.
Proof.
  intros Hb. unfold digit_text. induction t as [|c t IH]; cbn [bytes_of_string is_ascii]; intros H; [reflexivity|].
  inversion H as [|x l (d & D1 & D2) F]; subst. rewrite IH by exact F. rewrite andb_true_r.
  unfold is_ascii_char. rewrite D2. rewrite digit_byte by lia. destruct (Z.ltb_spec d 10); lia.
Qed.
(** The digits of a natural number. *)
Definition digits (base n : Z) : string := digits_pos (S (Z.to_nat (Z.log2 n))) base n "".
Lemma string_of_Z_base_eq base z :
  string_of_Z_base base z = if z <? 0 then String "-" (digits base (- z)) else digits base z.
Proof. reflexivity. Qed.
Lemma digits_scan base n any : 2 <= base <= 16 -> 0 <= n ->
  scan_number base (bytes_of_string (digits base n)) 0 any = (n, true).
Proof.
  intros Hb Hn. unfold digits. rewrite digits_pos_spec; try lia; [reflexivity|].
  rewrite Nat2Z.inj_succ, Z2Nat.id by apply Z.log2_nonneg. destruct (Z.eq_dec n 0) as [->|]; [reflexivity|].
  apply Z.log2_spec. lia.
Qed.
Lemma digits_text base n : 2 <= base <= 16 -> 0 <= n -> digit_text base (digits base n).
Proof. intros Hb Hn. apply digits_pos_text; [assumption|assumption|constructor]. Qed.
Lemma digits_nonempty base n : digits base n <> "".
Proof. apply digits_pos_nonempty. lia. Qed.
Lemma digits_ascii base n : 2 <= base <= 16 -> 0 <= n -> is_ascii (digits base n) = true.
Proof. intros Hb Hn. apply (digit_text_ascii base); [lia|apply digits_text; assumption]. Qed.
Lemma string_of_Z_ascii base z : 2 <= base <= 16 -> is_ascii (string_of_Z_base base z) = true.
Proof.
  intros Hb. rewrite string_of_Z_base_eq. destruct (Z.ltb_spec z 0); [|apply digits_ascii; lia].
  cbn [is_ascii]. rewrite digits_ascii by lia. reflexivity.
Qed.
(** The first byte of a digit text. *)
Lemma digit_byte_range d : 0 <= d < 16 -> 48 <= byte_of (digit_char d) <= 57 \/ 97 <= byte_of (digit_char d) <= 102.
Proof. intros H. rewrite digit_byte by lia. destruct (Z.ltb_spec d 10); lia. Qed.
Lemma not_space b : 48 <= b <= 102 -> (b =? 10) = false /\ fmt_space b = false.
Proof. intros H. unfold fmt_space. split; lia. Qed.
Lemma digits_head base n : 2 <= base <= 16 -> 0 <= n -> exists b l, bytes_of_string (digits base n) = b :: l /\
  (48 <= b <= 57 \/ 97 <= b <= 102).
Proof.
  intros Hb Hn. pose proof (digits_text base n Hb Hn) as T. pose proof (digits_nonempty base n) as N.
  unfold digit_text in T. destruct (digits base n) as [|c t]; [congruence|]. cbn [bytes_of_string] in *.
  inversion T as [|x l (d & D1 & D2) F]; subst. exists (byte_of c), (bytes_of_string t). split; [reflexivity|].
  rewrite D2. apply digit_byte_range. lia.
Qed.
(** Scanning the text of an integer gives the integer back. *)
Lemma sscanf_text base z : 2 <= base <= 16 -> in_int64 z = true -> sscanf_int base (string_of_Z_base base z) = Ok z.
Proof.
  intros Hb Hz. unfold sscanf_int. rewrite runes_ascii by (apply string_of_Z_ascii; lia).
  rewrite string_of_Z_base_eq. destruct (Z.ltb_spec z 0).
  - cbn [bytes_of_string skip_space]. change (byte_of "-") with 45. change (45 =? 10) with false. change (fmt_space 45) with false. change (45 =? 45) with true. cbn [orb].
    change (45 =? 45) with true. cbn [orb]. rewrite digits_scan by lia. cbn [negb]. replace (- - z) with z by lia. rewrite Hz. reflexivity.
  - destruct (digits_head base z Hb ltac:(lia)) as (b & l & E & R). pose proof (digits_scan base z false Hb ltac:(lia)) as S.
    rewrite E in *. cbn [skip_space]. destruct (not_space b ltac:(lia)) as [-> ->].
    destruct (Z.eqb_spec b 45); [lia|]. destruct (Z.eqb_spec b 43); [lia|]. cbn [orb].
    rewrite S. cbn [negb]. rewrite Hz. reflexivity.
Qed.
