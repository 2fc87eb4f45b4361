(** Proofs of C43. *)
From Coq Require Import SpecFloat.
From Verif Require Import ProofRead ProofPrint ProofFrame ProofList ProofData NumText StrFacts.
From Verif Require Import Json SpecJson.
Local Open Scope string_scope.
Local Open Scope list_scope.
Local Open Scope Z_scope.

(** ** Integers as float64 *)
Lemma digits2_log2 p : Zpos (digits2_pos p) = Z.log2 (Zpos p) + 1.
Proof. assert (E : forall p, digits2_pos p = Pos.size p) by (intros q; induction q as [q IH|q IH|]; cbn; congruence). rewrite E. destruct p; cbn; lia. Qed.
Lemma f64_int (neg : bool) n : 0 < n < 2 ^ 53 -> exists p j, f64_of_ratio neg n 1 = S754_finite neg p (- j) /\ 0 <= j /\ Zpos p = n * 2 ^ j.
Proof.
  intros H. set (L := Z.log2 n). assert (HL : 0 <= L <= 52). { split; [apply Z.log2_nonneg|]. assert (L < 53); [|lia]. apply Z.log2_lt_pow2; lia. }
  assert (P : 0 < n * 2 ^ (52 - L)) by (apply Z.mul_pos_pos; [lia|apply Z.pow_pos_nonneg; lia]).
  destruct (n * 2 ^ (52 - L)) as [|p|p] eqn:E; try lia. exists p, (52 - L). split; [|split; [lia|congruence]].
  unfold f64_of_ratio. rewrite (proj2 (Z.eqb_neq n 0)) by lia. fold L. change (Z.log2 1) with 0. rewrite Z.max_r by lia.
  assert (Em : 2 * (n * 2 ^ (56 + 0 - L) / 1) = Zpos p~0~0~0~0~0). { rewrite Z.div_1_r. replace (56 + 0 - L) with (4 + (52 - L)) by lia. rewrite Z.pow_add_r by lia. transitivity (2 * 2 ^ 4 * (n * 2 ^ (52 - L))); [ring|]. rewrite E. lia. }
  rewrite Z.mod_1_r. cbn [Z.eqb]. cbv zeta. rewrite Em, Z.add_0_r.
  assert (Lp : Z.log2 (Zpos p) = 52). { rewrite <- E, Z.log2_mul_pow2 by lia. fold L. lia. }
  assert (D : Zpos (digits2_pos p) = 53) by (rewrite digits2_log2; lia).
  assert (R : binary_round 53 1024 neg p~0~0~0~0~0 (- (56 + 0 - L) - 1) = S754_finite neg p (- (52 - L))).
  { unfold binary_round. change (digits2_pos p~0~0~0~0~0) with (Pos.succ (Pos.succ (Pos.succ (Pos.succ (Pos.succ (digits2_pos p)))))).
    assert (D5 : Zpos (Pos.succ (Pos.succ (Pos.succ (Pos.succ (Pos.succ (digits2_pos p)))))) = 58) by lia. rewrite D5.
    assert (F : fexp 53 1024 (58 + (- (56 + 0 - L) - 1)) = L - 52) by (unfold fexp, emin; lia). rewrite F.
    unfold shl_align. replace (L - 52 - (- (56 + 0 - L) - 1)) with 5 by lia. unfold binary_round_aux, shr_fexp at 1.
    change (Zdigits2 (Zpos p~0~0~0~0~0)) with (Zpos (Pos.succ (Pos.succ (Pos.succ (Pos.succ (Pos.succ (digits2_pos p))))))). rewrite D5, F. replace (L - 52 - (- (56 + 0 - L) - 1)) with 5 by lia.
    cbn [shr shr_record_of_loc iter_pos shr_1 orb shr_m loc_of_shr_record round_nearest_even]. unfold shr_fexp. change (Zdigits2 (Zpos p)) with (Zpos (digits2_pos p)). rewrite D.
    replace (fexp 53 1024 (53 + (- (56 + 0 - L) - 1 + 5)) - (- (56 + 0 - L) - 1 + 5)) with 0 by (unfold fexp, emin; lia). cbn [shr shr_record_of_loc shr_m].
    rewrite (proj2 (Z.leb_le _ _)) by lia. f_equal. lia. }
  destruct neg; exact R.
Qed.
Lemma number_exact (neg : bool) n : 0 <= n <= 2 ^ 53 -> number_to_lisp (f64_of_ratio neg n 1) = VInt (if neg then - n else n) /\ f32_is_inf (f64_of_ratio neg n 1) = false.
Proof.
  intros H. destruct (Z.eq_dec n 0) as [->|N0]; [destruct neg; split; reflexivity|]. destruct (Z.eq_dec n (2 ^ 53)) as [->|N1]; [destruct neg; split; vm_compute; reflexivity|].
  destruct (f64_int neg n) as (p & j & E & J & P); [lia|]. rewrite E. split; [|reflexivity]. unfold number_to_lisp, f_integral, int64_of_f32, f32_trunc.
  rewrite Z.opp_involutive.
  assert (I : (0 <=? - j) || (Z.land (Zpos p) (2 ^ j - 1) =? 0) = true). { apply orb_true_iff. right. apply Z.eqb_eq. rewrite Z.sub_1_r, <- Z.ones_equiv, Z.land_ones, P by lia. apply Z.mod_mul. pose proof (Z.pow_pos_nonneg 2 j); lia. }
  rewrite I. assert (S : (if 0 <=? - j then Z.shiftl (Zpos p) (- j) else Z.shiftr (Zpos p) j) = n).
  { destruct (Z.leb_spec 0 (- j)).
    - replace j with 0 in * by lia. change (- 0) with 0. rewrite Z.shiftl_0_r, P. lia.
    - rewrite Z.shiftr_div_pow2, P by lia. apply Z.div_mul. pose proof (Z.pow_pos_nonneg 2 j); lia. }
  cbv zeta. rewrite S. assert (B : in_int64 (if neg then - n else n) = true). { unfold in_int64. change int64_min with (-9223372036854775808). change int64_max with 9223372036854775807. change (2 ^ 53) with 9007199254740992 in H. destruct neg; lia. }
  rewrite B. reflexivity.
Qed.

(** ** Reading texts *)
Local Notation B := bytes_of_string.
Lemma skip_space w r : space w -> skip_ws (B w ++ r) = skip_ws r.
Proof. intros H. induction H as [|c t I H IH]; [reflexivity|]. cbn [bytes_of_string app skip_ws]. replace (json_space (byte_of c)) with true; [exact IH|]. cbn in I. intuition (subst; reflexivity). Qed.
(** *** Strings *)
Fixpoint hexv (bs : list Z) (acc : Z) : option Z :=
  match bs with [] => Some acc | b :: r => match hex_val b with Some d => hexv r (acc * 16 + d) | None => None end end.
Lemma hexv_app a b acc : hexv (a ++ b) acc = match hexv a acc with Some v => hexv b v | None => None end.
Proof. revert acc. induction a as [|x a IH]; intros acc; cbn [hexv app]; [reflexivity|]. destruct (hex_val x); [apply IH|reflexivity]. Qed.
Lemma hex_table c d : In (c, d) digit_table -> hex_val (byte_of c) = Some d.
Proof. cbn [digit_table In]. intros H. repeat (destruct H as [H|H]; [injection H as <- <-; reflexivity|]). contradiction. Qed.
Lemma hexv_written h n : written 16 h n -> hexv (B h) 0 = Some n.
Proof.
  intros W. induction W as [c d T L|t n c d W IH T L].
  - cbn. rewrite (hex_table _ _ T). reflexivity.
  - rewrite bytes_app, hexv_app, IH. cbn. rewrite (hex_table _ _ T). reflexivity.
Qed.
Lemma bytes_len h : Z.of_nat (length (B h)) = str_len h.
Proof. induction h as [|c h IH]; [reflexivity|]. cbn [bytes_of_string length str_len]. lia. Qed.
Lemma hex4_written h n : written 16 h n -> str_len h = 4 -> exists a b c d, B h = [a; b; c; d] /\ hex4 a b c d = Some n.
Proof.
  intros W L. pose proof (hexv_written _ _ W) as H. pose proof (bytes_len h) as Q. rewrite L in Q. destruct (B h) as [|a [|b [|c [|d [|? ?]]]]]; cbn in Q; try lia.
  exists a, b, c, d. split; [reflexivity|]. unfold hex4. cbn [hexv] in H. destruct (hex_val a); [|discriminate]. destruct (hex_val b); [|discriminate]. destruct (hex_val c); [|discriminate]. destruct (hex_val d); [|discriminate]. cbn [opt_bind]. exact H.
Qed.
Definition plain_byte (b : Z) : Prop := 32 <= b /\ b <> 34 /\ b <> 92.
Lemma string_plain bs r acc : Forall plain_byte bs -> json_string (bs ++ r) acc = json_string r (rev_append bs acc).
Proof.
  intros F. revert acc. induction F as [|b bs (H1 & H2 & H3) F IH]; intros acc; [reflexivity|]. cbn [app json_string rev_append].
  rewrite (proj2 (Z.eqb_neq b 34) H2), (proj2 (Z.ltb_ge b 32) H1), (proj2 (Z.eqb_neq b 92) H3). apply IH.
Qed.
Lemma encode_plain c : scalar c -> 32 <= c -> c <> 34 -> c <> 92 -> Forall plain_byte (encode_rune c).
Proof.
  intros S H1 H2 H3. assert (D : forall k, 0 <= k mod 64 < 64) by (intros; apply Z.mod_pos_bound; lia). unfold encode_rune, plain_byte. rewrite (proj2 (Z.leb_le 0 c)) by lia. cbn [andb].
  destruct (Z.ltb_spec c 128); [repeat constructor; lia|]. assert (forall k, 0 < k -> 0 <= c / k) by (intros; apply Z.div_pos; lia). pose proof (D c). pose proof (D (c / 64)). pose proof (D (c / 4096)).
  pose proof (H0 64). pose proof (H0 4096). pose proof (H0 262144).
  destruct ((128 <=? c) && (c <? 2048)); [repeat constructor; lia|]. destruct (((2048 <=? c) && (c <? 55296)) || ((57344 <=? c) && (c <? 65536)))%bool; [repeat constructor; lia|].
  destruct ((65536 <=? c) && (c <=? 1114111)); repeat constructor; lia.
Qed.
Lemma bytes_rune c : B (string_of_runes [c]) = encode_rune c.
Proof. unfold string_of_runes. cbn [encode_runes]. rewrite app_nil_r. apply bytes_of_bytes, encode_bytes. Qed.
Lemma read_spelled rs body : spelled rs body -> forall r acc, json_string (B body ++ 34 :: r) acc = Some (rev acc ++ encode_runes rs, r).
Proof.
  intros H. induction H as [|c rs t S C1 C2 C3 H IH|e c rs t I H IH|h c rs t W L S H IH|h1 h2 u v rs t W1 L1 R1 W2 L2 R2 H IH]; intros r acc.
  - cbn. rewrite app_nil_r. reflexivity.
  - rewrite bytes_app, bytes_rune, <- app_assoc, string_plain by (apply encode_plain; assumption). rewrite IH. cbn [encode_runes]. rewrite rev_append_rev, rev_app_distr, rev_involutive, <- app_assoc. reflexivity.
  - cbn [str_app bytes_of_string app]. change (byte_of "\") with 92.
    assert (E : byte_of e <> 117 /\ simple_escape (byte_of e) = Some c /\ encode_rune c = [c]). { cbn [escapes In] in I. repeat (destruct I as [I|I]; [injection I as <- <-; repeat split; discriminate|]). contradiction. }
    destruct E as (E1 & E2 & E3). cbn [json_string Z.eqb Pos.eqb Z.ltb Z.compare Pos.compare Pos.compare_cont]. rewrite (proj2 (Z.eqb_neq _ _) E1), E2, IH. cbn [rev encode_runes]. rewrite E3, <- app_assoc. reflexivity.
  - cbn [str_app bytes_of_string app]. change (byte_of "\") with 92. change (byte_of "u") with 117. rewrite bytes_app.
    destruct (hex4_written h c W L) as (a & b & d & e & -> & E). cbn [app]. cbn [json_string Z.eqb Pos.eqb Z.ltb Z.compare Pos.compare Pos.compare_cont]. rewrite E.
    replace ((55296 <=? c) && (c <? 56320)) with false by (destruct S; lia). rewrite IH. cbn [encode_runes]. rewrite rev_append_rev, rev_app_distr, rev_involutive, <- app_assoc. reflexivity.
  - cbn [str_app bytes_of_string app]. change (byte_of "\") with 92. change (byte_of "u") with 117. rewrite !bytes_app.
    destruct (hex4_written h1 u W1 L1) as (a & b & d & e & -> & E). destruct (hex4_written h2 v W2 L2) as (a' & b' & d' & e' & E' & Ev). cbn [app bytes_of_string str_app]. change (byte_of "\") with 92. change (byte_of "u") with 117. rewrite bytes_app, E'. cbn [app].
    cbn [json_string Z.eqb Pos.eqb Z.ltb Z.compare Pos.compare Pos.compare_cont]. rewrite E. replace ((55296 <=? u) && (u <? 56320)) with true by lia. cbn [Z.eqb Pos.eqb andb]. rewrite Ev.
    replace ((56320 <=? v) && (v <? 57344)) with true by lia. rewrite IH. cbn [encode_runes]. rewrite rev_append_rev, rev_app_distr, rev_involutive, <- app_assoc. reflexivity.
Qed.
Lemma decode_runes rs : Forall scalar rs -> decode_go (encode_runes rs) 0 = rs.
Proof. intros F. induction F as [|c rs H F IH]; [reflexivity|]. cbn [encode_runes]. rewrite decode_encode by exact H. rewrite IH. reflexivity. Qed.
Lemma read_string t q : string_text t q -> exists body, q = """" +++ body +++ """" /\ forall r, exists raw, json_string (B body ++ 34 :: r) [] = Some (raw, r) /\ string_lit raw = t.
Proof.
  intros (rs & body & [-> F] & S & ->). exists body. split; [reflexivity|]. intros r. eexists. split; [apply (read_spelled _ _ S)|]. unfold string_lit. cbn [rev app]. rewrite decode_runes by exact F. reflexivity.
Qed.

(** *** Numbers *)
Definition ends_value (r : list Z) : Prop := match r with [] => True | b :: _ => In b [32; 9; 10; 13; 44; 93; 125] end.
Lemma digits_all t n : written 10 t n -> forall r acc k, ends_value r -> digits_run (B t ++ r) acc k = (acc * 10 ^ Z.of_nat (length (B t)) + n, (k + length (B t))%nat, r).
Proof.
  assert (G : forall t n, written 10 t n -> forall r acc k, digits_run (B t ++ r) acc k = digits_run r (acc * 10 ^ Z.of_nat (length (B t)) + n) (k + length (B t))).
  { clear t n. intros t' n' W. induction W as [c d T L|t0 n0 c d W IH T L]; intros r acc k.
    - cbn [bytes_of_string app digits_run length]. destruct (digit_char_facts 10 c d T L ltac:(lia)) as (_ & D & _ & D10 & _). specialize (D10 ltac:(lia)).
      replace (digit_byte (byte_of c)) with true by (unfold digit_byte; lia). assert (byte_of c - 48 = d). { revert T L. cbn [digit_table In]. intros T L. repeat (destruct T as [T|T]; [injection T as <- <-; first [reflexivity|exfalso; lia]|]). contradiction. }
      f_equal; [change (Z.of_nat 1) with 1; lia|lia].
    - rewrite bytes_app, <- app_assoc, IH. cbn [bytes_of_string app digits_run]. destruct (digit_char_facts 10 c d T L ltac:(lia)) as (_ & D & _ & D10 & _). specialize (D10 ltac:(lia)).
      replace (digit_byte (byte_of c)) with true by (unfold digit_byte; lia). assert (byte_of c - 48 = d). { revert T L. cbn [digit_table In]. intros T L. repeat (destruct T as [T|T]; [injection T as <- <-; first [reflexivity|exfalso; lia]|]). contradiction. }
      rewrite app_length. cbn [length]. f_equal; [|lia]. rewrite Nat2Z.inj_add, Z.pow_add_r by lia. change (Z.of_nat 1) with 1. lia. }
  intros W r acc k E. rewrite (G t n W). destruct r as [|b r]; [reflexivity|]. cbn in E. cbn [digits_run]. replace (digit_byte b) with false; [reflexivity|]. unfold digit_byte. intuition (subst; reflexivity).
Qed.
Lemma written_head t n : written 10 t n -> exists c t', t = String c t' /\ 48 <= byte_of c <= 57.
Proof.
  intros W. destruct (written_facts 10 t n ltac:(lia) W) as (N & _ & _ & A & _). specialize (A ltac:(lia)). unfold all_bytes in A. destruct t as [|c t']; [congruence|]. exists c, t'. split; [reflexivity|]. inversion A; assumption.
Qed.
Lemma read_digits (neg : bool) t n r : written 10 t n -> (forall q, t = String "0" q -> q = "") -> n <= 2 ^ 53 -> ends_value r ->
  exists f, json_number neg (B t ++ r) = Some (f, r) /\ number_to_lisp f = VInt (if neg then - n else n).
Proof.
  intros W Z0 Bn E. destruct (written_facts 10 t n ltac:(lia) W) as (N & _ & _ & _ & _ & _ & P). destruct (number_exact neg n ltac:(lia)) as [Q I].
  exists (f64_of_ratio neg n 1). split; [|exact Q]. unfold json_number. rewrite (digits_all t n W r 0 0 E). cbn [Nat.add]. rewrite Z.mul_0_l, Z.add_0_l.
  assert (L : (0 < length (B t))%nat) by (destruct t; [congruence|cbn; lia]). rewrite (proj2 (Nat.eqb_neq _ 0)) by lia.
  assert (Z1 : (match B t ++ r with b :: _ => b =? 48 | [] => false end) && negb (Nat.eqb (length (B t)) 1) = false).
  { destruct t as [|c t]; [congruence|]. cbn [bytes_of_string app]. destruct (Z.eqb_spec (byte_of c) 48) as [X|X]; [|reflexivity]. assert (c = "0"%char). { rewrite <- (ascii_of_byte_of c), X. reflexivity. } subst c. rewrite (Z0 t eq_refl). reflexivity. }
  rewrite Z1. replace (match r with b :: r0 => if b =? 46 then let '(v, nf, r2) := digits_run r0 n 0 in if Nat.eqb nf 0 then None else Some (v, nf, r2) else Some (n, 0%nat, r) | [] => Some (n, 0%nat, r) end) with (Some (n, 0%nat, r)).
  2:{ destruct r as [|b r]; [reflexivity|]. cbn in E. intuition (subst; reflexivity). }
  replace (match r with b :: r0 => if (b =? 101) || (b =? 69) then _ else Some (0, r) | [] => Some (0, r) end) with (Some (0, r)).
  2:{ destruct r as [|b r]; [reflexivity|]. cbn in E. intuition (subst; reflexivity). }
  change (0 - Z.of_nat 0) with 0. change (0 <=? 0) with true. cbv zeta iota. change (10 ^ 0) with 1. rewrite Z.mul_1_r, I. reflexivity.
Qed.

(** *** Documents *)
Section DocInd.
  Variable P : doc -> Prop.
  Hypothesis Hi : forall z, P (DInt z).
  Hypothesis Hb : forall b, P (DBool b).
  Hypothesis Hs : forall t, P (DStr t).
  Hypothesis Ha : forall ds, Forall P ds -> P (DArr ds).
  Hypothesis Ho : forall ms, Forall (fun m => P (snd m)) ms -> P (DObj ms).
  Fixpoint doc_ind2 (d : doc) : P d :=
    match d with
    | DInt z => Hi z
    | DBool b => Hb b
    | DStr t => Hs t
    | DArr ds => Ha ds ((fix go (l : list doc) : Forall P l := match l with [] => List.Forall_nil P | x :: r => @List.Forall_cons _ P x r (doc_ind2 x) (go r) end) ds)
    | DObj ms => Ho ms ((fix go (l : list (string * doc)) : Forall (fun m => P (snd m)) l :=
        match l with [] => List.Forall_nil _ | x :: r => @List.Forall_cons _ (fun m => P (snd m)) x r (doc_ind2 (snd x)) (go r) end) ms)
    end.
End DocInd.
(** The tree of a document as encoding/json decodes it. *)
Inductive jdoc : json -> doc -> Prop :=
| jd_num f z : number_to_lisp f = VInt z -> jdoc (JNum f) (DInt z)
| jd_bool b : jdoc (JBool b) (DBool b)
| jd_str t : jdoc (JStr t) (DStr t)
| jd_arr js ds : Forall2 jdoc js ds -> jdoc (JArr js) (DArr ds)
| jd_obj l ms ms' : Forall2 (fun a m => fst a = fst m /\ jdoc (snd a) (snd m)) l ms' -> Permutation ms' ms -> NoDup (map fst ms) -> jdoc (JObj l) (DObj ms).

Lemma value_space n w r : space w -> json_value n (B w ++ r) = json_value n r.
Proof. intros S. destruct n as [|n]; [reflexivity|]. cbn [json_value]. rewrite skip_space by exact S. reflexivity. Qed.
Definition starts_value (b : Z) : Prop := b = 34 \/ b = 91 \/ b = 123 \/ b = 45 \/ 48 <= b <= 57 \/ b = 116 \/ b = 102.
Lemma starts_facts b r : starts_value b -> skip_ws (b :: r) = b :: r /\ b <> 93 /\ b <> 125.
Proof.
  intros S. cbn [skip_ws]. assert (J : json_space b = false). { unfold json_space, starts_value in *. apply not_true_is_false. intros Q. rewrite !orb_true_iff, !Z.eqb_eq in Q. lia. }
  rewrite J. unfold starts_value in S. split; [reflexivity|]. lia.
Qed.
Lemma says_head d u : says d u -> exists b r, B u = b :: r /\ starts_value b.
Proof.
  unfold starts_value. intros S. destruct S as [b|z t [t' n W _|t' n W _]|t q (rs & body & _ & _ & ->)|w _|ds ts _ _|w _|ms ms' ts _ _ _ _].
  - destruct b; eexists _, _; (split; [reflexivity|]); vm_compute; intuition.
  - destruct (written_head _ _ W) as (c & t'' & -> & H). eexists _, _. split; [reflexivity|]. intuition.
  - eexists _, _. split; [reflexivity|]. right. right. right. left. reflexivity.
  - eexists _, _. split; [reflexivity|]. left. reflexivity.
  - eexists _, _. split; [reflexivity|]. right. left. reflexivity.
  - eexists _, _. split; [reflexivity|]. right. left. reflexivity.
  - eexists _, _. split; [reflexivity|]. right. right. left. reflexivity.
  - eexists _, _. split; [reflexivity|]. right. right. left. reflexivity.
Qed.
Definition reads_as (d : doc) : Prop := small_numbers d -> forall u n r, says d u -> ends_value r -> (length (B u) < n)%nat ->
  exists j, json_value n (B u ++ r) = Some (j, r) /\ jdoc j d.
Lemma small_arr ds : small_numbers (DArr ds) -> Forall small_numbers ds.
Proof. intros H. apply List.Forall_forall. intros d I e W. apply H. econstructor 2; eauto. Qed.
Lemma small_obj ms : small_numbers (DObj ms) -> Forall (fun m => small_numbers (snd m)) ms.
Proof. intros H. apply List.Forall_forall. intros [k d] I e W. apply H. econstructor 3; eauto. Qed.
Lemma ends_space w b r : space w -> In b [44; 93; 125] -> ends_value (B w ++ b :: r).
Proof. intros S I. destruct S as [|c t C S]; cbn [bytes_of_string app ends_value]. - cbn in *. intuition. - cbn in C. intuition (subst; vm_compute; auto 10). Qed.

Definition element_text (d : doc) (t : string) : Prop := exists a u b, space a /\ says d u /\ space b /\ t = a +++ u +++ b.
Lemma read_elements ds ts : Forall2 element_text ds ts -> Forall reads_as ds -> Forall small_numbers ds -> ds <> [] -> forall n r acc, (length (B (joined "," ts)) + 2 <= n)%nat ->
  exists js, json_elements n (B (joined "," ts) ++ 93 :: r) acc = Some (JArr (rev acc ++ js), r) /\ Forall2 jdoc js ds.
Proof.
  intros F. induction F as [|d t ds ts (a & u & b & Sa & U & Sb & ->) F IH]; intros R S N n r acc L; [congruence|]. apply Forall_cons_1 in R as [R1 R2]. apply Forall_cons_1 in S as [S1 S2].
  destruct n as [|n]; [lia|]. clear N.
  assert (Len : (length (B (a +++ u +++ b)) <= length (B (joined "," ((a +++ u +++ b) :: ts))))%nat). { cbn [joined]. destruct ts; [lia|]. rewrite (bytes_app (a +++ u +++ b)), app_length. lia. }
  rewrite !bytes_app, !app_length in Len.
  assert (Lu : (length (B u) <= length (B (a +++ u +++ b)))%nat) by (rewrite !bytes_app, !app_length; lia).
  destruct F as [|d2 t2 ds ts E2 F].
  - cbn [joined] in *. rewrite !bytes_app, <- !app_assoc. cbn [json_elements]. rewrite value_space by exact Sa.
    destruct (R1 S1 u n (B b ++ 93 :: r) U) as (j & E & J); [apply ends_space; [exact Sb|cbn; auto]|lia|]. rewrite E. cbn [opt_bind]. rewrite skip_space by exact Sb.
    exists [j]. split; [|repeat constructor; exact J]. cbn [skip_ws]. change (json_space 93) with false. cbn [Z.eqb Pos.eqb]. cbn [rev]. reflexivity.
  - change (joined "," ((a +++ u +++ b) :: t2 :: ts)) with ((a +++ u +++ b) +++ "," +++ joined "," (t2 :: ts)) in *. rewrite (bytes_app (a +++ u +++ b)), app_length in L. cbn [str_app bytes_of_string length] in L.
    rewrite (bytes_app (a +++ u +++ b)). rewrite !bytes_app, <- !app_assoc. cbn [str_app bytes_of_string app json_elements]. change (byte_of ",") with 44. rewrite value_space by exact Sa.
    destruct (R1 S1 u n (B b ++ 44 :: B (joined "," (t2 :: ts)) ++ 93 :: r) U) as (j & E & J); [apply ends_space; [exact Sb|cbn; auto]|lia|]. rewrite E. cbn [opt_bind]. rewrite skip_space by exact Sb.
    cbn [skip_ws]. change (json_space 44) with false. cbn [Z.eqb Pos.eqb].
    destruct (IH R2 S2 ltac:(discriminate) n r (j :: acc)) as (js & Q & Fj); [lia|]. exists (j :: js). split; [|constructor; assumption]. rewrite Q. cbn [rev]. rewrite <- app_assoc. reflexivity.
Qed.
Definition member_text (m : string * doc) (t : string) : Prop := exists a q b c u e, space a /\ string_text (fst m) q /\ space b /\ space c /\ says (snd m) u /\ space e /\
  t = a +++ q +++ b +++ ":" +++ c +++ u +++ e.
Lemma read_members ms ts : Forall2 member_text ms ts -> Forall (fun m => reads_as (snd m)) ms -> Forall (fun m => small_numbers (snd m)) ms -> ms <> [] -> forall n r acc, (length (B (joined "," ts)) + 2 <= n)%nat ->
  NoDup (map fst acc ++ map fst ms) ->
  exists l, json_members n (B (joined "," ts) ++ 125 :: r) acc = Some (JObj (acc ++ l), r) /\ Forall2 (fun a m => fst a = fst m /\ jdoc (snd a) (snd m)) l ms.
Proof.
  intros F. induction F as [|m t ms ts (a & q & b & c & u & e & Sa & Q & Sb & Sc & U & Se & ->) F IH]; intros R S N n r acc L D; [congruence|]. apply Forall_cons_1 in R as [R1 R2]. apply Forall_cons_1 in S as [S1 S2].
  destruct n as [|n]; [lia|]. clear N. destruct (read_string _ _ Q) as (body & -> & Str).
  set (t := a +++ ("""" +++ body +++ """") +++ b +++ ":" +++ c +++ u +++ e) in *.
  assert (Bt : forall x, B t ++ x = B a ++ 34 :: B body ++ 34 :: B b ++ 58 :: B c ++ B u ++ B e ++ x). { intros x. unfold t. rewrite !bytes_app, <- !app_assoc. reflexivity. }
  assert (Len : (length (B u) + 2 <= length (B t))%nat). { specialize (Bt []). rewrite app_nil_r in Bt. rewrite Bt. repeat (rewrite app_length || cbn [length]). lia. }
  assert (New : ~ In (fst m) (map fst acc)). { cbn [map] in D. apply List.NoDup_remove_2 in D. intros I. apply D, in_or_app. auto. }
  assert (Step : forall k x, (k = 125 \/ k = 44) -> (length (B u) < n)%nat -> exists j, jdoc j (snd m) /\ json_members (S n) (B t ++ k :: x) acc =
     if k =? 44 then json_members n x (acc ++ [(fst m, j)]) else Some (JObj (acc ++ [(fst m, j)]), x)).
  { intros k x K Ln. destruct (R1 S1 u n (B e ++ k :: x) U) as (j & E & J); [apply ends_space; [exact Se|destruct K as [-> | ->]; cbn; auto]|exact Ln|]. exists j. split; [exact J|].
    rewrite Bt. cbn [json_members]. rewrite skip_space by exact Sa. cbn [skip_ws]. change (json_space 34) with false. cbn [Z.eqb Pos.eqb negb].
    destruct (Str (B b ++ 58 :: B c ++ B u ++ B e ++ k :: x)) as (raw & ER & EL). rewrite ER. cbn [opt_bind]. rewrite skip_space by exact Sb. cbn [skip_ws]. change (json_space 58) with false. cbn [Z.eqb Pos.eqb negb].
    rewrite value_space by exact Sc. rewrite E. cbn [opt_bind]. rewrite EL, aset_new by exact New. rewrite skip_space by exact Se. destruct K as [-> | ->]; reflexivity. }
  destruct F as [|m2 t2 ms ts E2 F].
  - cbn [joined] in *. destruct (Step 125 r) as (j & J & E); [auto|lia|]. exists [(fst m, j)]. split; [exact E|]. repeat constructor. exact J.
  - change (joined "," (t :: t2 :: ts)) with (t +++ "," +++ joined "," (t2 :: ts)) in *. rewrite bytes_app, app_length in L. cbn [str_app bytes_of_string length] in L.
    rewrite bytes_app, <- app_assoc. cbn [str_app bytes_of_string app]. change (byte_of ",") with 44. destruct (Step 44 (B (joined "," (t2 :: ts)) ++ 125 :: r)) as (j & J & E); [auto|lia|]. rewrite E. cbn [Z.eqb Pos.eqb].
    destruct (IH R2 S2 ltac:(discriminate) n r (acc ++ [(fst m, j)])) as (l & Q2 & Fl); [lia| |].
    { rewrite map_app, <- app_assoc. exact D. }
    exists ((fst m, j) :: l). split; [rewrite Q2, <- app_assoc; reflexivity|]. constructor; [split; [reflexivity|exact J]|exact Fl].
Qed.

Lemma reads d : reads_as d.
Proof.
  induction d as [z|b|t|ds IH|ms IH] using doc_ind2; intros Sm u n r U En L; (destruct n as [|n]; [lia|]); inversion U as [b' Eb|z' t' T|t' q Q|w W|ds' ts Ne F|w W|ms1 ms' ts Ne P D F]; subst.
  - assert (Z : - 2 ^ 53 <= z <= 2 ^ 53) by (apply (Sm (DInt z)); constructor). destruct T as [t n' W Z0|t n' W Z0].
    + destruct (read_digits false _ _ r W Z0) as (f & E & V); [lia|exact En|]. exists (JNum f). split; [|constructor; exact V].
      destruct (written_head _ _ W) as (c & t' & -> & H). cbn [bytes_of_string app] in E |- *. set (bs := B t' ++ r) in *. cbn [json_value]. destruct (starts_facts (byte_of c) bs) as (Sk & _); [unfold starts_value; lia|].
      rewrite Sk. cbv iota. replace (byte_of c =? 34) with false by (symmetry; apply Z.eqb_neq; lia). replace (byte_of c =? 91) with false by (symmetry; apply Z.eqb_neq; lia).
      replace (byte_of c =? 123) with false by (symmetry; apply Z.eqb_neq; lia). replace (byte_of c =? 45) with false by (symmetry; apply Z.eqb_neq; lia).
      replace (digit_byte (byte_of c)) with true by (symmetry; unfold digit_byte; apply andb_true_iff; rewrite !Z.leb_le; lia). rewrite E. reflexivity.
    + destruct (read_digits true _ _ r W Z0) as (f & E & V); [lia|exact En|]. exists (JNum f). split; [|constructor; exact V].
      cbn [str_app bytes_of_string app json_value]. change (byte_of "-") with 45. cbn [skip_ws]. change (json_space 45) with false. cbn [Z.eqb Pos.eqb]. rewrite E. reflexivity.
  - exists (JBool b). split; [|constructor]. destruct b; reflexivity.
  - destruct (read_string _ _ Q) as (body & -> & Str). destruct (Str r) as (raw & E & V). exists (JStr t). split; [|constructor].
    rewrite !bytes_app, <- !app_assoc. cbn [str_app bytes_of_string app json_value]. change (byte_of """") with 34. cbn [skip_ws]. change (json_space 34) with false. cbn [Z.eqb Pos.eqb]. rewrite E. cbn [opt_bind]. rewrite V. reflexivity.
  - exists (JArr []). split; [|repeat constructor]. rewrite !bytes_app, <- !app_assoc. cbn [str_app bytes_of_string app json_value]. change (byte_of "[") with 91. change (byte_of "]") with 93.
    cbn [skip_ws]. change (json_space 91) with false. cbn [Z.eqb Pos.eqb]. rewrite skip_space by exact W. reflexivity.
  - rewrite !bytes_app, !app_length in L. cbn [bytes_of_string length] in L.
    destruct (read_elements ds ts F IH (small_arr _ Sm) Ne n r []) as (js & E & J); [lia|]. exists (JArr js). split; [|constructor; exact J].
    rewrite !bytes_app, <- !app_assoc. cbn [str_app bytes_of_string app json_value]. change (byte_of "[") with 91. change (byte_of "]") with 93.
    cbn [skip_ws]. change (json_space 91) with false. cbn [Z.eqb Pos.eqb]. 
    assert (Hd : exists w b x, space w /\ B (joined "," ts) ++ 93 :: r = B w ++ b :: x /\ starts_value b).
    { destruct F as [|d0 t0 ds0 ts0 (a & u & b & Sa & U' & Sb & ->) F]; [congruence|]. destruct (says_head _ _ U') as (h & x & Eh & Sh).
      exists a, h. destruct ts0; cbn [joined]; rewrite !bytes_app, <- !app_assoc, Eh; eexists; (split; [exact Sa|split; [reflexivity|exact Sh]]). }
    destruct Hd as (w & b & x & Sw & Eq & Sb). rewrite Eq in *. rewrite skip_space by exact Sw. destruct (starts_facts b x Sb) as (-> & N1 & _).
    replace (b =? 93) with false by (symmetry; apply Z.eqb_neq; exact N1). exact E.
  - exists (JObj []). split; [|econstructor; [constructor|constructor|constructor]]. rewrite !bytes_app, <- !app_assoc. cbn [str_app bytes_of_string app json_value]. change (byte_of "{") with 123. change (byte_of "}") with 125.
    cbn [skip_ws]. change (json_space 123) with false. cbn [Z.eqb Pos.eqb]. rewrite skip_space by exact W. reflexivity.
  - rewrite !bytes_app, !app_length in L. cbn [bytes_of_string length] in L.
    assert (IH' : Forall (fun m => reads_as (snd m)) ms') by (apply List.Forall_forall; intros m I; apply (proj1 (List.Forall_forall _ _) IH); apply (Permutation_in _ P I)).
    assert (Sm' : Forall (fun m => small_numbers (snd m)) ms') by (apply List.Forall_forall; intros m I; apply (proj1 (List.Forall_forall _ _) (small_obj _ Sm)); apply (Permutation_in _ P I)).
    destruct (read_members ms' ts F IH' Sm') with (n := n) (r := r) (acc := @nil (string * json)) as (js & E & J); [intros ->; apply Ne; apply Permutation_nil in P; exact P|lia| |].
    { cbn [map app]. eapply Permutation_NoDup; [|exact D]. apply Permutation_map, Permutation_sym, P. }
    exists (JObj js). split; [|econstructor; [exact J|exact P|exact D]].
    rewrite !bytes_app, <- !app_assoc. cbn [str_app bytes_of_string app json_value]. change (byte_of "{") with 123. change (byte_of "}") with 125.
    cbn [skip_ws]. change (json_space 123) with false. cbn [Z.eqb Pos.eqb]. 
    assert (Hd : exists w x, space w /\ B (joined "," ts) ++ 125 :: r = B w ++ 34 :: x).
    { destruct F as [|m0 t0 ms0 ts0 (a & q & b & c & u & e & Sa & Q & _ & _ & _ & _ & ->) F]; [exfalso; apply Ne; apply Permutation_nil in P; exact P|]. destruct (read_string _ _ Q) as (body & -> & _).
      exists a. destruct ts0; cbn [joined]; rewrite !bytes_app, <- !app_assoc; eexists; (split; [exact Sa|reflexivity]). }
    destruct Hd as (w & x & Sw & Eq). rewrite Eq in *. rewrite skip_space by exact Sw. cbn [skip_ws]. change (json_space 34) with false. cbn [Z.eqb Pos.eqb]. exact E.
Qed.
Lemma decode_text d t : json_text d t -> small_numbers d -> exists j, json_decode (B t) = Some j /\ jdoc j d.
Proof.
  intros (a & u & b & Sa & U & Sb & ->) Sm. destruct (reads d Sm u (2 * length (B (a +++ u +++ b)) + 2)%nat (B b) U) as (j & E & J).
  - destruct Sb as [|c t C S]; [exact I|]. cbn. cbn in C. intuition (subst; vm_compute; auto 10).
  - rewrite !bytes_app, !app_length. lia.
  - exists j. split; [|exact J]. unfold json_decode. set (n := (2 * _ + 2)%nat) in *. clearbody n. rewrite !bytes_app, value_space by exact Sa. rewrite E. cbn [opt_bind].
    rewrite <- (app_nil_r (B b)), skip_space by exact Sb. reflexivity.
Qed.

(** ** From trees to Lisp *)
Lemma depicts_grows s s' d : grows s s' -> forall v, depicts s v d -> depicts s' v d.
Proof.
  intros G. induction d as [z|b|t|ds IH|ms IH] using doc_ind2; intros v D; inversion D; subst.
  - constructor.
  - constructor.
  - constructor. apply (g_strs _ _ G). assumption.
  - econstructor; [assumption|eapply is_list_grows; eassumption|]. match goal with H : Forall2 _ vs ds |- _ => rename H into F3 end. clear - IH F3. revert IH. induction F3 as [|v d vs ds H F IHF]; intros I; [constructor|]. apply Forall_cons_1 in I as [I1 I2]. constructor; auto.
  - econstructor; [apply (g_frames _ _ G); eassumption|eassumption|].
    assert (I : Forall (fun m => forall v, depicts s v (snd m) -> depicts s' v (snd m)) ms') by (apply List.Forall_forall; intros m Im; apply (proj1 (List.Forall_forall _ _) IH); eapply Permutation_in; eassumption).
    match goal with H : Forall2 _ slots ms' |- _ => rename H into F3 end. clear - F3 I. induction F3 as [|kv m slots ms [E H] F IHF]; [constructor|]. apply Forall_cons_1 in I as [I1 I2]. constructor; [split|]; auto.
Qed.
Lemma depicts_all_grows s s' vs ds : grows s s' -> Forall2 (depicts s) vs ds -> Forall2 (depicts s') vs ds.
Proof. intros G F. apply (Forall2_impl _ _ _ _ F). intros v d. apply depicts_grows, G. Qed.
Lemma reverse_list v xs s : wf_state s -> is_list s v xs -> no_nils xs -> exists r s',
  runs denote (reverse v) s (Done r) s' /\ grows s s' /\ is_list s' r (rev xs).
Proof.
  intros W L N. unfold reverse. destruct (is_nil v) eqn:En.
  { destruct v; try discriminate. inversion L; subst. exists VNil, s. split; [apply runs_ret|]. split; [apply grows_refl|apply il_nil]. }
  rewrite (is_list_listp _ _ _ L). cbn [negb].
  destruct (for_cells_list (fun acc c => a <- car c ;; acc' <- cons a acc ;; Ret (inl acc')) (fun acc => Ret acc)
    (fun dn acc s1 => no_nils dn -> is_list s1 acc (rev dn))) with (xs := xs) (dn := @nil val) (v := v) (st := VNil) (s := s)
    as (acc & s1 & I1 & G1 & W1 & H1).
  - intros dn x rest c st s1 W1 Lc I1. destruct (is_list_cons_inv _ _ _ _ Lc) as (_ & E & _ & _).
    eexists _, _. split; [rsteps|]. rewrite E. split; [apply grows_new_cell, W1|].
    intros Nn. apply Forall_app in Nn. destruct Nn as [N1 N2]. rewrite rev_app_distr. cbn [rev app].
    eapply il_cons; [apply cell_new|left; exact (Forall_inv N2)|].
    apply (is_list_grows _ _ _ _ (grows_new_cell s1 x st W1)), I1, N1.
  - exact W.
  - exact L.
  - intros _. apply il_nil.
  - cbn [app] in *. exists acc, s1. split; [apply H1, runs_ret|]. split; [exact G1|exact (I1 N)].
Qed.
Fixpoint frames_items (l : list json) (ary : val) : prog val :=
  match l with
  | [] => Ret ary
  | x :: r => v <- json_to_frames x ;; c <- cons v ary ;; frames_items r c
  end.
Fixpoint frames_slots (l : list (string * json)) (m : list (string * val)) : prog (list (string * val)) :=
  match l with
  | [] => Ret m
  | (k, x) :: r => v <- json_to_frames x ;; frames_slots r (aset (k +++ ":") v m)
  end.
Definition converts (d : doc) : Prop := forall j s, jdoc j d -> wf_state s -> exists v s',
  runs denote (json_to_frames j) s (Done v) s' /\ grows s s' /\ depicts s' v d /\ v <> VNil.
Lemma items_run js ds : Forall2 jdoc js ds -> Forall converts ds -> forall ary vs s, wf_state s -> is_list s ary vs -> exists ary' ws s',
  runs denote (frames_items js ary) s (Done ary') s' /\ grows s s' /\ is_list s' ary' (rev ws ++ vs) /\ Forall2 (depicts s') ws ds /\ no_nils ws /\ wf_state s'.
Proof.
  intros F. induction F as [|j d js ds J F IH]; intros C ary vs s W L.
  - exists ary, [], s. split; [apply runs_ret|]. split; [apply grows_refl|]. split; [exact L|]. split; [constructor|]. split; [constructor|exact W].
  - apply Forall_cons_1 in C as [C1 C2]. destruct (C1 j s J W) as (v & s1 & R1 & G1 & D1 & N1). pose proof (wf_runs _ _ _ _ _ W R1) as W1.
    pose proof (grows_new_cell s1 v ary W1) as G2. set (s2 := set_cells _ (bump s1)) in *. assert (R2 : runs denote (cons v ary) s1 (Done (VCell TCons (s_next s1))) s2) by apply (runs_cons TCons).
    pose proof (wf_runs _ _ _ _ _ W1 R2) as W2.
    destruct (IH C2 (VCell TCons (s_next s1)) (v :: vs) s2 W2) as (ary' & ws & s3 & R3 & G3 & L3 & D3 & N3 & W3).
    { eapply il_cons; [apply cell_new|left; exact N1|]. apply (is_list_grows _ _ _ _ G2), (is_list_grows _ _ _ _ G1), L. }
    exists ary', (v :: ws), s3. split; [cbn [frames_items]; eapply runs_bind; [exact R1|]; eapply runs_bind; [exact R2|exact R3]|].
    split; [exact (grows_trans _ _ _ G1 (grows_trans _ _ _ G2 G3))|]. split; [cbn [rev]; rewrite <- app_assoc; exact L3|].
    split; [constructor; [apply (depicts_grows s1); [exact (grows_trans _ _ _ G2 G3)|exact D1]|exact D3]|]. split; [constructor; assumption|exact W3].
Qed.
Lemma colon_inj a b : a +++ ":" = b +++ ":" -> a = b.
Proof. intros E. apply (f_equal str_rev) in E. rewrite !str_rev_app in E. injection E as E. apply (f_equal str_rev) in E. rewrite !str_rev_rev in E. exact E. Qed.
Lemma slots_run l ms : Forall2 (fun a m => fst a = fst m /\ jdoc (snd a) (snd m)) l ms -> Forall (fun m : string * doc => converts (snd m)) ms ->
  forall acc (old : list string) s, wf_state s -> map fst acc = map (fun k => k +++ ":") old -> NoDup (old ++ map fst ms) -> exists new s',
  runs denote (frames_slots l acc) s (Done (acc ++ new)) s' /\ grows s s' /\ Forall2 (fun kv m => fst kv = fst m +++ ":" /\ depicts s' (snd kv) (snd m)) new ms /\ wf_state s'.
Proof.
  intros F. induction F as [|[k j] [k' d] l ms [E J] F IH]; intros C acc old s W M D.
  - exists [], s. rewrite app_nil_r. split; [apply runs_ret|]. split; [apply grows_refl|]. split; [constructor|exact W].
  - cbn [fst snd] in *. subst k'. apply Forall_cons_1 in C as [C1 C2]. destruct (C1 j s J W) as (v & s1 & R1 & G1 & D1 & N1). pose proof (wf_runs _ _ _ _ _ W R1) as W1.
    assert (New : ~ In (k +++ ":") (map fst acc)). { rewrite M. intros I. apply in_map_iff in I as (k0 & Ek & Ik). apply colon_inj in Ek. subst k0. apply List.NoDup_remove_2 in D. apply D, in_or_app. auto. }
    destruct (IH C2 (acc ++ [(k +++ ":", v)]) (old ++ [k]) s1 W1) as (new & s2 & R2 & G2 & D2 & W2).
    { rewrite !map_app, M. reflexivity. }
    { rewrite <- app_assoc. exact D. }
    exists ((k +++ ":", v) :: new), s2. split; [cbn [frames_slots]; eapply runs_bind; [exact R1|]; cbv beta; rewrite aset_new by exact New; rewrite <- app_assoc in R2; exact R2|].
    split; [exact (grows_trans _ _ _ G1 G2)|]. split; [constructor; [split; [reflexivity|exact (depicts_grows _ _ _ G2 _ D1)]|exact D2]|exact W2].
Qed.
Lemma converts_all d : converts d.
Proof.
  induction d as [z|b|t|ds IH|ms IH] using doc_ind2; intros j s J W; inversion J as [f z' V|b'|t'|js ds' F|l ms0 ms' F P D]; subst.
  - exists (VInt z), s. split; [cbn [json_to_frames]; rewrite V; apply runs_ret|]. split; [apply grows_refl|]. split; [constructor|discriminate].
  - exists (VBool b), s. split; [apply runs_ret|]. split; [apply grows_refl|]. split; [constructor|discriminate].
  - eexists _, _. split; [cbn [json_to_frames]; apply runs_new_str|]. split; [apply grows_new_str, W|]. split; [constructor; cbn; apply lookup_insert|discriminate].
  - destruct js as [|j0 js0]; [inversion F; subst; exists VNoCell, s; split; [apply runs_ret|]; split; [apply grows_refl|]; split; [econstructor; [discriminate|apply il_nocell|constructor]|discriminate]|].
    destruct (items_run _ _ F IH VNil [] s W (il_nil _)) as (ary & ws & s1 & R1 & G1 & L1 & D1 & N1 & W1). rewrite app_nil_r in L1.
    destruct (reverse_list ary (rev ws) s1 W1 L1) as (r & s2 & R2 & G2 & L2). { apply Forall_rev. exact N1. } rewrite rev_involutive in L2.
    assert (Nr : r <> VNil). { intros ->. inversion L2; subst. inversion D1; subst. inversion F. }
    exists r, s2. split; [change (json_to_frames (JArr (j0 :: js0))) with (ary <- frames_items (j0 :: js0) VNil ;; reverse ary); eapply runs_bind; [exact R1|exact R2]|].
    split; [exact (grows_trans _ _ _ G1 G2)|]. split; [econstructor; [exact Nr|exact L2|exact (depicts_all_grows _ _ _ _ G2 D1)]|exact Nr].
  - assert (I : Forall (fun m : string * doc => converts (snd m)) ms') by (apply List.Forall_forall; intros m Im; apply (proj1 (List.Forall_forall _ _) IH); eapply Permutation_in; eassumption).
    assert (D' : NoDup (map fst ms')) by (eapply Permutation_NoDup; [apply Permutation_map, Permutation_sym, P|exact D]).
    destruct (slots_run _ _ F I [] [] s W eq_refl D') as (new & s1 & R1 & G1 & D1 & W1). cbn [app] in R1.
    pose proof (grows_new_frame s1 new W1) as G2. eexists _, _. split; [change (json_to_frames (JObj l)) with (m <- frames_slots l [] ;; f <- do_op (OFrameNew m) ;; Ret (VFrame f)); eapply runs_bind; [exact R1|]; rsteps|].
    split; [exact (grows_trans _ _ _ G1 G2)|]. split; [|discriminate]. econstructor; [cbn; apply lookup_insert|exact P|]. apply (Forall2_impl _ _ _ _ D1). intros kv m [E Dp]. split; [exact E|exact (depicts_grows _ _ _ G2 _ Dp)].
Qed.

(** ** From Lisp to trees *)
(** The tree that LispWithFramesToJson builds for a document. *)
Inductive jtree : json -> doc -> Prop :=
| jt_int z : jtree (JInt z) (DInt z)
| jt_bool b : jtree (JBool b) (DBool b)
| jt_str t : jtree (JStr t) (DStr t)
| jt_arr js ds : Forall2 jtree js ds -> jtree (JArr js) (DArr ds)
| jt_obj l ms ms' : Forall2 (fun a m => fst a = fst m /\ jtree (snd a) (snd m)) l ms' -> Permutation ms' ms -> jtree (JObj l) (DObj ms).
Lemma oc_grows s s' : only_choices s s' -> grows s s'.
Proof. intros ->. constructor; cbn; try reflexivity; try (intros ? ? E; exact E). exists []. split; [reflexivity|constructor]. Qed.
Lemma depicts_data s v d : depicts s v d -> functionp v = false.
Proof. intros D. inversion D as [| | |v' vs ds N L F|]; subst; try reflexivity. inversion L; subst; try reflexivity. Qed.
Lemma trim_colon k : (forall p, k <> p +++ ":") -> trim_right ":" (k +++ ":") = k.
Proof.
  intros N. unfold trim_right. rewrite str_rev_app. change (str_rev ":" +++ str_rev k) with (String ":" (str_rev k)). cbn [trim_left str_mem Ascii.eqb]. cbn [eqb orb].
  destruct (str_rev k) as [|c r] eqn:E; [cbn; rewrite <- (str_rev_rev k), E; reflexivity|].
  assert (C : str_mem c ":" = false). { cbn [str_mem]. rewrite orb_false_r. apply Ascii.eqb_neq. intros ->. apply (N (str_rev r)). rewrite <- (str_rev_rev k), E, str_rev_cons. reflexivity. }
  cbn [trim_left]. rewrite C, <- E. apply str_rev_rev.
Qed.
Definition exports (d : doc) : Prop := forall v s, depicts s v d -> proper d -> plain_names d -> wf_state s -> exists j s',
  runs denote (call (RToJsonF v)) s (Done j) s' /\ grows s s' /\ jtree j d.
Lemma everywhere_arr P ds : everywhere P (DArr ds) -> Forall (everywhere P) ds.
Proof. intros H. apply List.Forall_forall. intros d I e W. apply H. econstructor 2; eauto. Qed.
Lemma everywhere_obj P ms : everywhere P (DObj ms) -> Forall (fun m => everywhere P (snd m)) ms.
Proof. intros H. apply List.Forall_forall. intros [k d] I e W. apply H. econstructor 3; eauto. Qed.
Lemma everywhere_here P d : everywhere P d -> P d.
Proof. intros H. apply H. constructor. Qed.
Lemma json_slots_run slots ms : forall s0, Forall2 (fun kv m => fst kv = fst m +++ ":" /\ depicts s0 (snd kv) (snd m)) slots ms -> Forall (fun m : string * doc => exports (snd m)) ms ->
  Forall (fun m : string * doc => proper (snd m)) ms -> Forall (fun m : string * doc => plain_names (snd m)) ms -> Forall (fun k => forall p, k <> p +++ ":") (map fst ms) ->
  forall acc s, wf_state s -> grows s0 s -> NoDup (map fst acc ++ map fst ms) -> exists new s',
  runs denote (json_slots slots acc) s (Done (acc ++ new)) s' /\ grows s s' /\ Forall2 (fun a m => fst a = fst m /\ jtree (snd a) (snd m)) new ms.
Proof.
  intros s0 F. induction F as [|[k v] [k' d] l ms [E D] F IH]; intros X P N K acc s W G0 ND.
  - exists [], s. rewrite app_nil_r. split; [apply runs_ret|]. split; [apply grows_refl|constructor].
  - cbn [fst snd map] in *. subst k. apply Forall_cons_1 in X as [X1 X2]. apply Forall_cons_1 in P as [P1 P2]. apply Forall_cons_1 in N as [N1 N2]. apply Forall_cons_1 in K as [K1 K2].
    destruct (X1 v s (depicts_grows _ _ _ G0 _ D) P1 N1 W) as (j & s1 & R1 & G1 & J). cbn [snd] in *. pose proof (wf_runs _ _ _ _ _ W R1) as W1.
    assert (New : ~ In k' (map fst acc)). { apply List.NoDup_remove_2 in ND. intros I. apply ND, in_or_app. auto. }
    destruct (IH X2 P2 N2 K2 (acc ++ [(k', j)]) s1 W1 (grows_trans _ _ _ G0 G1)) as (new & s2 & R2 & G2 & D2). { rewrite map_app, <- app_assoc. exact ND. }
    exists ((k', j) :: new), s2. split; [|split; [exact (grows_trans _ _ _ G1 G2)|constructor; [split; [reflexivity|exact J]|exact D2]]].
    cbn [json_slots]. rewrite (depicts_data _ _ _ D), trim_colon by exact K1. eapply runs_bind; [exact R1|]. cbv beta. rewrite aset_new by exact New. rewrite <- app_assoc in R2. exact R2.
Qed.
Lemma arr_body v s vs : v <> VNil -> is_list s v vs -> to_json_f_body v = for_cells (fun acc c => a <- car c ;; j <- call (RToJsonF a) ;; Ret (inl (acc ++ [j]))) (fun acc => Ret (JArr acc)) v [].
Proof. intros N L. inversion L; subst; try reflexivity. congruence. Qed.
Lemma json_cells_run vs : forall ds v acc s, Forall2 (depicts s) vs ds -> Forall exports ds -> Forall proper ds -> Forall plain_names ds -> is_list s v vs -> wf_state s -> exists js s',
  runs denote (for_cells (fun acc c => a <- car c ;; j <- call (RToJsonF a) ;; Ret (inl (acc ++ [j]))) (fun acc => Ret (JArr acc)) v acc) s (Done (JArr (acc ++ js))) s' /\ grows s s' /\ Forall2 jtree js ds.
Proof.
  induction vs as [|x vs IH]; intros ds v acc s F X P N L W; inversion F as [|x' d vs' ds' D F']; subst.
  - exists [], s. rewrite app_nil_r. split; [|split; [apply grows_refl|constructor]]. apply runs_loop_stop. rsteps. rewrite (is_list_nil_inv _ _ L). eapply runs_bind; [apply runs_ret|apply runs_ret].
  - apply Forall_cons_1 in X as [X1 X2]. apply Forall_cons_1 in P as [P1 P2]. apply Forall_cons_1 in N as [N1 N2].
    destruct (X1 x s D P1 N1 W) as (j & s1 & R1 & G1 & J). pose proof (wf_runs _ _ _ _ _ W R1) as W1.
    destruct (is_list_cons_inv _ _ _ _ L) as (E1 & E2 & _ & l & ->). pose proof (is_list_grows _ _ _ _ G1 L) as L1. destruct (is_list_cons_inv _ _ _ _ L1) as (_ & _ & E3 & _).
    destruct (IH ds' (cdr_of s1 (VCell TCons l)) (acc ++ [j]) s1 (depicts_all_grows _ _ _ _ G1 F') X2 P2 N2 E3 W1) as (js & s2 & R2 & G2 & J2).
    exists (j :: js), s2. split; [|split; [exact (grows_trans _ _ _ G1 G2)|constructor; assumption]]. rewrite <- app_assoc in R2.
    eapply runs_loop_step; [|exact R2]. rsteps. rewrite E1. rsteps. rewrite E2. eapply runs_bind; [exact R1|]. rsteps.
Qed.
Lemma exports_all d : exports d.
Proof.
  induction d as [z|b|t|ds IH|ms IH] using doc_ind2; intros v s D Pr Pl W; inversion D as [z'|b'|l t' St|v' vs ds' Nv L F|l slots ms0 ms' Sl P F]; subst.
  - exists (JInt z), s. split; [apply (runs_do_call denote _ (RToJsonF _)); cbn [denote to_json_f_body]; apply runs_ret|]. split; [apply grows_refl|constructor].
  - exists (JBool b), s. split; [apply (runs_do_call denote _ (RToJsonF _)); cbn [denote to_json_f_body]; apply runs_ret|]. split; [apply grows_refl|constructor].
  - exists (JStr t), s. split; [|split; [apply grows_refl|constructor]]. apply (runs_do_call denote _ (RToJsonF _)); cbn [denote to_json_f_body]. rsteps. rewrite (str_some _ _ _ St). apply runs_ret.
  - pose proof (everywhere_arr _ _ Pr) as Pr'. pose proof (everywhere_arr _ _ Pl) as Pl'.
    destruct (json_cells_run vs ds v [] s F IH Pr' Pl' L W) as (js & s1 & R1 & G1 & J1). exists (JArr js), s1. split; [|split; [exact G1|constructor; exact J1]].
    apply (runs_do_call denote _ (RToJsonF _)); cbn [denote]. rewrite (arr_body v s vs Nv L). exact R1.
  - pose proof (everywhere_obj _ _ Pr) as Pr'. pose proof (everywhere_obj _ _ Pl) as Pl'. destruct (everywhere_here _ _ Pr) as [ND _]. pose proof (everywhere_here _ _ Pl) as K. cbn beta iota in K.
    destruct (range_oc slots s) as (slots' & s1 & R1 & O1 & Pm). destruct (Permutation_Forall2 Pm F) as (ms2 & Pm2 & F2).
    assert (P2 : Permutation ms2 ms) by (rewrite <- Pm2; exact P).
    assert (Al : forall Q : string * doc -> Prop, Forall Q ms -> Forall Q ms2) by (intros Q H; apply List.Forall_forall; intros m Im; apply (proj1 (List.Forall_forall _ _) H); eapply Permutation_in; eassumption).
    pose proof (wf_runs _ _ _ _ _ W R1) as W1.
    destruct (json_slots_run slots' ms2 s F2 (Al _ IH) (Al _ Pr') (Al _ Pl')) with (acc := @nil (string * json)) (s := s1) as (new & s2 & R2 & G2 & J2); [|exact W1|exact (oc_grows _ _ O1)| |].
    { apply List.Forall_forall. intros k Ik. apply (proj1 (List.Forall_forall _ _) K). eapply Permutation_in; [apply Permutation_map, P2|exact Ik]. }
    { cbn [map app]. eapply Permutation_NoDup; [apply Permutation_map, Permutation_sym, P2|exact ND]. }
    cbn [app] in R2. exists (JObj new), s2. split; [|split; [exact (grows_trans _ _ _ (oc_grows _ _ O1) G2)|econstructor; [exact J2|exact P2]]].
    apply (runs_do_call denote _ (RToJsonF _)); cbn [denote to_json_f_body]. eapply runs_bind; [apply runs_op; reflexivity|]. cbn [frame_at]. unfold frame_at. rewrite Sl. eapply runs_bind; [exact R1|]. eapply runs_bind; [exact R2|apply runs_ret].
Qed.

(** ** Writing texts *)
Lemma digit_listed d : 0 <= d < 16 -> In (digit_char d, d) digit_table.
Proof. intros H. assert (C : d = 0 \/ d = 1 \/ d = 2 \/ d = 3 \/ d = 4 \/ d = 5 \/ d = 6 \/ d = 7 \/ d = 8 \/ d = 9 \/ d = 10 \/ d = 11 \/ d = 12 \/ d = 13 \/ d = 14 \/ d = 15) by lia. repeat (destruct C as [-> | C]; [vm_compute; tauto|]). subst d. vm_compute. tauto. Qed.
Lemma digit_head d : 0 < d < 16 -> digit_char d <> "0"%char.
Proof. intros H. assert (C : d = 1 \/ d = 2 \/ d = 3 \/ d = 4 \/ d = 5 \/ d = 6 \/ d = 7 \/ d = 8 \/ d = 9 \/ d = 10 \/ d = 11 \/ d = 12 \/ d = 13 \/ d = 14 \/ d = 15) by lia. repeat (destruct C as [-> | C]; [discriminate|]). subst d. discriminate. Qed.
Lemma digits_pos_written fuel : forall n, 0 <= n < 2 ^ Z.of_nat fuel -> (0 < fuel)%nat ->
  written 10 (digits_pos fuel 10 n "") n /\ (0 < n -> exists c t, digits_pos fuel 10 n "" = String c t /\ c <> "0"%char).
Proof.
  induction fuel as [|f IH]; intros n H L; [lia|]. cbn [digits_pos]. destruct (Z.ltb_spec n 10).
  - split; [apply written_one; [apply digit_listed|]; lia|]. intros P. eexists _, _. split; [reflexivity|apply digit_head; lia].
  - rewrite digits_pos_app. assert (f <> O) by (intros ->; cbn in H; lia). rewrite Nat2Z.inj_succ, Z.pow_succ_r in H by lia.
    assert (Q : 0 <= n / 10 < 2 ^ Z.of_nat f) by (split; [apply Z.div_pos; lia|apply Z.div_lt_upper_bound; lia]).
    destruct (IH (n / 10) Q ltac:(lia)) as [W Hd]. pose proof (Z.div_mod n 10 ltac:(lia)) as E. pose proof (Z.mod_pos_bound n 10 ltac:(lia)). split.
    + replace n with (n / 10 * 10 + n mod 10) at 3 by lia. apply written_more; [exact W|apply digit_listed; lia|lia].
    + intros _. destruct Hd as (c & t & -> & C). { apply Z.div_str_pos. lia. } eexists _, _. split; [reflexivity|exact C].
Qed.
Lemma digits_written n : 0 <= n -> written 10 (digits 10 n) n /\ (forall r, digits 10 n = String "0" r -> r = "").
Proof.
  intros H. unfold digits. destruct (digits_pos_written (S (Z.to_nat (Z.log2 n))) n) as [W Hd].
  - split; [exact H|]. rewrite Nat2Z.inj_succ, Z2Nat.id by apply Z.log2_nonneg. destruct (Z.eq_dec n 0) as [->|]; [reflexivity|]. apply Z.log2_spec. lia.
  - lia.
  - split; [exact W|]. intros r E. destruct (Z.eq_dec n 0) as [->|]; [vm_compute in E; injection E as <-; reflexivity|]. destruct Hd as (c & t & Q & C); [lia|]. rewrite Q in E. injection E as E1 E2. congruence.
Qed.
Lemma write_int z : integer_text (string_of_Z z) z.
Proof.
  unfold string_of_Z. rewrite string_of_Z_base_eq. destruct (Z.ltb_spec z 0).
  - destruct (digits_written (- z)) as [W L]; [lia|]. pose proof (it_minus _ _ W L) as T. rewrite Z.opp_involutive in T. exact T.
  - destruct (digits_written z) as [W L]; [lia|]. apply it_plain; assumption.
Qed.
Lemma hex_char d : 0 <= d < 16 -> ascii_of_byte (hex_byte d) = digit_char d.
Proof. intros H. unfold hex_byte, digit_char. destruct (d <? 10); reflexivity. Qed.
Lemma hex_written c : 0 <= c < 65536 -> written 16 (string_of_bytes [hex_byte (c / 4096); hex_byte (c / 256 mod 16); hex_byte (c / 16 mod 16); hex_byte (c mod 16)]) c.
Proof.
  intros H. assert (D1 : 0 <= c / 4096 < 16) by (split; [apply Z.div_pos; lia|apply Z.div_lt_upper_bound; lia]).
  assert (M : forall k, 0 <= k mod 16 < 16) by (intros; apply Z.mod_pos_bound; lia).
  cbn [string_of_bytes]. rewrite !hex_char by (exact D1 || apply M).
  assert (E : c = ((c / 4096 * 16 + c / 256 mod 16) * 16 + c / 16 mod 16) * 16 + c mod 16).
  { pose proof (Z.div_mod c 16 ltac:(lia)). pose proof (Z.div_mod (c / 16) 16 ltac:(lia)) as Q1. pose proof (Z.div_mod (c / 16 / 16) 16 ltac:(lia)) as Q2. rewrite !Z.div_div in Q2 by lia. rewrite Z.div_div in Q1 by lia. change (16 * 16) with 256 in *. change (256 * 16) with 4096 in *. change (16 * 256) with 4096 in *. lia. }
  set (a := c / 4096) in *. set (b := c / 256 mod 16) in *. set (d := c / 16 mod 16) in *. set (e := c mod 16) in *. rewrite E.
  assert (Hb : 0 <= b < 16) by apply M. assert (Hd : 0 <= d < 16) by apply M. assert (He : 0 <= e < 16) by apply M. clearbody a b d e.
  apply (written_more 16 (String (digit_char a) (String (digit_char b) (String (digit_char d) "")))); [|apply digit_listed, He|lia].
  apply (written_more 16 (String (digit_char a) (String (digit_char b) ""))); [|apply digit_listed, Hd|lia].
  apply (written_more 16 (String (digit_char a) "")); [|apply digit_listed, Hb|lia]. apply written_one; [apply digit_listed|]; lia.
Qed.
Lemma write_runes rs : Forall scalar rs -> spelled rs (string_of_bytes (flat_map escape_rune rs)).
Proof.
  intros F. induction F as [|c rs S F IH]; [constructor|]. cbn [flat_map]. rewrite string_of_bytes_app. set (t := string_of_bytes (flat_map escape_rune rs)) in *. clearbody t. unfold escape_rune.
  assert (Esc : forall e, In (e, c) escapes -> byte_of e <> 0 -> string_of_bytes [92; byte_of e] +++ t = "\" +++ String e t).
  { intros e I _. cbn [string_of_bytes str_app]. rewrite ascii_of_byte_of. reflexivity. }
  destruct ((c =? 34) || (c =? 92)) eqn:E1.
  { apply orb_true_iff in E1. rewrite !Z.eqb_eq in E1. destruct E1 as [-> | ->]; [apply (spelled_escape """")|apply (spelled_escape "\")]; try exact IH; vm_compute; tauto. }
  destruct (Z.eqb_spec c 10) as [->|]; [apply (spelled_escape "n"); [vm_compute; tauto|exact IH]|].
  destruct (Z.eqb_spec c 13) as [->|]; [apply (spelled_escape "r"); [vm_compute; tauto|exact IH]|].
  destruct (Z.eqb_spec c 9) as [->|]; [apply (spelled_escape "t"); [vm_compute; tauto|exact IH]|].
  apply orb_false_iff in E1 as [E1 E2]. apply Z.eqb_neq in E1. apply Z.eqb_neq in E2.
  destruct ((c <? 32) || (c =? 60) || (c =? 62) || (c =? 38) || (c =? 8232) || (c =? 8233)) eqn:E3.
  - assert (Hc : 0 <= c < 65536). { rewrite !orb_true_iff, !Z.eqb_eq, Z.ltb_lt in E3. unfold scalar in S. lia. }
    unfold u_escape. match goal with |- spelled _ (string_of_bytes (92 :: 117 :: ?h) +++ t) => change (string_of_bytes (92 :: 117 :: h)) with ("\u" +++ string_of_bytes h) end. rewrite str_app_assoc.
    apply spelled_code; [apply hex_written, Hc|reflexivity|exact S|exact IH].
  - rewrite !orb_false_iff, Z.ltb_ge in E3. rewrite <- (app_nil_r (encode_rune c)). apply (spelled_plain c rs t S); [lia|assumption|assumption|exact IH].
Qed.
Lemma write_string t : utf8 t -> string_text t (string_of_bytes (encode_str t)).
Proof.
  intros (rs & -> & F). exists rs, (string_of_bytes (flat_map escape_rune rs)). split; [split; [reflexivity|exact F]|]. split; [apply write_runes, F|].
  unfold encode_str. pose proof (runes_app rs "" F) as R. rewrite str_app_nil_r in R. rewrite R. change (runes_of_string "") with (@nil rune). rewrite app_nil_r.
  change (34 :: flat_map escape_rune rs ++ [34]) with ([34] ++ flat_map escape_rune rs ++ [34]). rewrite !string_of_bytes_app. reflexivity.
Qed.
Fixpoint encode_items (l : list json) : option (list (list Z)) :=
  match l with
  | [] => Some []
  | x :: r => opt_bind (json_encode x) (fun a => opt_bind (encode_items r) (fun b => Some (a :: b)))
  end.
Fixpoint encode_slots (l : list (string * json)) : option (list (string * list Z)) :=
  match l with
  | [] => Some []
  | (k, x) :: r => opt_bind (json_encode x) (fun a => opt_bind (encode_slots r) (fun b => Some ((k, a) :: b)))
  end.
Lemma join_text ls : string_of_bytes (join_bytes ls) = joined "," (map string_of_bytes ls).
Proof. induction ls as [|x [|y ls] IH]; [reflexivity|reflexivity|]. change (join_bytes (x :: y :: ls)) with (x ++ 44 :: join_bytes (y :: ls)). rewrite string_of_bytes_app. cbn [string_of_bytes]. rewrite IH. reflexivity. Qed.
Lemma insert_member_perm {A} (k : string * A) l : Permutation (k :: l) (insert_member k l).
Proof. induction l as [|h l IH]; [reflexivity|]. cbn [insert_member]. destruct (str_ltb (fst h) (fst k)); [|reflexivity]. rewrite perm_swap. constructor. exact IH. Qed.
Lemma sort_members_perm {A} (l : list (string * A)) : Permutation l (sort_members l).
Proof. unfold sort_members. induction l as [|h l IH]; [constructor|]. cbn [fold_right]. rewrite <- insert_member_perm. constructor. exact IH. Qed.
Definition writes (d : doc) : Prop := proper d -> forall j, jtree j d -> exists bs, json_encode j = Some bs /\ says d (string_of_bytes bs).
Lemma write_items js ds : Forall2 jtree js ds -> Forall writes ds -> Forall proper ds -> exists ps, encode_items js = Some ps /\ Forall2 (fun d p => says d (string_of_bytes p)) ds ps.
Proof.
  intros F. induction F as [|j d js ds J F IH]; intros Wr P; [exists []; split; [reflexivity|constructor]|]. apply Forall_cons_1 in Wr as [W1 W2]. apply Forall_cons_1 in P as [P1 P2].
  destruct (W1 P1 j J) as (bs & E & S). destruct (IH W2 P2) as (ps & Es & Ss). exists (bs :: ps). split; [cbn [encode_items]; rewrite E; cbn [opt_bind]; rewrite Es; reflexivity|constructor; assumption].
Qed.
Lemma write_slots l ms : Forall2 (fun a m => fst a = fst m /\ jtree (snd a) (snd m)) l ms -> Forall (fun m : string * doc => writes (snd m)) ms -> Forall (fun m : string * doc => proper (snd m)) ms ->
  exists ps, encode_slots l = Some ps /\ Forall2 (fun (p : string * list Z) m => fst p = fst m /\ says (snd m) (string_of_bytes (snd p))) ps ms.
Proof.
  intros F. induction F as [|[k j] [k' d] l ms [Ek J] F IH]; intros Wr P; [exists []; split; [reflexivity|constructor]|]. cbn [fst snd] in *. subst k'. apply Forall_cons_1 in Wr as [W1 W2]. apply Forall_cons_1 in P as [P1 P2].
  destruct (W1 P1 j J) as (bs & E & S). destruct (IH W2 P2) as (ps & Es & Ss). exists ((k, bs) :: ps). split; [cbn [encode_slots]; rewrite E; cbn [opt_bind]; rewrite Es; reflexivity|constructor; [split; [reflexivity|exact S]|exact Ss]].
Qed.
Lemma writes_all d : writes d.
Proof.
  induction d as [z|b|t|ds IH|ms IH] using doc_ind2; intros Pr j J; inversion J as [z'|b'|t'|js ds' F|l ms0 ms' F P]; subst.
  - eexists. split; [reflexivity|]. rewrite string_of_bytes_of. constructor. apply write_int.
  - eexists. split; [reflexivity|]. rewrite string_of_bytes_of. constructor.
  - eexists. split; [reflexivity|]. constructor. apply write_string, (everywhere_here _ _ Pr).
  - destruct (write_items js ds F IH (everywhere_arr _ _ Pr)) as (ps & E & S). exists (91 :: join_bytes ps ++ [93]).
    split; [change (json_encode (JArr js)) with (opt_bind (encode_items js) (fun ps => Some (91 :: join_bytes ps ++ [93]))); rewrite E; reflexivity|].
    change (91 :: join_bytes ps ++ [93]) with ([91] ++ join_bytes ps ++ [93]). rewrite !string_of_bytes_app, join_text. destruct S as [|d p ds ps S1 S2]; [apply (says_arr_empty ""); constructor|].
    apply (says_arr (d :: ds)); [discriminate|]. assert (F3 : Forall2 (fun d p => says d (string_of_bytes p)) (d :: ds) (p :: ps)) by (constructor; assumption). clear - F3. induction F3 as [|d0 p0 ds0 ps0 S F IH]; [constructor|]. cbn [map]. constructor; [|exact IH].
    exists "", (string_of_bytes p0), "". repeat apply conj; try constructor; [exact S|rewrite str_app_nil_r; reflexivity].
  - destruct (everywhere_here _ _ Pr) as [ND U]. pose proof (everywhere_obj _ _ Pr) as Pr'.
    assert (Al : forall Q : string * doc -> Prop, Forall Q ms -> Forall Q ms') by (intros Q H; apply List.Forall_forall; intros m Im; apply (proj1 (List.Forall_forall _ _) H); eapply Permutation_in; eassumption).
    destruct (write_slots l ms' F (Al _ IH) (Al _ Pr')) as (ps & E & S). destruct (Permutation_Forall2 (sort_members_perm ps) S) as (ms2 & Pm2 & F2).
    eexists. split; [change (json_encode (JObj l)) with (opt_bind (encode_slots l) (fun ps => Some (123 :: join_bytes (map (fun ka => encode_str (fst ka) ++ 58 :: snd ka) (sort_members ps)) ++ [125]))); rewrite E; reflexivity|].
    set (ps2 := sort_members ps) in *. clearbody ps2. match goal with |- says _ (string_of_bytes (123 :: ?x ++ [125])) => change (123 :: x ++ [125]) with ([123] ++ x ++ [125]) end.
    rewrite !string_of_bytes_app, join_text, map_map.
    assert (P2 : Permutation ms2 ms) by (rewrite <- Pm2; exact P). destruct ms as [|m0 ms0].
    + apply Permutation_sym, Permutation_nil in P2. subst ms2. inversion F2; subst. apply (says_obj_empty ""). constructor.
    + apply (says_obj _ ms2); [discriminate|exact P2|exact ND|].
      assert (U2 : Forall utf8 (map fst ms2)) by (apply List.Forall_forall; intros k Ik; apply (proj1 (List.Forall_forall _ _) U); eapply Permutation_in; [apply Permutation_map, P2|exact Ik]).
      clear - F2 U2. induction F2 as [|p m ps ms [Ef S] F IH]; [constructor|]. cbn [map] in *. apply Forall_cons_1 in U2 as [U1 U2]. constructor; [|exact (IH U2)].
      exists "", (string_of_bytes (encode_str (fst p))), "", "", (string_of_bytes (snd p)), "". repeat apply conj; try constructor.
      * rewrite Ef. apply write_string, U1.
      * exact S.
      * rewrite string_of_bytes_app, str_app_nil_r. reflexivity.
Qed.

(** ** The properties *)
Lemma jdoc_alike j : forall d d', jdoc j d -> jdoc j d' -> alike d d'.
Proof.
  intros d. revert j. induction d as [z|b|t|ds IH|ms IH] using doc_ind2; intros j d' J J'; inversion J as [f z' V|b'|t'|js ds' F|l ms0 ms' F P D]; subst; inversion J' as [f' z'' V'|b''|t''|js'' ds'' F'|l'' ms'' ms''' F' P' D']; subst.
  - rewrite V in V'. injection V' as ->. constructor.
  - constructor.
  - constructor.
  - constructor. clear - IH F F'. revert ds'' F'. induction F as [|j d js ds J F IHF]; intros ds'' F'; inversion F'; subst; [constructor|]. apply Forall_cons_1 in IH as [I1 I2]. constructor; [eapply I1; eassumption|apply IHF; assumption].
  - assert (I : Forall (fun m : string * doc => forall j d', jdoc j (snd m) -> jdoc j d' -> alike (snd m) d') ms') by (apply List.Forall_forall; intros m Im; apply (proj1 (List.Forall_forall _ _) IH); eapply Permutation_in; eassumption).
    assert (F2 : Forall2 (fun m n => fst m = fst n /\ alike (snd m) (snd n)) ms' ms''').
    { clear - I F F'. revert ms''' F'. induction F as [|a m l ms [E J] F IHF]; intros ms3 F'; inversion F' as [|a' n l' ns [E' J'] F2']; subst; [constructor|]. apply Forall_cons_1 in I as [I1 I2]. constructor; [split; [congruence|eapply I1; eassumption]|apply IHF; assumption]. }
    destruct (Permutation_Forall2 P F2) as (ns & Pn & Fn). econstructor; [exact Fn|]. rewrite <- Pn. exact P'.
Qed.
Lemma unambiguous d d' t : json_text d t -> json_text d' t -> small_numbers d -> small_numbers d' -> alike d d'.
Proof. intros T T' S S'. destruct (decode_text d t T S) as (j & E & J). destruct (decode_text d' t T' S') as (j' & E' & J'). assert (j' = j) by congruence. subst j'. exact (jdoc_alike _ _ _ J J'). Qed.
Lemma reading d v t env s : wf_state s -> is_str s v t -> json_text d t -> small_numbers d ->
  exists r s', applies "json->lisp" [v] env s (Done (Ok r)) s' /\ grows s s' /\ depicts s' r d.
Proof.
  intros W (l & -> & St) T Sm. destruct (decode_text d t T Sm) as (j & E & J). pose proof (wf_entering "json->lisp" env s W) as W'.
  destruct (converts_all d j _ J W') as (r & s' & R & G & D & _). exists r, s'. split; [|split; [exact (grows_trans _ _ _ (grows_entering _ _ _) G)|exact D]].
  applies. unfold json_to_lisp_impl, need_string. cbn [arg nth]. eapply runs_bind; [apply runs_op; reflexivity|]. cbv beta. replace (str_at (entering "json->lisp" env s) l) with t by (symmetry; apply str_some; exact St).
  unfold json_string_to_frames. rewrite E. eapply runs_bind; [|rsteps]. destruct j; try exact R. inversion J.
Qed.
Lemma writing d v env s : wf_state s -> depicts s v d -> proper d -> plain_names d ->
  exists r t s', applies "lisp->json" [v] env s (Done (Ok r)) s' /\ grows s s' /\ is_str s' r t /\ says d t.
Proof.
  intros W D P N. pose proof (wf_entering "lisp->json" env s W) as W'. pose proof (depicts_grows _ _ _ (grows_entering "lisp->json" env s) _ D) as D'.
  destruct (exports_all d v _ D' P N W') as (j & s1 & R & G & J). destruct (writes_all d P j J) as (bs & E & Sy). pose proof (wf_runs _ _ _ _ _ W' R) as W1.
  eexists _, (string_of_bytes bs), _. split; [|split; [|split]].
  - applies. unfold lisp_to_json_impl, frames_to_json_string. cbn [arg nth]. eapply runs_bind; [eapply runs_bind; [exact R|rewrite E; apply runs_ret]|]. eapply runs_bind; [apply runs_new_str|rsteps].
  - exact (grows_trans _ _ _ (grows_entering _ _ _) (grows_trans _ _ _ G (grows_new_str _ _ W1))).
  - apply new_str_is.
  - exact Sy.
Qed.
Lemma says_text d t : says d t -> json_text d t.
Proof. intros S. exists "", t, "". split; [constructor|]. split; [exact S|]. split; [constructor|]. rewrite str_app_nil_r. reflexivity. Qed.
Lemma round_from_json d v t env s : wf_state s -> is_str s v t -> json_text d t -> small_numbers d -> proper d -> plain_names d ->
  exists r s1 v' t' s2, applies "json->lisp" [v] env s (Done (Ok r)) s1 /\ applies "lisp->json" [r] env s1 (Done (Ok v')) s2 /\ is_str s2 v' t' /\ json_text d t'.
Proof.
  intros W St T Sm P N. destruct (reading d v t env s W St T Sm) as (r & s1 & A & G & D). pose proof (wf_applies _ _ _ _ _ _ W A) as W1.
  destruct (writing d r env s1 W1 D P N) as (v' & t' & s2 & A2 & _ & St2 & Sy). exists r, s1, v', t', s2. repeat apply conj; auto using says_text.
Qed.
Lemma round_from_lisp d v env s : wf_state s -> depicts s v d -> small_numbers d -> proper d -> plain_names d ->
  exists t s1 v' s2, applies "lisp->json" [v] env s (Done (Ok t)) s1 /\ applies "json->lisp" [t] env s1 (Done (Ok v')) s2 /\ depicts s2 v' d.
Proof.
  intros W D Sm P N. destruct (writing d v env s W D P N) as (t & tx & s1 & A & G & St & Sy). pose proof (wf_applies _ _ _ _ _ _ W A) as W1.
  destruct (reading d t tx env s1 W1 St (says_text _ _ Sy) Sm) as (v' & s2 & A2 & _ & D2). exists t, s1, v', s2. auto.
Qed.

(** A document, and a text of it. *)
Lemma spaces : space "" /\ space " ".
Proof. split; [constructor|]. constructor; [cbn; auto|constructor]. Qed.
Lemma json_sample : let d := DObj [("a", DBool true); ("b", DArr [DInt (-1); DStr "A"; DArr []])] in
   json_text d " {""b"": [ -1, ""\u0041"" ,[]],""a"":true}" /\ small_numbers d /\ proper d /\ plain_names d.
Proof.
  destruct spaces as [S0 S1]. assert (U : forall c, In c ["a"; "b"; "A"]%char -> text_of (String c "") [byte_of c]). { intros c I. cbn in I. destruct I as [<-|[<-|[<-|[]]]]; (split; [reflexivity|constructor; [left; vm_compute; split; [discriminate|reflexivity]|constructor]]). }
  assert (Q : forall c, In c ["a"; "b"; "A"]%char -> string_text (String c "") ("""" +++ String c "" +++ """")).
  { intros c I. exists [byte_of c], (String c ""). split; [exact (U c I)|]. split; [|reflexivity]. destruct (U c I) as [E F]. rewrite E. rewrite <- (str_app_nil_r (string_of_runes [byte_of c])). inversion F; subst. apply spelled_plain; [assumption| | | |constructor]; cbn in I; destruct I as [<-|[<-|[<-|[]]]]; discriminate. }
  assert (W : forall (P : doc -> Prop), P (DObj [("a", DBool true); ("b", DArr [DInt (-1); DStr "A"; DArr []])]) -> P (DBool true) -> P (DArr [DInt (-1); DStr "A"; DArr []]) -> P (DInt (-1)) -> P (DStr "A") -> P (DArr []) ->
    everywhere P (DObj [("a", DBool true); ("b", DArr [DInt (-1); DStr "A"; DArr []])])).
  { intros P P1 P2 P3 P4 P5 P6 e H.
    assert (Leaf : forall d, (d = DBool true \/ d = DInt (-1) \/ d = DStr "A" \/ d = DArr []) -> within e d -> e = d) by (intros d [->|[->|[->| ->]]] Wd; inversion Wd as [|d0 ds I0|]; subst; [reflexivity|reflexivity|reflexivity|reflexivity|destruct I0]).
    inversion H as [| |k d ms I Wd]; subst; [assumption|]. destruct I as [I|[I|[]]]; injection I as <- <-; [(apply Leaf in Wd; [subst e; assumption|auto])|].
    inversion Wd as [|d ds I Wd'|]; subst; [assumption|]. destruct I as [<-|[<-|[<-|[]]]]; (apply Leaf in Wd'; [subst e; assumption|auto]). }
  cbv zeta. split; [|split; [|split]].
  - exists " ", "{""b"": [ -1, ""\u0041"" ,[]],""a"":true}", "". split; [exact S1|]. split; [|split; [exact S0|reflexivity]].
    apply (says_obj _ [("b", DArr [DInt (-1); DStr "A"; DArr []]); ("a", DBool true)] ["""b"": [ -1, ""\u0041"" ,[]]"; """a"":true"]); [discriminate|apply perm_swap| |].
    + repeat constructor; cbn; intuition discriminate.
    + constructor; [|constructor; [|constructor]].
      * exists "", """b""", "", " ", "[ -1, ""\u0041"" ,[]]", "". split; [exact S0|]. split; [apply (Q "b"%char); cbn; auto|]. split; [exact S0|]. split; [exact S1|]. split; [|split; [exact S0|reflexivity]].
        apply (says_arr [DInt (-1); DStr "A"; DArr []] [" -1"; " ""\u0041"" "; "[]"]); [discriminate|]. constructor; [|constructor; [|constructor; [|constructor]]].
        -- exists " ", "-1", "". split; [exact S1|]. split; [|split; [exact S0|reflexivity]]. constructor. apply (it_minus "1" 1); [apply written_one; [cbn; auto|lia]|discriminate].
        -- exists " ", """\u0041""", " ". split; [exact S1|]. split; [|split; [exact S1|reflexivity]]. constructor. exists [65], "\u0041". split; [apply (U "A"%char); cbn; auto|]. split; [|reflexivity].
           apply (spelled_code "0041" 65 [] ""); [|reflexivity|unfold scalar; lia|constructor].
           apply (written_more 16 "004" 4 "1" 1); [|cbn; auto|lia]. apply (written_more 16 "00" 0 "4" 4); [|cbn; tauto|lia]. apply (written_more 16 "0" 0 "0" 0); [|cbn; auto|lia]. apply written_one; [cbn; auto|lia].
        -- exists "", "[]", "". split; [exact S0|]. split; [|split; [exact S0|reflexivity]]. apply (says_arr_empty ""). exact S0.
      * exists "", """a""", "", "", "true", "". split; [exact S0|]. split; [apply (Q "a"%char); cbn; auto|]. split; [exact S0|]. split; [exact S0|]. split; [apply (says_bool true)|split; [exact S0|reflexivity]].
  - apply W; try exact Logic.I. change (2 ^ 53) with 9007199254740992. lia.
  - apply W; try exact Logic.I.
    + split; [repeat constructor; cbn; intuition discriminate|]. constructor; [|constructor; [|constructor]]; (eexists; apply U; cbn; auto).
    + eexists. apply U. cbn. auto.
  - apply W; try exact Logic.I. cbn [map fst]. constructor; [|constructor; [|constructor]]; intros [|c [|c' p]]; discriminate.
Qed.
Lemma json_string_sample s : wf_state s -> exists s' v, wf_state s' /\ is_str s' v " {""b"": [ -1, ""\u0041"" ,[]],""a"":true}".
Proof. intros W. destruct (strings_sample s " {""b"": [ -1, ""\u0041"" ,[]],""a"":true}" "" W) as (s' & c & v & l & W' & C & _). exists s', c. auto. Qed.
