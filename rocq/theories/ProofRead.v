(** Proofs of C14 and C15. *)
From Verif Require Export SpecRead.
From Verif Require Import ProofEval ProofCall RunFacts ProofList NumText ProofData.
From stdpp Require Import list.
From Verif Require Import Data SpecRead.
Local Open Scope string_scope.
Local Open Scope list_scope.
Local Open Scope Z_scope.

(** *** UTF-8 *)
Lemma decode_encode c bs : scalar c -> decode_go (encode_rune c ++ bs) 0 = c :: decode_go bs 0.
Proof.
  intros H. unfold encode_rune.
  destruct (Z.leb_spec 0 c); [|destruct H; lia]. cbn [andb].
  destruct (Z.ltb_spec c 128). { cbn [app decode_go decode_rune]. rewrite (proj2 (Z.ltb_lt c 128)) by lia. reflexivity. }
  assert (D : forall k, 0 <= k mod 64 < 64) by (intros; apply Z.mod_pos_bound; lia).
  destruct (Z.leb_spec 128 c); [|lia]. cbn [andb]. destruct (Z.ltb_spec c 2048).
  { cbn [app decode_go decode_rune]. assert (2 <= c / 64 < 32) by (split; [apply Z.div_le_lower_bound|apply Z.div_lt_upper_bound]; lia).
    pose proof (D c). rewrite (proj2 (Z.ltb_ge _ 128)) by lia. rewrite (proj2 (Z.leb_le 194 _)) by lia. rewrite (proj2 (Z.ltb_lt _ 224)) by lia. cbn [andb].
    unfold cont_byte. rewrite (proj2 (Z.leb_le 128 _)) by lia. rewrite (proj2 (Z.ltb_lt _ 192)) by lia. cbn [andb Nat.sub].
    f_equal. pose proof (Z.div_mod c 64). lia. }
  destruct (((2048 <=? c) && (c <? 55296)) || ((57344 <=? c) && (c <? 65536)))%bool eqn:E.
  { cbn [app decode_go decode_rune].
    assert (B : 2048 <= c < 65536 /\ (55296 <=? c) && (c <? 57344) = false) by lia. destruct B as [B1 B2]. clear E.
    assert (0 <= c / 4096 < 16) by (split; [apply Z.div_pos|apply Z.div_lt_upper_bound]; lia).
    pose proof (D c). pose proof (D (c / 64)).
    assert (V : (224 + c / 4096 - 224) * 4096 + (128 + (c / 64) mod 64 - 128) * 64 + (128 + c mod 64 - 128) = c).
    { pose proof (Z.div_mod c 64). pose proof (Z.div_mod (c / 64) 64). rewrite Z.div_div in * by lia. change (64 * 64) with 4096 in *. lia. }
    rewrite V. unfold cont_byte. rewrite (proj2 (Z.ltb_ge _ 128)) by lia. rewrite (proj2 (Z.ltb_ge _ 224)) by lia. rewrite andb_false_r.
    rewrite (proj2 (Z.leb_le 224 _)) by lia. rewrite (proj2 (Z.ltb_lt _ 240)) by lia. cbn [andb].
    rewrite !(proj2 (Z.leb_le 128 _)) by lia. rewrite !(proj2 (Z.ltb_lt _ 192)) by lia. rewrite (proj2 (Z.leb_le 2048 _)) by lia. rewrite B2. cbn [andb negb Nat.sub]. reflexivity. }
  assert (B : 65536 <= c <= 1114111) by (destruct H; lia). clear E.
  rewrite (proj2 (Z.leb_le 65536 _)) by lia. rewrite (proj2 (Z.leb_le _ 1114111)) by lia. cbn [andb app decode_go decode_rune].
  assert (0 <= c / 262144 < 5) by (split; [apply Z.div_pos|apply Z.div_lt_upper_bound]; lia).
  pose proof (D c). pose proof (D (c / 64)). pose proof (D (c / 4096)).
  assert (V : (240 + c / 262144 - 240) * 262144 + (128 + (c / 4096) mod 64 - 128) * 4096 + (128 + (c / 64) mod 64 - 128) * 64 + (128 + c mod 64 - 128) = c).
  { pose proof (Z.div_mod c 64). pose proof (Z.div_mod (c / 64) 64). pose proof (Z.div_mod (c / 4096) 64). rewrite !Z.div_div in * by lia. change (64 * 64) with 4096 in *. change (4096 * 64) with 262144 in *. lia. }
  rewrite V. unfold cont_byte. rewrite (proj2 (Z.ltb_ge _ 128)) by lia. rewrite (proj2 (Z.ltb_ge _ 224)) by lia. rewrite andb_false_r. rewrite (proj2 (Z.ltb_ge _ 240)) by lia. rewrite andb_false_r.
  rewrite (proj2 (Z.leb_le 240 _)) by lia. rewrite (proj2 (Z.ltb_lt _ 245)) by lia. cbn [andb].
  rewrite !(proj2 (Z.leb_le 128 _)) by lia. rewrite !(proj2 (Z.ltb_lt _ 192)) by lia. rewrite (proj2 (Z.leb_le 65536 _)) by lia. rewrite (proj2 (Z.leb_le _ 1114111)) by lia. cbn [andb Nat.sub]. reflexivity.
Qed.
Lemma encode_bytes c : Forall (fun b => 0 <= b < 256) (encode_rune c).
Proof.
  assert (D : forall k, 0 <= k mod 64 < 64) by (intros; apply Z.mod_pos_bound; lia).
  unfold encode_rune. destruct (Z.leb_spec 0 c); cbn [andb].
  - destruct (Z.ltb_spec c 128); [repeat constructor; lia|]. destruct (Z.leb_spec 128 c); [|lia]. cbn [andb]. destruct (Z.ltb_spec c 2048).
    { assert (2 <= c / 64 < 32) by (split; [apply Z.div_le_lower_bound|apply Z.div_lt_upper_bound]; lia). pose proof (D c). repeat constructor; lia. }
    destruct (((2048 <=? c) && (c <? 55296)) || ((57344 <=? c) && (c <? 65536)))%bool eqn:E.
    { assert (0 <= c / 4096 < 16) by (split; [apply Z.div_pos|apply Z.div_lt_upper_bound]; lia). pose proof (D c). pose proof (D (c / 64)). repeat constructor; lia. }
    destruct ((65536 <=? c) && (c <=? 1114111)) eqn:E2; [|repeat constructor; lia].
    assert (0 <= c / 262144 < 5) by (split; [apply Z.div_pos|apply Z.div_lt_upper_bound]; lia). pose proof (D c). pose proof (D (c / 64)). pose proof (D (c / 4096)). repeat constructor; lia.
  - replace ((128 <=? c) && (c <? 2048)) with false by lia. replace (((2048 <=? c) && (c <? 55296)) || ((57344 <=? c) && (c <? 65536)))%bool with false by lia.
    replace ((65536 <=? c) && (c <=? 1114111)) with false by lia. repeat constructor; lia.
Qed.
Lemma bytes_of_bytes l : Forall (fun b => 0 <= b < 256) l -> bytes_of_string (string_of_bytes l) = l.
Proof. intros F. induction F as [|b l Hb F IH]; cbn; [reflexivity|]. rewrite NumText.byte_of_ascii by exact Hb. rewrite IH. reflexivity. Qed.
Lemma encode_runes_bytes l : Forall (fun b => 0 <= b < 256) (encode_runes l).
Proof. induction l; cbn; [constructor|]. apply Forall_app. split; [apply encode_bytes|assumption]. Qed.
Lemma runes_app rs t : Forall scalar rs -> runes_of_string (string_of_runes rs +++ t) = rs ++ runes_of_string t.
Proof.
  intros F. unfold runes_of_string, string_of_runes. rewrite bytes_app, bytes_of_bytes by apply encode_runes_bytes.
  induction F as [|c rs Hc F IH]; [reflexivity|]. cbn [encode_runes app]. rewrite <- app_assoc, decode_encode by assumption. rewrite IH. reflexivity.
Qed.
Lemma runes_ascii_app a t : is_ascii a = true -> runes_of_string (a +++ t) = bytes_of_string a ++ runes_of_string t.
Proof.
  intros H. unfold runes_of_string. rewrite bytes_app. induction a as [|c a IH]; [reflexivity|]. cbn in H. apply andb_true_iff in H as [H1 H2]. unfold is_ascii_char in H1.
  cbn [bytes_of_string app decode_go decode_rune]. rewrite H1. cbn [Nat.sub]. rewrite IH by exact H2. reflexivity.
Qed.

(** *** Tokens *)
Definition suffix_of {A} (r l : list A) : Prop := exists used, l = used ++ r.
Lemma suffix_refl {A} (l : list A) : suffix_of l l.
Proof. exists []. reflexivity. Qed.
Lemma suffix_cons {A} (x : A) r l : suffix_of r l -> suffix_of r (x :: l).
Proof. intros [u ->]. exists (x :: u). reflexivity. Qed.
Lemma suffix_trans {A} (a b c : list A) : suffix_of a b -> suffix_of b c -> suffix_of a c.
Proof. intros [u ->] [w ->]. exists (w ++ u). apply app_assoc. Qed.
Lemma suffix_len {A} (r l : list A) : suffix_of r l -> (length r <= length l)%nat.
Proof. intros [u ->]. rewrite app_length. lia. Qed.
Lemma span_suffix f l : suffix_of (snd (span_runes f l)) l.
Proof. induction l as [|c l IH]; cbn; [apply suffix_refl|]. destruct (f c); [|apply suffix_refl]. destruct (span_runes f l). apply suffix_cons, IH. Qed.
Lemma number_suffix u l : forall saw, suffix_of (snd (number_runes u l saw)) l.
Proof.
  induction l as [|c l IH]; intros saw; cbn; [apply suffix_refl|]. destruct ((c =? 46) && negb saw).
  - specialize (IH true). destruct (number_runes u l true) as [[]]. apply suffix_cons, IH.
  - destruct (rune_number u c); [|apply suffix_refl]. specialize (IH saw). destruct (number_runes u l saw) as [[]]. apply suffix_cons, IH.
Qed.
Lemma string_suffix : forall n l a r, (length l <= n)%nat -> string_runes l = Some (a, r) -> suffix_of r l.
Proof.
  induction n as [|n IH]; intros l a r L H; destruct l as [|c l]; try discriminate; cbn in L; [lia|].
  assert (G : forall a' r', string_runes l = Some (a', r') -> suffix_of r' l) by (intros; eapply IH; [lia|eassumption]).
  destruct (Z.eq_dec c 34) as [->|N1]; [cbn in H; injection H as <- <-; apply suffix_cons, suffix_refl|].
  destruct (Z.eq_dec c 92) as [->|N2].
  - destruct l as [|d l]; [discriminate|]. cbn in H. destruct (string_runes l) as [[a' r']|] eqn:Q; [|discriminate]. injection H as <- <-.
    apply suffix_cons, suffix_cons. eapply IH; [|exact Q]. cbn in L. lia.
  - assert (E : string_runes (c :: l) = match string_runes l with Some (a, r) => Some (c :: a, r) | None => None end).
    { cbn [string_runes]. destruct c as [|p|p]; try reflexivity. do 7 (try destruct p as [p|p|]; try reflexivity); congruence. }
    rewrite E in H. destruct (string_runes l) as [[a' r']|] eqn:Q; [|discriminate]. injection H as <- <-. apply suffix_cons. eapply G. reflexivity.
Qed.
Lemma skip_suffix u l : forall cm, suffix_of (skip_blank u cm l) l.
Proof.
  induction l as [|c l IH]; intros cm; cbn; [apply suffix_refl|]. destruct cm; [destruct (c =? 10); apply suffix_cons, IH|].
  destruct (rune_space u c); [apply suffix_cons, IH|]. destruct (c =? 59); [apply suffix_cons, IH|apply suffix_refl].
Qed.
Lemma read_number_suffix u c t : rune_number u c = true \/ c = 45 -> suffix_of (snd (read_number u (c :: t))) t.
Proof.
  intros H. unfold read_number. destruct (Z.eq_dec c 45) as [->|N].
  - pose proof (number_suffix u t false) as S. destruct (number_runes u t false) as [[]]. exact S.
  - assert (E : (match c :: t with 45 :: t0 => ([45], t0) | _ => ([], c :: t) end) = ([], c :: t)).
    { destruct c as [|p|p]; try reflexivity. do 6 (try destruct p as [p|p|]; try reflexivity); congruence. }
    rewrite E. destruct H as [H|H]; [|congruence]. cbn [number_runes]. destruct ((c =? 46) && negb false).
    + pose proof (number_suffix u t true) as S. destruct (number_runes u t true) as [[]]. exact S.
    + rewrite H. pose proof (number_suffix u t false) as S. destruct (number_runes u t false) as [[]]. exact S.
Qed.
Lemma tl_suffix {A} (t : list A) : suffix_of (tl t) t.
Proof. destruct t; [apply suffix_refl|apply suffix_cons, suffix_refl]. Qed.
(** Every token takes at least its first character. *)
Lemma read_token_suffix u c t k r : read_token u c t = Some (k, r) -> suffix_of r t.
Proof.
  unfold read_token. cbv zeta. intros H.
  repeat match type of H with
  | (if ?b then _ else _) = _ => destruct b eqn:?
  end; try (injection H as <- <-; first [apply suffix_refl|apply tl_suffix]).
  - pose proof (span_suffix hex_char (tl t)) as S. destruct (span_runes hex_char (tl t)). injection H as <- <-. eapply suffix_trans; [exact S|apply tl_suffix].
  - injection H as H. pose proof (read_number_suffix u c t (or_introl Heqb0)) as S. rewrite H in S. exact S.
  - injection H as H. assert (c = 45) as -> by lia. pose proof (read_number_suffix u 45 t (or_intror eq_refl)) as S. rewrite H in S. exact S.
  - destruct (string_runes t) as [[a r']|] eqn:Q; [|discriminate]. injection H as <- <-. eapply (string_suffix (length t)); [lia|exact Q].
  - cbn [span_runes] in H. match goal with E : symbol_char u c = true |- _ => rewrite E in H end. pose proof (span_suffix (symbol_char u) t) as S.
    destruct (span_runes (symbol_char u) t). injection H as <- <-. exact S.
  - assert (P : forall d t', t = d :: t' -> suffix_of t' t) by (intros d t' ->; apply suffix_cons, suffix_refl).
    assert (Q : forall f t', suffix_of (snd (span_runes f t')) t') by (intros; apply span_suffix).
    destruct t as [|d t']; [injection H as <- <-; apply suffix_refl|]. specialize (P d t' eq_refl).
    destruct (Z.eq_dec d 116) as [->|N1]; [injection H as <- <-; exact P|]. destruct (Z.eq_dec d 102) as [->|N2]; [injection H as <- <-; exact P|].
    destruct (Z.eq_dec d 120) as [->|N3]. { specialize (Q hex_char t'). destruct (span_runes hex_char t'). injection H as <- <-. eapply suffix_trans; eassumption. }
    destruct (Z.eq_dec d 98) as [->|N4]. { specialize (Q binary_char t'). destruct (span_runes binary_char t'). injection H as <- <-. eapply suffix_trans; eassumption. }
    assert (r = d :: t'); [|subst; apply suffix_refl].
    destruct d as [|p|p]; try (injection H as <- <-; reflexivity). do 7 (try destruct p as [p|p|]; try (injection H as <- <-; reflexivity)); congruence.
Qed.
Lemma tokens_fuel u : forall n l m, (length l <= n)%nat -> (length l <= m)%nat -> tokens_go n u l = tokens_go m u l.
Proof.
  assert (Nil : forall n, tokens_go n u [] = []) by (intros []; reflexivity).
  induction n as [|n IH]; intros l m L1 L2.
  - destruct l; [|cbn in L1; lia]. rewrite !Nil. reflexivity.
  - destruct m as [|m]. { destruct l; [|cbn in L2; lia]. rewrite !Nil. reflexivity. }
    cbn [tokens_go]. pose proof (suffix_len _ _ (skip_suffix u l false)) as Ls. destruct (skip_blank u false l) as [|c t]; [reflexivity|].
    destruct (read_token u c t) as [[k r]|] eqn:E; [|reflexivity]. f_equal. pose proof (suffix_len _ _ (read_token_suffix _ _ _ _ _ E)). cbn in Ls. apply IH; lia.
Qed.
(** The tokens of a text, without fuel. *)
Definition toks (u : uni_table) (l : list rune) : list token := tokens_go (length l) u l.
Lemma toks_eq u l : toks u l = match skip_blank u false l with
  | [] => [] | c :: t => match read_token u c t with Some (k, r) => k :: toks u r | None => [] end end.
Proof.
  unfold toks. rewrite (tokens_fuel u (length l) l (S (length l))) by lia. cbn [tokens_go].
  pose proof (suffix_len _ _ (skip_suffix u l false)) as Ls. destruct (skip_blank u false l) as [|c t]; [reflexivity|].
  destruct (read_token u c t) as [[k r]|] eqn:E; [|reflexivity]. f_equal. pose proof (suffix_len _ _ (read_token_suffix _ _ _ _ _ E)). cbn in Ls. apply tokens_fuel; lia.
Qed.
Lemma tokenize_toks u src : tokenize u src = toks u (runes_of_string src).
Proof. reflexivity. Qed.

(** *** Parsing *)
Definition shrinks (p : presult * list token) (ts : list token) : Prop := forall x r, p = (PSexp x, r) -> (length r < length ts)%nat.
Lemma parse_fuel_all n :
  (forall ts m, (2 * length ts + 1 <= n)%nat -> (n <= m)%nat -> parse_expr m ts = parse_expr n ts /\ shrinks (parse_expr n ts) ts) /\
  (forall ts cells m, (2 * length ts + 2 <= n)%nat -> (n <= m)%nat -> parse_cons m ts cells = parse_cons n ts cells /\ shrinks (parse_cons n ts cells) ts) /\
  (forall ts cells m, (2 * length ts + 2 <= n)%nat -> (n <= m)%nat -> parse_bytes m ts cells = parse_bytes n ts cells /\ shrinks (parse_bytes n ts cells) ts) /\
  (forall ts cells m, (2 * length ts + 2 <= n)%nat -> (n <= m)%nat -> parse_frame m ts cells = parse_frame n ts cells /\ shrinks (parse_frame n ts cells) ts).
Proof.
  induction n as [|n (IHe & IHc & IHb & IHf)]; [repeat apply conj; intros; lia|].
  assert (Atom : forall k r p, (p : presult * list token) = (PSexp k, r) -> forall t, shrinks p (t :: r)).
  { intros k r p -> t x r' [= _ <-]. cbn. lia. }
  assert (Num : forall (b : presult) r t, shrinks (b, r) (t :: r)) by (intros b r t x r' [= _ <-]; cbn; lia).
  assert (Skip : forall p r t, shrinks p r -> shrinks p (t :: r)) by (intros p r t H x r' E; cbn; specialize (H _ _ E); lia).
  assert (Wrap : forall name p r t, shrinks p r -> shrinks (wrap_quote name p) (t :: r)).
  { intros name [[y| |m0] r0] r t H x r' E; cbn in E; try discriminate. injection E as _ <-. specialize (H _ _ eq_refl). cbn. lia. }
  repeat apply conj.
  - intros ts m L Lm. destruct m as [|m]; [lia|]. destruct ts as [|k r]; [split; [reflexivity|intros x r [=]]|]. cbn [length] in L.
    destruct (IHe r m ltac:(lia) ltac:(lia)) as [Ee Se]. 
    destruct k; cbn [parse_expr]; rewrite ?Ee; try (split; [reflexivity|]; auto; fail).
    + split; [reflexivity|]. intros x r' [=].
    + destruct (IHc r [] m ltac:(lia) ltac:(lia)) as [Ec Sc]. split; [exact Ec|]. apply Skip, Sc.
    + destruct (IHb r [] m ltac:(lia) ltac:(lia)) as [Eb Sb]. destruct r as [|k' r']; [split; [exact Eb|apply Skip, Sb]|].
      destruct k'; try (split; [exact Eb|apply Skip, Sb]). split; [reflexivity|]. apply Skip. apply Num.
    + destruct (IHf r [] m ltac:(lia) ltac:(lia)) as [Eb Sb]. destruct r as [|k' r']; [split; [exact Eb|apply Skip, Sb]|].
      destruct k'; try (split; [exact Eb|apply Skip, Sb]). split; [reflexivity|]. apply Skip. apply Num.
  - intros ts cells m L Lm. destruct m as [|m]; [lia|]. destruct (IHe ts m ltac:(lia) ltac:(lia)) as [Ee Se].
    assert (Gen : (match parse_expr m ts with (PSexp x, r) => parse_cons m r (x :: cells) | (PEof, r) => (PErr "Unexpected EOF (expected closing parenthesis)", r) | (PErr m0, r) => (PErr (eof_message "Unexpected EOF (expected closing parenthesis)" m0), r) end) =
                  (match parse_expr n ts with (PSexp x, r) => parse_cons n r (x :: cells) | (PEof, r) => (PErr "Unexpected EOF (expected closing parenthesis)", r) | (PErr m0, r) => (PErr (eof_message "Unexpected EOF (expected closing parenthesis)" m0), r) end) /\
                  shrinks (match parse_expr n ts with (PSexp x, r) => parse_cons n r (x :: cells) | (PEof, r) => (PErr "Unexpected EOF (expected closing parenthesis)", r) | (PErr m0, r) => (PErr (eof_message "Unexpected EOF (expected closing parenthesis)" m0), r) end) ts).
    { rewrite Ee. destruct (parse_expr n ts) as [[x| |e] r] eqn:Q; [|split; [reflexivity|intros x' r' [=]]|split; [reflexivity|intros x' r' [=]]].
      specialize (Se _ _ eq_refl). destruct (IHc r (x :: cells) m ltac:(lia) ltac:(lia)) as [Ec Sc]. split; [exact Ec|]. intros x' r' E. specialize (Sc _ _ E). lia. }
    destruct ts as [|k r]; [exact Gen|]. cbn [length] in L. destruct k; try exact Gen.
    + split; [reflexivity|apply Num].
    + cbn [parse_cons]. destruct (IHe r m ltac:(lia) ltac:(lia)) as [E2 S2]. rewrite E2. split; [reflexivity|].
      destruct (parse_expr n r) as [[x| |e] r2] eqn:Q; try (intros x' r' [=]; fail). specialize (S2 _ _ eq_refl).
      destruct r2 as [|[] r2]; intros x' r' [= _ <-]. cbn in *. lia.
  - intros ts cells m L Lm. destruct m as [|m]; [lia|]. destruct (IHe ts m ltac:(lia) ltac:(lia)) as [Ee Se].
    assert (Gen : (match parse_expr m ts with (PSexp x, r) => match byte_element x with Some m0 => (PErr m0, r) | None => parse_bytes m r (x :: cells) end | (PEof, r) => (PErr "Unexpected EOF (expected closing bracket)", r) | (PErr m0, r) => (PErr (eof_message "Unexpected EOF (expected closing bracket)" m0), r) end) =
                  (match parse_expr n ts with (PSexp x, r) => match byte_element x with Some m0 => (PErr m0, r) | None => parse_bytes n r (x :: cells) end | (PEof, r) => (PErr "Unexpected EOF (expected closing bracket)", r) | (PErr m0, r) => (PErr (eof_message "Unexpected EOF (expected closing bracket)" m0), r) end) /\
                  shrinks (match parse_expr n ts with (PSexp x, r) => match byte_element x with Some m0 => (PErr m0, r) | None => parse_bytes n r (x :: cells) end | (PEof, r) => (PErr "Unexpected EOF (expected closing bracket)", r) | (PErr m0, r) => (PErr (eof_message "Unexpected EOF (expected closing bracket)" m0), r) end) ts).
    { rewrite Ee. destruct (parse_expr n ts) as [[x| |e] r] eqn:Q; [|split; [reflexivity|intros x' r' [=]]|split; [reflexivity|intros x' r' [=]]].
      specialize (Se _ _ eq_refl). destruct (byte_element x); [split; [reflexivity|intros x' r' [=]]|].
      destruct (IHb r (x :: cells) m ltac:(lia) ltac:(lia)) as [Ec Sc]. split; [exact Ec|]. intros x' r' E. specialize (Sc _ _ E). lia. }
    destruct ts as [|k r]; [exact Gen|]. destruct k; try exact Gen. split; [reflexivity|apply Num].
  - intros ts cells m L Lm. destruct m as [|m]; [lia|]. destruct (IHe ts m ltac:(lia) ltac:(lia)) as [Ee Se].
    assert (Gen : (match parse_expr m ts with (PSexp x, r) => parse_frame m r (x :: cells) | (PEof, r) => (PErr "Unexpected EOF (expected closing brace)", r) | (PErr m0, r) => (PErr (eof_message "Unexpected EOF (expected closing brace)" m0), r) end) =
                  (match parse_expr n ts with (PSexp x, r) => parse_frame n r (x :: cells) | (PEof, r) => (PErr "Unexpected EOF (expected closing brace)", r) | (PErr m0, r) => (PErr (eof_message "Unexpected EOF (expected closing brace)" m0), r) end) /\
                  shrinks (match parse_expr n ts with (PSexp x, r) => parse_frame n r (x :: cells) | (PEof, r) => (PErr "Unexpected EOF (expected closing brace)", r) | (PErr m0, r) => (PErr (eof_message "Unexpected EOF (expected closing brace)" m0), r) end) ts).
    { rewrite Ee. destruct (parse_expr n ts) as [[x| |e] r] eqn:Q; [|split; [reflexivity|intros x' r' [=]]|split; [reflexivity|intros x' r' [=]]].
      specialize (Se _ _ eq_refl). destruct (IHf r (x :: cells) m ltac:(lia) ltac:(lia)) as [Ec Sc]. split; [exact Ec|]. intros x' r' E. specialize (Sc _ _ E). lia. }
    destruct ts as [|k r]; [exact Gen|]. destruct k; try exact Gen. split; [reflexivity|apply Num].
Qed.
Lemma parse_enough ts n : (parse_fuel ts <= n)%nat -> parse_expr n ts = parse_tokens ts.
Proof. intros L. unfold parse_tokens. unfold parse_fuel in *. apply (parse_fuel_all (2 * length ts + 2)); lia. Qed.

(** *** What is read is taken off the front, with its parentheses closed *)
Definition eats (p : presult * list token) (ts : list token) (k : Z) : Prop :=
  forall x r, p = (PSexp x, r) -> exists used, ts = used ++ r /\ total opens used + k <= total closes used.
Lemma total_app f a b : total f (a ++ b) = total f a + total f b.
Proof. induction a as [|x a IH]; cbn; [reflexivity|]. unfold total in *. cbn. rewrite IH. lia. Qed.
Lemma parse_balance n :
  (forall ts, eats (parse_expr n ts) ts 0) /\ (forall ts cells, eats (parse_cons n ts cells) ts 1) /\
  (forall ts cells, eats (parse_bytes n ts cells) ts 0) /\ (forall ts cells, eats (parse_frame n ts cells) ts 0).
Proof.
  induction n as [|n (IHe & IHc & IHb & IHf)]; [repeat apply conj; intros; intros x r [=]|].
  assert (One : forall (b : presult) r t j, j <= closes t - opens t -> eats (b, r) (t :: r) j).
  { intros b r t j Hj x r' [= _ <-]. exists [t]. split; [reflexivity|]. unfold total. cbn. lia. }
  assert (Skip : forall p r t i j, eats p r i -> j <= i + closes t - opens t -> eats p (t :: r) j).
  { intros p r t i j H Hj x r' E. destruct (H _ _ E) as (used & -> & Hu). exists (t :: used). split; [reflexivity|]. unfold total in *. cbn. lia. }
  assert (Wrap : forall name p r t, eats p r 0 -> opens t = 0 -> closes t = 0 -> eats (wrap_quote name p) (t :: r) 0).
  { intros name [[y| |m0] r0] r t H O C x r' E; cbn in E; try discriminate. injection E as _ <-. destruct (H _ _ eq_refl) as (used & -> & Hu).
    exists (t :: used). split; [reflexivity|]. unfold total in *. cbn. lia. }
  assert (Then : forall ts (p : presult * list token) (k : sexp -> list token -> presult * list token) j, eats p ts 0 -> (forall x r, eats (k x r) r j) -> forall x r, p = (PSexp x, r) -> eats (k x r) ts j).
  { intros ts p k j H Hk x r E x' r' E'. destruct (H _ _ E) as (u1 & -> & H1). destruct (Hk _ _ _ _ E') as (u2 & -> & H2). exists (u1 ++ u2). split; [apply app_assoc|]. rewrite !total_app. lia. }
  repeat apply conj.
  - intros ts. destruct ts as [|k r]; [intros x r [=]|]. destruct k; cbn [parse_expr]; try (apply One; cbn; lia); try (apply Wrap; [apply IHe|reflexivity|reflexivity]).
    + intros x r' [=].
    + eapply Skip; [apply IHc|cbn; lia].
    + assert (S : eats (parse_bytes n r []) (KLbracket :: r) 0) by (eapply Skip; [apply IHb|cbn; lia]).
      destruct r as [|[] r']; try exact S. eapply Skip; [eapply (One _ _ _ 0); cbn; lia|cbn; lia].
    + assert (S : eats (parse_frame n r []) (KLbrace :: r) 0) by (eapply Skip; [apply IHf|cbn; lia]).
      destruct r as [|[] r']; try exact S. eapply Skip; [eapply (One _ _ _ 0); cbn; lia|cbn; lia].
  - intros ts cells.
    assert (Gen : eats (match parse_expr n ts with (PSexp x, r) => parse_cons n r (x :: cells) | (PEof, r) => (PErr "Unexpected EOF (expected closing parenthesis)", r) | (PErr m0, r) => (PErr (eof_message "Unexpected EOF (expected closing parenthesis)" m0), r) end) ts 1).
    { destruct (parse_expr n ts) as [[x| |e] r] eqn:Q; try (intros x' r' [=]; fail). eapply (Then ts (PSexp x, r) (fun x r => parse_cons n r (x :: cells))); [rewrite <- Q; apply IHe|intros; apply IHc|reflexivity]. }
    destruct ts as [|k r]; [exact Gen|]. destruct k; try exact Gen; [apply One; cbn; lia|].
    cbn [parse_cons]. pose proof (IHe r) as H. destruct (parse_expr n r) as [[x| |e] r2] eqn:Q; try (intros x' r' [=]; fail).
    destruct r2 as [|[] r2]; try (intros x' r' [=]; fail). intros x' r' [= _ <-]. destruct (H _ _ eq_refl) as (used & -> & Hu). exists (KPeriod :: used ++ [KRparen]).
    split; [cbn; rewrite <- app_assoc; reflexivity|]. pose proof (total_app opens used [KRparen]) as T1. pose proof (total_app closes used [KRparen]) as T2. unfold total in *. cbn in *. lia.
  - intros ts cells.
    assert (Gen : eats (match parse_expr n ts with (PSexp x, r) => match byte_element x with Some m0 => (PErr m0, r) | None => parse_bytes n r (x :: cells) end | (PEof, r) => (PErr "Unexpected EOF (expected closing bracket)", r) | (PErr m0, r) => (PErr (eof_message "Unexpected EOF (expected closing bracket)" m0), r) end) ts 0).
    { destruct (parse_expr n ts) as [[x| |e] r] eqn:Q; try (intros x' r' [=]; fail). destruct (byte_element x); [intros x' r' [=]|].
      eapply (Then ts (PSexp x, r) (fun x r => parse_bytes n r (x :: cells))); [rewrite <- Q; apply IHe|intros; apply IHb|reflexivity]. }
    destruct ts as [|k r]; [exact Gen|]. destruct k; try exact Gen; apply One; cbn; lia.
  - intros ts cells.
    assert (Gen : eats (match parse_expr n ts with (PSexp x, r) => parse_frame n r (x :: cells) | (PEof, r) => (PErr "Unexpected EOF (expected closing brace)", r) | (PErr m0, r) => (PErr (eof_message "Unexpected EOF (expected closing brace)" m0), r) end) ts 0).
    { destruct (parse_expr n ts) as [[x| |e] r] eqn:Q; try (intros x' r' [=]; fail).
      eapply (Then ts (PSexp x, r) (fun x r => parse_frame n r (x :: cells))); [rewrite <- Q; apply IHe|intros; apply IHf|reflexivity]. }
    destruct ts as [|k r]; [exact Gen|]. destruct k; try exact Gen; apply One; cbn; lia.
Qed.
(** *** End of input *)
Definition ends_dangling (ts : list token) : Prop := exists pre k, ts = pre ++ [k] /\ dangling k.
Lemma parse_eof n :
  (forall ts r, parse_expr n ts = (PEof, r) -> ts = [] \/ ends_dangling ts) /\ (forall ts cells r, parse_cons n ts cells = (PEof, r) -> ends_dangling ts) /\
  (forall ts cells r, parse_bytes n ts cells <> (PEof, r)) /\ (forall ts cells r, parse_frame n ts cells <> (PEof, r)).
Proof.
  induction n as [|n (IHe & IHc & IHb & IHf)]; [repeat apply conj; intros; discriminate|].
  assert (More : forall t ts, ends_dangling ts -> ends_dangling (t :: ts)). { intros t ts (pre & k & -> & D). exists (t :: pre), k. auto. }
  assert (Back : forall used (r : list token), ends_dangling r -> ends_dangling (used ++ r)). { intros used r (pre & k & -> & D). exists (used ++ pre), k. rewrite app_assoc. auto. }
  assert (Here : forall t r, dangling t -> r = [] \/ ends_dangling r -> ends_dangling (t :: r)). { intros t r D [->|E]; [exists [], t; auto|auto]. }
  assert (Wrap : forall name p r, wrap_quote name p = (PEof, r) -> p = (PEof, r)). { intros name [[y| |m0] r0] r E; cbn in E; try discriminate. exact E. }
  assert (Int : forall b lit, make_integer b lit <> PEof). { intros b lit. unfold make_integer. destruct (sscanf_int b lit); discriminate. }
  assert (Flt : forall lit, make_float lit <> PEof). { intros lit. unfold make_float. destruct (parse_f32 _); discriminate. }
  repeat apply conj.
  - intros ts r0 E. destruct ts as [|k r]; [left; reflexivity|]. right. destruct k; cbn [parse_expr] in E; try discriminate;
      try (injection E as E _; exfalso; first [exact (Int _ _ E)|exact (Flt _ E)]); try (apply Wrap in E; apply Here; [cbn; tauto|exact (IHe _ _ E)]).
    + apply More. exact (IHc _ _ _ E).
    + destruct r as [|[] r']; try discriminate; exfalso; exact (IHb _ _ _ E).
    + destruct r as [|[] r']; try discriminate; exfalso; exact (IHf _ _ _ E).
  - intros ts cells r0.
    assert (Gen : (match parse_expr n ts with (PSexp x, r) => parse_cons n r (x :: cells) | (PEof, r) => (PErr "Unexpected EOF (expected closing parenthesis)", r) | (PErr m0, r) => (PErr (eof_message "Unexpected EOF (expected closing parenthesis)" m0), r) end) = (PEof, r0) -> ends_dangling ts).
    { pose proof (proj1 (parse_balance n) ts) as B. destruct (parse_expr n ts) as [[x| |e] r] eqn:Q; try discriminate. intros E. destruct (B _ _ eq_refl) as (used & -> & _). apply Back. exact (IHc _ _ _ E). }
    destruct ts as [|k r]; [exact Gen|]. destruct k; try exact Gen; [discriminate|]. cbn [parse_cons]. intros E.
    destruct (parse_expr n r) as [[x| |e] r2] eqn:Q; [destruct r2 as [|[] r2]; discriminate| |discriminate]. apply Here; [cbn; tauto|]. exact (IHe _ _ Q).
  - intros ts cells r0.
    assert (Gen : (match parse_expr n ts with (PSexp x, r) => match byte_element x with Some m0 => (PErr m0, r) | None => parse_bytes n r (x :: cells) end | (PEof, r) => (PErr "Unexpected EOF (expected closing bracket)", r) | (PErr m0, r) => (PErr (eof_message "Unexpected EOF (expected closing bracket)" m0), r) end) <> (PEof, r0)).
    { destruct (parse_expr n ts) as [[x| |e] r] eqn:Q; try discriminate. destruct (byte_element x); [discriminate|apply IHb]. }
    destruct ts as [|k r]; [exact Gen|]. destruct k; try exact Gen; discriminate.
  - intros ts cells r0.
    assert (Gen : (match parse_expr n ts with (PSexp x, r) => parse_frame n r (x :: cells) | (PEof, r) => (PErr "Unexpected EOF (expected closing brace)", r) | (PErr m0, r) => (PErr (eof_message "Unexpected EOF (expected closing brace)" m0), r) end) <> (PEof, r0)).
    { destruct (parse_expr n ts) as [[x| |e] r] eqn:Q; try discriminate. apply IHf. }
    destruct ts as [|k r]; [exact Gen|]. destruct k; try exact Gen; discriminate.
Qed.
Lemma read_balanced ts x r : parse_tokens ts = (PSexp x, r) -> exists used, ts = used ++ r /\ used <> [] /\ total opens used <= total closes used.
Proof.
  intros E. destruct (proj1 (parse_balance _) ts _ _ E) as (used & -> & H). exists used. split; [reflexivity|]. split; [|lia]. intros ->.
  destruct (proj1 (parse_fuel_all (parse_fuel r)) r (parse_fuel r)) as [_ S]; [unfold parse_fuel; lia|lia|]. specialize (S _ _ E). cbn in S. lia.
Qed.
Lemma read_eof ts r : parse_tokens ts = (PEof, r) -> ts = [] \/ exists pre k, ts = pre ++ [k] /\ dangling k.
Proof. intros E. exact (proj1 (parse_eof _) ts r E). Qed.
Lemma read_all_go ts : forall n acc xs, parse_all_go n ts acc = (xs, None) -> total opens ts <= total closes ts \/ exists pre k, ts = pre ++ [k] /\ dangling k.
Proof.
  intros n. revert ts. induction n as [|n IH]; intros ts acc xs E; [discriminate|]. cbn [parse_all_go] in E. destruct (parse_tokens ts) as [[x| |e] r] eqn:Q; [| |discriminate].
  - destruct (read_balanced _ _ _ Q) as (used & -> & _ & B). destruct (IH r _ _ E) as [H|(pre & k & -> & D)].
    + left. rewrite !total_app. lia.
    + right. exists (used ++ pre), k. rewrite app_assoc. auto.
  - destruct (read_eof _ _ Q) as [->|D]; [left; cbn; lia|right; exact D].
Qed.
Lemma read_all_unclosed u src xs : parse_all u src = (xs, None) ->
  total opens (tokenize u src) <= total closes (tokenize u src) \/ exists pre k, tokenize u src = pre ++ [k] /\ dangling k.
Proof. unfold parse_all. cbv zeta. apply read_all_go. Qed.
(** More fuel does not read more; the fuel of parse_all is enough. *)
Lemma read_all_fuel : forall n m ts acc, (length ts < n)%nat -> (length ts < m)%nat -> parse_all_go n ts acc = parse_all_go m ts acc.
Proof.
  induction n as [|n IH]; intros m ts acc L1 L2; [lia|]. destruct m as [|m]; [lia|]. cbn [parse_all_go]. destruct (parse_tokens ts) as [[x| |e] r] eqn:Q; try reflexivity.
  destruct (read_balanced _ _ _ Q) as (used & -> & N & _). rewrite app_length in *. assert (length used <> 0)%nat by (destruct used; cbn; [congruence|lia]). apply IH; lia.
Qed.
(** *** The parse built-in *)
Lemma grows_new_frame s m : wf_state s -> grows s (set_frames (<[s_next s := m]> (s_frames s)) (bump s)).
Proof.
  intros W. constructor; cbn; try reflexivity; try (intros ? ? E; exact E); [lia| |].
  - intros l x E. rewrite lookup_insert_ne; [exact E|]. intros <-. destruct (wf_frames _ W _ _ E). lia.
  - eexists []. split; [reflexivity|constructor].
Qed.
Lemma runs_alloc x : forall s, wf_state s -> exists v s', runs denote (alloc_sexp x) s (Done v) s' /\ grows s s'.
Proof.
  induction x as [| |a IHa d IHd|z|f|t|t|b|l|]; intros s W; cbn [alloc_sexp].
  - eexists _, _. split; [apply runs_ret|apply grows_refl].
  - eexists _, _. split; [apply runs_cons|apply grows_new_cell, W].
  - destruct (IHa s W) as (v & s1 & R1 & G1). destruct (IHd s1 (wf_runs _ _ _ _ _ W R1)) as (w & s2 & R2 & G2). pose proof (wf_runs _ _ _ _ _ (wf_runs _ _ _ _ _ W R1) R2) as W2.
    eexists _, _. split; [eapply runs_bind; [exact R1|]; eapply runs_bind; [exact R2|]; apply runs_cons|]. eapply grows_trans; [exact G1|]. eapply grows_trans; [exact G2|]. apply grows_new_cell, W2.
  - eexists _, _. split; [apply runs_ret|apply grows_refl].
  - eexists _, _. split; [apply runs_ret|apply grows_refl].
  - eexists _, _. split; [apply runs_new_str|apply grows_new_str, W].
  - eexists _, _. split; [apply runs_ret|apply grows_refl].
  - eexists _, _. split; [apply runs_ret|apply grows_refl].
  - eexists _, _. split; [eapply runs_bind; [apply runs_op; reflexivity|apply runs_ret]|apply bytes_fresh, W].
  - eexists _, _. split; [eapply runs_bind; [apply runs_op; reflexivity|apply runs_ret]|apply grows_new_frame, W].
Qed.
Lemma run_parse v t env s : wf_state s -> is_str s v t -> match parse (s_uni s) t with
  | PSexp x => exists r s', runs denote (alloc_sexp x) (entering "parse" env s) (Done r) s' /\ applies "parse" [v] env s (Done (Ok r)) s' /\ grows s s'
  | PEof => applies "parse" [v] env s (Done (Ok VNil)) (entering "parse" env s)
  | PErr m => applies "parse" [v] env s (Done (Err m)) (entering "parse" env s)
  end.
Proof.
  intros W (l & -> & E). pose proof (str_some (entering "parse" env s) l t E) as E'.
  assert (Pre : forall o s', runs denote (match parse (s_uni s) t with PSexp x => v <- alloc_sexp x ;; ok v | PEof => ok VNil | PErr m => fail m end) (entering "parse" env s) o s' ->
    runs denote (parse_impl [VStr l] env) (entering "parse" env s) o s').
  { intros o s' H. unfold parse_impl. cbn [arg nth]. rstep. rewrite E'. eapply runs_bind; [apply runs_op; reflexivity|]. exact H. }
  destruct (parse (s_uni s) t) as [x| |m].
  - destruct (runs_alloc x (entering "parse" env s) (wf_entering _ _ _ W)) as (r & s' & R & G). exists r, s'. split; [exact R|]. split; [|exact (grows_into _ _ _ _ G)].
    applies. apply Pre. eapply runs_bind; [exact R|apply runs_ret].
  - applies. apply Pre. apply runs_ret.
  - applies. apply Pre. apply runs_ret.
Qed.
Lemma parse_total v t env s : wf_state s -> is_str s v t -> exists r s', applies "parse" [v] env s (Done r) s' /\ grows s s'.
Proof.
  intros W V. pose proof (run_parse v t env s W V) as H. destruct (parse (s_uni s) t) as [x| |m].
  - destruct H as (r & s' & _ & A & G). eauto.
  - eexists _, _. split; [exact H|apply grows_entering].
  - eexists _, _. split; [exact H|apply grows_entering].
Qed.

(** *** Numbers *)
Lemma digit_char_facts base c d : In (c, d) digit_table -> d < base -> base <= 16 -> rune_digit base (byte_of c) = Some d /\ 0 <= d < 16 /\ hex_char (byte_of c) = true /\
  (base <= 10 -> 48 <= byte_of c <= 57) /\ (base <= 2 -> binary_char (byte_of c) = true) /\ 48 <= byte_of c <= 102.
Proof.
  intros I L B. assert (Q : rune_digit 16 (byte_of c) = Some d /\ 0 <= d < 16 /\ hex_char (byte_of c) = true /\ (d < 10 -> byte_of c = 48 + d) /\ 48 <= byte_of c <= 102).
  { cbn in I. repeat (destruct I as [I|I]; [injection I as <- <-; repeat apply conj; try reflexivity; try (intros; reflexivity); try (vm_compute; discriminate); intros; discriminate|]). destruct I. }
  destruct Q as (Q1 & Q2 & Q3 & Q4 & Q5). split.
  { unfold rune_digit in *. cbv zeta in *. destruct ((if (48 <=? byte_of c) && (byte_of c <=? 57) then _ else _) <? 16) in Q1; [|discriminate]. injection Q1 as ->. rewrite (proj2 (Z.ltb_lt _ _)) by exact L. reflexivity. }
  split; [exact Q2|]. split; [exact Q3|]. split; [intros; rewrite Q4; lia|]. split; [|exact Q5]. intros B2. rewrite Q4 by lia. unfold binary_char. lia.
Qed.
Definition all_bytes (P : Z -> Prop) (t : string) : Prop := Forall P (bytes_of_string t).
Lemma written_facts base t n : base <= 16 -> written base t n ->
  t <> "" /\ (forall acc any, scan_number base (bytes_of_string t) acc any = (acc * base ^ Z.of_nat (length (bytes_of_string t)) + n, true)) /\ all_bytes (fun b => hex_char b = true) t /\
  (base <= 10 -> all_bytes (fun b => 48 <= b <= 57) t) /\ (base <= 2 -> all_bytes (fun b => binary_char b = true) t) /\ all_bytes (fun b => 48 <= b <= 102) t /\ 0 <= n.
Proof.
  intros B H. induction H as [c d I L|t n c d H (N & S & H1 & H2 & H3 & H4 & H5) I L].
  - destruct (digit_char_facts base c d I L B) as (F1 & F2 & F3 & F4 & F5 & F6). split; [discriminate|]. split.
    { intros acc any. cbn [bytes_of_string scan_number length]. rewrite F1. f_equal. change (Z.of_nat 1) with 1. lia. }
    unfold all_bytes. cbn [bytes_of_string]. repeat apply conj; try lia; intros; repeat constructor; auto.
    all: try (apply F4; assumption); try lia. 
  - destruct (digit_char_facts base c d I L B) as (F1 & F2 & F3 & F4 & F5 & F6). split; [destruct t; discriminate|]. unfold all_bytes in *. rewrite bytes_app. cbn [bytes_of_string]. split.
    { intros acc any. assert (App : forall l acc any v, scan_number base l acc any = (v, true) -> Forall (fun b => exists d, rune_digit base b = Some d) l -> scan_number base (l ++ [byte_of c]) acc any = (v * base + d, true)).
      { clear -F1. induction l as [|b l IH]; intros acc any v E F; cbn [scan_number app] in *.
        - injection E as -> ->. rewrite F1. reflexivity.
        - inversion F as [|? ? (d' & D) F']; subst. rewrite D in *. apply IH; assumption. }
      rewrite (App _ _ _ _ (S acc any)).
      - f_equal. rewrite app_length. cbn [length]. rewrite Nat2Z.inj_add. change (Z.of_nat 1) with 1. rewrite Z.pow_add_r, Z.pow_1_r by lia. ring.
      - clear -H B. induction H as [c d I L|t n c d H IH I L]; rewrite ?bytes_app; cbn [bytes_of_string].
        + repeat constructor. exists d. apply (digit_char_facts base c d I L B).
        + apply Forall_app. split; [exact IH|]. repeat constructor. exists d. apply (digit_char_facts base c d I L B). }
    repeat apply conj; intros; try (apply Forall_app; split; [auto|repeat constructor; auto]).
    all: try (apply F4; assumption); try nia.
Qed.
Lemma in_int64_true z : int64 z -> in_int64 z = true.
Proof. unfold int64, in_int64. change (2 ^ 63) with 9223372036854775808. change int64_min with (-9223372036854775808). change int64_max with 9223372036854775807. lia. Qed.
Lemma in_int64_false z : ~ int64 z -> in_int64 z = false.
Proof. unfold int64, in_int64. change (2 ^ 63) with 9223372036854775808. change int64_min with (-9223372036854775808). change int64_max with 9223372036854775807. lia. Qed.
Lemma bytes_ascii t : all_bytes (fun b => 48 <= b <= 102) t -> is_ascii t = true.
Proof.
  unfold all_bytes. induction t as [|c t IH]; cbn; [reflexivity|]. intros F. inversion F; subst. rewrite IH by assumption. unfold is_ascii_char. rewrite (proj2 (Z.ltb_lt _ _)) by lia. reflexivity.
Qed.
Lemma scalar_ascii t : is_ascii t = true -> Forall scalar (bytes_of_string t).
Proof.
  induction t as [|c t IH]; cbn; [constructor|]. intros H. apply andb_true_iff in H as [H1 H2]. unfold is_ascii_char in H1. pose proof (NumText.byte_range c). constructor; [unfold scalar; lia|auto].
Qed.
Lemma string_of_bytes_of t : string_of_bytes (bytes_of_string t) = t.
Proof. induction t as [|c t IH]; cbn; [reflexivity|]. rewrite NumText.ascii_of_byte_of, IH. reflexivity. Qed.
Lemma string_of_ascii t : is_ascii t = true -> string_of_runes (bytes_of_string t) = t.
Proof.
  intros H. unfold string_of_runes. rewrite <- (string_of_bytes_of t) at 2. f_equal. induction t as [|c t IH]; [reflexivity|]. cbn in H. apply andb_true_iff in H as [H1 H2].
  unfold is_ascii_char in H1. cbn [bytes_of_string encode_runes]. rewrite IH by exact H2. unfold encode_rune. pose proof (NumText.byte_range (c)).
  rewrite H1, (proj2 (Z.leb_le _ _)) by lia. reflexivity.
Qed.
(** What follows an atom, as runes. *)
Definition stop_rune (c : rune) : Prop := In c [32; 40; 41; 91; 93; 123; 125; 39; 59; 44; 96; 34; 10; 13; 9].
Definition stop_runes (l : list rune) : Prop := match l with [] => True | c :: _ => stop_rune c end.
Lemma stops_runes rest : stops rest -> stop_runes (runes_of_string rest).
Proof.
  destruct rest as [|c rest]; [intros _; exact I|]. intros H. cbn in H.
  repeat (destruct H as [<-|H]; [cbn; unfold stop_rune; cbn; repeat (first [left; reflexivity|right])|]). all: contradiction.
Qed.
Lemma stop_facts u c : stop_rune c -> hex_char c = false /\ binary_char c = false /\ rune_number u c = false /\ symbol_char u c = false /\ c <> 46 /\ c <> 120 /\ c <> 45 /\ c <> 48.
Proof.
  intros H. cbn in H. repeat (destruct H as [<-|H]; [repeat apply conj; try reflexivity; discriminate|]). all: contradiction.
Qed.
Lemma span_all f a r : Forall (fun c => f c = true) a -> match r with [] => True | c :: _ => f c = false end -> span_runes f (a ++ r) = (a, r).
Proof.
  intros F S. induction F as [|c a Hc F IH]; cbn [app span_runes].
  - destruct r as [|c r]; [reflexivity|]. cbn. rewrite S. reflexivity.
  - rewrite Hc, IH. reflexivity.
Qed.
Lemma ascii_number u c : 48 <= c <= 57 -> rune_number u c = true.
Proof. intros H. unfold rune_number. rewrite (proj2 (Z.ltb_lt _ _)) by lia. lia. Qed.
Lemma number_all u a r : Forall (fun c => 48 <= c <= 57) a -> match r with [] => True | c :: _ => c <> 46 /\ rune_number u c = false end -> number_runes u (a ++ r) false = (a, false, r).
Proof.
  intros F S. induction F as [|c a Hc F IH]; cbn [app number_runes].
  - destruct r as [|c r]; [reflexivity|]. cbn. destruct S as [S1 S2]. rewrite (proj2 (Z.eqb_neq c 46) S1), S2. reflexivity.
  - rewrite (proj2 (Z.eqb_neq c 46)) by lia. cbn [andb]. rewrite (ascii_number u c Hc), IH. reflexivity.
Qed.
(** fmt.Sscanf on the digits gives the number or an overflow error. *)
Lemma sscanf_written base t n : base <= 16 -> written base t n -> sscanf_int base t = if in_int64 n then Ok n else Err "integer overflow on token".
Proof.
  intros B W. destruct (written_facts base t n B W) as (N & S & _ & _ & _ & A & _). pose proof (bytes_ascii t A) as As. unfold sscanf_int. rewrite NumText.runes_ascii by exact As.
  unfold all_bytes in A. destruct t as [|c t]; [congruence|]. cbn [bytes_of_string] in *. inversion A as [|? ? Hc _]; subst. cbn [skip_space].
  destruct (NumText.not_space (byte_of c) Hc) as [-> ->]. rewrite (proj2 (Z.eqb_neq (byte_of c) 45)), (proj2 (Z.eqb_neq (byte_of c) 43)) by lia. cbn [orb]. rewrite S. reflexivity.
Qed.
Lemma sscanf_minus base t n : base <= 16 -> written base t n -> sscanf_int base ("-" +++ t) = if in_int64 (- n) then Ok (- n) else Err "integer overflow on token".
Proof.
  intros B W. destruct (written_facts base t n B W) as (N & S & _ & _ & _ & A & _). pose proof (bytes_ascii t A) as As. unfold sscanf_int. rewrite NumText.runes_ascii by exact As.
  cbn [str_app bytes_of_string skip_space]. change (byte_of "-") with 45. change (45 =? 10) with false. change (fmt_space 45) with false. cbn [orb]. change (45 =? 45) with true. cbn [orb]. rewrite S. reflexivity.
Qed.
Lemma skip_none u c t : 33 <= c < 127 -> c <> 59 -> skip_blank u false (c :: t) = c :: t.
Proof.
  intros H N. cbn [skip_blank]. unfold rune_space. rewrite (proj2 (Z.ltb_lt c 128)) by lia. replace ((9 <=? c) && (c <=? 13) || (c =? 32)) with false by lia. rewrite (proj2 (Z.eqb_neq c 59) N). reflexivity.
Qed.
Definition head_or0 (t : list rune) : rune := match t with d :: _ => d | [] => 0 end.
Lemma read_number_plain u l : head_or0 l <> 45 -> read_number u l = let '(ds, fl, r) := number_runes u l false in (if fl : bool then KFloat (string_of_runes ds) else KNumber (string_of_runes ds), r).
Proof.
  intros H. destruct l as [|c l]; [reflexivity|]. cbn in H. unfold read_number. destruct c as [|p|p]; try reflexivity. do 6 (try destruct p as [p|p|]; try reflexivity). congruence.
Qed.
Lemma read_number_digits u t rest : all_bytes (fun b => 48 <= b <= 57) t -> t <> "" -> stop_runes rest -> read_number u (bytes_of_string t ++ rest) = (KNumber t, rest).
Proof.
  intros A N S. assert (As : is_ascii t = true). { apply bytes_ascii. eapply List.Forall_impl; [|exact A]. cbn. lia. }
  rewrite read_number_plain.
  2: { unfold all_bytes in A. destruct t as [|c t]; [congruence|]. cbn [bytes_of_string app head_or0] in *. inversion A; subst. lia. }
  rewrite number_all; [|exact A|]. 2: { destruct rest as [|d rest]; [exact I|]. destruct (stop_facts u d S) as (_ & _ & ? & _ & ? & _). auto. }
  cbn [app]. rewrite string_of_ascii by exact As. reflexivity.
Qed.
Lemma read_number_minus u t rest : all_bytes (fun b => 48 <= b <= 57) t -> stop_runes rest -> read_number u (45 :: bytes_of_string t ++ rest) = (KNumber ("-" +++ t), rest).
Proof.
  intros A S. assert (As : is_ascii ("-" +++ t) = true). { cbn [str_app is_ascii]. apply andb_true_iff. split; [reflexivity|]. apply bytes_ascii. eapply List.Forall_impl; [|exact A]. cbn. lia. }
  unfold read_number. rewrite number_all; [|exact A|]. 2: { destruct rest as [|d rest]; [exact I|]. destruct (stop_facts u d S) as (_ & _ & ? & _ & ? & _). auto. }
  change ([45] ++ bytes_of_string t) with (bytes_of_string ("-" +++ t)). rewrite string_of_ascii by exact As. reflexivity.
Qed.
Lemma read_token_number u c t : 48 <= c <= 57 -> head_or0 t <> 120 -> read_token u c t = Some (read_number u (c :: t)).
Proof.
  intros H N. unfold read_token. cbv zeta. destruct t as [|d t]; cbn [head_or0] in N; [change (0 =? 120) with false|rewrite (proj2 (Z.eqb_neq d 120) N)]; rewrite andb_false_r, (ascii_number u c H); reflexivity.
Qed.
Lemma read_token_minus u l : rune_number u (head_or0 l) = true -> read_token u 45 l = Some (read_number u (45 :: l)).
Proof.
  intros H. destruct l as [|d l]; [discriminate|]. cbn [head_or0] in H. unfold read_token. cbv zeta. change (45 =? 48) with false. cbn [andb].
  change (rune_number u 45) with false. cbn match. change (45 =? 45) with true. cbn [andb]. rewrite H. reflexivity.
Qed.
(** The tokens of a literal, and what the parser makes of them. *)
Definition number_token (k : token) : Prop := match k with KNumber _ | KHex _ | KBinary _ => True | _ => False end.
Lemma literal_token u t z : literal t z -> exists k, (number_token k /\ forall rest, stop_runes rest -> toks u (bytes_of_string t ++ rest) = k :: toks u rest) /\
  forall f r, fst (parse_expr (S f) (k :: r)) = if in_int64 z then PSexp (SInt z) else PErr "integer overflow on token".
Proof.
  intros L. destruct L as [t n W|t n W|t n W|t n W|t n W].
  - destruct (written_facts 10 t n ltac:(lia) W) as (N & Sc & _ & D & _ & _ & _). specialize (D ltac:(lia)). exists (KNumber t). split.
    2: { intros f r. cbn [parse_expr fst]. unfold make_integer. rewrite (sscanf_written 10 t n) by (lia || exact W). destruct (in_int64 n); reflexivity. }
    split; [exact I|]. intros rest S. rewrite toks_eq. pose proof (read_number_digits u t rest D N S) as R. unfold all_bytes in D. destruct t as [|c t]; [congruence|]. cbn [bytes_of_string app] in *. inversion D as [|? ? Hc D']; subst.
    rewrite skip_none by lia. rewrite read_token_number; [rewrite R; reflexivity|exact Hc|]. destruct (bytes_of_string t) as [|b l]; cbn [app head_or0].
    + destruct rest as [|d rest]; [discriminate|]. apply (stop_facts u d S).
    + inversion D'; subst. cbn. lia.
  - destruct (written_facts 10 t n ltac:(lia) W) as (N & Sc & _ & D & _ & _ & _). specialize (D ltac:(lia)). exists (KNumber ("-" +++ t)). split.
    2: { intros f r. cbn [parse_expr fst]. unfold make_integer. rewrite (sscanf_minus 10 t n) by (lia || exact W). destruct (in_int64 (- n)); reflexivity. }
    split; [exact I|]. intros rest S. rewrite toks_eq. pose proof (read_number_minus u t rest D S) as R. cbn [str_app bytes_of_string app]. change (byte_of "-") with 45. rewrite skip_none by lia.
    assert (H : rune_number u (head_or0 (bytes_of_string t ++ rest)) = true). { unfold all_bytes in D. destruct t as [|c t]; [congruence|]. cbn [bytes_of_string app head_or0] in *. inversion D; subst. apply ascii_number. assumption. }
    rewrite (read_token_minus u _ H), R. reflexivity.
  - destruct (written_facts 16 t n ltac:(lia) W) as (N & Sc & Hx & _ & _ & A & _). exists (KHex t). split.
    2: { intros f r. cbn [parse_expr fst]. unfold make_integer. rewrite (sscanf_written 16 t n) by (lia || exact W). destruct (in_int64 n); reflexivity. }
    split; [exact I|]. intros rest S. rewrite toks_eq. cbn [str_app bytes_of_string app]. change (byte_of "#") with 35. change (byte_of "x") with 120. rewrite skip_none by lia.
    unfold read_token. cbv zeta. cbn [Z.eqb Pos.eqb andb tl]. change (rune_number u 35) with false. change (symbol_char u 35) with false. cbn match.
    rewrite span_all; [rewrite string_of_ascii by (apply bytes_ascii; exact A); reflexivity|exact Hx|]. destruct rest as [|d rest]; [exact I|]. apply (stop_facts u d S).
  - destruct (written_facts 16 t n ltac:(lia) W) as (N & Sc & Hx & _ & _ & A & _). exists (KHex t). split.
    2: { intros f r. cbn [parse_expr fst]. unfold make_integer. rewrite (sscanf_written 16 t n) by (lia || exact W). destruct (in_int64 n); reflexivity. }
    split; [exact I|]. intros rest S. rewrite toks_eq. cbn [str_app bytes_of_string app]. change (byte_of "0") with 48. change (byte_of "x") with 120. rewrite skip_none by lia.
    unfold read_token. cbv zeta. cbn [Z.eqb Pos.eqb andb tl].
    rewrite span_all; [rewrite string_of_ascii by (apply bytes_ascii; exact A); reflexivity|exact Hx|]. destruct rest as [|d rest]; [exact I|]. apply (stop_facts u d S).
  - destruct (written_facts 2 t n ltac:(lia) W) as (N & Sc & _ & _ & Hb & A & _). specialize (Hb ltac:(lia)). exists (KBinary t). split.
    2: { intros f r. cbn [parse_expr fst]. unfold make_integer. rewrite (sscanf_written 2 t n) by (lia || exact W). destruct (in_int64 n); reflexivity. }
    split; [exact I|]. intros rest S. rewrite toks_eq. cbn [str_app bytes_of_string app]. change (byte_of "#") with 35. change (byte_of "b") with 98. rewrite skip_none by lia.
    unfold read_token. cbv zeta. cbn [Z.eqb Pos.eqb andb tl]. change (rune_number u 35) with false. change (symbol_char u 35) with false. cbn match.
    rewrite span_all; [rewrite string_of_ascii by (apply bytes_ascii; exact A); reflexivity|exact Hb|]. destruct rest as [|d rest]; [exact I|]. apply (stop_facts u d S).
Qed.
Lemma toks_literal u t z rest : literal t z -> stop_runes rest -> exists k, toks u (bytes_of_string t ++ rest) = k :: toks u rest /\
  forall f r, fst (parse_expr (S f) (k :: r)) = if in_int64 z then PSexp (SInt z) else PErr "integer overflow on token".
Proof. intros L S. destruct (literal_token u t z L) as (k & [_ K] & P). exists k. split; [exact (K rest S)|exact P]. Qed.
Lemma literal_ascii t z : literal t z -> is_ascii t = true.
Proof.
  intros L. destruct L as [t n W|t n W|t n W|t n W|t n W]; cbn [str_app is_ascii]; apply (fun H => written_facts _ _ _ H W) in W || idtac;
  rewrite ?bytes_ascii; try reflexivity; eapply written_facts; try eassumption; lia.
Qed.
Lemma run_parse_literal v t z rest env s : wf_state s -> literal t z -> stops rest -> is_str s v (t +++ rest) ->
  (int64 z -> exists s', applies "parse" [v] env s (Done (Ok (VInt z))) s') /\ (~ int64 z -> exists m s', applies "parse" [v] env s (Done (Err m)) s').
Proof.
  intros W L S V. destruct (toks_literal (s_uni s) t z _ L (stops_runes _ S)) as (k & T & P).
  assert (Q : parse (s_uni s) (t +++ rest) = if in_int64 z then PSexp (SInt z) else PErr "integer overflow on token").
  { unfold parse. rewrite tokenize_toks, runes_ascii_app by (eapply literal_ascii; exact L). rewrite T. unfold parse_tokens, parse_fuel. cbn [length]. rewrite Nat.add_comm. cbn [Nat.add]. apply P. }
  pose proof (run_parse v _ env s W V) as R. rewrite Q in R. split; intros B.
  - rewrite in_int64_true in R by exact B. destruct R as (r & s' & R & A & _). cbn [alloc_sexp] in R. apply ret_iff in R as [E _]. injection E as ->. eauto.
  - rewrite in_int64_false in R by exact B. eauto.
Qed.
