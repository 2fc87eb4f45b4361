(** Proofs of C69. *)
From Verif Require Export SpecUnicode.
From Verif Require Import ProofEval ProofCall RunFacts ProofList NumText StrFacts ProofData ProofRead ProofPrint ProofTrim.
From stdpp Require Import list.
From Verif Require Import Data SpecRead SpecTrim SpecUnicode.
Local Open Scope string_scope.
Local Open Scope list_scope.
Local Open Scope Z_scope.

(** *** The bytes of a character *)
Lemma decode_width c bs : scalar c -> decode_rune (encode_rune c ++ bs) = Some (c, length (encode_rune c)).
Proof.
  intros H. unfold encode_rune.
  destruct (Z.leb_spec 0 c); [|destruct H; lia]. cbn [andb].
  destruct (Z.ltb_spec c 128). { cbn [app decode_rune]. rewrite (proj2 (Z.ltb_lt c 128)) by lia. reflexivity. }
  assert (D : forall k, 0 <= k mod 64 < 64) by (intros; apply Z.mod_pos_bound; lia).
  destruct (Z.leb_spec 128 c); [|lia]. cbn [andb]. destruct (Z.ltb_spec c 2048).
  { cbn [app decode_rune]. assert (2 <= c / 64 < 32) by (split; [apply Z.div_le_lower_bound|apply Z.div_lt_upper_bound]; lia).
    pose proof (D c). rewrite (proj2 (Z.ltb_ge _ 128)) by lia. rewrite (proj2 (Z.leb_le 194 _)) by lia. rewrite (proj2 (Z.ltb_lt _ 224)) by lia. cbn [andb].
    unfold cont_byte. rewrite (proj2 (Z.leb_le 128 _)) by lia. rewrite (proj2 (Z.ltb_lt _ 192)) by lia. cbn [andb length].
    do 2 f_equal. pose proof (Z.div_mod c 64). lia. }
  destruct (((2048 <=? c) && (c <? 55296)) || ((57344 <=? c) && (c <? 65536)))%bool eqn:E.
  { cbn [app decode_rune].
    assert (B : 2048 <= c < 65536 /\ (55296 <=? c) && (c <? 57344) = false) by lia. destruct B as [B1 B2]. clear E.
    assert (0 <= c / 4096 < 16) by (split; [apply Z.div_pos|apply Z.div_lt_upper_bound]; lia).
    pose proof (D c). pose proof (D (c / 64)).
    assert (V : (224 + c / 4096 - 224) * 4096 + (128 + (c / 64) mod 64 - 128) * 64 + (128 + c mod 64 - 128) = c).
    { pose proof (Z.div_mod c 64). pose proof (Z.div_mod (c / 64) 64). rewrite Z.div_div in * by lia. change (64 * 64) with 4096 in *. lia. }
    rewrite V. unfold cont_byte. rewrite (proj2 (Z.ltb_ge _ 128)) by lia. rewrite (proj2 (Z.ltb_ge _ 224)) by lia. rewrite andb_false_r.
    rewrite (proj2 (Z.leb_le 224 _)) by lia. rewrite (proj2 (Z.ltb_lt _ 240)) by lia. cbn [andb].
    rewrite !(proj2 (Z.leb_le 128 _)) by lia. rewrite !(proj2 (Z.ltb_lt _ 192)) by lia. rewrite (proj2 (Z.leb_le 2048 _)) by lia. rewrite B2. cbn [andb negb]. reflexivity. }
  assert (B : 65536 <= c <= 1114111) by (destruct H; lia). clear E.
  rewrite (proj2 (Z.leb_le 65536 _)) by lia. rewrite (proj2 (Z.leb_le _ 1114111)) by lia. cbn [andb app decode_rune].
  assert (0 <= c / 262144 < 5) by (split; [apply Z.div_pos|apply Z.div_lt_upper_bound]; lia).
  pose proof (D c). pose proof (D (c / 64)). pose proof (D (c / 4096)).
  assert (V : (240 + c / 262144 - 240) * 262144 + (128 + (c / 4096) mod 64 - 128) * 4096 + (128 + (c / 64) mod 64 - 128) * 64 + (128 + c mod 64 - 128) = c).
  { pose proof (Z.div_mod c 64). pose proof (Z.div_mod (c / 64) 64). pose proof (Z.div_mod (c / 4096) 64). rewrite !Z.div_div in * by lia. change (64 * 64) with 4096 in *. change (4096 * 64) with 262144 in *. lia. }
  rewrite V. unfold cont_byte. rewrite (proj2 (Z.ltb_ge _ 128)) by lia. rewrite (proj2 (Z.ltb_ge _ 224)) by lia. rewrite andb_false_r. rewrite (proj2 (Z.ltb_ge _ 240)) by lia. rewrite andb_false_r.
  rewrite (proj2 (Z.leb_le 240 _)) by lia. rewrite (proj2 (Z.ltb_lt _ 245)) by lia. cbn [andb].
  rewrite !(proj2 (Z.leb_le 128 _)) by lia. rewrite !(proj2 (Z.ltb_lt _ 192)) by lia. rewrite (proj2 (Z.leb_le 65536 _)) by lia. rewrite (proj2 (Z.leb_le _ 1114111)) by lia. cbn [andb]. reflexivity.
Qed.
Lemma encode_small c : 0 <= c < 128 -> encode_rune c = [c].
Proof. intros H. unfold encode_rune. replace ((0 <=? c) && (c <? 128)) with true by lia. reflexivity. Qed.
Lemma encode_large c : scalar c -> 128 <= c -> Forall (fun b => 128 <= b) (encode_rune c).
Proof.
  intros S H. assert (D : forall k, 0 <= k mod 64) by (intros; apply Z.mod_pos_bound; lia).
  assert (Q : forall k, 0 < k -> 0 <= c / k) by (intros; apply Z.div_pos; lia).
  unfold encode_rune. replace ((0 <=? c) && (c <? 128)) with false by lia.
  pose proof (D c). pose proof (D (c / 64)). pose proof (D (c / 4096)). pose proof (Q 64). pose proof (Q 4096). pose proof (Q 262144).
  destruct ((128 <=? c) && (c <? 2048)); [repeat constructor; lia|]. destruct (_ || _)%bool; [repeat constructor; lia|].
  destruct ((65536 <=? c) && (c <=? 1114111)); repeat constructor; lia.
Qed.
Lemma encode_cons c : exists b r, encode_rune c = b :: r.
Proof. unfold encode_rune. destruct (_ && _); [eauto|]. destruct (_ && _); [eauto|]. destruct (_ || _)%bool; [eauto|]. destruct (_ && _); eauto. Qed.

(** *** One piece per character *)
Lemma pieces_skip r : forall bs cur, rune_pieces_go (r ++ bs) (length r) cur = rune_pieces_go bs 0 (rev r ++ cur).
Proof. induction r as [|b r IH]; intros bs cur; [reflexivity|]. cbn [app length rune_pieces_go rev]. rewrite IH, <- app_assoc. reflexivity. Qed.
Lemma pieces_rune c bs cur : scalar c ->
  rune_pieces_go (encode_rune c ++ bs) 0 cur = match cur with [] => [] | _ => [rev cur] end ++ rune_pieces_go bs 0 (rev (encode_rune c)).
Proof.
  intros S. pose proof (decode_width c bs S) as D. destruct (encode_cons c) as (b & r & E). rewrite E in *. cbn [app length] in *. cbn [rune_pieces_go]. rewrite D.
  cbn [Nat.sub]. rewrite Nat.sub_0_r. rewrite pieces_skip. cbn [rev]. destruct cur; reflexivity.
Qed.
Lemma pieces_more rs : Forall scalar rs -> forall cur, cur <> [] -> rune_pieces_go (encode_runes rs) 0 cur = rev cur :: map encode_rune rs.
Proof.
  intros F. induction F as [|c rs S F IH]; intros cur N; [destruct cur; [congruence|reflexivity]|]. cbn [encode_runes map]. rewrite pieces_rune by exact S. rewrite IH.
  - rewrite rev_involutive. destruct cur; [congruence|reflexivity].
  - destruct (encode_cons c) as (b & r & ->). cbn [rev]. destruct (rev r); discriminate.
Qed.
Definition one (c : rune) : string := string_of_runes [c].
Lemma pieces_text t rs : text_of t rs -> rune_pieces t = map one rs.
Proof.
  intros [-> F]. unfold rune_pieces, string_of_runes. rewrite bytes_of_bytes by apply encode_runes_bytes.
  destruct F as [|c rs S F]; [reflexivity|]. cbn [encode_runes]. rewrite pieces_rune by exact S. cbn [app]. rewrite (pieces_more rs F).
  - rewrite rev_involutive. cbn [map]. f_equal; [unfold one, string_of_runes; cbn [encode_runes]; rewrite app_nil_r; reflexivity|].
    rewrite map_map. apply map_ext. intros d. unfold one, string_of_runes. cbn [encode_runes]. rewrite app_nil_r. reflexivity.
  - destruct (encode_cons c) as (b & r & ->). cbn [rev]. destruct (rev r); discriminate.
Qed.
Lemma text_unique t rs rs' : text_of t rs -> text_of t rs' -> rs = rs'.
Proof.
  intros [-> F] [E F']. apply (f_equal runes_of_string) in E. rewrite <- (NumText.str_app_nil_r (string_of_runes rs)), <- (NumText.str_app_nil_r (string_of_runes rs')) in E.
  rewrite !runes_app in E by assumption. cbn in E. rewrite !app_nil_r in E. exact E.
Qed.
Lemma text_runes t rs : text_of t rs -> runes_of_string t = rs.
Proof. intros [-> F]. rewrite <- (NumText.str_app_nil_r (string_of_runes rs)), runes_app by exact F. cbn. apply app_nil_r. Qed.
Lemma one_inj c d : scalar c -> scalar d -> one c = one d -> c = d.
Proof. intros C D E. assert (Q : [c] = [d]); [|congruence]. apply (text_unique (one c)); split; auto. Qed.
Lemma run_split_runes v w t rs env s : wf_state s -> is_str s v t -> text_of t rs -> is_str s w "" -> exists r s' vs,
  applies "string-split" [v; w] env s (Done (Ok r)) s' /\ grows s s' /\ is_list s' r vs /\ Forall2 (fun x c => is_str s' x (string_of_runes [c])) vs rs.
Proof.
  intros W V T V2. destruct (run_split v w t "" env s W V V2) as (r & s' & vs & A & G & L & F). exists r, s', vs. split; [exact A|]. split; [exact G|]. split; [exact L|].
  cbn [str_split] in F. rewrite (pieces_text t rs T) in F. clear -F. revert vs F. induction rs as [|c rs IH]; intros vs F; inversion F; subst; constructor; auto.
Qed.

(** *** Trimming *)
Fixpoint drop_runes (set rs : list rune) : list rune :=
  match rs with [] => [] | c :: r => if existsb (Z.eqb c) set then drop_runes set r else rs end.
Lemma in_set c set : existsb (Z.eqb c) set = true <-> In c set.
Proof. rewrite existsb_exists. split; [intros (d & I & E); apply Z.eqb_eq in E; congruence|intros I; exists c; split; [exact I|apply Z.eqb_refl]]. Qed.
Lemma drop_spec set rs : exists a, rs = a ++ drop_runes set rs /\ incl a set /\ forall c r, drop_runes set rs = c :: r -> ~ In c set.
Proof.
  induction rs as [|c rs (a & E & I & N)]; cbn [drop_runes]; [exists []; split; [reflexivity|split; [intros ? []|discriminate]]|].
  destruct (existsb (Z.eqb c) set) eqn:Q.
  - exists (c :: a). split; [cbn; congruence|]. split; [|exact N]. intros d [<-|J]; [apply in_set, Q|auto].
  - exists []. split; [reflexivity|]. split; [intros ? []|]. intros d r [= <- <-] J. apply in_set in J. congruence.
Qed.
Definition trim_runes (side : trim_side) (set rs : list rune) : list rune :=
  match side with
  | TrimL => drop_runes set rs
  | TrimR => rev (drop_runes set (rev rs))
  | TrimB => rev (drop_runes set (rev (drop_runes set rs)))
  end.
Lemma drop_back set rs : exists b, rs = rev (drop_runes set (rev rs)) ++ b /\ incl b set /\ forall c r, rev (drop_runes set (rev rs)) = r ++ [c] -> ~ In c set.
Proof.
  destruct (drop_spec set (rev rs)) as (a & E & I & N). exists (rev a). split; [|split].
  - rewrite <- rev_app_distr, <- E, rev_involutive. reflexivity.
  - intros c J. apply I, in_rev, J.
  - intros c r Q. apply (N c (rev r)). apply (f_equal (@rev Z)) in Q. rewrite rev_involutive, rev_app_distr in Q. exact Q.
Qed.
Lemma trim_runes_spec side set rs : runes_trimmed (side_front side) (side_back side) set rs (trim_runes side set rs).
Proof.
  destruct side; cbn [side_front side_back trim_runes].
  - destruct (drop_spec set rs) as (a & E & I & N). exists a, []. rewrite app_nil_r. repeat apply conj; auto; try discriminate. intros ? [].
  - destruct (drop_spec set rs) as (a & E & I & N). destruct (drop_back set (drop_runes set rs)) as (b & E2 & I2 & N2).
    exists a, b. rewrite <- E2. repeat apply conj; auto; try discriminate. intros _ c r Q. rewrite Q in E2. exact (N c (r ++ b) E2).
  - destruct (drop_back set rs) as (b & E & I & N). exists [], b. repeat apply conj; auto; try discriminate. intros ? [].
Qed.
Lemma drop_pieces_text set rs : Forall scalar set -> Forall scalar rs -> drop_pieces (map one set) (map one rs) = map one (drop_runes set rs).
Proof.
  intros Fs F. induction F as [|c rs S F IH]; [reflexivity|]. cbn [map drop_pieces drop_runes].
  assert (E : existsb (str_eqb (one c)) (map one set) = existsb (Z.eqb c) set).
  { clear -Fs S. induction Fs as [|d set D Fs IH]; [reflexivity|]. cbn [map existsb]. rewrite IH. f_equal. destruct (Z.eqb_spec c d) as [->|N].
    - destruct (str_eqb_spec (one d) (one d)); congruence.
    - destruct (str_eqb_spec (one c) (one d)) as [Q|Q]; [|reflexivity]. destruct (N (one_inj c d S D Q)). }
  rewrite E. destruct (existsb (Z.eqb c) set); [exact IH|reflexivity].
Qed.
Lemma concat_ones rs : concat_strings (map one rs) = string_of_runes rs.
Proof. induction rs as [|c rs IH]; [reflexivity|]. cbn [map concat_strings]. rewrite IH. unfold one. rewrite <- string_of_runes_app. reflexivity. Qed.
Lemma drop_scalar set rs : Forall scalar rs -> Forall scalar (drop_runes set rs).
Proof. intros F. destruct (drop_spec set rs) as (a & E & _). rewrite E in F. apply Forall_app in F. tauto. Qed.
Lemma rev_scalar rs : Forall scalar rs -> Forall scalar (rev rs).
Proof. intros F. apply List.Forall_rev, F. Qed.
Lemma trim_scalar side set rs : Forall scalar rs -> Forall scalar (trim_runes side set rs).
Proof. intros F. destruct side; cbn [trim_runes]; auto using drop_scalar, rev_scalar. Qed.
Lemma trim_wide side set t ss rs : text_of set ss -> text_of t rs -> is_ascii set = false -> str_trim side set t = string_of_runes (trim_runes side ss rs).
Proof.
  intros Ts T A. pose proof (proj2 Ts) as Fs. assert (L : forall t rs, text_of t rs -> cut_left set t = string_of_runes (drop_runes ss rs)).
  { intros t' rs' T'. unfold cut_left. rewrite A, (pieces_text _ _ Ts), (pieces_text _ _ T'), drop_pieces_text by (exact Fs || exact (proj2 T')). apply concat_ones. }
  assert (R : forall t rs, text_of t rs -> cut_right set t = string_of_runes (rev (drop_runes ss (rev rs)))).
  { intros t' rs' T'. unfold cut_right. rewrite A, (pieces_text _ _ Ts), (pieces_text _ _ T'), <- map_rev, drop_pieces_text, <- map_rev by (exact Fs || exact (rev_scalar _ (proj2 T'))). apply concat_ones. }
  destruct side; cbn [str_trim trim_runes]; [exact (L t rs T)| |exact (R t rs T)]. rewrite (L t rs T). apply R. split; [reflexivity|]. apply drop_scalar, T.
Qed.
(** With an ASCII set the bytes decide, which comes to the same. *)
Lemma byte_inj c d : byte_of c = byte_of d -> c = d.
Proof. unfold byte_of. intros E. apply N2Z.inj in E. rewrite <- (ascii_N_embedding c), <- (ascii_N_embedding d), E. reflexivity. Qed.
Lemma chars_bytes ch t : In ch (chars t) <-> In (byte_of ch) (bytes_of_string t).
Proof.
  induction t as [|c t IH]; [reflexivity|]. cbn [chars bytes_of_string In]. rewrite IH. split; intros [E|E]; auto; left; [congruence|apply byte_inj, E].
Qed.
Lemma bytes_text t rs : text_of t rs -> bytes_of_string t = encode_runes rs.
Proof. intros [-> F]. unfold string_of_runes. apply bytes_of_bytes, encode_runes_bytes. Qed.
Lemma ascii_runes set ss : text_of set ss -> is_ascii set = true -> bytes_of_string set = ss /\ Forall (fun c => 0 <= c < 128) ss.
Proof.
  intros T A. assert (E : bytes_of_string set = ss) by (rewrite <- (text_runes _ _ T); symmetry; apply runes_ascii, A). split; [exact E|]. rewrite <- E. clear -A.
  induction set as [|c set IH]; [constructor|]. cbn in A. apply andb_true_iff in A as [A1 A2]. constructor; [|auto]. unfold is_ascii_char in A1. split; [apply N2Z.is_nonneg|lia].
Qed.
Lemma ascii_encode a : Forall (fun c => 0 <= c < 128) a -> encode_runes a = a.
Proof. intros F. induction F as [|c a H F IH]; [reflexivity|]. cbn [encode_runes]. rewrite encode_small by exact H. rewrite IH. reflexivity. Qed.
Lemma trim_narrow side set t ss rs : text_of set ss -> text_of t rs -> is_ascii set = true -> str_trim side set t = string_of_runes (trim_runes side ss rs).
Proof.
  intros Ts T A. destruct (ascii_runes set ss Ts A) as [Es Fs]. rewrite List.Forall_forall in Fs.
  apply (trimmed_unique (side_front side) (side_back side) set t); [apply str_trim_spec, ascii_spec, A|].
  pose proof (trim_scalar side ss rs (proj2 T)) as Fu. destruct (trim_runes_spec side ss rs) as (a & b & E & Ia & Ib & Za & Zb & Na & Nb). set (us := trim_runes side ss rs) in *. clearbody us.
  assert (In_set : forall ch, In ch (chars set) <-> In (byte_of ch) ss) by (intros ch; rewrite chars_bytes, Es; reflexivity).
  assert (M : forall a, incl a ss -> made_of set (string_of_runes a)).
  { intros x I. apply List.Forall_forall. intros ch J. apply In_set, I. apply chars_bytes in J. assert (Fx : Forall (fun c => 0 <= c < 128) x) by (apply List.Forall_forall; intros c K; apply Fs, I, K).
    rewrite (bytes_text (string_of_runes x) x) in J; [rewrite (ascii_encode x Fx) in J; exact J|]. split; [reflexivity|]. apply List.Forall_forall. intros c K. rewrite List.Forall_forall in Fx. specialize (Fx c K). left. lia. }
  assert (Small : forall c b, scalar c -> In b (encode_rune c) -> In b ss -> encode_rune c = [b]).
  { intros c x S J K. destruct (Z.ltb_spec c 128) as [Lt|Ge].
    - assert (0 <= c) by (destruct S; lia). rewrite encode_small in * by lia. destruct J as [->|[]]. reflexivity.
    - pose proof (encode_large c S Ge) as Lg. rewrite List.Forall_forall in Lg. specialize (Lg x J). specialize (Fs x K). lia. }
  assert (Code : forall c b, scalar c -> encode_rune c = [b] -> c = b \/ 128 <= b).
  { intros c x S Q. destruct (Z.ltb_spec c 128) as [Lt|Ge].
    - assert (0 <= c) by (destruct S; lia). rewrite encode_small in Q by lia. left. congruence.
    - pose proof (encode_large c S Ge) as Lg. rewrite Q in Lg. inversion Lg; subst. auto. }
  exists (string_of_runes a), (string_of_runes b). repeat apply conj.
  - rewrite <- !string_of_runes_app, <- E. exact (proj1 T).
  - apply M, Ia.
  - apply M, Ib.
  - intros Q. rewrite (Za Q). reflexivity.
  - intros Q. rewrite (Zb Q). reflexivity.
  - intros Q ch r Eq J. apply In_set in J. apply (f_equal bytes_of_string) in Eq. cbn [bytes_of_string] in Eq. rewrite (bytes_text _ us) in Eq by (split; [reflexivity|exact Fu]).
    destruct us as [|c us]; [discriminate|]. inversion Fu as [|? ? S Fu']; subst. cbn [encode_runes] in Eq. destruct (encode_cons c) as (b0 & r0 & Ec). rewrite Ec in Eq. injection Eq as E0 _.
    assert (E1 : encode_rune c = [b0]) by (apply Small; [exact S|rewrite Ec; left; reflexivity|rewrite E0; exact J]).
    destruct (Code c b0 S E1) as [->|G]; [apply (Na Q b0 us eq_refl); rewrite E0; exact J|]. specialize (Fs _ J). lia.
  - intros Q ch r Eq J. apply In_set in J. apply (f_equal bytes_of_string) in Eq. rewrite bytes_app in Eq. cbn [bytes_of_string] in Eq. rewrite (bytes_text _ us) in Eq by (split; [reflexivity|exact Fu]).
    destruct (List.exists_last (l := us)) as (us' & c & Eu). { intros Eu. rewrite Eu in Eq. symmetry in Eq. apply app_eq_nil in Eq. destruct Eq; discriminate. }
    rewrite Eu in Fu, Eq. apply Forall_app in Fu as [_ Fc]. inversion Fc as [|? ? S _]. rewrite encode_runes_app in Eq. cbn [encode_runes] in Eq. rewrite app_nil_r in Eq.
    destruct (List.exists_last (l := encode_rune c)) as (l0 & b0 & Ec). { destruct (encode_cons c) as (? & ? & ->). discriminate. }
    rewrite Ec, app_assoc in Eq. apply app_inj_tail in Eq as [_ E0].
    assert (E1 : encode_rune c = [b0]) by (apply Small; [exact S|rewrite Ec; apply in_app_iff; right; left; reflexivity|rewrite E0; exact J]).
    destruct (Code c b0 S E1) as [->|G]; [apply (Nb Q b0 us' Eu); rewrite E0; exact J|]. specialize (Fs _ J). lia.
Qed.
Lemma trim_text side set t ss rs : text_of set ss -> text_of t rs -> str_trim side set t = string_of_runes (trim_runes side ss rs).
Proof. intros Ts T. destruct (is_ascii set) eqn:A; [apply trim_narrow|apply trim_wide]; assumption. Qed.
Lemma run_trim_runes (name : string) (front back : bool) v w t set rs ss env s : wf_state s -> is_str s v t -> is_str s w set -> text_of t rs -> text_of set ss ->
  In (name, (front, back)) [("string-trim", (true, true)); ("string-trim-left", (true, false)); ("string-trim-right", (false, true))] ->
  exists us l s', runes_trimmed front back ss rs us /\ applies name [v; w] env s (Done (Ok (VStr l))) s' /\ grows s s' /\ s_strs s !! (l : loc) = None /\ is_str s' (VStr l) (string_of_runes us).
Proof.
  intros W V Hw T Ts I.
  assert (M : [w] = [] /\ set = blanks \/ exists w', [w] = [w'] /\ is_str s w' set) by (right; exists w; auto).
  destruct I as [I|[I|[I|[]]]]; injection I as <- <- <-.
  - destruct (trim_run TrimB v t set "string-trim" _ [w] env s W V eq_refl (fun _ _ => eq_refl) M) as (u & l & s' & -> & R).
    exists (trim_runes TrimB ss rs), l, s'. split; [apply (trim_runes_spec TrimB)|]. rewrite <- (trim_text TrimB set t ss rs Ts T). exact R.
  - destruct (trim_run TrimL v t set "string-trim-left" _ [w] env s W V eq_refl (fun _ _ => eq_refl) M) as (u & l & s' & -> & R).
    exists (trim_runes TrimL ss rs), l, s'. split; [apply (trim_runes_spec TrimL)|]. rewrite <- (trim_text TrimL set t ss rs Ts T). exact R.
  - destruct (trim_run TrimR v t set "string-trim-right" _ [w] env s W V eq_refl (fun _ _ => eq_refl) M) as (u & l & s' & -> & R).
    exists (trim_runes TrimR ss rs), l, s'. split; [apply (trim_runes_spec TrimR)|]. rewrite <- (trim_text TrimR set t ss rs Ts T). exact R.
Qed.

(** *** Case *)
Lemma raised_rune u c : 0 <= c -> raised u c (rune_upper u c).
Proof. intros P. unfold rune_upper, raised. destruct (Z.ltb_spec c 128); [|right; right; auto]. destruct ((97 <=? c) && (c <=? 122)) eqn:E; [left|right; left]; lia. Qed.
Lemma lowered_rune u c : 0 <= c -> lowered u c (rune_lower u c).
Proof. intros P. unfold rune_lower, lowered. destruct (Z.ltb_spec c 128); [|right; right; auto]. destruct ((65 <=? c) && (c <=? 90)) eqn:E; [left|right; left]; lia. Qed.
Lemma scalar_pos c : scalar c -> 0 <= c.
Proof. intros [?|?]; lia. Qed.
Lemma mapped (P : rune -> rune -> Prop) f rs : (forall c, 0 <= c -> P c (f c)) -> Forall scalar rs -> Forall2 P rs (map f rs).
Proof. intros H F. induction F; cbn [map]; constructor; auto using scalar_pos. Qed.
Lemma byte_small c : is_ascii_char c = true -> 0 <= byte_of c < 128.
Proof. unfold is_ascii_char, byte_of. lia. Qed.
Lemma upper_byte u c : is_ascii_char c = true -> rune_upper u (byte_of c) = byte_of (ascii_upper c).
Proof. revert u. destruct c as [[] [] [] [] [] [] [] []]; cbv; intros; (discriminate || reflexivity). Qed.
Lemma lower_byte u c : is_ascii_char c = true -> rune_lower u (byte_of c) = byte_of (ascii_lower c).
Proof. revert u. destruct c as [[] [] [] [] [] [] [] []]; cbv; intros; (discriminate || reflexivity). Qed.
Lemma ascii_mapped (f : ascii -> ascii) (g : rune -> rune) t : (forall c, is_ascii_char c = true -> g (byte_of c) = byte_of (f c) /\ is_ascii_char (f c) = true) -> is_ascii t = true ->
  str_map f t = string_of_runes (map g (bytes_of_string t)).
Proof.
  intros H. unfold string_of_runes. induction t as [|c t IH]; [reflexivity|]. cbn [is_ascii]. intros A. apply andb_true_iff in A as [A1 A2]. destruct (H c A1) as [E1 E2].
  cbn [str_map bytes_of_string map encode_runes]. rewrite E1, encode_small by (apply byte_small, E2). cbn [app string_of_bytes]. rewrite (IH A2). f_equal. symmetry. apply NumText.ascii_of_byte_of.
Qed.
Lemma upper_text u t rs : text_of t rs -> str_upper u t = string_of_runes (map (rune_upper u) rs).
Proof.
  intros T. unfold str_upper. destruct (is_ascii t) eqn:A; [|rewrite (text_runes _ _ T); reflexivity]. rewrite <- (proj1 (ascii_runes _ _ T A)). apply ascii_mapped; [|exact A].
  intros c H. split; [apply upper_byte, H|]. destruct c as [[] [] [] [] [] [] [] []]; (discriminate H || reflexivity).
Qed.
Lemma lower_text u t rs : text_of t rs -> str_lower u t = string_of_runes (map (rune_lower u) rs).
Proof.
  intros T. unfold str_lower. destruct (is_ascii t) eqn:A; [|rewrite (text_runes _ _ T); reflexivity]. rewrite <- (proj1 (ascii_runes _ _ T A)). apply ascii_mapped; [|exact A].
  intros c H. split; [apply lower_byte, H|]. destruct c as [[] [] [] [] [] [] [] []]; (discriminate H || reflexivity).
Qed.
Lemma capital_text u t c rs : text_of t (c :: rs) -> c < 128 -> capitalize u t = Some (string_of_runes (rune_upper u c :: map (rune_lower u) rs)).
Proof.
  intros [-> F] L. inversion F as [|? ? S F']; subst. pose proof (scalar_pos c S) as P.
  assert (E : string_of_runes (c :: rs) = one c +++ string_of_runes rs) by (unfold one; rewrite <- string_of_runes_app; reflexivity). rewrite E.
  assert (O : exists ch, one c = String ch "") by (unfold one, string_of_runes; cbn [encode_runes]; rewrite encode_small by lia; eexists; reflexivity).
  destruct O as (ch & O). rewrite O. cbn [str_app capitalize]. f_equal. rewrite <- O.
  rewrite (upper_text u (one c) [c]) by (split; [reflexivity|auto]). rewrite (lower_text u (string_of_runes rs) rs) by (split; [reflexivity|assumption]).
  rewrite <- string_of_runes_app. reflexivity.
Qed.
Lemma run_case_runes name v t rs env s : wf_state s -> is_str s v t -> text_of t rs -> In name ["string-upcase"; "string-downcase"; "string-capitalize"] ->
  (name = "string-capitalize" -> exists c rs', rs = c :: rs' /\ c < 128) ->
  exists ds l s', runes_recased name (s_uni s) rs ds /\ applies name [v] env s (Done (Ok (VStr l))) s' /\ grows s s' /\ s_strs s !! (l : loc) = None /\ is_str s' (VStr l) (string_of_runes ds).
Proof.
  intros W V T [<-|[<-|[<-|[]]]] C.
  - exists (map (rune_upper (s_uni s)) rs). rewrite <- (upper_text _ t rs T). edestruct (case_run "string-upcase" (fun u s => Some (str_upper u s)) v t (str_upper (s_uni s) t) env s) as (l & s' & R);
      [exact W|exact V|reflexivity|intros; reflexivity|reflexivity|]. exists l, s'. split; [|exact R].
    left. split; [left; reflexivity|]. apply mapped; [apply raised_rune|apply T].
  - exists (map (rune_lower (s_uni s)) rs). rewrite <- (lower_text _ t rs T). edestruct (case_run "string-downcase" (fun u s => Some (str_lower u s)) v t (str_lower (s_uni s) t) env s) as (l & s' & R);
      [exact W|exact V|reflexivity|intros; reflexivity|reflexivity|]. exists l, s'. split; [|exact R].
    right; left. split; [left; reflexivity|]. apply mapped; [apply lowered_rune|apply T].
  - destruct (C eq_refl) as (c & rs' & -> & L). exists (rune_upper (s_uni s) c :: map (rune_lower (s_uni s)) rs').
    destruct (case_run "string-capitalize" capitalize v t (string_of_runes (rune_upper (s_uni s) c :: map (rune_lower (s_uni s)) rs')) env s (func "string-capitalize" "1" (case_impl_of "string-capitalize" false capitalize))) as (l & s' & R); [exact W|exact V|reflexivity|intros; reflexivity|exact (capital_text _ t c rs' T L)|].
    exists l, s'. split; [|exact R]. right; right. split; [left; reflexivity|]. pose proof (proj2 T) as F. inversion F; subst. do 4 eexists. split; [reflexivity|]. split; [reflexivity|].
    split; [apply raised_rune, scalar_pos; assumption|apply mapped; [apply lowered_rune|assumption]].
Qed.
Lemma run_case_runes_bang name (l : loc) t rs env s : s_strs s !! l = Some t -> text_of t rs -> In name ["string-upcase!"; "string-downcase!"; "string-capitalize!"] ->
  (name = "string-capitalize!" -> exists c rs', rs = c :: rs' /\ c < 128) ->
  exists ds, runes_recased name (s_uni s) rs ds /\ applies name [VStr l] env s (Done (Ok (VStr l))) (with_text l (string_of_runes ds) (entering name env s)).
Proof.
  intros V T [<-|[<-|[<-|[]]]] C.
  - exists (map (rune_upper (s_uni s)) rs). rewrite <- (upper_text _ t rs T). split; [left; split; [right; left; reflexivity|apply mapped; [apply raised_rune|apply T]]|].
    eapply case_run_bang; [exact V|reflexivity|intros; reflexivity|reflexivity].
  - exists (map (rune_lower (s_uni s)) rs). rewrite <- (lower_text _ t rs T). split; [right; left; split; [right; left; reflexivity|apply mapped; [apply lowered_rune|apply T]]|].
    eapply case_run_bang; [exact V|reflexivity|intros; reflexivity|reflexivity].
  - destruct (C eq_refl) as (c & rs' & -> & L). exists (rune_upper (s_uni s) c :: map (rune_lower (s_uni s)) rs'). split.
    + right; right. split; [right; left; reflexivity|]. pose proof (proj2 T) as F. inversion F; subst. do 4 eexists. split; [reflexivity|]. split; [reflexivity|].
      split; [apply raised_rune, scalar_pos; assumption|apply mapped; [apply lowered_rune|assumption]].
    + eapply case_run_bang; [exact V|reflexivity|intros; reflexivity|exact (capital_text _ t c rs' T L)].
Qed.
(** The first byte alone is no character. *)
Lemma decode_lone b : 128 <= b -> decode_rune [b] = Some (65533, 1%nat).
Proof.
  intros H. cbn [decode_rune]. rewrite (proj2 (Z.ltb_ge _ 128)) by lia. repeat destruct (_ && _); reflexivity.
Qed.
Lemma run_capitalize_wide v t c rs env s : wf_state s -> is_str s v t -> text_of t (c :: rs) -> 128 <= c -> u_upper (s_uni s) 65533 = 65533 ->
  exists l s' rest, applies "string-capitalize" [v] env s (Done (Ok (VStr l))) s' /\ is_str s' (VStr l) (string_of_runes [65533] +++ rest).
Proof.
  intros W V [-> F] L U. inversion F as [|? ? S F']; subst. destruct (encode_cons c) as (b & r & E). pose proof (encode_large c S L) as B. rewrite E in B. inversion B as [|? ? B1 _]; subst.
  pose proof (encode_runes_bytes [c]) as Y. cbn [encode_runes] in Y. rewrite E in Y. inversion Y as [|? ? Y1 _]; subst.
  set (t := string_of_bytes (r ++ encode_runes rs)). set (ch := ascii_of_byte b).
  assert (T : string_of_runes (c :: rs) = String ch t) by (unfold string_of_runes; cbn [encode_runes]; rewrite E; reflexivity). rewrite T in V.
  assert (Q : byte_of ch = b) by (apply NumText.byte_of_ascii; lia).
  assert (C : capitalize (s_uni s) (String ch t) = Some (string_of_runes [65533] +++ str_lower (s_uni s) t)).
  { cbn [capitalize]. do 2 f_equal. unfold str_upper. cbn [is_ascii]. unfold is_ascii_char. rewrite Q. rewrite (proj2 (Z.ltb_ge b 128)) by lia. cbn [andb].
    unfold runes_of_string. cbn [bytes_of_string]. rewrite Q. cbn [decode_go]. rewrite decode_lone by exact B1. cbn [map]. unfold rune_upper. cbn [Z.ltb Z.compare Pos.compare Pos.compare_cont]. rewrite U. reflexivity. }
  destruct (case_run "string-capitalize" capitalize v (String ch t) _ env s (func "string-capitalize" "1" (case_impl_of "string-capitalize" false capitalize)) W V eq_refl (fun _ _ => eq_refl) C) as (l & s' & R & _ & _ & X).
  exists l, s', (str_lower (s_uni s) t). split; [exact R|exact X].
Qed.
(** A table that knows the letters of Latin-1, for the examples. *)
Definition latin : uni_table :=
  {| u_space := u_space ascii_uni; u_graphic := u_graphic ascii_uni; u_number := u_number ascii_uni;
     u_upper := fun c => if (224 <=? c) && (c <=? 254) && negb (c =? 247) then c - 32 else c;
     u_lower := fun c => if (192 <=? c) && (c <=? 222) && negb (c =? 215) then c + 32 else c |}.
