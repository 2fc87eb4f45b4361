(** Proofs of C33, C34 and C50. *)
From Verif Require Export SpecData.
From Verif Require Import ProofEval ProofCall RunFacts ProofList StrFacts.
From stdpp Require Import list.
From Verif Require Import Data.
Local Open Scope string_scope.
Local Open Scope list_scope.
Local Open Scope Z_scope.

Lemma predicate_decides name ks v env s : In (name, ks) type_predicates -> exists b, decides name [v] env s b /\ (b = true <-> In (kind_of v) ks).
Proof.
  intros I. cbn in I. repeat (destruct I as [I|I]; [injection I as <- <-; eexists; split;
    [intros o s'; body_of; cbv [pred_of environmentp_impl lisp_bool]; apply ok_iff
    |destruct v as [|[]| | | | | | | | | | | | | | | |]; cbn; split; intros H; try reflexivity; try discriminate; try tauto; repeat (destruct H as [H|H]; try discriminate); destruct H]|]).
  destruct I.
Qed.
Lemma nil_decides name [v] env s : In name ["nil?"; "null?"] -> exists b, decides name [v] env s b /\ (b = true <-> at_end s v).
Proof.
  intros I. exists (nilb s v). split; [|symmetry; apply at_end_nilb].
  intros o s'. destruct I as [<-|[<-|[]]]; (body_of; unfold nilp_impl; etransitivity; [apply then_iff, runs_nilp|unfold lisp_bool; apply ok_iff]).
Qed.
Lemma notnil_decides name [v] env s : In name ["notnil?"; "notnull?"] -> exists b, decides name [v] env s b /\ (b = true <-> ~ at_end s v).
Proof.
  intros I. exists (negb (nilb s v)). split; [|rewrite negb_true_iff; symmetry; apply not_at_end].
  intros o s'. destruct I as [<-|[<-|[]]]; (body_of; unfold notnilp_impl; etransitivity; [apply then_iff, runs_nilp|unfold lisp_bool; apply ok_iff]).
Qed.
Lemma decides_unique name vs env s b b' : decides name vs env s b -> decides name vs env s b' -> b = b'.
Proof. intros H H'. assert (E := proj1 (H' _ _) (proj2 (H _ _) (conj eq_refl eq_refl))). destruct E as [E _]. congruence. Qed.
Lemma kinds_exclusive p q v env s : In p (map fst kind_predicates) -> In q (map fst kind_predicates) ->
  decides p [v] env s true -> decides q [v] env s true -> p = q.
Proof.
  intros P Q Dp Dq. apply in_map_iff in P as ([p' k] & <- & P). apply in_map_iff in Q as ([q' k'] & <- & Q). cbn [fst] in *.
  destruct (predicate_decides p' [k] v env s) as (b & Hb & Ib). { apply in_or_app. left. apply (in_map (fun x => (fst x, [snd x]))) in P. exact P. }
  destruct (predicate_decides q' [k'] v env s) as (b' & Hb' & Ib'). { apply in_or_app. left. apply (in_map (fun x => (fst x, [snd x]))) in Q. exact Q. }
  rewrite (decides_unique _ _ _ _ _ _ Hb Dp) in Ib. rewrite (decides_unique _ _ _ _ _ _ Hb' Dq) in Ib'.
  destruct (proj1 Ib eq_refl) as [->|[]]. destruct (proj1 Ib' eq_refl) as [->|[]].
  cbn in P, Q. repeat (destruct P as [P|P]; [injection P as <- P; rewrite <- P in Q; repeat (destruct Q as [Q|Q]; [try discriminate; congruence|]); destruct Q|]). destruct P.
Qed.

(** *** C34 *)
Lemma is_str_grows s s' v t : grows s s' -> is_str s v t -> is_str s' v t.
Proof. intros G (l & -> & E). exists l. split; [reflexivity|]. exact (g_strs _ _ G _ _ E). Qed.
Lemma is_str_entering name env s v t : is_str s v t -> is_str (entering name env s) v t.
Proof. apply is_str_grows, grows_entering. Qed.
Lemma need_iff {A} who v t (k : loc -> string -> prog (res A)) s : is_str s v t ->
  exists l, v = VStr l /\ forall o s', runs denote (need_string who v k) s o s' <-> runs denote (k l t) s o s'.
Proof.
  intros (l & -> & E). exists l. split; [reflexivity|]. intros o s'. unfold need_string.
  rewrite (op_iff (OStrGet l) _ s (str_at s l) s o s' eq_refl). rewrite (str_some _ _ _ E). reflexivity.
Qed.
Lemma not_str_fails {A} who v (k : loc -> string -> prog (res A)) : (forall l, v <> VStr l) -> need_string who v k = fail_got who v.
Proof. intros H. destruct v; try reflexivity. destruct (H l eq_refl). Qed.
Ltac need E := match goal with
  | |- runs denote (need_string ?w ?v ?k) ?s ?o ?s' <-> _ => destruct (need_iff w v _ k s E) as (? & ? & ->)
  | |- runs denote (need_string ?w ?v ?k) ?s ?o ?s' => destruct (need_iff w v _ k s E) as (? & ? & ->)
  end; cbv beta.
Lemma grows_new_str s x : wf_state s -> grows s (set_strs (<[s_next s := x]> (s_strs s)) (bump s)).
Proof. intros W. eapply grows_str; [exact W|reflexivity]. Qed.
Lemma new_str_is s x : is_str (set_strs (<[s_next s := x]> (s_strs s)) (bump s)) (VStr (s_next s)) x.
Proof. exists (s_next s). split; [reflexivity|]. apply lookup_insert. Qed.
Lemma fresh_str s : wf_state s -> s_strs s !! s_next s = None.
Proof. intros W. apply fresh_none. destruct W; assumption. Qed.

Lemma str_drop_app a : forall b, str_drop (Z.to_nat (str_len a)) (a +++ b) = b.
Proof.
  induction a as [|c a IH]; intros b; cbn [str_len str_app]; [reflexivity|]. pose proof (str_len_nonneg a).
  replace (Z.to_nat (1 + str_len a)) with (S (Z.to_nat (str_len a))) by lia. apply IH.
Qed.
Lemma str_take_app a : forall b, str_take (Z.to_nat (str_len a)) (a +++ b) = a.
Proof.
  induction a as [|c a IH]; intros b; cbn [str_len str_app]; [destruct b; reflexivity|]. pose proof (str_len_nonneg a).
  replace (Z.to_nat (1 + str_len a)) with (S (Z.to_nat (str_len a))) by lia. cbn [str_take]. rewrite IH. reflexivity.
Qed.
Lemma str_cut_at n : forall t, (Z.of_nat n <= str_len t) -> exists a b, t = a +++ b /\ str_len a = Z.of_nat n.
Proof.
  induction n as [|n IH]; intros t L; [exists "", t; auto|]. destruct t as [|c t]; [cbn [str_len] in L; lia|].
  destruct (IH t) as (a & b & -> & E); [cbn [str_len] in L; lia|]. exists (String c a), b. split; [reflexivity|]. cbn [str_len]. lia.
Qed.
Lemma slice_parts t i j : 0 <= i <= j -> j <= str_len t -> exists a b, t = a +++ str_slice t i j +++ b /\ str_len a = i /\ str_len (str_slice t i j) = j - i.
Proof.
  intros H L. destruct (str_cut_at (Z.to_nat i) t) as (a & u & -> & Ea); [lia|]. rewrite str_len_app in L.
  destruct (str_cut_at (Z.to_nat (j - i)) u) as (m & b & -> & Em); [lia|].
  assert (Ei : i = str_len a) by lia. assert (Ej : j - i = str_len m) by lia.
  assert (E : str_slice (a +++ m +++ b) i j = m). { unfold str_slice. rewrite Ej, Ei, str_drop_app, str_take_app. reflexivity. }
  exists a, b. rewrite E. repeat apply conj; [reflexivity|lia|lia].
Qed.
Lemma run_substring v t i j env s : wf_state s -> is_str s v t -> 0 <= i <= j -> j <= str_len t -> exists l s' a m b,
  applies "substring" [v; VInt i; VInt j] env s (Done (Ok (VStr l))) s' /\ grows s s' /\ s_strs s !! (l : loc) = None /\
  s_strs s' !! l = Some m /\ t = a +++ m +++ b /\ str_len a = i /\ str_len m = j - i.
Proof.
  intros W V H L. destruct (slice_parts t i j H L) as (a & b & E & Ea & Em).
  exists (s_next s). eexists. exists a, (str_slice t i j), b. repeat apply conj; try assumption.
  - applies. unfold substring_impl. cbn [arg nth]. need (is_str_entering "substring" env _ _ _ V).
    destruct (Z.ltb_spec (str_len t) i); [lia|]. destruct (Z.ltb_spec (str_len t) j); [lia|]. destruct (Z.ltb_spec j i); [lia|]. destruct (Z.ltb_spec i 0); [lia|].
    rsteps.
  - eapply grows_trans; [apply grows_entering|]. apply grows_new_str, wf_entering, W.
  - apply fresh_str, W.
  - cbn [s_strs set_strs s_next bump entering set_log]. apply lookup_insert.
Qed.
Lemma run_substring_bad v t i j env s : is_str s v t -> str_len t < i \/ str_len t < j \/ j < i -> exists m,
  applies "substring" [v; VInt i; VInt j] env s (Done (Err m)) (entering "substring" env s).
Proof.
  intros V H. eexists. applies. unfold substring_impl. cbn [arg nth]. need (is_str_entering "substring" env _ _ _ V).
  instantiate (1 := if str_len t <? i then _ else if str_len t <? j then _ else _).
  destruct (Z.ltb_spec (str_len t) i); [apply runs_ret|]. destruct (Z.ltb_spec (str_len t) j); [apply runs_ret|].
  destruct (Z.ltb_spec j i); [apply runs_ret|lia].
Qed.
Lemma run_substring_negative v t i j env s : is_str s v t -> i < 0 -> i <= j <= str_len t -> exists w,
  applies "substring" [v; VInt i; VInt j] env s (Panicked w) (entering "substring" env s).
Proof.
  intros V N H. eexists. applies. unfold substring_impl. cbn [arg nth]. need (is_str_entering "substring" env _ _ _ V).
  pose proof (str_len_nonneg t).
  destruct (Z.ltb_spec (str_len t) i); [lia|]. destruct (Z.ltb_spec (str_len t) j); [lia|]. destruct (Z.ltb_spec j i); [lia|]. destruct (Z.ltb_spec i 0); [|lia].
  exists 1%nat. reflexivity.
Qed.
Lemma run_string_length v t env s : is_str s v t -> forall o s', applies "string-length" [v] env s o s' <-> gives (VInt (str_len t)) (entering "string-length" env s) o s'.
Proof. intros V o s'. body_of. unfold string_length_impl. cbn [arg nth]. need (is_str_entering "string-length" env _ _ _ V). apply ok_iff. Qed.
Lemma run_string_null v t env s : is_str s v t -> exists b, decides "string-null?" [v] env s b /\ (b = true <-> t = "").
Proof.
  intros V. eexists. split.
  - intros o s'. body_of. unfold string_null_impl. cbn [arg nth]. need (is_str_entering "string-null?" env _ _ _ V). apply ok_iff.
  - destruct t as [|c t]; cbn [str_len]; [split; reflexivity|]. pose proof (str_len_nonneg t). rewrite Z.eqb_eq. split; [lia|discriminate].
Qed.
Lemma two_iff who k v w t u s : is_str s v t -> is_str s w u -> forall o s', runs denote (two_strings who k [v; w]) s o s' <-> runs denote (k t u) s o s'.
Proof. intros V W o s'. unfold two_strings. cbn [arg nth]. need V. need W. reflexivity. Qed.
Lemma run_part_tests v w t u env s : is_str s v t -> is_str s w u ->
  (exists b, decides "substring?" [v; w] env s b /\ (b = true <-> exists x y, u = x +++ t +++ y)) /\
  (exists b, decides "string-prefix?" [v; w] env s b /\ (b = true <-> exists y, u = t +++ y)) /\
  (exists b, decides "string-suffix?" [v; w] env s b /\ (b = true <-> exists x, u = x +++ t)).
Proof.
  intros V W. repeat apply conj; eexists; split.
  1, 3, 5: intros o s'; body_of; unfold substringp_impl, string_prefix_impl, string_suffix_impl, part_test;
    etransitivity; [eapply two_iff; apply is_str_entering; eassumption|]; apply ok_iff.
  - apply contains_spec.
  - apply has_prefix_spec.
  - apply has_suffix_spec.
Qed.
Lemma byte_ltb c d : (byte_of c <? byte_of d) = true <-> (N_of_ascii c < N_of_ascii d)%N.
Proof. unfold byte_of. rewrite Z.ltb_lt. lia. Qed.
Lemma byte_inj c d : N_of_ascii c = N_of_ascii d -> c = d.
Proof. intros E. rewrite <- (ascii_N_embedding c), <- (ascii_N_embedding d), E. reflexivity. Qed.
Lemma ltb_before a : forall b, str_ltb a b = true <-> before a b.
Proof.
  induction a as [|c a IH]; intros [|d b]; cbn [str_ltb]; split; intros H; try discriminate; try (inversion H; fail); try (constructor; fail); auto.
  - destruct (byte_of c <? byte_of d) eqn:L1; [apply before_byte; exact (proj1 (byte_ltb _ _) L1)|]. destruct (byte_of d <? byte_of c) eqn:L2; [discriminate|].
    assert (c = d). { apply byte_inj. unfold byte_of in L1, L2. rewrite Z.ltb_ge in L1, L2. lia. } subst d. apply before_rest, IH, H.
  - inversion H; subst.
    + destruct (byte_of c <? byte_of d) eqn:L1; [reflexivity|]. match goal with H : (_ < _)%N |- _ => apply (proj2 (byte_ltb _ _)) in H end. congruence.
    + rewrite Z.ltb_irrefl. apply IH. assumption.
Qed.
Lemma before_irrefl a : ~ before a a.
Proof. induction a as [|c a IH]; intros H; inversion H; subst; [lia|auto]. Qed.
Lemma before_trans a : forall b c, before a b -> before b c -> before a c.
Proof.
  induction a as [|x a IH]; intros b c H1 H2.
  - inversion H1; subst. inversion H2; subst; constructor.
  - inversion H1; subst; inversion H2; subst.
    + apply before_byte. lia.
    + apply before_byte. assumption.
    + apply before_byte. assumption.
    + apply before_rest. eapply IH; eassumption.
Qed.
Lemma before_total a : forall b, before a b \/ a = b \/ before b a.
Proof.
  induction a as [|c a IH]; intros [|d b]; auto; try (left; constructor; fail); try (right; right; constructor; fail).
  destruct (N.lt_trichotomy (N_of_ascii c) (N_of_ascii d)) as [L|[E|L]].
  - left. apply before_byte, L.
  - apply byte_inj in E. subst d. destruct (IH b) as [H|[->|H]]; [left; apply before_rest, H|auto|right; right; apply before_rest, H].
  - right. right. apply before_byte, L.
Qed.
Lemma leb_before a b : str_leb a b = true <-> (before a b \/ a = b).
Proof.
  unfold str_leb. rewrite negb_true_iff, <- not_true_iff_false, ltb_before. split.
  - intros N. destruct (before_total a b) as [H|[H|H]]; auto. contradiction.
  - intros [H| ->] H2; [exact (before_irrefl _ (before_trans _ _ _ H H2))|exact (before_irrefl _ H2)].
Qed.
Lemma run_order v w t u env s : is_str s v t -> is_str s w u -> forall name rel, In (name, rel) string_orders ->
  exists b, decides name [v; w] env s b /\ (b = true <-> rel t u).
Proof.
  intros V W name rel I. cbn in I. repeat (destruct I as [I|I]; [injection I as <- <-; eexists; split;
    [intros o s'; body_of; unfold string_compare_impl; op1; etransitivity; [eapply two_iff; apply is_str_entering; eassumption|apply ok_iff]|]|]).
  - apply str_eqb_eq.
  - apply ltb_before.
  - apply ltb_before.
  - apply leb_before.
  - rewrite leb_before. split; intros [H|H]; auto.
  - destruct I.
Qed.
Lemma run_downcase v t env s : wf_state s -> is_str s v t -> exists r s',
  applies "string-downcase" [v] env s (Done (Ok r)) s' /\ grows s s' /\ is_str s' r (str_lower (s_uni s) t).
Proof.
  intros W V. eexists _, _. split; [|split].
  - applies. unfold case_impl_of. cbn [arg nth]. need (is_str_entering "string-downcase" env _ _ _ V). rsteps.
  - eapply grows_trans; [apply grows_entering|]. apply grows_new_str, wf_entering, W.
  - apply new_str_is.
Qed.
Lemma run_ci_order v w t u env s : wf_state s -> is_str s v t -> is_str s w u -> forall name ci rel, In (name, ci, rel) ci_orders ->
  exists v' t' s1 w' u' s2 b,
  (applies "string-downcase" [v] env s (Done (Ok v')) s1 /\ grows s s1 /\ is_str s1 v' t') /\
  (applies "string-downcase" [w] env s1 (Done (Ok w')) s2 /\ grows s1 s2 /\ is_str s2 w' u') /\
  decides ci [v; w] env s b /\ (b = true <-> rel t' u').
Proof.
  intros W V V2 name ci rel I. destruct (run_downcase v t env s W V) as (v' & s1 & A1 & G1 & E1).
  assert (W1 : wf_state s1). { destruct A1 as (p & _ & _ & R). eapply wf_runs; [|exact R]. apply wf_entering, W. }
  destruct (run_downcase w u env s1 W1 (is_str_grows _ _ _ _ G1 V2)) as (w' & s2 & A2 & G2 & E2). rewrite (g_uni _ _ G1) in E2.
  exists v', (str_lower (s_uni s) t), s1, w', (str_lower (s_uni s) u), s2.
  assert (D : exists b, decides ci [v; w] env s b /\ (b = true <-> rel (str_lower (s_uni s) t) (str_lower (s_uni s) u))).
  { cbn in I. repeat (destruct I as [I|I]; [injection I as <- <- <-; eexists; split;
      [intros o s'; body_of; unfold string_compare_impl; op1; etransitivity; [eapply two_iff; apply is_str_entering; eassumption|apply ok_iff]|]|]).
    - apply str_eqb_eq.
    - apply ltb_before.
    - apply ltb_before.
    - apply leb_before.
    - cbn [s_uni entering set_log]. rewrite leb_before. split; intros [H|H]; auto.
    - destruct I. }
  destruct D as (b & D1 & D2). exists b. auto 10.
Qed.

(** *** C33 *)
Lemma str_app_split a : forall b c d, a +++ b = c +++ d -> str_len a = str_len c -> a = c /\ b = d.
Proof.
  induction a as [|x a IH]; intros b [|y c] d E L; cbn [str_app str_len] in *; try (pose proof (str_len_nonneg a)); try (pose proof (str_len_nonneg c)); try lia; auto.
  injection E as <- E. destruct (IH _ _ _ E) as [-> ->]; [lia|auto].
Qed.
Lemma len_pos sep : sep <> "" -> 1 <= str_len sep.
Proof. destruct sep; [congruence|]. intros _. cbn [str_len]. pose proof (str_len_nonneg sep). lia. Qed.
Lemma split_cut sep : sep <> "" -> forall n t cur, (Z.to_nat (str_len t) <= n)%nat ->
  (forall a b, str_rev cur +++ t = a +++ sep +++ b -> str_len (str_rev cur) <= str_len a) -> cut sep (str_rev cur +++ t) (split_go sep t 0 cur).
Proof.
  intros N. pose proof (len_pos _ N) as P. induction n as [|n IH]; intros t cur L Inv.
  - destruct t as [|c t]; [|cbn [str_len] in L; pose proof (str_len_nonneg t); lia].
    cbn [split_go]. rewrite str_app_nil_r. constructor. intros (a & b & E). specialize (Inv a b). rewrite str_app_nil_r in Inv. specialize (Inv E).
    rewrite E, !str_len_app in Inv. pose proof (str_len_nonneg b). lia.
  - destruct t as [|c t].
    { cbn [split_go]. rewrite str_app_nil_r. constructor. intros (a & b & E). specialize (Inv a b). rewrite str_app_nil_r in Inv. specialize (Inv E).
      rewrite E, !str_len_app in Inv. pose proof (str_len_nonneg b). lia. }
    destruct (has_prefix sep (String c t)) eqn:Pr.
    + apply has_prefix_spec in Pr as (r & Er). rewrite Er in *. rewrite split_at by exact N. apply cut_first; [exact Inv|].
      change r with (str_rev "" +++ r) at 1. apply IH.
      * rewrite str_len_app in L. pose proof (str_len_nonneg r). lia.
      * intros a b _. cbn. apply str_len_nonneg.
    + cbn [split_go]. rewrite Pr. replace (str_rev cur +++ String c t) with (str_rev (String c cur) +++ t) by (rewrite str_rev_cons, str_app_assoc; reflexivity).
      apply IH; [cbn [str_len] in L; pose proof (str_len_nonneg t); lia|].
      intros a b E. rewrite str_rev_cons, str_app_assoc in E. cbn [str_app] in E. specialize (Inv a b E).
      rewrite str_rev_cons, str_len_app. cbn [str_len]. destruct (Z.eq_dec (str_len (str_rev cur)) (str_len a)) as [Q|Q]; [|lia].
      destruct (str_app_split _ _ _ _ E Q) as [_ E2]. exfalso. apply not_true_iff_false in Pr. apply Pr, has_prefix_spec. exists b. exact E2.
Qed.
Lemma cut_of_split sep t : sep <> "" -> cut sep t (split_go sep t 0 "").
Proof. intros N. apply (split_cut sep N (Z.to_nat (str_len t)) t ""); [reflexivity|]. intros a b _. apply str_len_nonneg. Qed.
Lemma cut_nonempty sep t ps : cut sep t ps -> ps <> [].
Proof. intros []; discriminate. Qed.
Lemma joined_cons sep p ps : ps <> [] -> joined sep (p :: ps) = p +++ sep +++ joined sep ps.
Proof. destruct ps; [congruence|reflexivity]. Qed.
Lemma cut_pieces sep t ps : sep <> "" -> cut sep t ps -> joined sep ps = t /\ Forall (fun p => ~ occurs sep p) ps.
Proof.
  intros N C. induction C as [t O|a b ps Mn C [IH1 IH2]]; [split; [reflexivity|auto]|]. split.
  - rewrite joined_cons by exact (cut_nonempty _ _ _ C). rewrite IH1. reflexivity.
  - constructor; [|exact IH2]. intros (x & y & E). specialize (Mn x (y +++ sep +++ b)). rewrite E in Mn at 1. rewrite !str_app_assoc in Mn. specialize (Mn eq_refl).
    rewrite E, !str_len_app in Mn. pose proof (len_pos _ N). pose proof (str_len_nonneg y). lia.
Qed.
Lemma cut_unique sep t ps : sep <> "" -> cut sep t ps -> forall qs, cut sep t qs -> ps = qs.
Proof.
  intros N C. induction C as [t O|a b ps Mn C IH]; intros qs D.
  - inversion D; subst; [reflexivity|]. exfalso. apply O. exists a, b. reflexivity.
  - inversion D as [t O E|a' b' qs' Mn' D' E]; subst; [exfalso; apply O; exists a, b; reflexivity|].
    symmetry in E. pose proof (Mn _ _ E) as L1. pose proof (Mn' _ _ (eq_sym E)) as L2.
    destruct (str_app_split _ _ _ _ E) as [<- E2]; [lia|]. apply str_app_inj_l in E2. subst b'. f_equal. apply IH, D'.
Qed.
Lemma occurs_char c x : ~ occurs (String c "") x -> str_avoids c x = true.
Proof.
  induction x as [|d x IH]; intros O; [reflexivity|]. cbn [str_avoids]. apply andb_true_iff. split.
  - destruct (Ascii.eqb_spec c d) as [->|D]; [|reflexivity]. exfalso. apply O. exists "", x. reflexivity.
  - apply IH. intros (a & b & E). apply O. exists (String d a), b. rewrite E. reflexivity.
Qed.
Lemma joined_join sep ts : joined sep ts = str_join sep ts.
Proof. induction ts as [|t ts IH]; [reflexivity|]. cbn [joined str_join]. destruct ts; [reflexivity|]. rewrite IH. reflexivity. Qed.
Lemma cut_of_joined c ts : ts <> [] -> Forall (fun p => ~ occurs (String c "") p) ts -> cut (String c "") (joined (String c "") ts) ts.
Proof.
  intros N F. rewrite joined_join. rewrite <- (split_join c ts N) at 2; [apply cut_of_split; discriminate|].
  eapply List.Forall_impl; [|exact F]. intros x. apply occurs_char.
Qed.
(** One piece per character when the separator is empty. *)
Lemma of_bytes_app a b : string_of_bytes (a ++ b) = string_of_bytes a +++ string_of_bytes b.
Proof. induction a as [|x a IH]; cbn; [reflexivity|]. rewrite IH. reflexivity. Qed.
Lemma of_to_bytes t : string_of_bytes (bytes_of_string t) = t.
Proof.
  induction t as [|c t IH]; cbn; [reflexivity|]. rewrite IH. f_equal. unfold ascii_of_byte, byte_of.
  pose proof (N_ascii_bounded c). rewrite Z.mod_small by lia. rewrite N2Z.id. apply ascii_N_embedding.
Qed.
Lemma joined_empty ts : joined "" ts = concat_strings ts.
Proof. induction ts as [|t ts IH]; [reflexivity|]. cbn [joined concat_strings]. destruct ts; [cbn; rewrite str_app_nil_r; reflexivity|]. rewrite IH. reflexivity. Qed.
Lemma pieces_concat bs : forall k cur, concat_strings (map string_of_bytes (rune_pieces_go bs k cur)) = string_of_bytes (rev cur ++ bs).
Proof.
  induction bs as [|b bs IH]; intros k cur; cbn [rune_pieces_go].
  - rewrite app_nil_r. destruct cur; [reflexivity|]. cbn [map concat_strings]. rewrite str_app_nil_r. reflexivity.
  - destruct k as [|k].
    + destruct cur as [|x cur]; [rewrite IH; reflexivity|]. cbn [map concat_strings]. rewrite IH. rewrite <- of_bytes_app. cbn [rev]. rewrite <- !app_assoc. reflexivity.
    + rewrite IH. cbn [rev]. rewrite <- app_assoc. reflexivity.
Qed.
Lemma split_joined t sep : joined sep (str_split t sep) = t.
Proof.
  destruct sep as [|c sep].
  - rewrite joined_empty. unfold str_split, rune_pieces. rewrite pieces_concat. cbn [rev app]. apply of_to_bytes.
  - apply (cut_pieces (String c sep)); [discriminate|]. apply cut_of_split. discriminate.
Qed.
Lemma runs_new_strs ts : forall s, wf_state s -> exists vs s', runs denote (new_strs ts) s (Done vs) s' /\ grows s s' /\ Forall2 (is_str s') vs ts.
Proof.
  induction ts as [|t ts IH]; intros s W.
  - exists [], s. split; [apply runs_ret|]. split; [apply grows_refl|constructor].
  - destruct (IH (set_strs (<[s_next s := t]> (s_strs s)) (bump s))) as (vs & s' & R & G & F).
    { eapply wf_runs; [exact W|apply (runs_new_str t)]. }
    exists (VStr (s_next s) :: vs), s'. split; [cbn [new_strs]; rsteps; eapply runs_bind; [exact R|rsteps]|].
    split; [eapply grows_trans; [apply grows_new_str, W|exact G]|]. constructor; [|exact F].
    eapply is_str_grows; [exact G|apply new_str_is].
Qed.
Lemma strs_grow s s' vs ts : grows s s' -> Forall2 (is_str s) vs ts -> Forall2 (is_str s') vs ts.
Proof. intros G F. eapply Forall2_impl; [exact F|]. intros v t. apply is_str_grows, G. Qed.
Lemma strs_no_nil s vs ts : Forall2 (is_str s) vs ts -> Forall (fun x => x <> VNil) vs.
Proof. intros F. induction F as [|v t vs ts (l & -> & _) F IH]; constructor; auto; discriminate. Qed.
Lemma run_split v w t sep env s : wf_state s -> is_str s v t -> is_str s w sep -> exists r s' vs,
  applies "string-split" [v; w] env s (Done (Ok r)) s' /\ grows s s' /\ is_list s' r vs /\ Forall2 (is_str s') vs (str_split t sep).
Proof.
  intros W V V2. pose proof (wf_entering "string-split" env s W) as W0.
  destruct (runs_new_strs (str_split t sep) _ W0) as (vs & s1 & R1 & G1 & F1).
  pose proof (wf_runs _ _ _ _ _ W0 R1) as W1.
  destruct (runs_array_to_list_exact vs s1 W1 (strs_no_nil _ _ _ F1)) as (r & s2 & R2 & G2 & L2).
  exists r, s2, vs. split; [|split; [|split; [exact L2|eapply strs_grow; eassumption]]].
  - applies. unfold string_split_impl. cbn [arg nth]. need (is_str_entering "string-split" env _ _ _ V). need (is_str_entering "string-split" env _ _ _ V2).
    eapply runs_bind; [exact R1|]. eapply runs_bind; [exact R2|]. rsteps.
  - eapply grows_trans; [apply grows_entering|]. eapply grows_trans; eassumption.
Qed.
Lemma run_split_cut v w t sep env s : wf_state s -> is_str s v t -> is_str s w sep -> sep <> "" -> exists r s' vs ps,
  applies "string-split" [v; w] env s (Done (Ok r)) s' /\ grows s s' /\ is_list s' r vs /\ Forall2 (is_str s') vs ps /\ cut sep t ps.
Proof.
  intros W V V2 N. destruct (run_split v w t sep env s W V V2) as (r & s' & vs & A & G & L & F). exists r, s', vs, (str_split t sep).
  repeat (split; [assumption|]). unfold str_split in *. destruct sep; [congruence|]. apply cut_of_split. discriminate.
Qed.
Lemma join_cells s : forall vs ts v acc, is_list s v vs -> Forall2 (is_str s) vs ts ->
  runs denote (for_cells (fun acc c =>
                x <- car c ;;
                match x with
                | VStr l => s <- do_op (OStrGet l) ;; Ret (inl (s :: acc))
                | _ => t <- call (RString x) ;;
                       Ret (inr (Err ("string-join requires a list of strings but " +++ t +++
                                      " was in the list.")))
                end)
              (fun acc => ok (rev acc)) v acc) s (Done (Ok (rev acc ++ ts))) s.
Proof.
  intros vs. induction vs as [|x vs IH]; intros ts v acc L F; inversion F as [|? t ? ts' Hx F']; subst.
  - apply for_cells_end; [exact (is_list_nil_inv _ _ L)|]. rewrite app_nil_r. apply runs_ret.
  - destruct (is_list_cons_inv _ _ _ _ L) as (E1 & E2 & E3 & l & ->). destruct Hx as (lx & -> & Elx).
    eapply for_cells_next; [exact E1| |].
    + rsteps. rewrite E2. rsteps.
    + rewrite (str_some _ _ _ Elx). replace (rev acc ++ t :: ts') with (rev (t :: acc) ++ ts') by (cbn [rev]; rewrite <- app_assoc; reflexivity).
      apply IH; [exact E3|exact F'].
Qed.
Lemma run_join v w vs ts sep env s : wf_state s -> is_list s v vs -> Forall2 (is_str s) vs ts -> is_str s w sep -> exists r s',
  applies "string-join" [v; w] env s (Done (Ok r)) s' /\ grows s s' /\ is_str s' r (joined sep ts).
Proof.
  intros W L F V. eexists _, _. split; [|split].
  - applies. unfold string_join_impl. cbn [arg nth]. rewrite (is_list_listp _ _ _ L). cbn [negb].
    destruct (is_str_entering "string-join" env _ _ _ V) as (l & -> & El).
    eapply runs_bind; [apply runs_nilp|]. cbn [nilb]. eapply runs_bind_ok.
    { need (ex_intro _ l (conj eq_refl El) : is_str (entering "string-join" env s) (VStr l) sep). apply runs_ret. }
    eapply runs_bind_ok.
    { apply join_cells with (vs := vs); [apply is_list_entering, L|]. eapply strs_grow; [apply grows_entering|exact F]. }
    rsteps.
  - eapply grows_trans; [apply grows_entering|]. apply grows_new_str, wf_entering, W.
  - cbn [rev app]. rewrite <- joined_join. apply new_str_is.
Qed.
Lemma run_join_only v vs ts env s : wf_state s -> is_list s v vs -> Forall2 (is_str s) vs ts -> exists r s',
  applies "string-join" [v] env s (Done (Ok r)) s' /\ grows s s' /\ is_str s' r (joined "" ts).
Proof.
  intros W L F. eexists _, _. split; [|split].
  - applies. unfold string_join_impl. cbn [arg nth]. rewrite (is_list_listp _ _ _ L). cbn [negb].
    eapply runs_bind; [apply runs_nilp|]. cbn [nilb]. eapply runs_bind_ok; [apply runs_ret|].
    eapply runs_bind_ok.
    { apply join_cells with (vs := vs); [apply is_list_entering, L|]. eapply strs_grow; [apply grows_entering|exact F]. }
    rsteps.
  - eapply grows_trans; [apply grows_entering|]. apply grows_new_str, wf_entering, W.
  - cbn [rev app]. rewrite <- joined_join. apply new_str_is.
Qed.
Lemma wf_applies name vs env s o s' : wf_state s -> applies name vs env s o s' -> wf_state s'.
Proof. intros W (p & _ & _ & R). eapply wf_runs; [|exact R]. apply wf_entering, W. Qed.
Lemma split_then_join v w t sep env s : wf_state s -> is_str s v t -> is_str s w sep -> exists r s1 r' s2,
  applies "string-split" [v; w] env s (Done (Ok r)) s1 /\ applies "string-join" [r; w] env s1 (Done (Ok r')) s2 /\ is_str s2 r' t.
Proof.
  intros W V V2. destruct (run_split v w t sep env s W V V2) as (r & s1 & vs & A & G & L & F).
  destruct (run_join r w vs _ sep env s1 (wf_applies _ _ _ _ _ _ W A) L F (is_str_grows _ _ _ _ G V2)) as (r' & s2 & A2 & G2 & E2).
  rewrite split_joined in E2. eauto 10.
Qed.
Lemma join_then_split v w vs ts c env s : wf_state s -> is_list s v vs -> Forall2 (is_str s) vs ts -> is_str s w (String c "") ->
  ts <> [] -> Forall (fun p => ~ occurs (String c "") p) ts -> exists r s1 r' s2 vs',
  applies "string-join" [v; w] env s (Done (Ok r)) s1 /\ applies "string-split" [r; w] env s1 (Done (Ok r')) s2 /\
  is_list s2 r' vs' /\ Forall2 (is_str s2) vs' ts.
Proof.
  intros W L F V N O. destruct (run_join v w vs ts _ env s W L F V) as (r & s1 & A & G & E).
  destruct (run_split_cut r w _ _ env s1 (wf_applies _ _ _ _ _ _ W A) E (is_str_grows _ _ _ _ G V)) as (r' & s2 & vs' & ps & A2 & G2 & L2 & F2 & C2); [discriminate|].
  assert (ps = ts) by (eapply cut_unique; [|exact C2|apply cut_of_joined; assumption]; discriminate). subst ps. exists r, s1, r', s2, vs'. auto.
Qed.

(** A state with two strings and the list of them. *)
Lemma strings_sample s t u : wf_state s -> exists s' v w l, wf_state s' /\ is_str s' v t /\ is_str s' w u /\ is_list s' l [v; w].
Proof.
  intros W. destruct (runs_new_strs [t; u] s W) as (vs & s1 & R1 & G1 & F1). pose proof (wf_runs _ _ _ _ _ W R1) as W1.
  inversion F1 as [|v ? vs1 ? V1 F2]; subst. inversion F2 as [|w ? vs2 ? V2 F3]; subst. inversion F3; subst.
  destruct (runs_array_to_list_exact [v; w] s1 W1) as (l & s2 & R2 & G2 & L2). { destruct V1 as (? & -> & _), V2 as (? & -> & _). repeat constructor; discriminate. }
  exists s2, v, w, l. split; [exact (wf_runs _ _ _ _ _ W1 R2)|]. split; [exact (is_str_grows _ _ _ _ G2 V1)|]. split; [exact (is_str_grows _ _ _ _ G2 V2)|exact L2].
Qed.
