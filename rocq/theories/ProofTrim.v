(** Proofs of C58. *)
From Verif Require Import SpecTrim ProofData ProofEval ProofCall RunFacts ProofList StrFacts.
From stdpp Require Import list.
From Verif Require Import Data.
Local Open Scope string_scope.
Local Open Scope list_scope.
Local Open Scope Z_scope.

Lemma mem_chars c t : str_mem c t = true <-> In c (chars t).
Proof.
  induction t as [|d t IH]; cbn [str_mem chars]; [split; [discriminate|intros []]|].
  rewrite orb_true_iff, IH. cbn [In]. rewrite Ascii.eqb_eq. split; intros [H|H]; auto.
Qed.
Lemma chars_app a b : chars (a +++ b) = chars a ++ chars b.
Proof. induction a as [|c a IH]; [reflexivity|]. cbn. rewrite IH. reflexivity. Qed.
Lemma chars_rev a : chars (str_rev a) = rev (chars a).
Proof. induction a as [|c a IH]; [reflexivity|]. rewrite str_rev_cons, chars_app, IH. reflexivity. Qed.
Lemma chars_inj a : forall b, chars a = chars b -> a = b.
Proof. induction a as [|c a IH]; intros [|d b] H; try discriminate; [reflexivity|]. injection H as <- H. rewrite (IH b H). reflexivity. Qed.
Lemma made_of_rev set a : made_of set a -> made_of set (str_rev a).
Proof. unfold made_of. rewrite chars_rev. rewrite !List.Forall_forall. intros H x Hx. apply H. apply in_rev. exact Hx. Qed.
Lemma trim_left_spec set t : exists a, t = a +++ trim_left set t /\ made_of set a /\
  forall c r, trim_left set t = String c r -> ~ In c (chars set).
Proof.
  induction t as [|c t (a & E & M & N)]; cbn [trim_left].
  - exists "". split; [reflexivity|]. split; [constructor|discriminate].
  - destruct (str_mem c set) eqn:Hc.
    + exists (String c a). split; [cbn; rewrite <- E; reflexivity|]. split; [|exact N].
      constructor; [apply mem_chars, Hc|exact M].
    + exists "". split; [reflexivity|]. split; [constructor|]. intros d r Q. injection Q as <- <-. intros I.
      apply mem_chars in I. congruence.
Qed.
Lemma trim_right_spec set t : exists b, t = trim_right set t +++ b /\ made_of set b /\
  forall c r, trim_right set t = r +++ String c "" -> ~ In c (chars set).
Proof.
  destruct (trim_left_spec set (str_rev t)) as (a & E & M & N). exists (str_rev a). unfold trim_right.
  split; [|split; [apply made_of_rev, M|]].
  - rewrite <- str_rev_app, <- E. symmetry. apply str_rev_rev.
  - intros c r Q. apply (f_equal str_rev) in Q. rewrite str_rev_rev, str_rev_app in Q. apply (N c (str_rev r)). rewrite Q. reflexivity.
Qed.
Lemma ascii_spec t : is_ascii t = true <-> ascii_only t.
Proof.
  unfold ascii_only. induction t as [|c t IH]; cbn [is_ascii chars]; [split; [constructor|reflexivity]|].
  rewrite andb_true_iff, IH. unfold is_ascii_char, byte_of. rewrite Z.ltb_lt. split.
  - intros [H1 H2]. constructor; [lia|exact H2].
  - intros H. inversion H; subst. split; [lia|assumption].
Qed.
Definition side_front (x : trim_side) : bool := match x with TrimR => false | _ => true end.
Definition side_back (x : trim_side) : bool := match x with TrimL => false | _ => true end.
Lemma str_trim_spec side set t : ascii_only set -> trimmed (side_front side) (side_back side) set t (str_trim side set t).
Proof.
  intros A. apply ascii_spec in A. destruct side; unfold str_trim, cut_left, cut_right; rewrite A; cbn [side_front side_back].
  - destruct (trim_left_spec set t) as (a & E & M & N). exists a, "". rewrite str_app_nil_r.
    repeat apply conj; auto; try discriminate. constructor.
  - destruct (trim_left_spec set t) as (a & E & M & N). set (m := trim_left set t) in *.
    destruct (trim_right_spec set m) as (b & E' & M' & N'). exists a, b.
    repeat apply conj; auto; try discriminate; [rewrite <- E'; exact E|].
    intros _ c r Q. apply (N c (r +++ b)). rewrite E', Q. reflexivity.
  - destruct (trim_right_spec set t) as (b & E & M & N). exists "", b.
    repeat apply conj; auto; try discriminate. constructor.
Qed.
Lemma blanks_ascii : ascii_only blanks.
Proof. apply ascii_spec. reflexivity. Qed.
Lemma trim_run side v t set (name : string) p (more : list val) env s : wf_state s -> is_str s v t ->
  table name = Some p -> (forall vs env, p_body p vs env = trim_impl side vs env) ->
  (more = [] /\ set = blanks \/ exists w, more = [w] /\ is_str s w set) -> exists u l s', 
  u = str_trim side set t /\ applies name (v :: more) env s (Done (Ok (VStr l))) s' /\ grows s s' /\ s_strs s !! (l : loc) = None /\ is_str s' (VStr l) u.
Proof.
  intros W V T B M. exists (str_trim side set t), (s_next s).
  exists (set_strs (<[s_next s := str_trim side set t]> (s_strs s)) (bump (entering name env s))). split; [reflexivity|].
  split; [|split; [|split]].
  - eapply applies_of; [exact T|]. rewrite B. unfold trim_impl. cbn [arg nth]. need (is_str_entering name env _ _ _ V).
    destruct M as [[-> ->]|(w & -> & Hw)].
    + change default_trim_set with blanks. eapply runs_bind_ok; [apply runs_ret|]. rsteps.
    + eapply runs_bind_ok; [need (is_str_entering name env _ _ _ Hw); apply runs_ret|]. rsteps.
  - eapply grows_trans; [apply (grows_entering name env)|]. apply (grows_new_str (entering name env s)), wf_entering, W.
  - apply fresh_str, W.
  - apply (new_str_is (entering name env s)).
Qed.
Lemma run_trim (name : string) (front back : bool) v w t set env s : wf_state s -> is_str s v t -> is_str s w set -> ascii_only set ->
  In (name, (front, back)) [("string-trim", (true, true)); ("string-trim-left", (true, false)); ("string-trim-right", (false, true))] ->
  exists u l s', trimmed front back set t u /\ applies name [v; w] env s (Done (Ok (VStr l))) s' /\ grows s s' /\ s_strs s !! (l : loc) = None /\ is_str s' (VStr l) u.
Proof.
  intros W V Hw A I.
  assert (M : [w] = [] /\ set = blanks \/ exists w', [w] = [w'] /\ is_str s w' set) by (right; exists w; auto).
  destruct I as [I|[I|[I|[]]]]; injection I as <- <- <-.
  - destruct (trim_run TrimB v t set "string-trim" _ [w] env s W V eq_refl (fun _ _ => eq_refl) M) as (u & l & s' & -> & R).
    exists (str_trim TrimB set t), l, s'. split; [apply (str_trim_spec TrimB), A|exact R].
  - destruct (trim_run TrimL v t set "string-trim-left" _ [w] env s W V eq_refl (fun _ _ => eq_refl) M) as (u & l & s' & -> & R).
    exists (str_trim TrimL set t), l, s'. split; [apply (str_trim_spec TrimL), A|exact R].
  - destruct (trim_run TrimR v t set "string-trim-right" _ [w] env s W V eq_refl (fun _ _ => eq_refl) M) as (u & l & s' & -> & R).
    exists (str_trim TrimR set t), l, s'. split; [apply (str_trim_spec TrimR), A|exact R].
Qed.
Lemma run_trim_default (name : string) (front back : bool) v t env s : wf_state s -> is_str s v t ->
  In (name, (front, back)) [("string-trim", (true, true)); ("string-trim-left", (true, false)); ("string-trim-right", (false, true))] ->
  exists u l s', trimmed front back blanks t u /\ applies name [v] env s (Done (Ok (VStr l))) s' /\ grows s s' /\ s_strs s !! (l : loc) = None /\ is_str s' (VStr l) u.
Proof.
  intros W V I. set (A := blanks_ascii).
  assert (M : @nil val = [] /\ blanks = blanks \/ exists w', [] = [w'] /\ is_str s w' blanks) by (left; auto).
  destruct I as [I|[I|[I|[]]]]; injection I as <- <- <-.
  - destruct (trim_run TrimB v t blanks "string-trim" _ [] env s W V eq_refl (fun _ _ => eq_refl) M) as (u & l & s' & -> & R).
    exists (str_trim TrimB blanks t), l, s'. split; [apply (str_trim_spec TrimB), A|exact R].
  - destruct (trim_run TrimL v t blanks "string-trim-left" _ [] env s W V eq_refl (fun _ _ => eq_refl) M) as (u & l & s' & -> & R).
    exists (str_trim TrimL blanks t), l, s'. split; [apply (str_trim_spec TrimL), A|exact R].
  - destruct (trim_run TrimR v t blanks "string-trim-right" _ [] env s W V eq_refl (fun _ _ => eq_refl) M) as (u & l & s' & -> & R).
    exists (str_trim TrimR blanks t), l, s'. split; [apply (str_trim_spec TrimR), A|exact R].
Qed.
(** Two answers to the same trimming are the same. *)
Lemma trimmed_unique front back set t u1 u2 : trimmed front back set t u1 -> trimmed front back set t u2 -> u1 = u2.
Proof.
  assert (L : forall l1 l2 m1 m2 : list ascii, l1 ++ m1 = l2 ++ m2 -> Forall (fun c => In c (chars set)) l1 -> Forall (fun c => In c (chars set)) l2 ->
    (forall c r, m1 = c :: r -> ~ In c (chars set)) -> (forall c r, m2 = c :: r -> ~ In c (chars set)) -> l1 = l2 /\ m1 = m2).
  { induction l1 as [|c l1 IH]; intros [|d l2] m1 m2 E F1 F2 N1 N2; cbn in E.
    - auto.
    - exfalso. inversion F2; subst. eapply N1; [reflexivity|assumption].
    - exfalso. inversion F1; subst. eapply N2; [reflexivity|assumption].
    - injection E as <- E. inversion F1; subst. inversion F2; subst. destruct (IH l2 m1 m2) as [-> ->]; auto. }
  intros (a1 & b1 & E1 & A1 & B1 & F1 & K1 & P1 & Q1) (a2 & b2 & E2 & A2 & B2 & F2 & K2 & P2 & Q2).
  assert (E : chars a1 ++ chars u1 ++ chars b1 = chars a2 ++ chars u2 ++ chars b2) by (rewrite <- !chars_app, <- E1, E2; reflexivity).
  apply chars_inj.
  assert (UQ : forall u, back = true -> (back = true -> forall c r, u = r +++ String c "" -> ~ In c (chars set)) -> forall c r, rev (chars u) = c :: r -> ~ In c (chars set)).
  { intros u Hb H c r R. assert (X : chars u = rev r ++ [c]) by (rewrite <- (rev_involutive (chars u)), R; reflexivity).
    assert (Y : exists w, chars w = rev r). { exists (str_rev (string_of_list_ascii r)). rewrite chars_rev. f_equal. clear. induction r; [reflexivity|]. cbn. f_equal. assumption. }
    destruct Y as [w Y]. apply (H Hb c w). apply chars_inj. rewrite chars_app, Y. exact X. }
  destruct front, back.
  - (* both *)
    destruct (chars u1) as [|c1 r1] eqn:X1, (chars u2) as [|c2 r2] eqn:X2; [reflexivity| | |].
    + exfalso. assert (H : In c2 (chars t)) by (rewrite E2, !chars_app, X2; apply in_app_iff; right; left; reflexivity).
      rewrite E1, !chars_app, X1 in H. cbn in H. destruct u2 as [|c r]; [discriminate|]. injection X2 as -> _.
      apply (P2 eq_refl c2 r eq_refl). apply in_app_iff in H. unfold made_of in A1, B1. rewrite List.Forall_forall in A1, B1. destruct H; auto.
    + exfalso. assert (H : In c1 (chars t)) by (rewrite E1, !chars_app, X1; apply in_app_iff; right; left; reflexivity).
      rewrite E2, !chars_app, X2 in H. cbn in H. destruct u1 as [|c r]; [discriminate|]. injection X1 as -> _.
      apply (P1 eq_refl c1 r eq_refl). apply in_app_iff in H. unfold made_of in A2, B2. rewrite List.Forall_forall in A2, B2. destruct H; auto.
    + destruct (L (chars a1) (chars a2) ((c1 :: r1) ++ chars b1) ((c2 :: r2) ++ chars b2) E A1 A2) as [_ E'].
      * intros c r Z. injection Z as <- _. destruct u1 as [|c r']; [discriminate|]. injection X1 as -> _. apply (P1 eq_refl c1 r' eq_refl).
      * intros c r Z. injection Z as <- _. destruct u2 as [|c r']; [discriminate|]. injection X2 as -> _. apply (P2 eq_refl c2 r' eq_refl).
      * rewrite <- X1, <- X2 in *. apply (f_equal (@rev ascii)) in E'. rewrite !rev_app_distr in E'.
        destruct (L _ _ _ _ E') as [_ R].
        -- apply List.Forall_rev, B1.
        -- apply List.Forall_rev, B2.
        -- exact (UQ u1 eq_refl Q1).
        -- exact (UQ u2 eq_refl Q2).
        -- apply (f_equal (@rev ascii)) in R. rewrite !rev_involutive in R. congruence.
  - rewrite (K1 eq_refl), (K2 eq_refl) in E. cbn [chars] in E. rewrite !app_nil_r in E.
    destruct (L _ _ _ _ E A1 A2) as [_ R]; [| |exact R].
    + intros c r Z. destruct u1 as [|c' r']; [discriminate|]. injection Z as -> _. exact (P1 eq_refl _ _ eq_refl).
    + intros c r Z. destruct u2 as [|c' r']; [discriminate|]. injection Z as -> _. exact (P2 eq_refl _ _ eq_refl).
  - rewrite (F1 eq_refl), (F2 eq_refl) in E. cbn [chars app] in E. apply (f_equal (@rev ascii)) in E. rewrite !rev_app_distr in E.
    destruct (L _ _ _ _ E) as [_ R].
    + apply List.Forall_rev, B1.
    + apply List.Forall_rev, B2.
    + exact (UQ u1 eq_refl Q1).
    + exact (UQ u2 eq_refl Q2).
    + apply (f_equal (@rev ascii)) in R. rewrite !rev_involutive in R. congruence.
  - rewrite (K1 eq_refl), (K2 eq_refl), (F1 eq_refl), (F2 eq_refl) in E. cbn [chars app] in E. rewrite !app_nil_r in E. exact E.
Qed.

(** ** Letter case *)
Lemma byte_code c : byte_of c = Z.of_N (N_of_ascii c).
Proof. reflexivity. Qed.
Lemma code_of_byte z : 0 <= z < 256 -> Z.of_N (N_of_ascii (ascii_of_byte z)) = z.
Proof.
  intros H. unfold ascii_of_byte. rewrite Z.mod_small by lia. rewrite N_ascii_embedding by lia. lia.
Qed.
Lemma upper_spec c : upper_of c (ascii_upper c).
Proof.
  unfold upper_of, ascii_upper, code_between. cbv zeta. rewrite byte_code. pose proof (N_ascii_bounded c).
  destruct (Z.leb_spec 97 (Z.of_N (N_of_ascii c))), (Z.leb_spec (Z.of_N (N_of_ascii c)) 122); cbn [andb].
  2-4: right; split; [lia|reflexivity].
  left. split; [lia|]. pose proof (code_of_byte (Z.of_N (N_of_ascii c) - 32)). lia.
Qed.
Lemma lower_spec c : lower_of c (ascii_lower c).
Proof.
  unfold lower_of, ascii_lower, code_between. cbv zeta. rewrite byte_code. pose proof (N_ascii_bounded c).
  destruct (Z.leb_spec 65 (Z.of_N (N_of_ascii c))), (Z.leb_spec (Z.of_N (N_of_ascii c)) 90); cbn [andb].
  2-4: right; split; [lia|reflexivity].
  left. split; [lia|]. pose proof (code_of_byte (Z.of_N (N_of_ascii c) + 32)). lia.
Qed.
Lemma map_upper t : Forall2 upper_of (chars t) (chars (str_map ascii_upper t)).
Proof. induction t as [|c t IH]; constructor; [apply upper_spec|exact IH]. Qed.
Lemma map_lower t : Forall2 lower_of (chars t) (chars (str_map ascii_lower t)).
Proof. induction t as [|c t IH]; constructor; [apply lower_spec|exact IH]. Qed.
Lemma upper_ascii u t : ascii_only t -> Forall2 upper_of (chars t) (chars (str_upper u t)).
Proof. intros A. apply ascii_spec in A. unfold str_upper. rewrite A. apply map_upper. Qed.
Lemma lower_ascii u t : ascii_only t -> Forall2 lower_of (chars t) (chars (str_lower u t)).
Proof. intros A. apply ascii_spec in A. unfold str_lower. rewrite A. apply map_lower. Qed.
Lemma capital_ascii u t : ascii_only t -> t <> "" -> exists k, capitalize u t = Some k /\ capital_of (chars t) (chars k).
Proof.
  intros A N. destruct t as [|c t]; [congruence|]. cbn [capitalize]. eexists. split; [reflexivity|].
  inversion A as [|x l Hc Ht]; subst. assert (A1 : ascii_only (String c "")) by (constructor; [exact Hc|constructor]).
  unfold str_upper, str_lower. rewrite (proj2 (ascii_spec _) A1), (proj2 (ascii_spec _) Ht). cbn [str_map str_app].
  exists c, (ascii_upper c), (chars t), (chars (str_map ascii_lower t)). repeat apply conj; try reflexivity; [apply upper_spec|apply map_lower].
Qed.
Lemma case_run name f v t u env s p : wf_state s -> is_str s v t -> table name = Some p ->
  (forall vs env, p_body p vs env = case_impl_of name false f vs env) -> f (s_uni s) t = Some u ->
  exists l s', applies name [v] env s (Done (Ok (VStr l))) s' /\ grows s s' /\ s_strs s !! (l : loc) = None /\ is_str s' (VStr l) u.
Proof.
  intros W V T B F. exists (s_next s). eexists. split; [|split; [|split]].
  - eapply applies_of; [exact T|]. rewrite B. unfold case_impl_of. cbn [arg nth]. need (is_str_entering name env _ _ _ V).
    eapply runs_bind; [eapply runs_op; reflexivity|]. change (s_uni (entering name env s)) with (s_uni s). rewrite F. rsteps.
  - eapply grows_trans; [apply grows_entering|]. apply grows_new_str, wf_entering, W.
  - apply fresh_str, W.
  - apply (new_str_is (entering name env s)).
Qed.
Lemma case_run_bang name f l t u env s p : s_strs s !! (l : loc) = Some t -> table name = Some p ->
  (forall vs env, p_body p vs env = case_impl_of name true f vs env) -> f (s_uni s) t = Some u ->
  applies name [VStr l] env s (Done (Ok (VStr l))) (with_text l u (entering name env s)).
Proof.
  intros V T B F. eapply applies_of; [exact T|]. rewrite B. unfold case_impl_of. cbn [arg nth].
  assert (V' : is_str s (VStr l) t) by (exists l; auto).
  destruct (need_iff (name +++ " requires a string but was given ") (VStr l) t
    (fun (l : loc) (x : string) => u0 <- do_op OUni;; match f u0 x with Some t0 => do_op (OStrSet l t0) ;;; ok (VStr l) | None => Panic slice_panic end)
    (entering name env s) (is_str_entering name env _ _ _ V')) as (l' & E & ->). injection E as <-.
  eapply runs_bind; [eapply runs_op; reflexivity|]. change (s_uni (entering name env s)) with (s_uni s). rewrite F.
  eapply runs_bind; [|apply runs_ret]. eapply runs_op. cbn [step_op]. unfold put.
  change (s_strs (entering name env s)) with (s_strs s). rewrite V. reflexivity.
Qed.

Lemma run_case name v t env s : wf_state s -> is_str s v t -> ascii_only t -> (t = "" -> name <> "string-capitalize") ->
  In name ["string-upcase"; "string-downcase"; "string-capitalize"] -> exists u l s', recases name t u /\
  applies name [v] env s (Done (Ok (VStr l))) s' /\ grows s s' /\ s_strs s !! (l : loc) = None /\ is_str s' (VStr l) u.
Proof.
  intros W V A N [<-|[<-|[<-|[]]]].
  - exists (str_upper (s_uni s) t). edestruct (case_run "string-upcase" (fun u s => Some (str_upper u s)) v t (str_upper (s_uni s) t) env s) as (l & s' & R);
      [exact W|exact V|reflexivity|intros; reflexivity|reflexivity|].
    exists l, s'. split; [|exact R]. left. split; [left; reflexivity|apply upper_ascii, A].
  - exists (str_lower (s_uni s) t). edestruct (case_run "string-downcase" (fun u s => Some (str_lower u s)) v t (str_lower (s_uni s) t) env s) as (l & s' & R);
      [exact W|exact V|reflexivity|intros; reflexivity|reflexivity|].
    exists l, s'. split; [|exact R]. right; left. split; [left; reflexivity|apply lower_ascii, A].
  - destruct (capital_ascii (s_uni s) t A (fun E => N E eq_refl)) as (k & K1 & K2). exists k.
    edestruct (case_run "string-capitalize" capitalize v t k env s) as (l & s' & R);
      [exact W|exact V|reflexivity|intros; reflexivity|exact K1|].
    exists l, s'. split; [|exact R]. right; right. split; [left; reflexivity|exact K2].
Qed.
Lemma run_case_bang name (l : loc) t env s : s_strs s !! l = Some t -> ascii_only t -> (t = "" -> name <> "string-capitalize!") ->
  In name ["string-upcase!"; "string-downcase!"; "string-capitalize!"] -> exists u, recases name t u /\
  applies name [VStr l] env s (Done (Ok (VStr l))) (with_text l u (entering name env s)).
Proof.
  intros V A N [<-|[<-|[<-|[]]]].
  - exists (str_upper (s_uni s) t). split; [left; split; [right; left; reflexivity|apply upper_ascii, A]|].
    eapply case_run_bang; [exact V|reflexivity|intros; reflexivity|reflexivity].
  - exists (str_lower (s_uni s) t). split; [right; left; split; [right; left; reflexivity|apply lower_ascii, A]|].
    eapply case_run_bang; [exact V|reflexivity|intros; reflexivity|reflexivity].
  - destruct (capital_ascii (s_uni s) t A (fun E => N E eq_refl)) as (k & K1 & K2). exists k. split; [right; right; split; [right; left; reflexivity|exact K2]|].
    eapply case_run_bang; [exact V|reflexivity|intros; reflexivity|exact K1].
Qed.
Lemma run_capitalize_empty name v env s : is_str s v "" -> In name ["string-capitalize"; "string-capitalize!"] ->
  exists w, applies name [v] env s (Panicked w) (entering name env s).
Proof.
  intros V [<-|[<-|[]]]; eexists; applies; unfold case_impl_of; cbn [arg nth];
    (need (is_str_entering "string-capitalize" env _ _ _ V) || need (is_str_entering "string-capitalize!" env _ _ _ V));
    (eapply runs_bind; [eapply runs_op; reflexivity|]); cbn [capitalize]; apply runs_panic.
Qed.
