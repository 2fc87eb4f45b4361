(** Proofs for C61. *)
From Verif Require Export SpecOut ProofFormat ProofData ProofPrint ProofJson.
From Verif Require Import Data.
Local Open Scope string_scope.
Local Open Scope list_scope.
Local Open Scope Z_scope.

Lemma display_run v s t : shown Display v s t -> runs denote (print_string v) s (Done t) s.
Proof. exact (print_shown Display v s t (or_introl eq_refl)). Qed.
Lemma forms_run vs s ts : Forall2 (fun v u => shown Display v s u) vs ts -> runs denote (concat_forms vs) s (Done (fold_right str_app "" ts)) s.
Proof.
  induction 1 as [|v t vs ts H _ IH]; cbn [concat_forms fold_right]; [apply runs_ret|].
  eapply runs_bind; [apply display_run, H|]. eapply runs_bind; [exact IH|apply runs_ret].
Qed.
Lemma together_run vs s t : run_together vs s t -> runs denote (concat_string_forms vs) s (Done t) s.
Proof.
  intros [[-> ->]|(N & ts & F & ->)]; [apply runs_ret|]. destruct vs as [|v vs]; [congruence|]. apply forms_run, F.
Qed.
Lemma event_run x s (v : val) : runs denote (do_op (OEvent x) ;;; ok v) s (Done (Ok v)) (set_log (x :: s_log s) s).
Proof. eapply runs_bind; [apply runs_op; reflexivity|apply runs_ret]. Qed.
Lemma get_text (l : loc) t s : s_strs s !! l = Some t -> runs denote (do_op (OStrGet l)) s (Done t) s.
Proof. intros H. apply runs_op. cbn. rewrite (str_some _ _ _ H). reflexivity. Qed.
Lemma write_line_run vs t env s : run_together vs (entering "write-line" env s) t ->
  applies "write-line" vs env s (Done (Ok VNil)) (wrote (t +++ string_of_bytes [10]) (entering "write-line" env s)).
Proof. intros H. applies. unfold write_line_impl. eapply runs_bind; [apply together_run, H|apply event_run]. Qed.
Lemma write_log_run vs t env s : run_together vs (entering "write-log" env s) t ->
  applies "write-log" vs env s (Done (Ok VNil)) (wrote (t +++ string_of_bytes [13; 10]) (entering "write-log" env s)).
Proof. intros H. applies. unfold write_log_impl. eapply runs_bind; [apply together_run, H|apply event_run]. Qed.
Lemma str_run vs t env s : wf_state s -> run_together vs (entering "str" env s) t ->
  exists l s', applies "str" vs env s (Done (Ok (VStr l))) s' /\ grows s s' /\ s_strs s !! (l : loc) = None /\ is_str s' (VStr l) t.
Proof.
  intros W H. eexists _, _. split; [|split; [|split]].
  - applies. unfold str_impl. eapply runs_bind; [apply together_run, H|]. eapply runs_bind; [apply runs_new_str|apply runs_ret].
  - eapply grows_trans; [apply grows_entering|apply grows_new_str, wf_entering, W].
  - apply (fresh_str (entering "str" env s)), wf_entering, W.
  - apply new_str_is.
Qed.
Lemma write_string_run (l : loc) t env s : s_strs s !! l = Some t ->
  applies "write-string" [VStr l] env s (Done (Ok VNil)) (wrote t (entering "write-string" env s)).
Proof.
  intros H. applies. unfold write_string_impl. cbn [arg nth nth_error write_to]. eapply runs_bind; [apply get_text, H|apply event_run].
Qed.
Lemma write_run v t env s : prints v (entering "write" env s) t ->
  applies "write" [v] env s (Done (Ok VNil)) (wrote t (entering "write" env s)).
Proof. intros H. applies. unfold write_impl. cbn [arg nth nth_error write_to]. eapply runs_bind; [exact H|apply event_run]. Qed.
Lemma newline_run env s : applies "newline" [] env s (Done (Ok VNil)) (wrote (string_of_bytes [10]) (entering "newline" env s)).
Proof. applies. unfold newline_impl. cbn [arg nth nth_error write_to]. eapply runs_bind; [apply runs_ret|apply event_run]. Qed.
Lemma write_string_port (l : loc) t p env s : s_strs s !! l = Some t ->
  exists o s', applies "write-string" [VStr l; VPort p] env s o s' /\ sent "write-string" p t (entering "write-string" env s) o s'.
Proof.
  intros H. destruct (port_write_run "write-string" p t (entering "write-string" env s)) as (o & s' & R & S). exists o, s'. split; [|exact S].
  applies. unfold write_string_impl. cbn [arg nth nth_error write_to]. eapply runs_bind; [apply get_text, H|exact R].
Qed.
Lemma write_port v t p env s : prints v (entering "write" env s) t ->
  exists o s', applies "write" [v; VPort p] env s o s' /\ sent "write" p t (entering "write" env s) o s'.
Proof.
  intros H. destruct (port_write_run "write" p t (entering "write" env s)) as (o & s' & R & S). exists o, s'. split; [|exact S].
  applies. unfold write_impl. cbn [arg nth nth_error write_to]. eapply runs_bind; [exact H|exact R].
Qed.
Lemma newline_port p env s : exists o s', applies "newline" [VPort p] env s o s' /\ sent "newline" p (string_of_bytes [10]) (entering "newline" env s) o s'.
Proof.
  destruct (port_write_run "newline" p (string_of_bytes [10]) (entering "newline" env s)) as (o & s' & R & S). exists o, s'. split; [|exact S].
  applies. unfold newline_impl. cbn [arg nth nth_error write_to]. eapply runs_bind; [apply runs_ret|exact R].
Qed.
Lemma refused_port who x (text : prog string) s : (forall p, x <> VPort p) ->
  exists m, runs denote (write_to who (Some x) text) s (Done (Err m)) s.
Proof. intros N. eexists. unfold write_to. destruct x; try apply runs_ret. destruct (N _ eq_refl). Qed.
Lemma output_refused name vs env s :
  (name = "write-string" /\ exists v, vs = [v] /\ forall l, v <> VStr l) \/
  (exists v x, vs = [v; x] /\ (forall p, x <> VPort p) /\ (name = "write-string" \/ name = "write")) \/
  (exists x, vs = [x] /\ (forall p, x <> VPort p) /\ name = "newline") ->
  exists m, applies name vs env s (Done (Err m)) (entering name env s).
Proof.
  intros [(-> & v & -> & N)|[(v & x & -> & N & [-> | ->])|(x & -> & N & ->)]].
  - eexists. applies. unfold write_string_impl. cbn [arg nth nth_error]. destruct v; try apply runs_ret. destruct (N _ eq_refl).
  - destruct v; try (eexists; applies; unfold write_string_impl; cbn [arg nth nth_error]; apply runs_ret).
    destruct (refused_port "write-string" x (do_op (OStrGet l)) (entering "write-string" env s) N) as [m R]. exists m. applies. exact R.
  - destruct (refused_port "write" x (call (RString v)) (entering "write" env s) N) as [m R]. exists m. applies. exact R.
  - destruct (refused_port "newline" x (Ret nl) (entering "newline" env s) N) as [m R]. exists m. applies. exact R.
Qed.
Lemma intern_run (l : loc) t env s : s_strs s !! l = Some t -> applies "intern" [VStr l] env s (Done (Ok (VSym t))) (entering "intern" env s).
Proof.
  intros H. applies. unfold intern_impl, need_string. cbn [arg nth]. eapply runs_bind; [apply get_text, H|apply runs_ret].
Qed.
Lemma intern_refused v t env s : (forall l, v <> VStr l) -> prints v (entering "intern" env s) t ->
  exists m, applies "intern" [v] env s (Done (Err m)) (entering "intern" env s).
Proof.
  intros N H. eexists. applies. unfold intern_impl. cbn [arg nth]. rewrite not_str_fails by exact N. unfold fail_got. eapply runs_bind; [exact H|apply runs_ret].
Qed.

(** *** The text of a tree *)
Lemma low_digit c d : In (c, d) digit_table -> d < 10 -> c = digit_char d /\ 0 <= d.
Proof.
  intros H L. cbn in H. repeat (destruct H as [H|H]; [injection H as <- <-; first [exfalso; lia|split; [reflexivity|lia]]|]). destruct H.
Qed.
Lemma written_pos t n : written 10 t n -> 0 <= n /\ t <> "" /\ ((forall r, t = String "0" r -> r = "") -> n = 0 -> t = "0").
Proof.
  induction 1 as [c d H L|t n c d W (P & Ne & IH) H L].
  - destruct (low_digit _ _ H L) as [-> P]. split; [exact P|]. split; [discriminate|]. intros _ ->. reflexivity.
  - destruct (low_digit _ _ H L) as [-> Q]. split; [lia|]. split; [destruct t; discriminate|]. intros Z E. assert (n = 0) as N by lia.
    destruct t as [|x t]; [congruence|]. assert (Zt : forall r, String x t = String "0" r -> r = "").
    { intros r [= -> ->]. specialize (Z _ eq_refl). destruct r; [reflexivity|discriminate Z]. }
    specialize (IH Zt N). injection IH as -> ->. specialize (Z _ eq_refl). discriminate.
Qed.
Definition no_zero (t : string) : Prop := forall r, t = String "0" r -> r = "".
Lemma no_zero_front t c : t <> "" -> no_zero (t +++ String c "") -> no_zero t /\ t <> "0".
Proof.
  intros Ne Z. destruct t as [|x t]; [congruence|]. split.
  - intros r [= -> ->]. specialize (Z _ eq_refl). destruct r; [reflexivity|discriminate Z].
  - intros [= -> ->]. specialize (Z _ eq_refl). discriminate.
Qed.
Lemma written_unique t n : written 10 t n -> forall t2, written 10 t2 n -> no_zero t -> no_zero t2 -> t = t2.
Proof.
  induction 1 as [c d H L|t n c d W IH H L]; intros t2 W2 Z1 Z2; destruct (low_digit _ _ H L) as [-> Q].
  - inversion W2 as [c2 d2 H2 L2 E1 E2|t' n' c2 d2 W' H2 L2 E1 E2]; subst; destruct (low_digit _ _ H2 L2) as [-> Q2]; [reflexivity|].
    destruct (written_pos _ _ W') as (P & Ne & Hz). destruct (no_zero_front _ _ Ne Z2) as [Z' N']. exfalso. apply N', Hz; [exact Z'|lia].
  - destruct (written_pos _ _ W) as (P & Ne & Hz). destruct (no_zero_front _ _ Ne Z1) as [Z' N'].
    assert (n <> 0) by (intros E; apply N', Hz; assumption).
    remember (n * 10 + d) as m eqn:Em. destruct W2 as [c2 d2 H2 L2|t' n' c2 d2 W' H2 L2]; destruct (low_digit _ _ H2 L2) as [-> Q2]; [lia|].
    destruct (written_pos _ _ W') as (P' & Ne' & _). assert (n' = n /\ d2 = d) as [-> ->] by lia.
    rewrite (IH t' W' Z' (proj1 (no_zero_front _ _ Ne' Z2))). reflexivity.
Qed.
Lemma integer_unique t z : integer_text t z -> t <> "-0" -> t = string_of_Z z.
Proof.
  intros H N. unfold string_of_Z. rewrite NumText.string_of_Z_base_eq. destruct H as [t n W Z|t n W Z]; destruct (written_pos _ _ W) as (P & Ne & Hz).
  - destruct (Z.ltb_spec n 0); [lia|]. destruct (digits_written n P) as [W2 Z2]. exact (written_unique _ _ W _ W2 Z Z2).
  - destruct (Z.ltb_spec (- n) 0).
    + rewrite Z.opp_involutive. destruct (digits_written n P) as [W2 Z2]. rewrite (written_unique _ _ W _ W2 Z Z2). reflexivity.
    + assert (n = 0) by lia. destruct (N ltac:(rewrite (Hz Z ltac:(assumption)); reflexivity)).
Qed.
Lemma marked_escape rs us : marked rs us -> us = escape_runes rs.
Proof. induction 1 as [|rs us _ IH|c rs us N _ IH]; cbn [escape_runes]; [reflexivity|rewrite IH; reflexivity|]. destruct (Z.eqb_spec c 34); [congruence|]. rewrite IH. reflexivity. Qed.
Lemma escape_marked rs : marked rs (escape_runes rs).
Proof. induction rs as [|c rs IH]; cbn [escape_runes]; [constructor|]. destruct (Z.eqb_spec c 34) as [->|N]; constructor; assumption. Qed.
Lemma quoted_runes t rs : text_of t rs -> quoted t = """" +++ string_of_runes (escape_runes rs) +++ """".
Proof.
  intros [-> F]. unfold quoted, escape_quotes. rewrite <- (NumText.str_app_nil_r (string_of_runes rs)) at 1. rewrite runes_app by exact F.
  cbn [runes_of_string decode_go bytes_of_string]. rewrite app_nil_r. reflexivity.
Qed.
Lemma form_render d : forall t, text_form d t -> t = render d /\ dots_end d.
Proof.
  induction d as [z|b|t0|t0|bs|ds IH|ds y IH IHy] using tree_ind2; intros t H; inversion H; subst; clear H; cbn [render]; try (split; [reflexivity|exact Logic.I]).
  - split; [apply integer_unique; assumption|exact Logic.I].
  - split; [|exact Logic.I]. rewrite (quoted_runes _ rs) by assumption. f_equal. f_equal. f_equal. apply marked_escape. assumption.
  - split; [|exact Logic.I]. rewrite joined_join. f_equal. f_equal. f_equal.
    match goal with F : Forall2 _ bs ts |- _ => clear - F; induction F as [|b t bs ts [A B] _ IH]; [reflexivity|] end. cbn [map]. rewrite IH, (integer_unique _ _ A B). reflexivity.
  - inversion IH as [|? ? _ IH2]; subst. inversion IH2 as [|? ? I3 _]; subst. match goal with T : text_form _ _ |- _ => destruct (I3 _ T) as [-> D] end.
    split; [reflexivity|]. cbn. auto.
  - rename d into x0. rename ds0 into xs0.
    assert (E : ts = map render (x0 :: xs0) /\ Forall dots_end (x0 :: xs0)).
    { match goal with F : Forall2 text_form _ _ |- _ => clear - F IH; induction F as [|x t xs ts A _ IHF]; [split; [reflexivity|constructor]|] end.
      inversion IH as [|? ? I1 I2]; subst. destruct (I1 _ A) as [-> D1]. destruct (IHF I2) as [-> D2]. split; [reflexivity|constructor; assumption]. }
    destruct E as [-> D]. split.
    + destruct (is_quote x0) eqn:Q; [|rewrite joined_join; reflexivity]. exfalso. destruct x0; try discriminate Q. cbn in Q. apply str_eqb_eq in Q. subst. congruence.
    + clear - D. change ((fix all l := match l with [] => True | x :: r => dots_end x /\ all r end) (x0 :: xs0)). induction D as [|x l A _ IH]; [exact Logic.I|split; assumption].
  - assert (E : ts = map render ds /\ Forall dots_end ds).
    { match goal with F : Forall2 text_form _ _ |- _ => clear - F IH; induction F as [|x t xs ts A _ IHF]; [split; [reflexivity|constructor]|] end.
      inversion IH as [|? ? I1 I2]; subst. destruct (I1 _ A) as [-> D1]. destruct (IHF I2) as [-> D2]. split; [reflexivity|constructor; assumption]. }
    destruct E as [-> D]. match goal with T : text_form y _ |- _ => destruct (IHy _ T) as [-> Dy] end. rewrite joined_join. split; [reflexivity|].
    cbn [dots_end]. split; [assumption|]. clear - D. induction D as [|x l A _ IH]; [exact Logic.I|split; assumption].
Qed.
Lemma form_prints s v d t : holds s v d -> text_form d t -> prints v s t.
Proof. intros H F. destruct (form_render _ _ F) as [-> D]. apply run_prints; assumption. Qed.
Lemma form_unique d t u : text_form d t -> text_form d u -> t = u.
Proof. intros A B. rewrite (proj1 (form_render _ _ A)), (proj1 (form_render _ _ B)). reflexivity. Qed.
Lemma minus_zero z : string_of_Z z <> "-0".
Proof.
  unfold string_of_Z. rewrite NumText.string_of_Z_base_eq. destruct (Z.ltb_spec z 0) as [L|L]; intros E.
  - destruct (digits_written (- z)) as [W _]; [lia|]. injection E as E. rewrite E in W. destruct (written_digits _ _ W) as (_ & _ & Q & _). change (0 = - z) in Q. lia.
  - destruct (digits_written z L) as [W _]. rewrite E in W. destruct (written_head _ _ W) as (c & t' & Q & B). injection Q as <- <-. vm_compute in B. destruct B as [B _]. congruence.
Qed.
Lemma readable_form u d : readable u d -> exists t, text_form d t.
Proof.
  induction d as [z|b|t0|t0|bs|ds IH|ds y IH IHy] using tree_ind2; intros H; inversion H; subst.
  - eexists. apply tf_int; [apply write_int|apply minus_zero].
  - eexists. constructor.
  - eexists. eapply tf_str; [eassumption|apply escape_marked].
  - eexists. constructor.
  - exists ("[" +++ joined " " (map string_of_Z bs) +++ "]"). constructor. clear. induction bs; constructor; [split; [apply write_int|apply minus_zero]|assumption].
  - assert (E : exists ts, Forall2 text_form ds ts).
    { match goal with F : Forall (readable u) ds |- _ => clear - F IH; induction F as [|x l A _ IHF]; [exists []; constructor|] end.
      inversion IH as [|? ? I1 I2]; subst. destruct (I1 A) as [t T]. destruct (IHF I2) as [ts F]. exists (t :: ts). constructor; assumption. }
    destruct E as [ts F]. destruct ds as [|d ds]; [eexists; constructor|]. destruct (is_quote d) eqn:Q.
    + destruct d; try discriminate Q. cbn in Q. apply str_eqb_eq in Q. subst. match goal with G : forall r, _ -> length r = _ |- _ => specialize (G _ eq_refl) end.
      destruct ds as [|d [|]]; try discriminate. inversion F as [|? ? ? ? _ F2]; subst. inversion F2; subst. eexists. apply tf_quote. eassumption.
    + eexists. apply tf_list; [intros ->; discriminate Q|exact F].
  - assert (E : exists ts, Forall2 text_form ds ts).
    { match goal with F : Forall (readable u) ds |- _ => clear - F IH; induction F as [|x l A _ IHF]; [exists []; constructor|] end.
      inversion IH as [|? ? I1 I2]; subst. destruct (I1 A) as [t T]. destruct (IHF I2) as [ts F]. exists (t :: ts). constructor; assumption. }
    destruct E as [ts F]. destruct IHy as [t T]; [assumption|]. eexists. apply tf_dot; eassumption.
Qed.

(** *** Frames and opaque values *)
From Coq Require Import Sorting.Sorted.
Lemma insert_perm k l : Permutation (insert_key k l) (k :: l).
Proof.
  induction l as [|h t IH]; cbn [insert_key]; [reflexivity|]. destruct (str_ltb (fst h) (fst k)); [|reflexivity].
  rewrite IH. apply perm_swap.
Qed.
Lemma sort_perm l : Permutation (sort_keys l) l.
Proof. induction l as [|k l IH]; [reflexivity|]. cbn [sort_keys fold_right]. rewrite insert_perm. apply perm_skip, IH. Qed.
Lemma insert_sorted k l : ~ In (fst k) (map fst l) -> StronglySorted before (map fst l) -> StronglySorted before (map fst (insert_key k l)).
Proof.
  induction l as [|h t IH]; cbn [insert_key map]; intros N S; [repeat constructor|]. inversion S as [|? ? S1 S2]; subst.
  destruct (str_ltb (fst h) (fst k)) eqn:L; cbn [map].
  - constructor; [apply IH; [intros H; apply N; right; exact H|exact S1]|]. apply List.Forall_forall. intros x Hx.
    apply (Permutation_in _ (Permutation_map fst (insert_perm k t))) in Hx. cbn [map] in Hx. destruct Hx as [<-|Hx]; [apply ltb_before, L|]. rewrite List.Forall_forall in S2. exact (S2 _ Hx).
  - assert (B : before (fst k) (fst h)).
    { destruct (before_total (fst h) (fst k)) as [B|[B|B]]; [apply ltb_before in B; congruence|destruct (N (or_introl B))|exact B]. }
    constructor; [exact S|]. constructor; [exact B|]. apply List.Forall_forall. intros x Hx. rewrite List.Forall_forall in S2. exact (before_trans _ _ _ B (S2 _ Hx)).
Qed.
Lemma sort_sorted l : List.NoDup (map fst l) -> StronglySorted before (map fst (sort_keys l)).
Proof.
  induction l as [|k l IH]; cbn [map sort_keys fold_right]; intros N; [constructor|]. inversion N as [|? ? N1 N2]; subst.
  apply insert_sorted; [|exact (IH N2)]. intros H. apply N1. exact (Permutation_in _ (Permutation_map fst (sort_perm l)) H).
Qed.
Lemma sorted_unique (a : list (string * val)) : forall b, Permutation a b -> StronglySorted before (map fst a) -> StronglySorted before (map fst b) -> a = b.
Proof.
  induction a as [|x a IH]; intros b P Sa Sb; [apply Permutation_nil in P; congruence|]. destruct b as [|y b]; [symmetry in P; apply Permutation_nil in P; congruence|].
  cbn [map] in Sa, Sb. inversion Sa as [|? ? Sa1 Sa2]; subst. inversion Sb as [|? ? Sb1 Sb2]; subst. rewrite List.Forall_forall in Sa2, Sb2.
  assert (x = y) as ->.
  { pose proof (Permutation_in x P (or_introl eq_refl)) as [E|Hx]; [congruence|]. pose proof (Permutation_in y (Permutation_sym P) (or_introl eq_refl)) as [E|Hy]; [congruence|].
    exfalso. apply (before_irrefl (fst x)). eapply before_trans; [exact (Sa2 _ (in_map fst _ _ Hy))|exact (Sb2 _ (in_map fst _ _ Hx))]. }
  f_equal. apply IH; [exact (Permutation_cons_inv P)|exact Sa1|exact Sb1].
Qed.
Lemma slots_run s ps ts : Forall2 (fun p t => exists u, prints (snd p) s u /\ t = fst p +++ " " +++ u) ps ts -> runs denote (string_slots ps) s (Done ts) s.
Proof.
  induction 1 as [|[k v] t ps ts (u & P & ->) _ IH]; cbn [string_slots]; [apply runs_ret|]. eapply runs_bind; [exact P|]. eapply runs_bind; [exact IH|apply runs_ret].
Qed.
Lemma get_slots (l : loc) slots s : s_frames s !! l = Some slots -> runs denote (do_op (OFrameAll l)) s (Done slots) s.
Proof. intros E. apply runs_op. cbn. unfold frame_at. rewrite E. reflexivity. Qed.
Lemma frame_prints s (l : loc) slots ps ts : s_frames s !! l = Some slots -> Permutation ps slots -> StronglySorted before (map fst ps) ->
  Forall2 (fun p t => exists u, prints (snd p) s u /\ t = fst p +++ " " +++ u) ps ts ->
  prints (VFrame l) s ("{" +++ joined " " ts +++ "}").
Proof.
  intros E P S F. rewrite joined_join. unfold prints. apply runs_do_call. cbn [denote string_body].
  assert (N : List.NoDup (map fst slots)).
  { apply (Permutation_NoDup (Permutation_map fst P)). clear - S. induction (map fst ps) as [|x r IH]; [constructor|]. inversion S as [|? ? S1 S2]; subst.
    constructor; [|exact (IH S1)]. intros H. rewrite List.Forall_forall in S2. exact (before_irrefl _ (S2 _ H)). }
  eapply runs_bind; [apply (get_slots _ slots), E|].
  rewrite <- (sorted_unique ps (sort_keys slots)); [|transitivity slots; [exact P|symmetry; apply sort_perm]|exact S|apply sort_sorted, N].
  eapply runs_bind; [apply slots_run, F|]. apply runs_ret.
Qed.
Lemma opaque_prints s v t : (exists n, v = VPrim n /\ t = "<prim: " +++ n +++ ">") \/
  (exists (l : loc) f, v = VFun l /\ s_funs s !! l = Some f /\ t = "<function: " +++ f_name (fn_code f) +++ ">") \/
  (exists (l : loc) m, v = VMacro l /\ s_macros s !! l = Some m /\ t = "<macro: " +++ m_name m +++ ">") \/
  (exists (l : loc) r, v = VEnv l /\ s_envs s !! l = Some r /\ t = "<environment: " +++ e_name r +++ ">") -> prints v s t.
Proof.
  intros [(n & -> & ->)|[(l & f & -> & E & ->)|[(l & m & -> & E & ->)|(l & r & -> & E & ->)]]]; unfold prints; apply runs_do_call; cbn [denote string_body]; [apply runs_ret|..];
    (eapply runs_bind; [apply runs_op; reflexivity|]); unfold fun_at, mac_at, env_at; rewrite E; apply runs_ret.
Qed.
(** What a program writes to the console, latest first (for the examples). *)
Definition outputs (n : nat) (src : string) (s : state) : option (list string) :=
  match run denote n (parse_and_eval_all src (s_global s)) s with
  | Some (_, s') => Some (flat_map (fun e => match e with EOut t => [t] | _ => [] end) (s_log s'))
  | None => None
  end.
