(** Proofs of C44. *)
From Verif Require Import ProofArgs ProofEval ProofData ProofPrint ProofList NumText StrFacts.
From Verif Require Import PrimString SpecFormat.
Local Open Scope string_scope.
Local Open Scope list_scope.
Local Open Scope Z_scope.

(** *** Bytes *)
Ltac ascii_cases c := destruct c as [[] [] [] [] [] [] [] []].
Lemma digit_in c : In c decimal_digits <-> digit_byte (byte_of c) = true.
Proof. unfold decimal_digits, digit_byte. ascii_cases c; vm_compute; intuition discriminate. Qed.
Lemma digit_table_10 c d : In (c, d) digit_table -> d < 10 -> In c decimal_digits /\ byte_of c = 48 + d.
Proof.
  cbn [digit_table In decimal_digits]. intros H L. repeat (destruct H as [H|H]; [injection H as <- <-; split; [auto 12|reflexivity || (exfalso; lia)]|]); [..|contradiction].
  all: exfalso; lia.
Qed.
Lemma digit_table_of c : In c decimal_digits -> In (c, byte_of c - 48) digit_table /\ byte_of c - 48 < 10 /\ 0 <= byte_of c - 48.
Proof.
  cbn [decimal_digits In]. intros H. repeat (destruct H as [H|H]; [subst c; split; [vm_compute; auto 12|split; vm_compute; congruence]|]). contradiction.
Qed.
Fixpoint all_in (f : Z -> bool) (t : string) : Prop := match t with "" => True | String c r => f (byte_of c) = true /\ all_in f r end.
Definition head_not (f : Z -> bool) (t : string) : Prop := match t with "" => True | String c _ => f (byte_of c) = false end.
Lemma all_in_app f a b : all_in f a -> all_in f b -> all_in f (a +++ b).
Proof. induction a as [|c a IH]; cbn; [auto|]. intros [H1 H2] H3. auto. Qed.
Lemma span_bytes_app f a b : all_in f a -> head_not f b -> span_bytes f (a +++ b) = (a, b).
Proof.
  intros A B. induction a as [|c a IH]; cbn [str_app span_bytes].
  - destruct b as [|c b]; [reflexivity|]. cbn in B |- *. rewrite B. reflexivity.
  - destruct A as [A1 A2]. rewrite A1, (IH A2). reflexivity.
Qed.
Lemma span_bytes_inv f t a b : span_bytes f t = (a, b) -> t = a +++ b /\ all_in f a /\ head_not f b.
Proof.
  revert a b. induction t as [|c t IH]; intros a b; cbn [span_bytes].
  - intros E. injection E as <- <-. cbn. auto.
  - destruct (f (byte_of c)) eqn:F.
    + destruct (span_bytes f t) as [a' b'] eqn:E. intros Q. injection Q as <- <-. destruct (IH _ _ eq_refl) as (-> & A & B). cbn. auto.
    + intros Q. injection Q as <- <-. cbn. auto.
Qed.
Lemma dec_value_app t : forall acc c, dec_value (t +++ String c "") acc = dec_value t acc * 10 + (byte_of c - 48).
Proof. induction t as [|d t IH]; intros acc c; cbn [str_app dec_value]; [reflexivity|apply IH]. Qed.
Lemma written_digits t n : written 10 t n -> t <> "" /\ all_in digit_byte t /\ dec_value t 0 = n /\ 0 <= n.
Proof.
  intros W. induction W as [c d T L|t n c d W (N & A & V & P) T L]; destruct (digit_table_10 c d T L) as [I B]; pose proof (proj1 (digit_in c) I) as D.
  - destruct (digit_table_of c I) as (_ & _ & Q). cbn. split; [discriminate|]. split; [auto|]. rewrite B in *. split; lia.
  - destruct (digit_table_of c I) as (_ & _ & Q). split; [destruct t; discriminate|]. split; [apply all_in_app; [exact A|cbn; auto]|]. rewrite dec_value_app, V, B in *. split; lia.
Qed.
Lemma str_last t : t <> "" -> exists r c, t = r +++ String c "".
Proof.
  induction t as [|c t IH]; [congruence|]. intros _. destruct t as [|d t]; [exists "", c; reflexivity|]. destruct IH as (r & e & ->); [discriminate|]. exists (String c r), e. reflexivity.
Qed.
Lemma nat_len_app a b : nat_len (a +++ b) = (nat_len a + nat_len b)%nat.
Proof. induction a as [|c a IH]; cbn; [reflexivity|]. rewrite IH. reflexivity. Qed.
Lemma all_in_app_inv f a b : all_in f (a +++ b) -> all_in f a /\ all_in f b.
Proof. induction a as [|c a IH]; cbn; [auto|]. intros [H1 H2]. destruct (IH H2). auto. Qed.
Lemma digits_written t : t <> "" -> all_in digit_byte t -> written 10 t (dec_value t 0).
Proof.
  remember (nat_len t) as k eqn:E. revert t E. induction k as [|k IH]; intros t E N A.
  { destruct t; [congruence|discriminate]. }
  destruct (str_last t N) as (r & c & ->). apply all_in_app_inv in A as [A1 [A2 _]]. apply digit_in in A2. destruct (digit_table_of c A2) as (T & L & _).
  rewrite dec_value_app. destruct r as [|d r].
  - constructor; assumption.
  - constructor; [|assumption|assumption]. apply IH; [|discriminate|exact A1]. rewrite nat_len_app in E. cbn in *. lia.
Qed.

(** *** The width *)
Lemma width_over_head w t : width_over w t -> (w = WNone \/ exists n, w = WNumber n) -> head_not digit_byte t.
Proof.
  destruct t as [|c t]; [reflexivity|]. intros H K. cbn. apply not_true_is_false. intros D. apply digit_in in D.
  destruct K as [->|(n & ->)]; cbn [width_over] in H; apply H; [apply in_or_app; left|]; exact D.
Qed.
Lemma scan_int_value t : scan_int t = if dec_value t 0 <=? int64_max then Some (dec_value t 0) else None.
Proof. reflexivity. Qed.
Lemma int64_nonneg n : 0 <= n -> (int64 n <-> n <=? int64_max = true).
Proof. intros P. rewrite Z.leb_le. unfold int64. change (2 ^ 63) with 9223372036854775808. change int64_max with 9223372036854775807. lia. Qed.
Definition not_short (w : width) (rest : string) : Prop := rest <> "" \/ w = WCount \/ w = WArgument.
Lemma number_digits t rest pos args : t <> "" -> all_in digit_byte t -> head_not digit_byte rest -> rest <> "" ->
  format_number (t +++ rest) pos args = match scan_int t with Some n => Ret (Ok (Some (n, rest, pos + str_len t, args))) | None => Ret (Err "value out of range") end.
Proof. intros N A B R. unfold format_number. rewrite span_bytes_app by assumption. destruct t; [congruence|]. destruct rest; [congruence|]. reflexivity. Qed.
Lemma number_value w wt rest pos args n args' : width_text w wt -> width_over w rest -> not_short w rest -> width_value w args n args' ->
  exists p, format_number (wt +++ rest) pos args = Ret (Ok (Some (n, rest, p, args'))).
Proof.
  intros T O S V. destruct T as [|t n' W| |t I].
  - inversion V; subst. destruct S as [S|[S|S]]; [|discriminate S|discriminate S]. pose proof (width_over_head _ _ O (or_introl eq_refl)) as H.
    unfold format_number. cbn [str_app]. pose proof (span_bytes_app digit_byte "" rest Logic.I H) as Sp; cbn [str_app] in Sp; rewrite Sp; clear Sp. destruct rest as [|c rest]; [congruence|]. cbn [width_over] in O.
    replace (byte_of c =? 35) with false by (symmetry; apply Z.eqb_neq; intros Q; apply O; apply in_or_app; right; revert Q; clear; ascii_cases c; vm_compute; intuition discriminate).
    replace ((byte_of c =? 86) || (byte_of c =? 118)) with false by (symmetry; apply not_true_is_false; intros Q; apply O; apply in_or_app; right; revert Q; clear; ascii_cases c; vm_compute; intuition discriminate).
    eexists. reflexivity.
  - inversion V as [|? ? B| |]; subst. destruct S as [S|[S|S]]; [|discriminate S|discriminate S]. pose proof (width_over_head _ _ O (or_intror (ex_intro _ n eq_refl))) as H.
    destruct (written_digits _ _ W) as (N & A & Q & P). rewrite number_digits by assumption. rewrite scan_int_value, Q, (proj1 (int64_nonneg n P) B). eexists. reflexivity.
  - inversion V; subst. eexists. unfold format_number. reflexivity.
  - inversion V; subst. eexists. unfold format_number. destruct I as [<-|[<-|[]]]; reflexivity.
Qed.
Lemma number_bad w wt rest pos args : width_text w wt -> width_over w rest -> not_short w rest -> width_bad w args ->
  exists m, format_number (wt +++ rest) pos args = Ret (Err m).
Proof.
  intros T O S V. destruct T as [|t n' W| |t I].
  - inversion V.
  - inversion V as [? ? B|]; subst. destruct S as [S|[S|S]]; [|discriminate S|discriminate S]. pose proof (width_over_head _ _ O (or_intror (ex_intro _ n' eq_refl))) as H.
    destruct (written_digits _ _ W) as (N & A & Q & P). rewrite number_digits by assumption. rewrite scan_int_value, Q. destruct (n' <=? int64_max) eqn:E; [|eexists; reflexivity].
    exfalso. apply B, int64_nonneg; assumption.
  - inversion V.
  - inversion V as [|? B]; subst. eexists. unfold format_number. destruct I as [<-|[<-|[]]]; (destruct args as [|[| | | | | | | | | | | | | | | | |] args]; try reflexivity; exfalso; eapply B; reflexivity).
Qed.
Lemma number_short w wt pos args : width_text w wt -> (w = WNone \/ exists n, w = WNumber n) -> format_number wt pos args = Ret (Ok None).
Proof.
  intros T [->|(n & ->)]; inversion T as [|? ? W| |]; subst.
  - reflexivity.
  - destruct (written_digits _ _ W) as (N & A & _ & _). unfold format_number. rewrite <- (str_app_nil_r wt), span_bytes_app by (exact A || exact I). destruct wt; [congruence|reflexivity].
Qed.

(** *** The letters *)
Lemma copies_repeat c n r : copies c n r -> r = str_repeat (String c "") (Z.to_nat n).
Proof.
  intros H. induction H as [n L|n t L H IH].
  - replace (Z.to_nat n) with 0%nat by lia. reflexivity.
  - replace (Z.to_nat n) with (S (Z.to_nat (n - 1))) by lia. cbn [str_repeat str_app]. rewrite <- IH. reflexivity.
Qed.
Lemma copies_exist c n : exists r, copies c n r.
Proof.
  destruct (Z_le_gt_dec n 0) as [L|L]; [eexists; constructor; exact L|]. assert (P : 0 <= n) by lia. revert L. revert n P. apply (natlike_ind (fun n => n > 0 -> exists r, copies c n r)); [lia|].
  intros n P IH _. destruct (Z.eq_dec n 0) as [->|N]; [exists (String c ""); constructor; [lia|]; constructor; lia|]. destruct IH as [r H]; [lia|]. exists (String c r). constructor; [lia|]. replace (Z.succ n - 1) with n by lia. exact H.
Qed.
Lemma blank_byte c : blank c <-> byte_space (byte_of c) = true.
Proof. unfold blank, byte_space. ascii_cases c; vm_compute; intuition discriminate. Qed.
Lemma blanks_all t : blanks t <-> all_in byte_space t.
Proof.
  split.
  - intros H. induction H; cbn; [exact I|]. split; [apply blank_byte|]; assumption.
  - induction t as [|c t IH]; cbn; [constructor|]. intros [H1 H2]. constructor; [apply blank_byte|]; auto.
Qed.
Lemma letters_fun c k k' : In (c, k) letters -> In (c, k') letters -> k = k'.
Proof. cbn [letters In]. intros H H'. repeat (destruct H as [H|H]; [injection H as <- <-; repeat (destruct H' as [H'|H']; [congruence|]); contradiction|]). contradiction. Qed.
Lemma letter_dec c : (exists k, In (c, k) letters) \/ forall k, ~ In (c, k) letters.
Proof.
  destruct (in_dec ascii_dec c (map fst letters)) as [H|H].
  - left. apply in_map_iff in H as ((c' & k) & E & H). cbn in E. subst. eauto.
  - right. intros k K. apply H. apply in_map_iff. exists (c, k). auto.
Qed.

(** *** The loop *)
(** What format_go does with a directive, after the width. *)
Definition go_letter (fuel : nat) (n : Z) (rest : string) (p : Z) (args : list val) (at_mod : bool) (acc : string) : prog (res (string * list val)) :=
  match rest with
  | EmptyString => Panic index_panic
  | String d t' =>
      let b := byte_of d in
      if (b =? 65) || (b =? 97) || (b =? 83) || (b =? 115) then
        sub <- (if (b =? 65) || (b =? 97) then print_string (arg 0 args) else call (RString (arg 0 args))) ;;
        format_go fuel t' (p + 1) (tl args) at_mod (acc +++ pad_to n at_mod sub)
      else if b =? 37 then format_go fuel t' (p + 1) args at_mod (acc +++ str_repeat nl (Z.to_nat (Z.max 1 n)))
      else if b =? 126 then format_go fuel t' (p + 1) args at_mod (acc +++ str_repeat "~" (Z.to_nat (Z.max 1 n)))
      else if b =? 10 then
        let '(sp, t'') := span_bytes byte_space rest in
        format_go fuel t'' (p + str_len sp) args at_mod (acc +++ (if at_mod then nl else ""))
      else fail ("format encountered an unsupported substitution at index " +++ string_of_Z p)
  end.
Definition after_at (rest : string) (at_mod : bool) (p : Z) : bool * string * Z :=
  match rest with String "@" t' => (true, t', p + 1) | _ => (at_mod, rest, p) end.
Lemma go_directive fuel d pos args a acc : format_go (S fuel) (String "~" d) pos args a acc =
  bind_ok (format_number d (pos + 1) args) (fun r => match r with
    | None => Panic index_panic
    | Some (n, rest, p, args) => let '(at_mod, rest, p) := after_at rest a p in go_letter fuel n rest p args at_mod acc
    end).
Proof. reflexivity. Qed.
Lemma after_at_plain rest a p : ~ starts_with rest "@" -> after_at rest a p = (a, rest, p).
Proof. destruct rest as [|c t]; [reflexivity|]. intros N. unfold after_at. ascii_cases c; try reflexivity. exfalso. apply N. eexists. reflexivity. Qed.
Lemma at_over w t : width_over w ("@" +++ t).
Proof. destruct w; cbn; intuition discriminate. Qed.
Lemma go_value fuel d w b t pos args a acc n args' : directive d w b t -> width_value w args n args' -> not_short w (if b then "@" +++ t else t) ->
  exists p, format_go (S fuel) (String "~" d) pos args a acc = go_letter fuel n t p args' (a || b) acc.
Proof.
  intros D V S. rewrite go_directive. destruct D as [w wt t T|w wt t T O N].
  - destruct (number_value w wt ("@" +++ t) (pos + 1) args n args' T (at_over _ _) S V) as [p ->]. exists (p + 1). rewrite orb_true_r. reflexivity.
  - destruct (number_value w wt t (pos + 1) args n args' T O S V) as [p ->]. exists p. rewrite orb_false_r. unfold bind_ok. cbn [bind]. rewrite after_at_plain by exact N. reflexivity.
Qed.
Definition ends_as (acc : string) (v : verdict) (o : outcome (res (string * list val))) : Prop :=
  match v with
  | Text t r => o = Done (Ok (acc +++ t, r))
  | Refused => exists m, o = Done (Err m)
  | Crashed => o = Panicked index_panic
  end.
Lemma ends_preceded acc t v o : ends_as (acc +++ t) v o -> ends_as acc (preceded t v) o.
Proof. destruct v; cbn; auto. rewrite str_app_assoc. auto. Qed.
Lemma directive_len d w b t : directive d w b t -> (nat_len t <= nat_len d)%nat.
Proof. intros D. destruct D; rewrite ?nat_len_app; cbn; lia. Qed.
Lemma print_shown k v s t : k = Display \/ k = Written -> shown k v s t ->
  runs denote (match k with Display => print_string v | _ => call (RString v) end) s (Done t) s.
Proof.
  intros [-> | ->] H; [|exact H]. unfold print_string. destruct v; try exact H. cbn in H. apply runs_op. cbn. rewrite (str_some _ _ _ H). reflexivity.
Qed.
Lemma run_formatted s a t args v : formatted s a t args v -> forall fuel pos acc, (nat_len t < fuel)%nat ->
  exists o, ends_as acc v o /\ runs denote (format_go fuel t pos args a acc) s o s.
Proof.
  intros F. induction F as [a args|a c t args v N F IH|a d w b c k t args n args' u r v D V L K Sh C F IH
    |a d w b c k x t args n args' r v D V L K C F IH|a d w b c sp t args n args' v D V L B Nb F IH|a d w b t args D V Ns|a d w b c t args n args' D V L|a d w b args D V]; intros fuel pos acc Lt;
    (destruct fuel as [|fuel]; [exfalso; lia|]); cbn [nat_len] in Lt.
  - eexists. split; [|apply runs_ret]. cbn. rewrite str_app_nil_r. reflexivity.
  - cbn [format_go]. replace (negb (byte_of c =? 126)) with true.
    + destruct (IH fuel (pos + 1) (acc +++ String c "")) as (o & E & R); [lia|]. exists o. split; [apply ends_preceded, E|exact R].
    + symmetry. apply negb_true_iff, Z.eqb_neq. intros Q. apply N. revert Q. clear. ascii_cases c; vm_compute; congruence.
  - destruct (go_value fuel d w b _ pos args a acc n args' D V) as [p ->]; [left; destruct b; discriminate|]. pose proof (directive_len _ _ _ _ D) as Ld. cbn [nat_len] in Ld.
    destruct (IH fuel (p + 1) (acc +++ r)) as (o & E & R); [lia|]. exists o. split; [apply ends_preceded, E|].
    assert (P : r = pad_to n (a || b) u). { destruct C as (q & Cq & ->). rewrite (copies_repeat _ _ _ Cq). unfold pad_to. destruct (a || b)%bool; reflexivity. }
    rewrite P in R. pose proof (print_shown _ _ _ _ K Sh) as Pr. replace (hd VNil args') with (arg 0 args') in Pr by (destruct args'; reflexivity).
    cbn [letters In] in L. destruct K as [-> | ->]; repeat (destruct L as [L|L]; [try discriminate L; injection L as <-; exact (runs_bind _ _ _ _ (fun sub => format_go fuel t (p + 1) (tl args') (a || b) (acc +++ pad_to n (a || b) sub)) _ _ _ _ _ Pr R)|]); contradiction.
  - destruct (go_value fuel d w b _ pos args a acc n args' D V) as [p ->]; [left; destruct b; discriminate|]. pose proof (directive_len _ _ _ _ D) as Ld. cbn [nat_len] in Ld.
    destruct (IH fuel (p + 1) (acc +++ r)) as (o & E & R); [lia|]. exists o. split; [apply ends_preceded, E|]. rewrite (copies_repeat _ _ _ C) in R.
    cbn [letters In] in L. destruct K as [[-> ->]|[-> ->]]; repeat (destruct L as [L|L]; [try discriminate L; injection L as <-; exact R|]); contradiction.
  - destruct (go_value fuel d w b _ pos args a acc n args' D V) as [p ->]; [left; destruct b; discriminate|]. pose proof (directive_len _ _ _ _ D) as Ld. cbn [nat_len] in Ld. rewrite nat_len_app in Ld.
    assert (Cc : c = "010"%char) by (cbn [letters In] in L; repeat (destruct L as [L|L]; [congruence|]); contradiction). subst c.
    destruct (IH fuel (p + str_len (String "010" sp)) (acc +++ (if (a || b)%bool then nl else ""))) as (o & E & R); [lia|]. exists o. split; [apply ends_preceded, E|].
    assert (Sp : span_bytes byte_space (String "010" (sp +++ t)) = (String "010" sp, t)).
    { apply (span_bytes_app byte_space (String "010" sp) t); [split; [reflexivity|apply blanks_all, B]|]. destruct t as [|x t]; [exact I|]. cbn. apply not_true_is_false. intros Q. apply (Nb x t eq_refl), blank_byte, Q. }
    unfold go_letter. change (byte_of "010") with 10. cbn [Z.eqb Pos.eqb orb]. rewrite Sp. exact R.
  - rewrite go_directive. destruct D as [w wt t T|w wt t T O N].
    + destruct (number_bad w wt ("@" +++ t) (pos + 1) args T (at_over _ _)) as [m ->]; [left; discriminate|exact V|]. exists (Done (Err m)). split; [eexists; reflexivity|apply runs_ret].
    + destruct (number_bad w wt t (pos + 1) args T O) as [m ->]; [|exact V|exists (Done (Err m)); split; [eexists; reflexivity|apply runs_ret]].
      destruct t as [|x t]; [|left; discriminate]. destruct w; [inversion V| |auto|right; right; reflexivity]. exfalso. apply Ns. split; [reflexivity|]. split; [reflexivity|eexists; reflexivity].
      right. left. reflexivity.
  - destruct (go_value fuel d w b _ pos args a acc n args' D V) as [p ->]; [left; destruct b; discriminate|]. unfold go_letter. cbv zeta.
    assert (Q : forall z k, In (ascii_of_N (Z.to_N z), k) letters -> 0 <= z < 256 -> (byte_of c =? z) = false).
    { intros z k I Bz. apply Z.eqb_neq. intros E. apply (L k). replace c with (ascii_of_N (Z.to_N z)); [exact I|]. rewrite <- E. clear. ascii_cases c; reflexivity. }
    rewrite (Q 65 Display), (Q 97 Display), (Q 83 Written), (Q 115 Written), (Q 37 Newline), (Q 126 Tilde), (Q 10 Continue) by (vm_compute; auto 10; split; congruence).
    cbn [orb]. eexists. split; [eexists; reflexivity|apply runs_ret].
  - exists (Panicked index_panic). split; [reflexivity|]. rewrite go_directive.
    assert (Sh : forall q, w = WNone \/ (exists n, w = WNumber n) -> width_text w q -> b = false -> runs denote (bind_ok (format_number q (pos + 1) args) (fun r => match r with
      | None => Panic index_panic
      | Some (n, rest, p, args) => let '(at_mod, rest, p) := after_at rest a p in go_letter fuel n rest p args at_mod acc end)) s (Panicked index_panic) s).
    { intros q K T _. rewrite (number_short w q (pos + 1) args T K). apply runs_panic. }
    destruct V as [V|(_ & -> & n & ->)].
    2:{ inversion D as [|? ? ? T O N]; subst. rewrite str_app_nil_r. apply Sh; [right; eexists; reflexivity|exact T|reflexivity]. }
    assert (Val : exists n args', width_value w args n args').
    { destruct w as [|n| |].
      - eexists _, _; constructor.
      - exists n, args. constructor. destruct (Z_le_dec (- 2 ^ 63) n) as [A|A]; [|exfalso; apply V; constructor; unfold int64; lia].
        destruct (Z_lt_dec n (2 ^ 63)) as [A'|A']; [split; assumption|exfalso; apply V; constructor; unfold int64; lia].
      - eexists _, _; constructor.
      - destruct args as [|[] args]; try (exfalso; apply V; constructor; congruence). eexists _, _. constructor. }
    destruct Val as (n & args' & Val). inversion D as [? wt ? T|? wt ? T O N]; subst.
    + assert (S : not_short w ("@" +++ "")) by (left; discriminate). destruct (number_value w wt ("@" +++ "") (pos + 1) args n args' T (at_over _ _) S Val) as [p E]. rewrite E. unfold bind_ok. cbn [bind]. apply runs_panic.
    + assert (C : (w = WNone \/ exists n, w = WNumber n) \/ not_short w "") by (destruct w; unfold not_short; eauto). destruct C as [C|C].
      * rewrite str_app_nil_r. apply Sh; [exact C|exact T|reflexivity].
      * destruct (number_value w wt "" (pos + 1) args n args' T O C Val) as [p E]. rewrite E. apply runs_panic.
Qed.

(** *** Every control string is covered *)
Lemma width_exists t : exists w wt rest, t = wt +++ rest /\ width_text w wt /\ width_over w rest.
Proof.
  destruct (span_bytes digit_byte t) as [a b] eqn:E. destruct (span_bytes_inv _ _ _ _ E) as (-> & A & B).
  destruct a as [|c a].
  - destruct b as [|c b]; [exists WNone, "", ""; repeat split; constructor|]. cbn [head_not] in B. cbn [str_app].
    destruct (ascii_dec c "#") as [->|N1]; [exists WCount, "#", b; repeat split; [constructor|destruct b; exact Logic.I]|].
    destruct (ascii_dec c "v") as [->|N2]; [exists WArgument, "v", b; repeat split; [constructor; cbn; auto|destruct b; exact Logic.I]|].
    destruct (ascii_dec c "V") as [->|N3]; [exists WArgument, "V", b; repeat split; [constructor; cbn; auto|destruct b; exact Logic.I]|].
    exists WNone, "", (String c b). repeat split; [constructor|]. cbn [width_over]. intros I. apply in_app_or in I as [I|I].
    + apply digit_in in I. congruence.
    + cbn in I. intuition congruence.
  - exists (WNumber (dec_value (String c a) 0)), (String c a), b. repeat split; [constructor; apply digits_written; [discriminate|exact A]|].
    destruct b as [|d b]; [exact Logic.I|]. cbn [width_over head_not] in *. intros I. apply digit_in in I. congruence.
Qed.
Lemma directive_exists d : exists w b t, directive d w b t.
Proof.
  destruct (width_exists d) as (w & wt & rest & -> & T & O). assert (C : (exists r, rest = "@" +++ r) \/ ~ starts_with rest "@").
  { destruct rest as [|c r]; [right; intros (? & ?); discriminate|]. destruct (ascii_dec c "@") as [->|N]; [left; eexists; reflexivity|right; intros (? & Q); congruence]. }
  destruct C as [(r & ->)|C]; [exists w, true, r; exact (directive_at w wt r T)|exists w, false, rest; apply directive_plain; assumption].
Qed.
Lemma width_decided w args : (exists n args', width_value w args n args' /\ (Z.of_nat (length args') <= Z.of_nat (length args)) /\ forall P, Forall P args -> Forall P args') \/ width_bad w args.
Proof.
  destruct w as [|n| |].
  - left. exists 0, args. split; [constructor|]. split; [lia|auto].
  - destruct (Z_le_dec (- 2 ^ 63) n) as [A|A]; [|right; constructor; unfold int64; lia]. destruct (Z_lt_dec n (2 ^ 63)) as [A'|A']; [|right; constructor; unfold int64; lia].
    left. exists n, args. split; [constructor; split; assumption|]. split; [lia|auto].
  - left. exists (Z.of_nat (length args)), args. split; [constructor|]. split; [lia|auto].
  - destruct args as [|[] args]; try (right; constructor; congruence). left. eexists _, args. split; [constructor|]. split; [cbn; lia|]. intros P F. inversion F; assumption.
Qed.
Lemma nil_printable s : printable s VNil.
Proof. intros k [-> | ->]; exists "()"; apply (run_prints s (XList [])); cbn; try exact I; apply holds_list with []; constructor. Qed.
Lemma formatted_total s : forall t a args, Forall (printable s) args -> exists v, formatted s a t args v.
Proof.
  assert (G : forall k t, (nat_len t < k)%nat -> forall a args, Forall (printable s) args -> exists v, formatted s a t args v).
  2:{ intros t. apply (G (S (nat_len t))). lia. }
  induction k as [|k IH]; intros t Lt a args P; [lia|]. destruct t as [|c d]; [eexists; constructor|]. cbn [nat_len] in Lt.
  destruct (ascii_dec c "~") as [->|N]; [|destruct (IH d ltac:(lia) a args P) as [v F]; eexists; apply fm_copied; eassumption].
  destruct (directive_exists d) as (w & b & t & D). pose proof (directive_len _ _ _ _ D) as Ld.
  destruct (width_decided w args) as [(n & args' & V & _ & Pa)|B].
  2:{ destruct t as [|c t]; [|exists Refused; eapply fm_width; [exact D|exact B|intros (Q & _); discriminate]].
      assert (C : cut_short w b "" \/ ~ cut_short w b ""). { unfold cut_short. destruct b; [right; intros (_ & Q & _); discriminate|]. destruct w; [right|left|right|right]; try (intros (_ & _ & ? & Q); discriminate). repeat split. eexists. reflexivity. }
      destruct C as [C|C]; [exists Crashed; eapply fm_cut; eauto|exists Refused; eapply fm_width; eauto]. }
  specialize (Pa _ P). destruct t as [|c t].
  { exists Crashed. eapply fm_cut; [exact D|]. left. intros B. destruct V as [| | |]; inversion B as [|? X]; subst; try contradiction. eapply X; reflexivity. }
  cbn [nat_len] in Ld. destruct (letter_dec c) as [[l L]|L]; [|exists Refused; eapply fm_unknown; eassumption].
  destruct l.
  - assert (Ph : printable s (hd VNil args')) by (destruct Pa; [apply nil_printable|assumption]). destruct (Ph Display) as [u U]; [auto|]. destruct (copies_exist " " (n - str_len u)) as [q Q].
    destruct (IH t ltac:(lia) (a || b)%bool (tl args')) as [v F]; [destruct Pa; [constructor|assumption]|]. eexists. eapply fm_shown; [exact D|exact V|exact L|auto|exact U|exists q; split; [exact Q|reflexivity]|exact F].
  - assert (Ph : printable s (hd VNil args')) by (destruct Pa; [apply nil_printable|assumption]). destruct (Ph Written) as [u U]; [auto|]. destruct (copies_exist " " (n - str_len u)) as [q Q].
    destruct (IH t ltac:(lia) (a || b)%bool (tl args')) as [v F]; [destruct Pa; [constructor|assumption]|]. eexists. eapply fm_shown; [exact D|exact V|exact L|auto|exact U|exists q; split; [exact Q|reflexivity]|exact F].
  - destruct (copies_exist "010" (Z.max 1 n)) as [q Q]. destruct (IH t ltac:(lia) (a || b)%bool args' Pa) as [v F]. eexists. eapply fm_repeated; [exact D|exact V|exact L|left; auto|exact Q|exact F].
  - destruct (copies_exist "~" (Z.max 1 n)) as [q Q]. destruct (IH t ltac:(lia) (a || b)%bool args' Pa) as [v F]. eexists. eapply fm_repeated; [exact D|exact V|exact L|right; auto|exact Q|exact F].
  - destruct (span_bytes byte_space t) as [sp t'] eqn:E. destruct (span_bytes_inv _ _ _ _ E) as (-> & A & B). rewrite nat_len_app in Ld.
    destruct (IH t' ltac:(lia) (a || b)%bool args' Pa) as [v F]. eexists. eapply fm_continued; [exact D|exact V|exact L|apply blanks_all, A| |exact F].
    intros x r -> X. apply blank_byte in X. cbn in B. congruence.
Qed.

(** *** The built-in *)
Lemma port_write_run who p t s : exists o s', runs denote (port_write who p t) s o s' /\ sent who p t s o s'.
Proof.
  unfold port_write, sent, refusing. destruct (s_oracle s) as [|z r] eqn:E.
  - exists (Done (Ok VNil)), (set_oracle [] (set_log (EWritten p t :: s_log s) s)). split.
    + eapply runs_bind; [apply runs_op; cbn; unfold next_choice; rewrite E; reflexivity|]. cbn [Z.odd]. eapply runs_bind; [apply runs_op; reflexivity|].
      replace (set_oracle [] (set_log (EWritten p t :: s_log s) s)) with (set_log (EWritten p t :: s_log s) s) by (destruct s; cbn in *; rewrite E; reflexivity). apply runs_ret.
    + left. split; [intros (? & ? & ? & _); discriminate|auto].
  - destruct (Z.odd z) eqn:O.
    + exists (Done (Err ("external error in " +++ who))), (set_oracle r (set_log (EExt who :: s_log s) s)). split.
      * eapply runs_bind; [apply runs_op; cbn; unfold next_choice; rewrite E; reflexivity|]. rewrite O. eapply runs_bind; [apply runs_op; reflexivity|apply runs_ret].
      * right. split; [eauto|]. split; [eauto|reflexivity].
    + exists (Done (Ok VNil)), (set_oracle r (set_log (EWritten p t :: s_log s) s)). split.
      * eapply runs_bind; [apply runs_op; cbn; unfold next_choice; rewrite E; reflexivity|]. rewrite O. eapply runs_bind; [apply runs_op; reflexivity|apply runs_ret].
      * left. split; [intros (z' & r' & [= <- <-] & ?); congruence|auto].
Qed.
Lemma run_format dest c t args v env s : wf_state s -> (exists b, dest = VBool b) \/ (exists l, dest = VPort l) -> is_str s c t ->
  formatted (entering "format" env s) false t args v ->
  exists o s', applies "format" (dest :: c :: args) env s o s' /\ results dest v (entering "format" env s) o s'.
Proof.
  intros W Dest (l & -> & E) F. destruct (run_formatted _ _ _ _ _ F (S (nat_len t)) 0 "" ltac:(lia)) as (o1 & End & R). set (s0 := entering "format" env s) in *.
  assert (Go : forall o s', runs denote (bind_ok (format_go (S (nat_len t)) t 0 args false "") (fun r => let '(text, extra) := r in
        match extra with
        | _ :: _ => fail "number of replacements in the control string and number of arguments must be equal"
        | [] =>
            match dest with
            | VBool false => v <- new_str text ;; ok v
            | VBool true => do_op (OEvent (EOut text)) ;;; ok VNil
            | VPort p => port_write "format" p text
            | _ => ok VNil
            end
        end)) s0 o s' -> applies "format" (dest :: VStr l :: args) env s o s').
  { intros o s' H. applies. unfold format_impl. replace (negb (booleanp (arg 0 (dest :: VStr l :: args))) && negb (portp (arg 0 (dest :: VStr l :: args)))) with false by (destruct Dest as [[b ->]|[q ->]]; reflexivity).
    change (arg 1 (dest :: VStr l :: args)) with (VStr l). eapply runs_bind; [apply runs_op; cbn; reflexivity|]. change (str_at (entering "format" env s) l) with (str_at s l). rewrite (str_some _ _ _ E). exact H. }
  destruct v as [u [|x r]| |]; cbn [ends_as results] in *.
  - subst o1. cbn [str_app] in R.
    destruct Dest as [[[] ->]|[q ->]].
    + eexists _, _. split; [apply Go; eapply runs_bind_ok; [exact R|]; eapply runs_bind; [apply runs_op; reflexivity|apply runs_ret]|]. auto.
    + eexists _, _. split; [apply Go; eapply runs_bind_ok; [exact R|]; eapply runs_bind; [apply runs_new_str|apply runs_ret]|]. eexists. split; [reflexivity|]. split; [apply new_str_is|apply grows_new_str, wf_entering, W].
    + destruct (port_write_run "format" q u s0) as (o & s' & P & S). exists o, s'. split; [apply Go; eapply runs_bind_ok; [exact R|]; exact P|exact S].
  - subst o1. cbn [str_app] in R. eexists _, _. split; [apply Go; eapply runs_bind_ok; [exact R|]; apply runs_ret|]. eauto.
  - destruct End as [m ->]. eexists _, _. split; [apply Go, runs_bind_err, R|]. eauto.
  - subst o1. eexists _, _. split; [apply Go; unfold bind_ok; apply runs_bind_panic, R|]. eauto.
Qed.

(** *** Showing arguments one after the other *)
Lemma formatted_copied s a c t args v : no_tilde t -> formatted s a c args v -> formatted s a (t +++ c) args (preceded t v).
Proof.
  intros N F. induction t as [|x t IH]; cbn [str_app].
  - replace (preceded "" v) with v by (destruct v; reflexivity). exact F.
  - replace (preceded (String x t) v) with (preceded (String x "") (preceded t v)) by (destruct v; reflexivity).
    constructor; [intros ->; apply N; exists "", t; reflexivity|]. apply IH. intros (p & q & ->). apply N. exists (String x p), q. reflexivity.
Qed.
Lemma formatted_each s k d args us : In (k, d) [(Display, "~a"); (Written, "~s")] -> Forall2 (fun v u => shown k v s u) args us -> forall ts, length ts = S (length args) -> Forall no_tilde ts ->
  formatted s false (interleaved ts (map (fun _ => d) args)) args (Text (interleaved ts us) []).
Proof.
  intros K F. induction F as [|v u args us H F IH]; intros ts L N; (destruct ts as [|t ts]; [discriminate L|]); apply Forall_cons_1 in N as [N1 N2]; cbn [map interleaved].
  - rewrite <- (str_app_nil_r t). rewrite str_app_nil_r at 2. pose proof (formatted_copied s false "" t [] _ N1 (fm_end s false [])) as Q. cbn [preceded] in Q. rewrite !str_app_nil_r in *. exact Q.
  - cbn in L. injection L as L. specialize (IH ts L N2). assert (Q : formatted s false (d +++ interleaved ts (map (fun _ => d) args)) (v :: args) (Text (u +++ interleaved ts us) [])).
    { assert (I2 : in_columns 0 (false || false) u u). { exists "". split; [constructor; pose proof (str_len_nonneg u); lia|]. cbn. rewrite str_app_nil_r. reflexivity. }
      assert (Dir : forall x t, ~ In x ["@"%char] -> ~ In x (decimal_digits ++ ["#"; "v"; "V"]%char) -> directive (String x t) WNone false (String x t)).
      { intros x t' X1 X2. apply (directive_plain WNone "" (String x t')); [constructor|exact X2|]. intros (r & Er). injection Er as -> _. apply X1. cbn. auto. }
      cbn [In] in K. destruct K as [K|[K|[]]]; injection K as <- <-; cbn [str_app].
      - exact (fm_shown s false _ WNone false "a" Display _ _ 0 (v :: args) u u _ (Dir "a"%char _ ltac:(cbn; intuition discriminate) ltac:(cbn; intuition discriminate)) (wv_none _) (or_introl eq_refl) (or_introl eq_refl) H I2 IH).
      - exact (fm_shown s false _ WNone false "s" Written _ _ 0 (v :: args) u u _ (Dir "s"%char _ ltac:(cbn; intuition discriminate) ltac:(cbn; intuition discriminate)) (wv_none _) (or_intror (or_intror (or_introl eq_refl))) (or_intror eq_refl) H I2 IH). }
    exact (formatted_copied s false _ t _ _ N1 Q).
Qed.
Lemma format_does dest c t args v env s : wf_state s -> destination dest -> is_str s c t -> formatted (entering "format" env s) false t args v ->
  (exists o s', applies "format" (dest :: c :: args) env s o s') /\ forall o s', applies "format" (dest :: c :: args) env s o s' -> results dest v (entering "format" env s) o s'.
Proof.
  intros W D C F. destruct (run_format dest c t args v env s W D C F) as (o & s' & A & R). split; [eauto|].
  intros o2 s2 A2. destruct (applies_det _ _ _ _ _ _ _ _ A A2) as [<- <-]. exact R.
Qed.
Lemma format_each dest c k d args us ts env s : wf_state s -> destination dest -> In (k, d) [(Display, "~a"); (Written, "~s")] ->
  is_str s c (interleaved ts (map (fun _ => d) args)) -> length ts = S (length args) -> Forall no_tilde ts ->
  Forall2 (fun v u => shown k v (entering "format" env s) u) args us ->
  exists o s', applies "format" (dest :: c :: args) env s o s' /\ results dest (Text (interleaved ts us) []) (entering "format" env s) o s'.
Proof. intros W D K C L N F. eapply run_format; eauto. apply formatted_each with (k := k); auto. Qed.
Lemma format_refuses dest c args env s t : ~ destination dest \/ (forall l, c <> VStr l) -> prints dest (entering "format" env s) t ->
  exists m, applies "format" (dest :: c :: args) env s (Done (Err m)) (entering "format" env s).
Proof.
  intros H P. assert (G : exists m, runs denote (format_impl (dest :: c :: args) env) (entering "format" env s) (Done (Err m)) (entering "format" env s)).
  2:{ destruct G as [m G]. exists m. applies. exact G. }
  unfold format_impl. change (arg 0 (dest :: c :: args)) with dest. change (arg 1 (dest :: c :: args)) with c.
  destruct (negb (booleanp dest) && negb (portp dest)) eqn:E; [eexists; eapply runs_bind; [exact P|apply runs_ret]|].
  destruct H as [H|H]; [|destruct c; try (eexists; apply runs_ret); exfalso; eapply H; reflexivity].
  exfalso. apply H. destruct dest; try discriminate E; [left|right]; eexists; reflexivity.
Qed.
Lemma format_cut dest c t args env s : wf_state s -> destination dest -> is_str s c (t +++ "~") -> no_tilde t ->
  exists w, applies "format" (dest :: c :: args) env s (Panicked w) (entering "format" env s).
Proof.
  intros W D C N. destruct (run_format dest c (t +++ "~") args Crashed env s W D C) as (o & s' & A & (m & ->) & ->); [|eauto].
  refine (formatted_copied _ false "~" t args Crashed N _). apply (fm_cut _ false "" WNone false); [apply (directive_plain WNone ""); [constructor|exact I|intros (? & ?); discriminate]|].
  left. intros B. inversion B.
Qed.
Lemma tree_printable d v s : readable (s_uni s) d -> holds s v d -> printable s v.
Proof.
  intros R H k _. pose proof (run_prints s d (readable_dots _ _ R) v H) as P.
  destruct k; try (eexists; exact P). destruct v as [| | | | |l| | | | | | | | | | | |] eqn:Ev; try (eexists; exact P).
  inversion H as [| |? t E| | |? ? ? L| |]; subst; [|inversion L]. exists t. exact E.
Qed.
Lemma format_sample s : wf_state s -> exists s' c v, wf_state s' /\ is_str s' c "x~5@a~%~s" /\ is_str s' v "ab" /\ printable (entering "format" 2%positive s') v /\ printable (entering "format" 2%positive s') (VInt 7).
Proof.
  intros W. destruct (strings_sample s "x~5@a~%~s" "ab" W) as (s' & c & v & l & W' & C & V & _). exists s', c, v. split; [exact W'|]. split; [exact C|]. split; [exact V|].
  split; [destruct V as (q & -> & E); apply (tree_printable (XStr "ab")); [apply (rd_str _ _ [97; 98])|]|apply (tree_printable (XInt 7))].
  - split; [reflexivity|repeat constructor; lia].
  - cbn. intuition discriminate.
  - constructor. exact E.
  - constructor. unfold int64. lia.
  - constructor.
Qed.
