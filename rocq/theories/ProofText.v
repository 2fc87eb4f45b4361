(** Proofs of C63: the text of a program. *)
From Verif Require Export SpecText ProofPrint ProofEval.
From stdpp Require Import list.
From Verif Require Import Base NumText Data SpecRead SpecText.
Local Open Scope string_scope.
Local Open Scope list_scope.
Local Open Scope Z_scope.

Scheme spells_rec := Induction for spells Sort Prop with items_rec := Induction for items Sort Prop.
Combined Scheme spells_items from spells_rec, items_rec.

(** *** Gaps *)
Lemma text_runes t rs : text_of t rs -> runes_of_string t = rs.
Proof. intros [-> F]. rewrite <- (NumText.str_app_nil_r (string_of_runes rs)), runes_app by exact F. apply app_nil_r. Qed.
Lemma text_nil : text_of "" [].
Proof. split; [reflexivity|constructor]. Qed.
Lemma text_char c t rs : is_ascii_char c = true -> text_of t rs -> text_of (String c t) (byte_of c :: rs).
Proof. intros H T. apply (text_app (String c "") t [byte_of c] rs); [|exact T]. apply (text_ascii (String c "")). cbn. rewrite H. reflexivity. Qed.
Lemma skip_comment u rs l : ~ In 10 rs -> skip_blank u true (rs ++ 10 :: l) = skip_blank u false l.
Proof. induction rs as [|c rs IH]; intros N; [reflexivity|]. cbn [app skip_blank]. rewrite (proj2 (Z.eqb_neq c 10)) by (cbn in N; tauto). apply IH. cbn in N. tauto. Qed.
Lemma skip_comment_end u rs : ~ In 10 rs -> skip_blank u true rs = [].
Proof. induction rs as [|c rs IH]; intros N; [reflexivity|]. cbn [skip_blank]. rewrite (proj2 (Z.eqb_neq c 10)) by (cbn in N; tauto). apply IH. cbn in N. tauto. Qed.
Definition skipped (u : uni_table) (rs : list rune) : Prop := forall rest, toks u (rs ++ rest) = toks u rest.
Lemma blank_facts c : blank c -> is_ascii_char c = true /\ (forall u l, toks u (byte_of c :: l) = toks u l) /\ stop_rune (byte_of c).
Proof. intros H. cbn in H. repeat (destruct H as [<-|H]; [split; [reflexivity|]; split; [intros u l; rewrite toks_eq, (toks_eq u l); reflexivity|cbn; unfold stop_rune; cbn; tauto]|]). destruct H. Qed.
Lemma gap_text u g : gap g -> exists rs, text_of g rs /\ skipped u rs.
Proof.
  intros H. induction H as [|c g B H (rs & T & K)|body rb g Tb N H (rs & T & K)].
  - exists []. split; [apply text_nil|]. intros rest. reflexivity.
  - destruct (blank_facts c B) as (A & Kb & _). exists (byte_of c :: rs). split; [apply text_char; assumption|]. intros rest. cbn [app]. rewrite Kb. apply K.
  - exists ([59] ++ rb ++ [10] ++ rs). split.
    { apply (text_app ";" _ [59]); [apply (text_ascii ";"); reflexivity|]. apply text_app; [exact Tb|]. apply (text_app (String "010" "") g [10]); [apply (text_ascii (String "010" "")); reflexivity|exact T]. }
    intros rest. rewrite <- (K rest). rewrite <- !app_assoc. cbn [app]. rewrite toks_eq, (toks_eq u (rs ++ rest)). cbn [skip_blank]. change (rune_space u 59) with false. cbn match. change (59 =? 59) with true. cbn match. rewrite skip_comment by exact N. reflexivity.
Qed.

(** *** What is built *)
Definition snil (x : sexp) : bool := match x with SEnd | SNil | SCell SEnd SEnd => true | _ => false end.
Definition is_empty (d : tree) : bool := match d with XList [] => true | _ => false end.
(** The value and the state that [alloc_sexp] leaves. *)
Fixpoint place (x : sexp) (s : state) : val * state :=
  match x with
  | SEnd => (VNil, s)
  | SNil => (VCell TCons (s_next s), set_cells (<[s_next s := (VNil, VNil)]> (s_cells s)) (bump s))
  | SCell a d => let '(v, s1) := place a s in let '(w, s2) := place d s1 in (VCell TCons (s_next s2), set_cells (<[s_next s2 := (v, w)]> (s_cells s2)) (bump s2))
  | SInt z => (VInt z, s)
  | SFloat f => (VFloat f, s)
  | SStr t => (VStr (s_next s), set_strs (<[s_next s := t]> (s_strs s)) (bump s))
  | SSym t => (VSym t, s)
  | SBool b => (VBool b, s)
  | SBytes l => (VBytes (s_next s), set_bytes (<[s_next s := l]> (s_bytes s)) (bump s))
  | SFrame => (VFrame (s_next s), set_frames (<[s_next s := []]> (s_frames s)) (bump s))
  end.
Lemma runs_place x : forall s, runs denote (alloc_sexp x) s (Done (fst (place x s))) (snd (place x s)).
Proof.
  induction x as [| |a IHa d IHd|z|f|t|t|b|l|]; intros s; cbn [alloc_sexp place fst snd]; try apply runs_ret.
  - apply (runs_cons TCons).
  - specialize (IHa s). destruct (place a s) as [v s1]. specialize (IHd s1). destruct (place d s1) as [w s2]. cbn [fst snd] in *.
    eapply runs_bind; [exact IHa|]. eapply runs_bind; [exact IHd|]. apply (runs_cons TCons).
  - apply runs_new_str.
  - eapply runs_bind; [apply runs_op; reflexivity|apply runs_ret].
  - eapply runs_bind; [apply runs_op; reflexivity|apply runs_ret].
Qed.
Lemma place_nil x s : is_nil (fst (place x s)) = match x with SEnd => true | _ => false end.
Proof. destruct x; try reflexivity. cbn [place]. destruct (place x1 s) as [v s1]. destruct (place x2 s1) as [w s2]. reflexivity. Qed.
Lemma place_nilb x s : nilb (snd (place x s)) (fst (place x s)) = snil x.
Proof.
  destruct x as [| |a d|z|f|t|t|b|l|]; try reflexivity.
  - cbn [place fst snd nilb snil]. erewrite cell_some by apply lookup_insert. reflexivity.
  - cbn [place]. pose proof (place_nil a s) as Na. destruct (place a s) as [v s1]. pose proof (place_nil d s1) as Nd. destruct (place d s1) as [w s2]. cbn [fst snd nilb snil] in *.
    erewrite cell_some by apply lookup_insert. cbn [fst snd]. rewrite Na, Nd. destruct a, d; reflexivity.
Qed.
(** [x] is a reading of the tree [d]. *)
Definition made (x : sexp) (d : tree) : Prop :=
  x <> SEnd /\ snil x = is_empty d /\ (forall z, d = XInt z -> x = SInt z) /\
  forall s, wf_state s -> grows s (snd (place x s)) /\ wf_state (snd (place x s)) /\ holds (snd (place x s)) (fst (place x s)) d.
Lemma place_wf x s : wf_state s -> wf_state (snd (place x s)).
Proof. intros W. exact (wf_runs _ _ _ _ _ W (runs_place x s)). Qed.
Lemma place_grows x s : wf_state s -> grows s (snd (place x s)).
Proof. intros W. destruct (runs_alloc x s W) as (v & s' & R & G). destruct (runs_det _ _ _ _ _ _ _ _ R (runs_place x s)) as [_ <-]. exact G. Qed.
Lemma made_intro x d : x <> SEnd -> snil x = is_empty d -> (forall z, d = XInt z -> x = SInt z) -> (forall s, wf_state s -> holds (snd (place x s)) (fst (place x s)) d) -> made x d.
Proof. intros N E Z H. split; [exact N|]. split; [exact E|]. split; [exact Z|]. intros s W. split; [apply place_grows, W|]. split; [apply place_wf, W|apply H, W]. Qed.
Lemma made_atom d x : (x, d) = match d with XInt z => (SInt z, d) | XBool b => (SBool b, d) | XStr t => (SStr t, d) | XSym t => (SSym t, d) | XBytes bs => (SBytes bs, d) | _ => (SEnd, d) end -> x <> SEnd -> made x d.
Proof.
  intros E N. destruct d as [z|b|t|t|bs|ds|ds y]; injection E as ->; try congruence; apply made_intro; try discriminate; try reflexivity.
  all: try (intros z0 E0; injection E0 as <-; reflexivity). all: intros s W; cbn [place fst snd]; constructor; apply lookup_insert.
Qed.
Lemma made_tail xs ds e : Forall2 made xs ds -> e = SEnd \/ e = SNil -> forall s, wf_state s ->
  exists vs, is_list (snd (place (slist_tail xs e) s)) (fst (place (slist_tail xs e) s)) vs /\ Forall2 (holds (snd (place (slist_tail xs e) s))) vs ds.
Proof.
  intros F He. induction F as [|x d xs ds (N & _ & _ & M) F IH]; intros s W; cbn [slist_tail].
  - exists []. destruct He as [-> | ->]; cbn [place fst snd]; (split; [|constructor]); [constructor|apply il_empty, lookup_insert].
  - cbn [place]. destruct (M s W) as (G1 & W1 & H1). pose proof (place_nil x s) as Nx. destruct (place x s) as [v s1]. cbn [fst snd] in *.
    destruct (IH s1 W1) as (vs & L & Fv). pose proof (place_grows (slist_tail xs e) s1 W1) as G2. pose proof (place_wf (slist_tail xs e) s1 W1) as W2. destruct (place (slist_tail xs e) s1) as [w s2]. cbn [fst snd] in *.
    pose proof (grows_new_cell s2 v w W2) as G3. exists (v :: vs). split.
    + apply (il_cons _ _ _ w); [apply lookup_insert| |exact (is_list_grows _ _ _ _ G3 L)]. left. intros ->. destruct x; try discriminate Nx. congruence.
    + constructor; [eapply holds_grows; [exact G3|]; eapply holds_grows; [exact G2|exact H1]|]. eapply Forall2_impl; [exact Fv|]. intros q d' Hq. exact (holds_grows _ _ _ _ G3 Hq).
Qed.
Lemma made_list xs ds : Forall2 made xs ds -> made (slist xs) (XList ds).
Proof.
  intros F. destruct F as [|x d xs ds M F].
  - apply made_intro; try discriminate; [reflexivity|]. intros s W. cbn [slist place fst snd]. apply (holds_list _ _ []); [|constructor]. apply il_empty, lookup_insert.
  - assert (N : x <> SEnd) by apply M. apply made_intro; [discriminate|cbn; destruct x; try reflexivity; congruence|discriminate|]. intros s W.
    destruct (made_tail (x :: xs) (d :: ds) SEnd ltac:(constructor; assumption) ltac:(auto) s W) as (vs & L & Fv). exact (holds_list _ _ _ _ L Fv).
Qed.
Lemma made_frame xs ds : Forall2 made xs ds -> made (SCell (SSym "make-frame") (slist xs)) (XList (XSym "make-frame" :: ds)).
Proof.
  intros F. assert (M : made (SSym "make-frame") (XSym "make-frame")) by (apply made_atom; [reflexivity|discriminate]).
  apply made_intro; [discriminate|reflexivity|discriminate|]. intros s W.
  assert (Q : exists e, (e = SEnd \/ e = SNil) /\ SCell (SSym "make-frame") (slist xs) = slist_tail (SSym "make-frame" :: xs) e) by (destruct xs as [|x xs]; [exists SNil|exists SEnd]; auto).
  destruct Q as (e & He & ->). destruct (made_tail _ _ e (List.Forall2_cons _ _ M F) He s W) as (vs & L & Fv). exact (holds_list _ _ _ _ L Fv).
Qed.
Lemma made_dot y d xs ds : made y d -> xs <> [] -> Forall2 made xs ds -> made (slist_tail xs y) (XDot ds d).
Proof.
  intros My N F. induction F as [|x q xs ds M F IH]; [congruence|]. cbn [slist_tail]. apply made_intro; [discriminate|destruct M as (Nx & _); cbn; destruct x; try reflexivity; congruence|discriminate|].
  intros s W. cbn [place]. destruct M as (_ & _ & _ & M). destruct (M s W) as (G1 & W1 & H1). destruct (place x s) as [v s1]. cbn [fst snd] in *. destruct F as [|x2 q2 xs ds M2 F].
  - cbn [slist_tail]. destruct My as (_ & _ & _ & My). destruct (My s1 W1) as (G2 & W2 & H2). destruct (place y s1) as [w s2]. cbn [fst snd] in *. pose proof (grows_new_cell s2 v w W2) as G3.
    eapply holds_dot; [apply lookup_insert|eapply holds_grows; [exact G3|]; eapply holds_grows; [exact G2|exact H1]|exact (holds_grows _ _ _ _ G3 H2)].
  - destruct (IH ltac:(discriminate)) as (_ & _ & _ & M3). destruct (M3 s1 W1) as (G2 & W2 & H2). destruct (place (slist_tail (x2 :: xs) y) s1) as [w s2]. cbn [fst snd] in *. pose proof (grows_new_cell s2 v w W2) as G3.
    eapply holds_dots; [apply lookup_insert|eapply holds_grows; [exact G3|]; eapply holds_grows; [exact G2|exact H1]|exact (holds_grows _ _ _ _ G3 H2)].
Qed.

(** *** What is read *)
Definition start_token (k : token) : Prop := begins k /\ k <> KRbrace.
Definition parses (ks : list token) (x : sexp) : Prop :=
  (forall ts, exists N, forall n, (N <= n)%nat -> parse_expr n (ks ++ ts) = (PSexp x, ts)) /\ match ks with [] => False | k :: _ => start_token k end.
Definition lexes (u : uni_table) (rs : list rune) (ks : list token) : Prop := forall rest, stop_runes rest -> toks u (rs ++ rest) = ks ++ toks u rest.
Definition read_as (u : uni_table) (d : tree) (t : string) : Prop := exists x rs ks, text_of t rs /\ lexes u rs ks /\ parses ks x /\ made x d.
Definition read_items (u : uni_table) (ds : list tree) (t : string) : Prop :=
  exists xs rs kss, text_of t rs /\ lexes u rs (List.concat kss) /\ Forall2 parses kss xs /\ Forall2 made xs ds.
Lemma parses_one k x : (forall f ts, parse_expr (S f) (k :: ts) = (PSexp x, ts)) -> start_token k -> parses [k] x.
Proof. intros P B. split; [|exact B]. intros ts. exists 1%nat. intros n L. destruct n as [|n]; [lia|]. apply P. Qed.
Lemma reads_as u t x d : ProofPrint.reads u t x -> made x d -> x <> SSym "}" -> read_as u d t.
Proof.
  intros (rs & ks & T & K & P & B) M N. exists x, rs, ks. split; [exact T|]. split; [exact K|]. split; [|exact M]. split; [exact P|].
  destruct ks as [|k ks]; [contradiction|]. split; [exact B|]. intros ->. destruct (P []) as [N1 H]. specialize (H (S N1) ltac:(lia)). cbn [app parse_expr] in H. congruence.
Qed.
Lemma parses_element ks x : parses ks x -> element ks x.
Proof. intros [P B]. split; [exact P|]. destruct ks; [contradiction|apply B]. Qed.
Lemma parses_elements kss xs : Forall2 parses kss xs -> Forall2 element kss xs.
Proof. intros F. eapply Forall2_impl; [exact F|]. exact parses_element. Qed.
Lemma stop_app a b : stop_runes a -> stop_runes b -> stop_runes (a ++ b).
Proof. destruct a; auto. Qed.
Lemma stops_text t rs : stops t -> text_of t rs -> stop_runes rs.
Proof. intros H T. rewrite <- (text_runes t rs T). apply stops_runes, H. Qed.
Lemma inside_text t rs : inside t rs -> exists raw, text_of t raw /\ Forall scalar rs /\ forall rest, string_runes (raw ++ 34 :: rest) = Some (rs, rest).
Proof.
  intros H. induction H as [|c t rs S N1 N2 H (raw & T & F & K)|t rs H (raw & T & F & K)|c t rs S N H (raw & T & F & K)].
  - exists []. split; [apply text_nil|]. split; [constructor|]. intros rest. reflexivity.
  - exists ([c] ++ raw). split; [apply text_app; [split; [reflexivity|constructor; [exact S|constructor]]|exact T]|]. split; [constructor; assumption|]. intros rest. cbn [app]. rewrite string_runes_plain, K by assumption. reflexivity.
  - exists ([92; 110] ++ raw). split; [apply text_app; [apply (text_ascii "\n"); reflexivity|exact T]|]. split; [constructor; [unfold scalar; lia|exact F]|]. intros rest. cbn [app string_runes]. rewrite K. reflexivity.
  - exists ([92] ++ [c] ++ raw). split; [apply text_app; [apply (text_ascii "\"); reflexivity|]; apply text_app; [split; [reflexivity|constructor; [exact S|constructor]]|exact T]|]. split; [constructor; assumption|].
    intros rest. cbn [app string_runes]. rewrite K. rewrite (proj2 (Z.eqb_neq c 110)) by exact N. reflexivity.
Qed.
Lemma parse_frame_step n ts cells : match ts with k :: _ => start_token k | [] => False end -> parse_frame (S n) ts cells =
  match parse_expr n ts with
  | (PSexp x, r) => parse_frame n r (x :: cells)
  | (PEof, r) => (PErr "Unexpected EOF (expected closing brace)", r)
  | (PErr m0, r) => (PErr (eof_message "Unexpected EOF (expected closing brace)" m0), r)
  end.
Proof. intros B. destruct ts as [|k ts]; [contradiction|]. destruct B as ((B1 & B2 & B3) & B4). destruct k; try congruence; reflexivity. Qed.
Lemma parse_frame_elements ks xs : Forall2 parses ks xs -> forall ts cells P, (exists N, forall n, (N <= n)%nat -> parse_frame n ts (rev xs ++ cells) = P) ->
  exists N, forall n, (N <= n)%nat -> parse_frame n (List.concat ks ++ ts) cells = P.
Proof.
  intros F. induction F as [|k x ks xs [Pk B] F IH]; intros ts cells P H; [exact H|].
  cbn [rev] in H. rewrite <- app_assoc in H. cbn [app] in H. destruct (IH ts (x :: cells) P H) as [N1 H1]. cbn [List.concat]. destruct (Pk (List.concat ks ++ ts)) as [N2 H2].
  exists (S (N1 + N2)). intros n L. destruct n as [|n]; [lia|]. rewrite <- app_assoc. rewrite parse_frame_step by (destruct k; [contradiction|exact B]). rewrite H2 by lia. apply H1. lia.
Qed.
Lemma wrapped u p pr name k g t d : text_of p pr -> (forall l, (p = "," -> head_or0 l <> 64) -> toks u (pr ++ l) = k :: toks u l) ->
  (forall f r, parse_expr (S f) (k :: r) = wrap_quote name (parse_expr f r)) -> start_token k -> gap g -> read_as u d t -> (p = "," -> forall r, g +++ t <> "@" +++ r) ->
  read_as u (XList [XSym name; d]) (p +++ g +++ t).
Proof.
  intros Tp K P B Hg (x & rs & ks & T & L & [Px Bx] & M) At. destruct (gap_text u g Hg) as (rg & Tg & Kg).
  exists (slist [SSym name; x]), (pr ++ rg ++ rs), (k :: ks). split; [apply text_app; [exact Tp|]; apply text_app; assumption|]. split.
  { intros rest S. rewrite <- !app_assoc. rewrite K.
    - rewrite Kg, L by exact S. reflexivity.
    - intros E C. specialize (At E). pose proof (text_app _ _ _ _ Tg T) as [E2 _]. rewrite app_assoc in C. destruct (rg ++ rs) as [|c l] eqn:Q.
      + apply app_eq_nil in Q as [-> ->]. specialize (L [] Logic.I). destruct ks; [contradiction|]. cbn in L. discriminate L.
      + cbn [app head_or0] in C. subst c. apply (At (string_of_runes l)). rewrite E2. reflexivity. }
  split.
  - split; [|exact B]. intros ts. destruct (Px ts) as [N H]. exists (S N). intros n Ln. destruct n as [|n]; [lia|]. cbn [app]. rewrite P, H by lia. reflexivity.
  - apply made_list. constructor; [|constructor; [exact M|constructor]]. apply made_atom; [reflexivity|discriminate].
Qed.
Lemma toks_brace u l : toks u (123 :: l) = KLbrace :: toks u l.
Proof. apply toks_one; [lia|lia|reflexivity]. Qed.
Lemma toks_cbrace u l : toks u (125 :: l) = KRbrace :: toks u l.
Proof. apply toks_one; [lia|lia|reflexivity]. Qed.
Lemma toks_back u l : toks u (96 :: l) = KBackquote :: toks u l.
Proof. apply toks_one; [lia|lia|reflexivity]. Qed.
Lemma toks_comma_at u l : toks u (44 :: 64 :: l) = KCommaAt :: toks u l.
Proof. apply toks_step; [apply skip_none; lia|reflexivity]. Qed.
Lemma toks_comma u l : head_or0 l <> 64 -> toks u (44 :: l) = KComma :: toks u l.
Proof.
  intros H. apply toks_one; [lia|lia|]. unfold read_token. cbv zeta. cbn [Z.eqb Pos.eqb andb]. change (rune_number u 44) with false. cbn match. change (match l with [] => 0 | d :: _ => d end) with (head_or0 l).
  rewrite (proj2 (Z.eqb_neq _ _) H). reflexivity.
Qed.
Ltac stop_now := cbn; unfold stop_rune; cbn; tauto.
Ltac starts_now := split; [repeat split; discriminate|discriminate].


Lemma read_int u t z : literal t z -> int64 z -> read_as u (XInt z) t.
Proof.
  intros Li B. destruct (literal_token u t z Li) as (k & [Nk K] & P). exists (SInt z), (bytes_of_string t), [k].
  split; [apply text_ascii, (literal_ascii t z Li)|]. split; [exact K|]. split; [|apply made_atom; [reflexivity|discriminate]].
  apply parses_one; [|destruct k; try contradiction; starts_now]. intros f ts. specialize (P f ts). rewrite in_int64_true in P by exact B.
  destruct k; try contradiction; cbn [parse_expr fst] in *; rewrite P; reflexivity.
Qed.
Lemma read_str u t rs : inside t rs -> read_as u (XStr (string_of_runes rs)) ("""" +++ t +++ """").
Proof.
  intros H. destruct (inside_text t rs H) as (raw & T & F & K). exists (SStr (string_of_runes rs)), ([34] ++ raw ++ [34]), [KString (string_of_runes rs)].
  split; [apply (text_app """" _ [34]); [apply (text_ascii """"); reflexivity|]; apply text_app; [exact T|apply (text_ascii """"); reflexivity]|]. split.
  { intros rest S. cbn [app]. rewrite <- app_assoc. cbn [app]. apply toks_step; [apply skip_none; lia|]. unfold read_token. cbv zeta. cbn [Z.eqb Pos.eqb andb]. change (rune_number u 34) with false. cbn match. rewrite K. reflexivity. }
  split; [apply parses_one; [reflexivity|starts_now]|apply made_atom; [reflexivity|discriminate]].
Qed.
Lemma read_sym u t : symbol_text u t -> read_as u (XSym t) t.
Proof.
  intros H. apply (reads_as u t (SSym t)); [apply reads_sym, H|apply made_atom; [reflexivity|discriminate]|].
  intros E. injection E as ->. destruct H as (c & rs & T & F & _). pose proof (text_runes _ _ T) as R. apply Forall_cons_1 in F as [F _]. apply symbol_char_facts in F as (_ & _ & _ & _ & _ & _ & _ & _ & _ & _ & _ & N).
  vm_compute in R. congruence.
Qed.
Lemma read_list u ds t : read_items u ds t -> read_as u (XList ds) ("(" +++ t +++ ")").
Proof.
  intros (xs & rs & ks & T & L & P & M). exists (slist xs), ([40] ++ rs ++ [41]), (KLparen :: List.concat ks ++ [KRparen]).
  split; [apply text_app; [apply (text_ascii "("); reflexivity|]; apply text_app; [exact T|apply (text_ascii ")"); reflexivity]|].
  split. { intros rest S. cbn [app]. rewrite toks_open, <- app_assoc. cbn [app]. rewrite L by stop_now. rewrite toks_close, <- app_assoc. reflexivity. }
  split; [|apply made_list, M]. split; [|starts_now]. intros tl. destruct (parse_elements ks xs (parses_elements _ _ P) (KRparen :: tl) [] (PSexp (slist xs), tl)) as [N H].
  { exists 1%nat. intros n Ln. destruct n as [|n]; [lia|]. cbn [parse_cons]. rewrite app_nil_r, rev_involutive. reflexivity. }
  exists (S N). intros n Ln. destruct n as [|n]; [lia|]. cbn [app parse_expr]. rewrite <- app_assoc. apply H. lia.
Qed.
Lemma read_dot u ds t c d r : ds <> [] -> read_items u ds t -> blank c -> read_items u [d] r -> read_as u (XDot ds d) ("(" +++ t +++ String c (". " +++ r +++ ")")).
Proof.
  intros Nd (xs & rs & ks & T & L & P & M) B (ys & rs2 & ks2 & T2 & L2 & P2 & M2). inversion M2 as [|y ? ys' ? My M3]; subst. inversion M3; subst. inversion P2 as [|k2 ? ks2' ? Pk P3]; subst. inversion P3; subst.
  destruct (blank_facts c B) as (A & Kb & Sb). cbn [List.concat] in L2. rewrite app_nil_r in L2.
  exists (slist_tail xs y), ([40] ++ rs ++ byte_of c :: [46; 32] ++ rs2 ++ [41]), (KLparen :: List.concat ks ++ KPeriod :: k2 ++ [KRparen]).
  split. { apply text_app; [apply (text_ascii "("); reflexivity|]. apply text_app; [exact T|]. apply text_char; [exact A|]. apply (text_app ". " _ [46; 32]); [apply (text_ascii ". "); reflexivity|]. apply text_app; [exact T2|apply (text_ascii ")"); reflexivity]. }
  split. { intros rest S. cbn [app]. rewrite toks_open, <- app_assoc. cbn [app]. rewrite L by exact Sb. rewrite Kb, toks_period, toks_space, <- !app_assoc. cbn [app]. rewrite L2 by stop_now. rewrite toks_close, <- !app_assoc. reflexivity. }
  split; [|apply made_dot; [exact My| |exact M]]. 2: { intros ->. inversion M; subst. congruence. }
  split; [|starts_now]. intros tl. destruct Pk as [Pk _]. destruct (Pk (KRparen :: tl)) as [N2 H2].
  destruct (parse_elements ks xs (parses_elements _ _ P) (KPeriod :: k2 ++ KRparen :: tl) [] (PSexp (slist_tail xs y), tl)) as [N H].
  { exists (S N2). intros n Ln. destruct n as [|n]; [lia|]. cbn [parse_cons]. rewrite H2 by lia. rewrite app_nil_r, rev_involutive. reflexivity. }
  exists (S N). intros n Ln. destruct n as [|n]; [lia|]. cbn [app parse_expr]. rewrite <- !app_assoc. cbn [app]. rewrite <- app_assoc. apply H. lia.
Qed.
Lemma made_ints xs bs : Forall2 made xs (map XInt bs) -> xs = map SInt bs.
Proof. intros F. remember (map XInt bs) as ds eqn:E. revert bs E. induction F as [|x d xs ds M F IH]; intros bs E; destruct bs as [|b bs]; try discriminate; [reflexivity|]. injection E as -> E. cbn [map]. f_equal; [apply M; reflexivity|apply IH, E]. Qed.
Lemma read_bytes u bs t : Forall (fun b => 0 <= b < 256) bs -> read_items u (map XInt bs) t -> read_as u (XBytes bs) ("[" +++ t +++ "]").
Proof.
  intros Fb (xs & rs & ks & T & L & P & M). apply made_ints in M. subst xs. exists (SBytes bs), ([91] ++ rs ++ [93]), (KLbracket :: List.concat ks ++ [KRbracket]).
  split; [apply text_app; [apply (text_ascii "["); reflexivity|]; apply text_app; [exact T|apply (text_ascii "]"); reflexivity]|].
  split. { intros rest S. cbn [app]. rewrite toks_obracket, <- app_assoc. cbn [app]. rewrite L by stop_now. rewrite toks_cbracket, <- app_assoc. reflexivity. }
  split; [|apply made_atom; [reflexivity|discriminate]]. split; [|starts_now]. apply parses_elements in P. intros tl. destruct (parse_byte_elements ks bs P Fb (KRbracket :: tl) [] (PSexp (SBytes bs), tl)) as [N H].
  { exists 1%nat. intros n Ln. destruct n as [|n]; [lia|]. cbn [parse_bytes]. rewrite app_nil_r, rev_involutive. unfold bytearray_sexp. rewrite all_ints_bytes by exact Fb. reflexivity. }
  exists (S N). intros n Ln. destruct n as [|n]; [lia|]. cbn [app]. rewrite <- app_assoc. cbn [app].
  destruct bs as [|b bs]; cbn [map] in P; inversion P as [|k x ks' xs [Pk B] P']; subst.
  - reflexivity.
  - cbn [List.concat] in *. destruct k as [|k0 k]; [contradiction|]. cbn [app] in *. destruct B as (B1 & B2 & B3). destruct k0; try congruence; exact (H n ltac:(lia)).
Qed.
Lemma read_frame u ds t : read_items u ds t -> read_as u (XList (XSym "make-frame" :: ds)) ("{" +++ t +++ "}").
Proof.
  intros (xs & rs & ks & T & L & P & M). exists (SCell (SSym "make-frame") (slist xs)), ([123] ++ rs ++ [125]), (KLbrace :: List.concat ks ++ [KRbrace]).
  split; [apply text_app; [apply (text_ascii "{"); reflexivity|]; apply text_app; [exact T|apply (text_ascii "}"); reflexivity]|].
  split. { intros rest S. cbn [app]. rewrite toks_brace, <- app_assoc. cbn [app]. rewrite L by stop_now. rewrite toks_cbrace, <- app_assoc. reflexivity. }
  split; [|apply made_frame, M]. split; [|starts_now]. intros tl. destruct (parse_frame_elements ks xs P (KRbrace :: tl) [] (PSexp (SCell (SSym "make-frame") (slist xs)), tl)) as [N H].
  { exists 1%nat. intros n Ln. destruct n as [|n]; [lia|]. cbn [parse_frame]. rewrite app_nil_r, rev_involutive. reflexivity. }
  exists (S N). intros n Ln. destruct n as [|n]; [lia|]. cbn [app]. rewrite <- app_assoc. cbn [app].
  destruct P as [|k x ks' xs [Pk B] P']; [exact (H n ltac:(lia))|].
  cbn [List.concat] in *. destruct k as [|k0 k]; [contradiction|]. cbn [app] in *. destruct B as ((B1 & B2 & B3) & B4). destruct k0; try congruence; exact (H n ltac:(lia)).
Qed.
Lemma spelled_read u : (forall d t, spells u d t -> read_as u d t) /\ (forall ds t, items u ds t -> read_items u ds t).
Proof.
  apply (spells_items u (fun d t _ => read_as u d t) (fun ds t _ => read_items u ds t)).
  - intros t z Li B. apply read_int; assumption.
  - intros b. apply (reads_as u _ (SBool b)); [apply reads_bool|apply made_atom; [reflexivity|discriminate]|discriminate].
  - intros t rs H. apply read_str, H.
  - intros t H. apply read_sym, H.
  - intros p name g d t Hp Hg _ IH. cbn in Hp. destruct Hp as [E|[E|[E|[]]]]; injection E as <- <-.
    + apply (wrapped u "'" [39] "quote" KQuote); [apply (text_ascii "'"); reflexivity|intros; apply toks_quote|reflexivity|starts_now|exact Hg|exact IH|discriminate].
    + apply (wrapped u "`" [96] "quasiquote" KBackquote); [apply (text_ascii "`"); reflexivity|intros; apply toks_back|reflexivity|starts_now|exact Hg|exact IH|discriminate].
    + apply (wrapped u ",@" [44; 64] "unquote-splicing" KCommaAt); [apply (text_ascii ",@"); reflexivity|intros; apply toks_comma_at|reflexivity|starts_now|exact Hg|exact IH|discriminate].
  - intros g d t Hg _ IH At. apply (wrapped u "," [44] "unquote" KComma); [apply (text_ascii ","); reflexivity|intros l H; apply toks_comma, H; reflexivity|reflexivity|starts_now|exact Hg|exact IH|intros _; exact At].
  - intros ds t _ IH. apply read_list, IH.
  - intros ds t c d r N _ IH B _ IH2. apply read_dot; assumption.
  - intros bs t F _ IH. apply read_bytes; assumption.
  - intros ds t _ IH. apply read_frame, IH.
  - intros g Hg. destruct (gap_text u g Hg) as (rs & T & K). exists [], rs, []. split; [exact T|]. split; [intros rest _; apply K|]. split; constructor.
  - intros g d t ds r Hg _ (x & rs & ks & T & L & P & M) _ (xs & rr & kss & Tr & Lr & Pr & Mr) S. destruct (gap_text u g Hg) as (rg & Tg & Kg).
    exists (x :: xs), (rg ++ rs ++ rr), (ks :: kss). split; [repeat apply text_app; assumption|]. split; [|split; constructor; assumption].
    intros rest Sr. rewrite <- !app_assoc. rewrite Kg, L by (apply stop_app; [exact (stops_text _ _ S Tr)|exact Sr]). rewrite Lr by exact Sr. cbn [List.concat]. rewrite <- app_assoc. reflexivity.
Qed.

(** *** Running a text *)
Lemma parses_tokens ks x ts : parses ks x -> parse_tokens (ks ++ ts) = (PSexp x, ts).
Proof. intros [P _]. destruct (P ts) as [N H]. rewrite <- (parse_enough _ (N + parse_fuel (ks ++ ts))) by lia. apply H. lia. Qed.
Lemma program_tokens u ds src : program u ds src -> exists xs kss, tokenize u src = List.concat kss /\ Forall2 parses kss xs /\ Forall2 made xs ds.
Proof.
  intros (t & last & I & -> & E). destruct (proj2 (spelled_read u) ds t I) as (xs & rs & kss & T & L & P & M). exists xs, kss. split; [|split; assumption].
  destruct E as [->|(body & rb & Tb & N & ->)].
  - rewrite NumText.str_app_nil_r, tokenize_toks, (text_runes _ _ T). specialize (L [] Logic.I). rewrite !app_nil_r in L. exact L.
  - assert (Te : text_of (";" +++ body) (59 :: rb)) by (apply (text_app ";" body [59] rb); [apply (text_ascii ";"); reflexivity|exact Tb]).
    rewrite tokenize_toks, (text_runes _ _ (text_app _ _ _ _ T Te)). rewrite L by stop_now. rewrite toks_eq. cbn [skip_blank]. change (rune_space u 59) with false. cbn match. change (59 =? 59) with true. cbn match. rewrite skip_comment_end by exact N. apply app_nil_r.
Qed.
Lemma broken_tokens u ds src : broken_off u ds src -> exists xs kss ts m, tokenize u src = List.concat kss ++ ts /\ Forall2 parses kss xs /\ Forall2 made xs ds /\ m = "Unexpected EOF (expected closing parenthesis)" /\ exists r, parse_tokens ts = (PErr m, r).
Proof.
  intros (t & es & r & I & J & ->). destruct (proj2 (spelled_read u) ds t I) as (xs & rs & kss & T & L & P & M). destruct (proj2 (spelled_read u) es r J) as (ys & rs2 & ks2 & T2 & L2 & P2 & M2).
  eexists xs, kss, (KLparen :: List.concat ks2), _. split; [|split; [exact P|]; split; [exact M|]; split; [reflexivity|]].
  - rewrite tokenize_toks, (text_runes _ (rs ++ [40] ++ rs2)) by (apply text_app; [exact T|]; apply text_app; [apply (text_ascii "("); reflexivity|exact T2]).
    rewrite L by stop_now. cbn [app]. rewrite toks_open. specialize (L2 [] Logic.I). rewrite !app_nil_r in L2. rewrite L2. reflexivity.
  - exists []. destruct (parse_elements ks2 ys (parses_elements _ _ P2) [] [] (PErr "Unexpected EOF (expected closing parenthesis)", [])) as [N H].
    { exists 2%nat. intros n Ln. destruct n as [|[|n]]; try lia. reflexivity. }
    rewrite <- (parse_enough _ (S N + parse_fuel (KLparen :: List.concat ks2))) by lia. cbn [Nat.add parse_expr]. rewrite app_nil_r in H. apply H. lia.
Qed.
Lemma eval_tokens env finish ts : (forall last s o s', runs denote (loop (fun st : list token * val =>
          let '(ts, last) := st in
          match parse_tokens ts with
          | (PErr m, _) => Ret (inr (Err m))
          | (PEof, _) => Ret (inr (Ok last))
          | (PSexp x, r) =>
              v <- alloc_sexp x ;; n <- nilp v ;;
              if n : bool then Ret (inr (Ok last))
              else
                e <- eval v env ;;
                match e with Ok w => Ret (inl (r, w)) | Err m => Ret (inr (Err m)) end
          end) (ts, last)) s o s' <-> finish last s o s') ->
  forall kss xs, Forall2 parses kss xs -> forall ds, Forall2 made xs ds -> forall last s o s',
  runs denote (loop (fun st : list token * val =>
          let '(ts, last) := st in
          match parse_tokens ts with
          | (PErr m, _) => Ret (inr (Err m))
          | (PEof, _) => Ret (inr (Ok last))
          | (PSexp x, r) =>
              v <- alloc_sexp x ;; n <- nilp v ;;
              if n : bool then Ret (inr (Ok last))
              else
                e <- eval v env ;;
                match e with Ok w => Ret (inl (r, w)) | Err m => Ret (inr (Err m)) end
          end) (List.concat kss ++ ts, last)) s o s' <-> in_turn env finish (combine ds (map place xs)) last s o s'.
Proof.
  intros Fin kss xs F. induction F as [|ks x kss xs P F IH]; intros ds M last s o s'; inversion M as [|? d ? ds' Mx M']; subst; [apply Fin|].
  rewrite loop_iff. cbn [List.concat]. rewrite <- app_assoc, (parses_tokens _ _ _ P). pose proof (place_nilb x s) as Nb. destruct Mx as (_ & Em & _). rewrite Em in Nb.
  cbn [map combine]. set (put := place x) in *. pose proof (runs_place x s) as Rp. fold put in Rp.
  assert (Step : forall o1 s1, runs denote (v <- alloc_sexp x ;; n <- nilp v ;; if n : bool then Ret (inr (Ok last)) else e <- eval v env ;; match e with Ok w => Ret (inl (List.concat kss ++ ts, w)) | Err m => Ret (inr (Err m)) end) s o1 s1 <->
     runs denote (if is_empty d then Ret (inr (Ok last)) else e <- eval (fst (put s)) env ;; match e with Ok w => Ret (inl (List.concat kss ++ ts, w)) | Err m => Ret (inr (Err m)) end) (snd (put s)) o1 s1).
  { intros o1 s1. rewrite (then_iff _ _ _ _ _ _ _ Rp). rewrite (then_iff _ _ _ _ _ _ _ (runs_nilp _ _)). rewrite Nb. reflexivity. }
  destruct (is_empty d) eqn:Ed.
  - destruct d as [| | | | |[|]|]; try discriminate Ed. cbn [in_turn]. split.
    + intros (o1 & s1 & R & H). apply Step, ret_iff in R as [-> ->]. destruct H as [-> ->]. split; reflexivity.
    + intros [-> ->]. eexists _, _. split; [apply Step, runs_ret|]. split; reflexivity.
  - assert (Q : in_turn env finish ((d, put) :: combine ds' (map place xs)) last s = after (evals (fst (put s)) env (snd (put s))) (in_turn env finish (combine ds' (map place xs)))) by (destruct d as [| | | | |[|]|]; try discriminate Ed; reflexivity).
    rewrite Q. clear Q. split.
    + intros (o1 & s1 & R & H). apply Step, bind_iff in R as (o2 & s2 & R & H2). exists o2, s2. split; [exact R|]. destruct o2 as [[w|m]|w].
      * apply ret_iff in H2 as [-> ->]. apply (IH _ M'). exact H.
      * apply ret_iff in H2 as [-> ->]. exact H.
      * destruct H2 as [-> ->]. exact H.
    + intros (o2 & s2 & R & H). destruct o2 as [[w|m]|w].
      * eexists _, _. split; [apply Step, bind_iff; eexists _, _; split; [exact R|apply runs_ret]|]. apply (IH _ M'). exact H.
      * eexists _, _. split; [apply Step, bind_iff; eexists _, _; split; [exact R|apply runs_ret]|]. exact H.
      * eexists _, _. split; [apply Step, bind_iff; eexists _, _; split; [exact R|split; reflexivity]|]. exact H.
Qed.
Lemma made_plants xs ds : Forall2 made xs ds -> Forall2 plants ds (map place xs).
Proof. intros F. induction F as [|x d xs ds M F IH]; cbn [map]; [constructor|]. constructor; [exact (proj2 (proj2 (proj2 M)))|exact IH]. Qed.
Lemma run_program u ds src : program u ds src -> exists puts, Forall2 plants ds puts /\
  forall env s, s_uni s = u -> forall o s', run_text src env s o s' <-> in_turn env gives (combine ds puts) VNil s o s'.
Proof.
  intros P. destruct (program_tokens u ds src P) as (xs & kss & K & Pk & M). exists (map place xs). split; [apply made_plants, M|].
  intros env s U o s'. unfold run_text, parse_and_eval_all. rewrite (op_iff OUni _ _ _ _ _ _ eq_refl). rewrite U, K. rewrite <- (app_nil_r (List.concat kss)). unfold eval_all_tokens.
  apply eval_tokens; [|exact Pk|exact M]. intros last s1 o1 s2. rewrite loop_iff. split.
  - intros (o3 & s3 & R & H). apply ret_iff in R as [-> ->]. exact H.
  - intros [-> ->]. eexists _, _. split; [apply runs_ret|]. split; reflexivity.
Qed.
Lemma run_broken u ds src : broken_off u ds src -> exists puts, Forall2 plants ds puts /\
  forall env s, s_uni s = u -> forall o s', run_text src env s o s' <->
    in_turn env (fun _ => fails "Unexpected EOF (expected closing parenthesis)") (combine ds puts) VNil s o s'.
Proof.
  intros P. destruct (broken_tokens u ds src P) as (xs & kss & ts & m & K & Pk & M & -> & r & E). exists (map place xs). split; [apply made_plants, M|].
  intros env s U o s'. unfold run_text, parse_and_eval_all. rewrite (op_iff OUni _ _ _ _ _ _ eq_refl). rewrite U, K. unfold eval_all_tokens.
  apply eval_tokens; [|exact Pk|exact M]. intros last s1 o1 s2. rewrite loop_iff, E. split.
  - intros (o3 & s3 & R & H). apply ret_iff in R as [-> ->]. exact H.
  - intros [-> ->]. eexists _, _. split; [apply runs_ret|]. split; reflexivity.
Qed.
Lemma run_first_program u d ds src : program u (d :: ds) src -> exists put, plants d put /\
  forall env s, s_uni s = u -> forall o s', run_first src env s o s' <-> in_turn env gives [(d, put)] VNil s o s'.
Proof.
  intros P. destruct (program_tokens u (d :: ds) src P) as (xs & kss & K & Pk & M). inversion M as [|x ? xs' ? Mx M']; subst. inversion Pk as [|ks ? kss' ? Px Pk']; subst. exists (place x). split; [exact (proj2 (proj2 (proj2 Mx)))|].
  intros env s U o s'. unfold run_first, parse_and_eval. rewrite (op_iff OUni _ _ _ _ _ _ eq_refl). unfold parse. rewrite U, K. cbn [List.concat]. rewrite (parses_tokens _ _ _ Px). cbn [fst].
  pose proof (place_nilb x s) as Nb. destruct Mx as (_ & Em & _). rewrite Em in Nb. rewrite (then_iff _ _ _ _ _ _ _ (runs_place x s)), (then_iff _ _ _ _ _ _ _ (runs_nilp _ _)), Nb. destruct (is_empty d) eqn:Ed.
  - destruct d as [| | | | |[|]|]; try discriminate Ed. apply ok_iff.
  - enough (Q : runs denote (eval (fst (place x s)) env) (snd (place x s)) o s' <-> after (evals (fst (place x s)) env (snd (place x s))) gives o s') by (destruct d as [| | | | |[|]|]; try discriminate Ed; exact Q).
    unfold after. split.
    + intros R. exists o, s'. split; [exact R|]. destruct o as [[w|m]|w]; split; reflexivity.
    + intros (o1 & s1 & R & H). destruct o1 as [[w|m]|w]; destruct H as [-> ->]; exact R.
Qed.
Lemma parse_program u d ds src : program u (d :: ds) src -> forall v env s, wf_state s -> s_uni s = u -> is_str s v src ->
  exists r s', applies "parse" [v] env s (Done (Ok r)) s' /\ grows s s' /\ holds s' r d.
Proof.
  intros P v env s W U V. destruct (program_tokens u (d :: ds) src P) as (xs & kss & K & Pk & M). inversion M as [|x ? xs' ? Mx M']; subst. inversion Pk as [|ks ? kss' ? Px Pk']; subst.
  pose proof (run_parse v src env s W V) as R. unfold parse in R. rewrite K in R. cbn [List.concat] in R. rewrite (parses_tokens _ _ _ Px) in R. cbn [fst] in R. destruct R as (r & s' & R & A & G). exists r, s'. split; [exact A|]. split; [exact G|].
  destruct (runs_det _ _ _ _ _ _ _ _ R (runs_place x _)) as [E ->]. injection E as ->. apply Mx. apply wf_entering, W.
Qed.
(** The empty list ends a program. *)
Lemma in_turn_stop env put es finish : forall pre last s o s',
  in_turn env finish (pre ++ (XList [], put) :: es) last s o s' <-> in_turn env (fun w s1 => gives w (snd (put s1))) pre last s o s'.
Proof.
  induction pre as [|[d p] pre IH]; intros last s o s'; [reflexivity|]. cbn [app].
  destruct d as [| | | | |[|]|]; cbn [in_turn]; try (apply after_iff; intros; apply IH). reflexivity.
Qed.
Lemma combine_app_one {A B} (a : list A) x c (l : list B) : length l = length (a ++ x :: c) -> exists p y q, l = p ++ y :: q /\ length p = length a /\ combine (a ++ x :: c) l = combine a p ++ (x, y) :: combine c q.
Proof.
  revert l. induction a as [|z a IH]; intros l H; destruct l as [|y l]; try discriminate H.
  - exists [], y, l. repeat split.
  - cbn [app length] in H. injection H as H. destruct (IH l H) as (p & w & q & -> & Lp & E). exists (y :: p), w, q. cbn [app combine length]. rewrite E, Lp. repeat split.
Qed.
Lemma run_stopped u ds es src : program u (ds ++ XList [] :: es) src -> exists puts put, Forall2 plants ds puts /\ plants (XList []) put /\
  forall env s, s_uni s = u -> forall o s', run_text src env s o s' <-> in_turn env (fun last s1 => gives last (snd (put s1))) (combine ds puts) VNil s o s'.
Proof.
  intros P. destruct (run_program u _ src P) as (puts & F & H). pose proof (Forall2_length _ _ _ F) as Len. destruct (combine_app_one ds (XList []) es puts (eq_sym Len)) as (p & put & q & -> & Lp & E).
  assert (Fs : Forall2 plants ds p /\ Forall2 plants (XList [] :: es) (put :: q)) by (apply Forall2_app_inv; [symmetry; exact Lp|exact F]). destruct Fs as [F1 F2].
  inversion F2; subst. exists p, put. split; [exact F1|]. split; [assumption|]. intros env s U o s'. rewrite (H env s U), E. apply in_turn_stop.
Qed.
Lemma runs_oracle_bytes src : forall r s, s_oracle s = bytes_of_string src ++ r -> runs denote (oracle_bytes (String.length src)) s (Done src) (set_oracle r s).
Proof.
  induction src as [|c src IH]; intros r s E; cbn [String.length oracle_bytes bytes_of_string app] in *.
  - destruct s. cbn in E. subst. apply runs_ret.
  - eapply runs_bind; [apply runs_op; cbn; unfold next_choice; rewrite E; reflexivity|]. eapply runs_bind; [apply (IH r); reflexivity|]. rewrite NumText.ascii_of_byte_of. apply runs_ret.
Qed.
Lemma load_file src r l env s : next_file src r s -> forall o s', applies "load" [VStr l] env s o s' <-> run_text src (s_global s) (loading env r s) o s'.
Proof.
  intros E o s'. body_of. unfold load_impl. cbn [arg nth]. unfold next_file in E.
  assert (R : runs denote (external "load" [VStr l] env) (entering "load" env s) (Done (Ok VNil)) (set_oracle (Z.of_nat (String.length src) :: bytes_of_string src ++ r) (set_log (EExt "load" :: EPrim "load" env :: s_log s) s))).
  { unfold external. eapply runs_bind; [apply runs_op; reflexivity|]. eapply runs_bind; [apply runs_op; cbn; unfold next_choice; cbn; rewrite E; reflexivity|]. apply runs_ret. }
  unfold bind_ok. rewrite (then_iff _ _ _ _ _ _ _ R). cbv beta iota. unfold oracle_text.
  assert (R2 : runs denote (n <- do_op OChoose ;; oracle_bytes (Z.to_nat n)) (set_oracle (Z.of_nat (String.length src) :: bytes_of_string src ++ r) (set_log (EExt "load" :: EPrim "load" env :: s_log s) s)) (Done src) (loading env r s)).
  { eapply runs_bind; [apply runs_op; reflexivity|]. rewrite Nat2Z.id. apply (runs_oracle_bytes src r). reflexivity. }
  rewrite (then_iff _ _ _ _ _ _ _ R2). rewrite (op_iff OGlobal _ _ _ _ _ _ eq_refl). reflexivity.
Qed.
Lemma load_other v env s : (forall l, v <> VStr l) -> applies "load" [v] env s (Done (Err "Filename must be a string")) (entering "load" env s).
Proof. intros N. applies. unfold load_impl. cbn [arg nth]. destruct v; try apply runs_ret. destruct (N _ eq_refl). Qed.

(** *** A concrete program *)
Definition sample_text : string := "(define x '(1 . #t)) ; a comment" +++ String "010" "  {a: ""q\n\"""" b: [0x10 2]} ; done".
Definition sample_trees : list tree :=
  [XList [XSym "define"; XSym "x"; XList [XSym "quote"; XDot [XInt 1] (XBool true)]];
   XList [XSym "make-frame"; XSym "a:"; XStr ("q" +++ String "010" """"); XSym "b:"; XBytes [16; 2]]].
Lemma symbol_sample u t : is_ascii t = true -> match bytes_of_string t with c :: rs => (symbol_char u c && forallb (symbol_char u) rs && negb (rune_number u c) && negb (c =? 45) && negb (str_eqb t "."))%bool = true | [] => False end -> symbol_text u t.
Proof.
  intros A H. pose proof (text_ascii t A) as T. destruct (bytes_of_string t) as [|c rs] eqn:E; [contradiction|]. exists c, rs. split; [exact T|].
  do 4 (apply andb_true_iff in H as [H ?]). split; [|split; [|split]].
  - constructor; [exact H|]. apply List.Forall_forall. apply forallb_forall. assumption.
  - intros ->. discriminate.
  - apply negb_true_iff. assumption.
  - intros ->. discriminate.
Qed.
Lemma blank_gap : gap " ".
Proof. apply gap_blank; [left; reflexivity|constructor]. Qed.
Lemma item u g d t ds r : gap g -> spells u d t -> items u ds r -> stops r -> items u (d :: ds) (g +++ t +++ r).
Proof. apply items_more. Qed.
Ltac in_list := cbn; repeat (first [left; reflexivity|right]).
Lemma sample_program u : program u sample_trees sample_text.
Proof.
  assert (G0 : gap "") by constructor. assert (G1 : gap " ") by apply blank_gap.
  assert (Sy : forall t, is_ascii t = true -> match bytes_of_string t with c :: rs => (symbol_char u c && forallb (symbol_char u) rs && negb (rune_number u c) && negb (c =? 45) && negb (str_eqb t "."))%bool = true | [] => False end -> spells u (XSym t) t) by (intros t A H; apply sp_sym, symbol_sample; assumption).
  assert (N1 : spells u (XInt 1) "1") by (apply sp_int; [apply lit_decimal, written_one; [in_list|lia]|unfold int64; lia]).
  assert (N2 : spells u (XInt 2) "2") by (apply sp_int; [apply lit_decimal, written_one; [in_list|lia]|unfold int64; lia]).
  assert (N16 : spells u (XInt 16) "0x10"). { apply sp_int; [|unfold int64; lia]. apply (lit_hex0 "10" 16). apply (written_more 16 "1" 1 "0" 0); [apply written_one; [in_list|lia]|in_list|lia]. }
  assert (D : spells u (XDot [XInt 1] (XBool true)) "(1 . #t)").
  { apply (sp_dot u [XInt 1] "1" " " (XBool true) "#t"); [discriminate| |left; reflexivity|].
    - apply (item u "" (XInt 1) "1" [] ""); [exact G0|exact N1|constructor; exact G0|exact Logic.I].
    - apply (item u "" (XBool true) "#t" [] ""); [exact G0|exact (sp_bool u true)|constructor; exact G0|exact Logic.I]. }
  assert (Q : spells u (XList [XSym "quote"; XDot [XInt 1] (XBool true)]) "'(1 . #t)") by (apply (sp_prefix u "'" "quote" "" _ "(1 . #t)"); [in_list|exact G0|exact D]).
  assert (A : spells u (XList [XSym "define"; XSym "x"; XList [XSym "quote"; XDot [XInt 1] (XBool true)]]) "(define x '(1 . #t))").
  { apply (sp_list u _ "define x '(1 . #t)"). apply (item u "" _ "define" _ " x '(1 . #t)"); [exact G0|apply Sy; reflexivity| |in_list].
    apply (item u " " _ "x" _ " '(1 . #t)"); [exact G1|apply Sy; reflexivity| |in_list]. apply (item u " " _ "'(1 . #t)" [] ""); [exact G1|exact Q|constructor; exact G0|exact Logic.I]. }
  assert (St : spells u (XStr ("q" +++ String "010" """")) """q\n\""""").
  { apply (sp_str u "q\n\""" [113; 10; 34]). apply (in_char 113 "\n\""" [10; 34]); [unfold scalar; lia|lia|lia|]. apply (in_newline "\""" [34]). apply (in_escape 34 "" []); [unfold scalar; lia|lia|constructor]. }
  assert (B : spells u (XBytes [16; 2]) "[0x10 2]").
  { apply (sp_bytes u [16; 2] "0x10 2"); [repeat constructor; lia|]. apply (item u "" _ "0x10" _ " 2"); [exact G0|exact N16| |in_list]. apply (item u " " _ "2" [] ""); [exact G1|exact N2|constructor; exact G0|exact Logic.I]. }
  assert (F : spells u (XList [XSym "make-frame"; XSym "a:"; XStr ("q" +++ String "010" """"); XSym "b:"; XBytes [16; 2]]) "{a: ""q\n\"""" b: [0x10 2]}").
  { apply (sp_frame u _ "a: ""q\n\"""" b: [0x10 2]"). apply (item u "" _ "a:" _ " ""q\n\"""" b: [0x10 2]"); [exact G0|apply Sy; reflexivity| |in_list].
    apply (item u " " _ """q\n\""""" _ " b: [0x10 2]"); [exact G1|exact St| |in_list]. apply (item u " " _ "b:" _ " [0x10 2]"); [exact G1|apply Sy; reflexivity| |in_list].
    apply (item u " " _ "[0x10 2]" [] ""); [exact G1|exact B|constructor; exact G0|exact Logic.I]. }
  exists ("(define x '(1 . #t)) ; a comment" +++ String "010" "  {a: ""q\n\"""" b: [0x10 2]} "), "; done". split; [|split; [reflexivity|right; exists " done", (bytes_of_string " done"); split; [apply text_ascii; reflexivity|split; [|reflexivity]]]].
  2: { cbn. intros H. repeat (destruct H as [H|H]; [discriminate H|]). exact H. }
  apply (item u "" _ "(define x '(1 . #t))" _ (" ; a comment" +++ String "010" "  {a: ""q\n\"""" b: [0x10 2]} ")); [exact G0|exact A| |in_list].
  apply (item u (" ; a comment" +++ String "010" "  ") _ "{a: ""q\n\"""" b: [0x10 2]}" [] " "); [|exact F|constructor; exact G1|in_list].
  apply (gap_blank " " _); [in_list|]. apply (gap_comment " a comment" (bytes_of_string " a comment") "  "); [apply text_ascii; reflexivity| |apply gap_blank; [in_list|exact G1]].
  cbn. intros H. repeat (destruct H as [H|H]; [discriminate H|]). exact H.
Qed.
Lemma sample_broken u : broken_off u [XInt 7] "7 (7 ".
Proof.
  assert (N7 : spells u (XInt 7) "7") by (apply sp_int; [apply lit_decimal, written_one; [in_list|lia]|unfold int64; lia]).
  assert (It : items u [XInt 7] "7 ") by (apply (item u "" _ "7" [] " "); [constructor|exact N7|constructor; apply blank_gap|in_list]).
  exists "7 ", [XInt 7], "7 ". split; [exact It|]. split; [exact It|reflexivity].
Qed.
