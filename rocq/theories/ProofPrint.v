(** Proofs of C13: what is printed can be read back. *)
From Verif Require Export RunFacts ProofTree ProofSet ProofList ProofData SpecRead ProofRead.
From stdpp Require Import list.
From Verif Require Import Base NumText Data SpecRead.
Local Open Scope string_scope.
Local Open Scope list_scope.
Local Open Scope Z_scope.

Section tree_induction.
  Variable P : tree -> Prop.
  Hypothesis Hint : forall z, P (XInt z).
  Hypothesis Hbool : forall b, P (XBool b).
  Hypothesis Hstr : forall t, P (XStr t).
  Hypothesis Hsym : forall t, P (XSym t).
  Hypothesis Hbytes : forall bs, P (XBytes bs).
  Hypothesis Hlist : forall ds, Forall P ds -> P (XList ds).
  Hypothesis Hdot : forall ds y, Forall P ds -> P y -> P (XDot ds y).
  Fixpoint tree_ind2 (d : tree) : P d :=
    let all := fix go l : Forall P l := match l with [] => List.Forall_nil _ | x :: r => List.Forall_cons _ x r (tree_ind2 x) (go r) end in
    match d with
    | XInt z => Hint z
    | XBool b => Hbool b
    | XStr t => Hstr t
    | XSym t => Hsym t
    | XBytes bs => Hbytes bs
    | XList ds => Hlist ds (all ds)
    | XDot ds y => Hdot ds y (all ds) (tree_ind2 y)
    end.
End tree_induction.

(** *** Printing *)
Definition is_quote (d : tree) : bool := match d with XSym t => str_eqb t "quote" | _ => false end.
Fixpoint render (d : tree) : string :=
  match d with
  | XInt z => string_of_Z z
  | XBool b => if b then "#t" else "#f"
  | XStr t => quoted t
  | XSym t => t
  | XBytes bs => "[" +++ str_join " " (map string_of_Z bs) +++ "]"
  | XList ds =>
      match ds with
      | [] => "()"
      | x :: _ => if is_quote x then match map render ds with _ :: q :: _ => "'" +++ q | _ => "'()" end
                  else "(" +++ str_join " " (map render ds) +++ ")"
      end
  | XDot ds y => "(" +++ str_join " " (map render ds) +++ " . " +++ render y +++ ")"
  end.

Lemma quote_match {A} (a : val) (X Y : A) : match a with VSym "quote" => X | _ => Y end = if match a with VSym t => str_eqb t "quote" | _ => false end then X else Y.
Proof.
  destruct a; try reflexivity. do 6 (destruct s as [|c s]; try reflexivity; destruct c as [[] [] [] [] [] [] [] []]; try reflexivity).
Qed.
Lemma runs_eq {A} (p q : prog A) s o s' : p = q -> runs denote q s o s' -> runs denote p s o s'.
Proof. intros ->. auto. Qed.
Definition spine_step : val * list string -> prog ((val * list string) + (val * list string)) := fun st =>
  let '(c, acc) := st in
  n <- nilp c ;;
  if negb n && pairp c then
    a <- car c ;; s <- call (RString a) ;; c' <- cdr c ;; Ret (inl (c', acc ++ [s]))
  else Ret (inr (c, acc)).
Lemma spine_list s xs ds : Forall2 (fun x d => prints x s (render d)) xs ds -> forall v acc, is_list s v xs ->
  exists c, runs denote (loop spine_step (v, acc)) s (Done (c, acc ++ map render ds)) s /\ nilb s c = true.
Proof.
  intros F. induction F as [|x d xs ds P F IH]; intros v acc L.
  - exists v. pose proof (is_list_nil_inv _ _ L) as E. split; [|exact E]. rewrite app_nil_r. apply runs_loop_stop. unfold spine_step. rsteps. rewrite E. apply runs_ret.
  - destruct (is_list_cons_inv _ _ _ _ L) as (E1 & E2 & E3 & l & ->). destruct (IH _ (acc ++ [render d]) E3) as (c & R & N). exists c. split; [|exact N].
    eapply runs_loop_step.
    { unfold spine_step. rsteps. rewrite E1. cbn [negb andb pairp]. rstep. rewrite E2. eapply runs_bind; [exact P|]. rsteps. }
    cbn [map]. rewrite <- app_assoc in R. exact R.
Qed.
Definition stem (s : state) (y : tree) : Prop := forall v, holds s v y -> nilb s v = false /\ pairp v = false.
Lemma atom_stem s y : atomic y -> stem s y.
Proof. intros A v H. destruct H; cbn in A; try contradiction; auto. Qed.
Lemma spine_dot s y : atomic y -> forall ds, Forall (fun d => forall x, holds s x d -> prints x s (render d)) ds -> forall v acc, holds s v (XDot ds y) ->
  exists c, runs denote (loop spine_step (v, acc)) s (Done (c, acc ++ map render ds)) s /\ holds s c y.
Proof.
  intros A ds. induction ds as [|d ds IH]; intros F v acc H; [inversion H|].
  apply Forall_cons_1 in F as [P F].
  inversion H as [| | | | | |l a e x y' E Ha Hd|l a e x xs y' E Ha Hd]; subst.
  - exists e. split; [|exact Hd]. destruct (atom_stem s y A e Hd) as [N1 N2].
    assert (NE : nilb s (VCell TCons l) = false). { cbn [nilb]. rewrite (cell_some _ _ _ E). cbn [fst snd]. destruct a; try reflexivity. cbn. destruct e; try reflexivity. discriminate N1. }
    eapply runs_loop_step.
    { unfold spine_step. rsteps. rewrite NE. cbn [negb andb pairp]. rstep. cbn [car_of]. rewrite (cell_some _ _ _ E). eapply runs_bind; [exact (P _ Ha)|]. rsteps. }
    apply runs_loop_stop. unfold spine_step. rsteps. cbn [cdr_of]. rewrite (cell_some _ _ _ E). cbn [snd]. rewrite N1, N2. apply runs_ret.
  - destruct (IH F e (acc ++ [render d]) Hd) as (c & R & N). exists c. split; [|exact N].
    assert (NE : nilb s (VCell TCons l) = false). { cbn [nilb]. rewrite (cell_some _ _ _ E). cbn [fst snd]. destruct a; try reflexivity. cbn. destruct e; try reflexivity. inversion Hd. }
    eapply runs_loop_step.
    { unfold spine_step. rsteps. rewrite NE. cbn [negb andb pairp]. rstep. cbn [car_of]. rewrite (cell_some _ _ _ E). eapply runs_bind; [exact (P _ Ha)|]. rsteps. }
    cbn [cdr_of]. rewrite (cell_some _ _ _ E). cbn [map snd]. rewrite <- app_assoc in R. exact R.
Qed.
Lemma quote_head s a d : holds s a d -> match a with VSym t => str_eqb t "quote" | _ => false end = is_quote d.
Proof. intros H. destruct H as [| | | | |v xs ds L F| |]; try reflexivity. destruct L; reflexivity. Qed.

Fixpoint dots_end (d : tree) : Prop := match d with XDot ds y => atomic y /\ (fix all l := match l with [] => True | x :: r => dots_end x /\ all r end) ds | XList ds => (fix all l := match l with [] => True | x :: r => dots_end x /\ all r end) ds | _ => True end.
Lemma dots_end_list ds : dots_end (XList ds) -> Forall dots_end ds.
Proof. cbn. induction ds as [|d ds IH]; constructor; intuition. Qed.
Lemma dots_end_dot ds y : dots_end (XDot ds y) -> atomic y /\ Forall dots_end ds.
Proof. cbn. intros [A H]. split; [exact A|]. clear A. induction ds as [|d ds IH]; constructor; intuition. Qed.

Lemma run_prints s d : dots_end d -> forall v, holds s v d -> prints v s (render d).
Proof.
  induction d as [z|b|t|t|bs|ds IH|ds y IH IHy] using tree_ind2; intros D v H; unfold prints; apply runs_do_call; cbn [denote].
  - inversion H; subst. apply runs_ret.
  - inversion H; subst. apply runs_ret.
  - inversion H; subst. cbn [string_body]. eapply runs_bind; [apply runs_op; reflexivity|]. cbn. rewrite (str_some _ _ _ ltac:(eassumption)). apply runs_ret.
  - inversion H; subst. apply runs_ret.
  - inversion H; subst. cbn [string_body]. eapply runs_bind; [apply runs_op; reflexivity|]. cbn. rewrite (bytes_some _ _ _ ltac:(eassumption)). apply runs_ret.
  - inversion H as [| | | | |? xs ds' L F| |]; subst. apply dots_end_list in D.
    assert (F' : Forall2 (fun x d => prints x s (render d)) xs ds).
    { clear L H. induction F as [|x d xs ds Hx F IHF]; [constructor|]. apply Forall_cons_1 in IH as [I1 I2]. apply Forall_cons_1 in D as [D1 D2]. constructor; [exact (I1 D1 _ Hx)|exact (IHF I2 D2)]. }
    destruct xs as [|x xs].
    + inversion F; subst. assert (nilb s v = true) as N by exact (is_list_nil_inv _ _ L). inversion L; subst; try apply runs_ret. cbn [string_body]. rstep. rewrite N. apply runs_ret.
    + inversion F as [|? d' ? ds'' Hx F'']; subst. destruct (spine_list s _ _ F' v [] L) as (c & R & N).
      destruct (is_list_cons_inv _ _ _ _ L) as (E1 & E2 & E3 & l & ->). cbn [string_body]. rstep. rewrite E1.
      eapply runs_bind; [exact R|]. cbv beta iota. rstep. rewrite N. rstep. rewrite E2. eapply runs_eq; [apply quote_match|]. rewrite (quote_head _ _ _ Hx).
      cbn [app render map]. destruct (is_quote d'); [destruct (map render ds''); apply runs_ret|apply runs_ret].
  - destruct (dots_end_dot _ _ D) as [A Ds].
    assert (F' : Forall (fun d => forall x, holds s x d -> prints x s (render d)) ds).
    { clear H D. induction ds as [|d ds IHds]; [constructor|]. apply Forall_cons_1 in IH as [I1 I2]. apply Forall_cons_1 in Ds as [D1 D2]. constructor; [exact (I1 D1)|exact (IHds I2 D2)]. }
    destruct (spine_dot s y A ds F' v [] H) as (c & R & Hc). destruct (atom_stem s y A c Hc) as [N1 N2].
    assert (Dy : dots_end y) by (destruct y; try exact I; contradiction). pose proof (IHy Dy c Hc) as Py.
    assert (exists l, v = VCell TCons l /\ nilb s v = false) as (l & -> & NE).
    { inversion H as [| | | | | |l a e x y' E Ha Hd|l a e x xs y' E Ha Hd]; subst; exists l; split; try reflexivity; cbn [nilb]; rewrite (cell_some _ _ _ E); cbn [fst snd].
      - destruct (atom_stem s y A e Hd) as [M _]. destruct a; try reflexivity. cbn. destruct e; try reflexivity. discriminate M.
      - destruct a; try reflexivity. cbn. destruct e; try reflexivity. inversion Hd. }
    cbn [string_body]. rstep. rewrite NE. eapply runs_bind; [exact R|]. cbv beta iota. rstep. rewrite N1. eapply runs_bind; [exact Py|]. apply runs_ret.
Qed.
Lemma readable_dots u d : readable u d -> dots_end d.
Proof.
  induction d as [z|b|t|t|bs|ds IH|ds y IH IHy] using tree_ind2; intros H; try exact I.
  - inversion H as [| | | | |? F _|]; subst. cbn. clear H. induction ds as [|d ds IHds]; [exact I|]. apply Forall_cons_1 in IH as [I1 I2]. apply Forall_cons_1 in F as [F1 F2]. split; [exact (I1 F1)|exact (IHds I2 F2)].
  - inversion H as [| | | | | |? ? N F A R]; subst. cbn. split; [exact A|]. clear H N. induction ds as [|d ds IHds]; [exact I|]. apply Forall_cons_1 in IH as [I1 I2]. apply Forall_cons_1 in F as [F1 F2]. split; [exact (I1 F1)|exact (IHds I2 F2)].
Qed.

(** *** Reading *)
Lemma string_of_bytes_app a b : string_of_bytes (a ++ b) = string_of_bytes a +++ string_of_bytes b.
Proof. induction a as [|x a IH]; cbn; [reflexivity|]. rewrite IH. reflexivity. Qed.
Lemma encode_runes_app a b : encode_runes (a ++ b) = encode_runes a ++ encode_runes b.
Proof. induction a as [|x a IH]; cbn; [reflexivity|]. rewrite IH, app_assoc. reflexivity. Qed.
Lemma string_of_runes_app a b : string_of_runes (a ++ b) = string_of_runes a +++ string_of_runes b.
Proof. unfold string_of_runes. rewrite encode_runes_app. apply string_of_bytes_app. Qed.
Lemma text_app a b ra rb : text_of a ra -> text_of b rb -> text_of (a +++ b) (ra ++ rb).
Proof. intros [-> Fa] [-> Fb]. split; [symmetry; apply string_of_runes_app|apply Forall_app; auto]. Qed.
Lemma text_ascii t : is_ascii t = true -> text_of t (bytes_of_string t).
Proof. intros H. split; [symmetry; apply string_of_ascii, H|apply scalar_ascii, H]. Qed.

Definition begins (k : token) : Prop := k <> KRparen /\ k <> KRbracket /\ k <> KPeriod.
(** The text [t], followed by a stopper, is read as the expression [x]. *)
Definition reads (u : uni_table) (t : string) (x : sexp) : Prop := exists rs ks,
  text_of t rs /\
  (forall rest, stop_runes rest -> toks u (rs ++ rest) = ks ++ toks u rest) /\
  (forall ts, exists N, forall n, (N <= n)%nat -> parse_expr n (ks ++ ts) = (PSexp x, ts)) /\
  match ks with [] => False | k :: _ => begins k end.

Lemma toks_space u l : toks u (32 :: l) = toks u l.
Proof. rewrite toks_eq, (toks_eq u l). reflexivity. Qed.
Lemma toks_step u c l k r : skip_blank u false (c :: l) = c :: l -> read_token u c l = Some (k, r) -> toks u (c :: l) = k :: toks u r.
Proof. intros S E. rewrite toks_eq, S, E. reflexivity. Qed.
Lemma toks_one u c k l : 33 <= c < 127 -> c <> 59 -> read_token u c l = Some (k, l) -> toks u (c :: l) = k :: toks u l.
Proof. intros H N E. rewrite toks_eq, skip_none by assumption. rewrite E. reflexivity. Qed.
Ltac one_token := apply toks_one; [lia|lia|];
  unfold read_token; cbv zeta; cbn [Z.eqb Pos.eqb andb]; change (rune_number _ 40) with false; reflexivity.
Lemma toks_open u l : toks u (40 :: l) = KLparen :: toks u l.
Proof. apply toks_one; [lia|lia|reflexivity]. Qed.
Lemma toks_close u l : toks u (41 :: l) = KRparen :: toks u l.
Proof. apply toks_one; [lia|lia|reflexivity]. Qed.
Lemma toks_obracket u l : toks u (91 :: l) = KLbracket :: toks u l.
Proof. apply toks_one; [lia|lia|reflexivity]. Qed.
Lemma toks_cbracket u l : toks u (93 :: l) = KRbracket :: toks u l.
Proof. apply toks_one; [lia|lia|reflexivity]. Qed.
Lemma toks_quote u l : toks u (39 :: l) = KQuote :: toks u l.
Proof. apply toks_one; [lia|lia|reflexivity]. Qed.
Lemma toks_period u l : toks u (46 :: 32 :: l) = KPeriod :: toks u (32 :: l).
Proof. apply toks_one; [lia|lia|reflexivity]. Qed.

(** One token is enough for an atom. *)
Lemma reads_atom u t x rs k : text_of t rs -> (forall rest, stop_runes rest -> toks u (rs ++ rest) = k :: toks u rest) ->
  (forall f ts, parse_expr (S f) (k :: ts) = (PSexp x, ts)) -> begins k -> reads u t x.
Proof.
  intros T K P B. exists rs, [k]. split; [exact T|]. split; [exact K|]. split; [|exact B].
  intros ts. exists 1%nat. intros n L. destruct n as [|n]; [lia|]. apply P.
Qed.
Lemma digits_bytes n : 0 <= n -> all_bytes (fun b => 48 <= b <= 57) (digits 10 n).
Proof.
  intros H. pose proof (NumText.digits_text 10 n ltac:(lia) H) as T. unfold NumText.digit_text in T. unfold all_bytes. eapply List.Forall_impl; [|exact T].
  cbn. intros b (d & D & ->). rewrite NumText.digit_byte by lia. destruct (Z.ltb_spec d 10); lia.
Qed.
Lemma reads_int u z : int64 z -> reads u (string_of_Z z) (SInt z).
Proof.
  intros B. unfold string_of_Z.
  assert (P : forall f ts, parse_expr (S f) (KNumber (string_of_Z_base 10 z) :: ts) = (PSexp (SInt z), ts)).
  { intros f ts. cbn [parse_expr]. unfold make_integer. rewrite NumText.sscanf_text by (lia || apply in_int64_true, B). reflexivity. }
  apply (reads_atom u _ _ (bytes_of_string (string_of_Z_base 10 z)) (KNumber (string_of_Z_base 10 z))).
  - apply text_ascii, NumText.string_of_Z_ascii. lia.
  - intros rest S. rewrite NumText.string_of_Z_base_eq. destruct (Z.ltb_spec z 0).
    + cbn [bytes_of_string app]. change (byte_of "-") with 45. pose proof (digits_bytes (- z) ltac:(lia)) as D. pose proof (NumText.digits_nonempty 10 (- z)) as N.
      pose proof (read_number_minus u _ rest D S) as R. change ("-" +++ digits 10 (- z)) with (String "-" (digits 10 (- z))) in R.
      unfold all_bytes in D. destruct (digits 10 (- z)) as [|c t]; [congruence|]. cbn [bytes_of_string app] in *. apply Forall_cons_1 in D as [D1 D2].
      apply toks_step; [apply skip_none; lia|]. etransitivity; [apply read_token_minus; exact (ascii_number u _ D1)|]. exact (f_equal Some R).
    + pose proof (digits_bytes z ltac:(lia)) as D. pose proof (NumText.digits_nonempty 10 z) as N. pose proof (read_number_digits u _ rest D N S) as R.
      unfold all_bytes in D. destruct (digits 10 z) as [|c t]; [congruence|]. cbn [bytes_of_string app] in *. apply Forall_cons_1 in D as [D1 D2]. apply toks_step; [apply skip_none; lia|]. etransitivity; [apply read_token_number; [exact D1|]|exact (f_equal Some R)]. destruct (bytes_of_string t) as [|b l]; cbn [app head_or0].
      * destruct rest as [|d rest]; [discriminate|]. apply (stop_facts u d S).
      * apply Forall_cons_1 in D2 as [D2 _]. lia.
  - exact P.
  - repeat split; discriminate.
Qed.
Lemma reads_bool u (b : bool) : reads u (if b then "#t" else "#f") (SBool b).
Proof.
  destruct b.
  - apply (reads_atom u _ _ _ KTrue (text_ascii "#t" eq_refl)); [|intros; reflexivity|repeat split; discriminate]. intros rest S. apply toks_step; reflexivity.
  - apply (reads_atom u _ _ _ KFalse (text_ascii "#f" eq_refl)); [|intros; reflexivity|repeat split; discriminate]. intros rest S. apply toks_step; reflexivity.
Qed.
Lemma string_runes_plain c l : c <> 34 -> c <> 92 -> string_runes (c :: l) = match string_runes l with Some (a, r) => Some (c :: a, r) | None => None end.
Proof. intros N1 N2. cbn [string_runes]. destruct c as [|p|p]; try reflexivity. do 7 (try destruct p as [p|p|]; try reflexivity); congruence. Qed.
Lemma string_runes_escape rs rest : ~ In 92 rs -> string_runes (escape_runes rs ++ 34 :: rest) = Some (rs, rest).
Proof.
  induction rs as [|c rs IH]; intros N; [reflexivity|]. cbn [escape_runes]. cbn in N. destruct (Z.eqb_spec c 34) as [->|N1].
  - cbn [app string_runes]. rewrite IH by tauto. reflexivity.
  - cbn [app]. rewrite string_runes_plain by tauto. rewrite IH by tauto. reflexivity.
Qed.
Lemma escape_scalar rs : Forall scalar rs -> Forall scalar (escape_runes rs).
Proof. intros F. induction F as [|c rs H F IH]; cbn; [constructor|]. destruct (c =? 34); [constructor; [unfold scalar; lia|]|]; constructor; auto. Qed.
Lemma quoted_text t rs : text_of t rs -> text_of (quoted t) (34 :: escape_runes rs ++ [34]).
Proof.
  intros [-> F]. unfold quoted, escape_quotes. rewrite <- (NumText.str_app_nil_r (string_of_runes rs)) at 1. rewrite runes_app by exact F. cbn [runes_of_string decode_go bytes_of_string].
  rewrite app_nil_r. change (34 :: escape_runes rs ++ [34]) with ([34] ++ (escape_runes rs ++ [34])).
  apply (text_app """" _ [34]); [apply (text_ascii """"); reflexivity|]. apply text_app; [split; [reflexivity|apply escape_scalar, F]|apply (text_ascii """"); reflexivity].
Qed.
Lemma reads_str u t rs : text_of t rs -> ~ In 92 rs -> reads u (quoted t) (SStr t).
Proof.
  intros T N. apply (reads_atom u _ _ _ (KString t) (quoted_text t rs T)).
  - intros rest S. rewrite toks_eq. cbn [app]. rewrite skip_none by lia. unfold read_token. cbv zeta. cbn [Z.eqb Pos.eqb andb]. change (rune_number u 34) with false. cbn match.
    rewrite <- app_assoc. cbn [app]. rewrite string_runes_escape by exact N. destruct T as [-> _]. reflexivity.
  - intros; reflexivity.
  - repeat split; discriminate.
Qed.
Lemma symbol_char_facts u c : symbol_char u c = true -> rune_space u c = false /\ c <> 59 /\ c <> 34 /\ c <> 39 /\ c <> 96 /\ c <> 44 /\ c <> 40 /\ c <> 41 /\ c <> 91 /\ c <> 93 /\ c <> 123 /\ c <> 125.
Proof.
  unfold symbol_char. intros H. apply andb_true_iff in H as [H D]. apply andb_true_iff in H as [_ S]. apply negb_true_iff in D, S. split; [exact S|]. clear S.
  repeat apply conj; intros ->; discriminate D.
Qed.
Lemma read_token_symbol u c l : symbol_char u c = true -> rune_number u c = false -> (c = 45 -> rune_number u (head_or0 l) = false) -> (c = 46 -> head_or0 l <> 32) ->
  read_token u c l = let '(a, r) := span_runes (symbol_char u) (c :: l) in Some (KSymbol (string_of_runes a), r).
Proof.
  intros Fc Num Minus Dot. destruct (symbol_char_facts u c Fc) as (E & E1 & E2 & E3 & E4 & E5 & E6 & E7 & E8 & E9 & E10 & E11).
  unfold read_token. cbv zeta. rewrite (proj2 (Z.eqb_neq c 48)) by (intros ->; discriminate Num). cbn [andb]. rewrite Num.
  assert (M : (c =? 45) && rune_number u (head_or0 l) = false) by (destruct (Z.eqb_spec c 45) as [C|]; [exact (Minus C)|reflexivity]).
  assert (M2 : (c =? 46) && (head_or0 l =? 32) = false) by (destruct (Z.eqb_spec c 46) as [C|]; [exact (proj2 (Z.eqb_neq _ _) (Dot C))|reflexivity]).
  destruct l as [|d l]; cbn [head_or0] in *; rewrite M, M2, (proj2 (Z.eqb_neq c 34) E2), (proj2 (Z.eqb_neq c 39) E3), (proj2 (Z.eqb_neq c 96) E4), (proj2 (Z.eqb_neq c 44) E5); cbn [andb];
  rewrite (proj2 (Z.eqb_neq c 40) E6), (proj2 (Z.eqb_neq c 41) E7), (proj2 (Z.eqb_neq c 91) E8), (proj2 (Z.eqb_neq c 93) E9), (proj2 (Z.eqb_neq c 123) E10), (proj2 (Z.eqb_neq c 125) E11), Fc; reflexivity.
Qed.
Lemma reads_sym u t : symbol_text u t -> reads u t (SSym t).
Proof.
  intros (c & rs & T & F & Dot & Num & Minus). apply (reads_atom u _ _ _ (KSymbol t) T).
  - intros rest S. assert (Sr : match rest with [] => True | d :: _ => symbol_char u d = false end) by (destruct rest; [exact I|apply (stop_facts u), S]).
    pose proof (span_all _ _ _ F Sr) as Sp. apply Forall_cons_1 in F as [Fc F]. destruct (symbol_char_facts u c Fc) as (E & E1 & _).
    cbn [app] in *. apply toks_step; [cbn [skip_blank]; rewrite E, (proj2 (Z.eqb_neq c 59) E1); reflexivity|].
    etransitivity; [apply read_token_symbol; [exact Fc|exact Num| |]|].
    + intros C. specialize (Minus C). destruct rs as [|d rs]; [|exact Minus]. destruct rest as [|d rest]; [reflexivity|]. apply (stop_facts u d S).
    + intros ->. destruct rs as [|d rs].
      * exfalso. apply Dot. destruct T as [-> _]. reflexivity.
      * cbn [app head_or0]. intros ->. apply Forall_cons_1 in F as [F _]. discriminate F.
    + unfold rune in *. rewrite Sp. destruct T as [-> _]. reflexivity.
  - intros; reflexivity.
  - repeat split; discriminate.
Qed.
Lemma reads_quote u t x : reads u t x -> reads u ("'" +++ t) (slist [SSym "quote"; x]).
Proof.
  intros (rs & ks & T & K & P & B). exists ([39] ++ rs), (KQuote :: ks). split; [apply (text_app "'" t [39] rs); [apply (text_ascii "'"); reflexivity|exact T]|].
  split. { intros rest S. cbn [app]. rewrite toks_quote, K by exact S. reflexivity. }
  split; [|repeat split; discriminate]. intros ts. destruct (P ts) as [N H]. exists (S N). intros n L. destruct n as [|n]; [lia|]. cbn [app parse_expr]. rewrite H by lia. reflexivity.
Qed.

(** Elements separated by blanks. *)
Lemma reads_join u ts xs : Forall2 (reads u) ts xs -> exists rs ks, text_of (str_join " " ts) rs /\
  (forall rest, stop_runes rest -> toks u (rs ++ rest) = List.concat ks ++ toks u rest) /\
  Forall2 (fun k x => (forall ts, exists N, forall n, (N <= n)%nat -> parse_expr n (k ++ ts) = (PSexp x, ts)) /\ match k with [] => False | k :: _ => begins k end) ks xs.
Proof.
  intros F. induction F as [|t x ts xs R F IH].
  - exists [], []. split; [split; [reflexivity|constructor]|]. split; [reflexivity|constructor].
  - destruct R as (rs & ks & T & K & P & B). destruct IH as (rs' & kss & T' & K' & P'). destruct F as [|t2 x2 ts xs R2 F].
    + exists rs, [ks]. inversion P'; subst. split; [exact T|]. split; [|repeat constructor; auto]. intros rest S. cbn [List.concat]. rewrite app_nil_r. apply K, S.
    + exists (rs ++ [32] ++ rs'), (ks :: kss). split; [change (str_join " " (t :: t2 :: ts)) with (t +++ " " +++ str_join " " (t2 :: ts)); repeat apply text_app; [exact T|apply (text_ascii " "); reflexivity|exact T']|].
      split; [|constructor; auto]. intros rest S. cbn [List.concat]. rewrite <- !app_assoc. cbn [app]. rewrite K, toks_space, K' by (exact S || (cbn; auto)). reflexivity.
Qed.
Lemma stop_close l : stop_runes (41 :: l).
Proof. cbn. unfold stop_rune. cbn. auto. Qed.
Lemma stop_space l : stop_runes (32 :: l).
Proof. cbn. unfold stop_rune. cbn. auto. Qed.
Lemma stop_bracket l : stop_runes (93 :: l).
Proof. cbn. unfold stop_rune. cbn. auto 10. Qed.
Lemma parse_cons_step n ts cells : match ts with k :: _ => begins k | [] => False end -> parse_cons (S n) ts cells =
  match parse_expr n ts with
  | (PSexp x, r) => parse_cons n r (x :: cells)
  | (PEof, r) => (PErr "Unexpected EOF (expected closing parenthesis)", r)
  | (PErr m0, r) => (PErr (eof_message "Unexpected EOF (expected closing parenthesis)" m0), r)
  end.
Proof. intros B. destruct ts as [|k ts]; [contradiction|]. destruct B as (B1 & B2 & B3). destruct k; try congruence; reflexivity. Qed.
Definition element (k : list token) (x : sexp) : Prop :=
  (forall ts, exists N, forall n, (N <= n)%nat -> parse_expr n (k ++ ts) = (PSexp x, ts)) /\ match k with [] => False | k :: _ => begins k end.
Lemma parse_elements ks xs : Forall2 element ks xs -> forall ts cells P, (exists N, forall n, (N <= n)%nat -> parse_cons n ts (rev xs ++ cells) = P) ->
  exists N, forall n, (N <= n)%nat -> parse_cons n (List.concat ks ++ ts) cells = P.
Proof.
  intros F. induction F as [|k x ks xs [Pk B] F IH]; intros ts cells P H; [exact H|].
  cbn [rev] in H. rewrite <- app_assoc in H. cbn [app] in H. destruct (IH ts (x :: cells) P H) as [N1 H1]. cbn [List.concat]. destruct (Pk (List.concat ks ++ ts)) as [N2 H2].
  exists (S (N1 + N2)). intros n L. destruct n as [|n]; [lia|]. rewrite <- app_assoc. rewrite parse_cons_step by (destruct k; [contradiction|exact B]). rewrite H2 by lia. apply H1. lia.
Qed.
Lemma reads_list u ts xs : Forall2 (reads u) ts xs -> reads u ("(" +++ str_join " " ts +++ ")") (slist xs).
Proof.
  intros F. destruct (reads_join u ts xs F) as (rs & ks & T & K & P). exists ([40] ++ rs ++ [41]), (KLparen :: List.concat ks ++ [KRparen]).
  split; [apply text_app; [apply (text_ascii "("); reflexivity|]; apply text_app; [exact T|apply (text_ascii ")"); reflexivity]|].
  split. { intros rest S. cbn [app]. rewrite toks_open, <- app_assoc. cbn [app]. rewrite K by apply stop_close. rewrite toks_close, <- app_assoc. reflexivity. }
  split; [|repeat split; discriminate]. intros tl. destruct (parse_elements ks xs P (KRparen :: tl) [] (PSexp (slist xs), tl)) as [N H].
  { exists 1%nat. intros n L. destruct n as [|n]; [lia|]. cbn [parse_cons]. rewrite app_nil_r, rev_involutive. reflexivity. }
  exists (S N). intros n L. destruct n as [|n]; [lia|]. cbn [app parse_expr]. rewrite <- app_assoc. apply H. lia.
Qed.
Lemma reads_dot u ts xs t x : Forall2 (reads u) ts xs -> reads u t x -> reads u ("(" +++ str_join " " ts +++ " . " +++ t +++ ")") (slist_tail xs x).
Proof.
  intros F (rs2 & ks2 & T2 & K2 & P2 & B2). destruct (reads_join u ts xs F) as (rs & ks & T & K & P). exists ([40] ++ rs ++ [32; 46; 32] ++ rs2 ++ [41]), (KLparen :: List.concat ks ++ KPeriod :: ks2 ++ [KRparen]).
  split. { repeat apply text_app; [apply (text_ascii "("); reflexivity|exact T|apply (text_ascii " . "); reflexivity|exact T2|apply (text_ascii ")"); reflexivity]. }
  split. { intros rest S. cbn [app]. rewrite toks_open, <- app_assoc. cbn [app]. rewrite K by apply stop_space. rewrite toks_space, toks_period, toks_space, <- !app_assoc. cbn [app]. rewrite K2 by apply stop_close. rewrite toks_close, <- !app_assoc. reflexivity. }
  split; [|repeat split; discriminate]. intros tl. destruct (P2 (KRparen :: tl)) as [N2 H2].
  destruct (parse_elements ks xs P (KPeriod :: ks2 ++ KRparen :: tl) [] (PSexp (slist_tail xs x), tl)) as [N H].
  { exists (S N2). intros n L. destruct n as [|n]; [lia|]. cbn [parse_cons]. rewrite H2 by lia. rewrite app_nil_r, rev_involutive. reflexivity. }
  exists (S N). intros n L. destruct n as [|n]; [lia|]. cbn [app parse_expr]. rewrite <- !app_assoc. cbn [app]. rewrite <- app_assoc. apply H. lia.
Qed.
Lemma parse_bytes_step n ts cells : match ts with k :: _ => begins k | [] => False end -> parse_bytes (S n) ts cells =
  match parse_expr n ts with
  | (PSexp x, r) => match byte_element x with Some m => (PErr m, r) | None => parse_bytes n r (x :: cells) end
  | (PEof, r) => (PErr "Unexpected EOF (expected closing bracket)", r)
  | (PErr m0, r) => (PErr (eof_message "Unexpected EOF (expected closing bracket)" m0), r)
  end.
Proof. intros B. destruct ts as [|k ts]; [contradiction|]. destruct B as (B1 & B2 & B3). destruct k; try congruence; reflexivity. Qed.
Lemma parse_byte_elements ks bs : Forall2 element ks (map SInt bs) -> Forall (fun b => 0 <= b < 256) bs -> forall ts cells P,
  (exists N, forall n, (N <= n)%nat -> parse_bytes n ts (rev (map SInt bs) ++ cells) = P) ->
  exists N, forall n, (N <= n)%nat -> parse_bytes n (List.concat ks ++ ts) cells = P.
Proof.
  intros F. remember (map SInt bs) as xs eqn:E. revert bs E. induction F as [|k x ks xs [Pk B] F IH]; intros bs E Fb ts cells P H; [exact H|].
  destruct bs as [|b bs]; [discriminate|]. injection E as -> E. apply Forall_cons_1 in Fb as [Hb Fb].
  cbn [rev] in H. rewrite <- app_assoc in H. cbn [app] in H. destruct (IH bs E Fb ts (SInt b :: cells) P H) as [N1 H1]. cbn [List.concat]. destruct (Pk (List.concat ks ++ ts)) as [N2 H2].
  exists (S (N1 + N2)). intros n L. destruct n as [|n]; [lia|]. rewrite <- app_assoc. rewrite parse_bytes_step by (destruct k; [contradiction|exact B]). rewrite H2 by lia.
  cbn [byte_element]. rewrite (proj2 (Z.ltb_ge 255 b)) by lia. apply H1. lia.
Qed.
Lemma all_ints_bytes bs : Forall (fun b => 0 <= b < 256) bs -> all_ints (map SInt bs) = Some bs.
Proof. intros F. induction F as [|b bs H F IH]; cbn [map all_ints]; [reflexivity|]. rewrite IH, Z.mod_small by lia. reflexivity. Qed.
Lemma reads_bytes u bs : Forall (fun b => 0 <= b < 256) bs -> reads u ("[" +++ str_join " " (map string_of_Z bs) +++ "]") (SBytes bs).
Proof.
  intros Fb. assert (F : Forall2 (reads u) (map string_of_Z bs) (map SInt bs)).
  { induction Fb as [|b bs H F IH]; cbn [map]; constructor; [|exact IH]. apply reads_int. unfold int64. lia. }
  destruct (reads_join u _ _ F) as (rs & ks & T & K & P). exists ([91] ++ rs ++ [93]), (KLbracket :: List.concat ks ++ [KRbracket]).
  split; [apply text_app; [apply (text_ascii "["); reflexivity|]; apply text_app; [exact T|apply (text_ascii "]"); reflexivity]|].
  split. { intros rest S. cbn [app]. rewrite toks_obracket, <- app_assoc. cbn [app]. rewrite K by apply stop_bracket. rewrite toks_cbracket, <- app_assoc. reflexivity. }
  split; [|repeat split; discriminate]. intros tl. destruct (parse_byte_elements ks bs P Fb (KRbracket :: tl) [] (PSexp (SBytes bs), tl)) as [N H].
  { exists 1%nat. intros n L. destruct n as [|n]; [lia|]. cbn [parse_bytes]. rewrite app_nil_r, rev_involutive. unfold bytearray_sexp. rewrite all_ints_bytes by exact Fb. reflexivity. }
  exists (S N). intros n L. destruct n as [|n]; [lia|]. cbn [app]. rewrite <- app_assoc. cbn [app].
  destruct bs as [|b bs]; cbn [map] in P; inversion P as [|k x ks' xs [Pk B] P']; subst.
  - reflexivity.
  - cbn [List.concat] in *. destruct k as [|k0 k]; [contradiction|]. cbn [app] in *. destruct B as (B1 & B2 & B3). destruct k0; try congruence; exact (H n ltac:(lia)).
Qed.
Fixpoint sexp_of (d : tree) : sexp :=
  match d with
  | XInt z => SInt z
  | XBool b => SBool b
  | XStr t => SStr t
  | XSym t => SSym t
  | XBytes bs => SBytes bs
  | XList ds => slist (map sexp_of ds)
  | XDot ds y => slist_tail (map sexp_of ds) (sexp_of y)
  end.
Lemma reads_tree u d : readable u d -> reads u (render d) (sexp_of d).
Proof.
  induction d as [z|b|t|t|bs|ds IH|ds y IH IHy] using tree_ind2; intros H; cbn [render sexp_of].
  - inversion H; subst. apply reads_int. assumption.
  - apply reads_bool.
  - inversion H; subst. eapply reads_str; eassumption.
  - inversion H; subst. apply reads_sym. assumption.
  - inversion H; subst. apply reads_bytes. assumption.
  - inversion H as [| | | | |? F Q|]; subst. assert (F2 : Forall2 (reads u) (map render ds) (map sexp_of ds)).
    { clear H Q. induction ds as [|d ds IHds]; cbn [map]; constructor; apply Forall_cons_1 in IH as [I1 I2]; apply Forall_cons_1 in F as [F1 F2]; auto. }
    destruct ds as [|d ds]; [exact (reads_list u [] [] (Forall2_nil _))|]. destruct (is_quote d) eqn:Eq; [|apply reads_list, F2].
    destruct d as [z|b|t|t|bs|ds'|ds' y']; try discriminate Eq. cbn in Eq. apply str_eqb_eq in Eq. subst t. specialize (Q ds eq_refl).
    destruct ds as [|q [|? ?]]; try discriminate Q. cbn [map]. apply reads_quote. inversion F2 as [|? ? ? ? _ F3]; subst. inversion F3; subst. assumption.
  - inversion H as [| | | | | |? ? N F A R]; subst. apply reads_dot; [|exact (IHy R)].
    clear H N. induction ds as [|d ds IHds]; cbn [map]; constructor; apply Forall_cons_1 in IH as [I1 I2]; apply Forall_cons_1 in F as [F1 F2]; auto.
Qed.
(** A text that reads as [x] is parsed to [x]. *)
Lemma reads_parse u t x : reads u t x -> parse u t = PSexp x.
Proof.
  intros (rs & ks & T & K & P & _). unfold parse. rewrite tokenize_toks. destruct T as [-> F]. rewrite <- (NumText.str_app_nil_r (string_of_runes rs)), runes_app by exact F.
  rewrite K by exact I. destruct (P (toks u (runes_of_string ""))) as [N H].
  rewrite <- (parse_enough _ (N + parse_fuel (ks ++ toks u (runes_of_string "")))) by lia. rewrite H by lia. reflexivity.
Qed.

(** *** The value that is built *)
Lemma holds_grows d : forall s s' v, grows s s' -> holds s v d -> holds s' v d.
Proof.
  induction d as [z|b|t|t|bs|ds IH|ds y IH IHy] using tree_ind2; intros s s' v G H.
  - inversion H; constructor.
  - inversion H; constructor.
  - inversion H; subst. constructor. apply (g_strs _ _ G). assumption.
  - inversion H; constructor.
  - inversion H; subst. constructor. apply (g_bytes _ _ G). assumption.
  - inversion H as [| | | | |? xs ? L F| |]; subst. econstructor; [exact (is_list_grows _ _ _ _ G L)|].
    clear H L. revert IH. induction F as [|x q xs ds E F IHF]; intros IH; constructor; apply Forall_cons_1 in IH as [I1 I2]; eauto.
  - revert v H. induction ds as [|d ds IHds]; intros v H; [inversion H|]. apply Forall_cons_1 in IH as [I1 I2].
    inversion H as [| | | | | |l a e x y' E Ha Hd|l a e x xs y' E Ha Hd]; subst.
    + econstructor; [apply (g_cells _ _ G), E|eauto|eauto].
    + econstructor; [apply (g_cells _ _ G), E|eauto|eauto].
Qed.
Definition builds (d : tree) : Prop := forall s, wf_state s -> exists v s', runs denote (alloc_sexp (sexp_of d)) s (Done v) s' /\ grows s s' /\ wf_state s' /\ holds s' v d /\ v <> VNil.
Lemma build_tail ds : Forall builds ds -> forall s, wf_state s -> exists v s', runs denote (alloc_sexp (slist_tail (map sexp_of ds) SEnd)) s (Done v) s' /\ grows s s' /\ wf_state s' /\
  (exists vs, is_list s' v vs /\ Forall2 (holds s') vs ds) /\ (ds <> [] -> v <> VNil).
Proof.
  intros F. induction F as [|d ds B F IH]; intros s W; cbn [map slist_tail alloc_sexp].
  - eexists _, _. split; [apply runs_ret|]. split; [apply grows_refl|]. split; [exact W|]. split; [exists []; split; constructor|congruence].
  - destruct (B s W) as (a & s1 & R1 & G1 & W1 & H1 & N1). destruct (IH s1 W1) as (w & s2 & R2 & G2 & W2 & (vs & L & Fv) & _).
    pose proof (grows_new_cell s2 a w W2) as G3. eexists _, _. split; [eapply runs_bind; [exact R1|]; eapply runs_bind; [exact R2|]; apply runs_cons|].
    split; [eapply grows_trans; [exact G1|]; eapply grows_trans; [exact G2|exact G3]|]. split; [eapply wf_runs; [exact W2|apply (runs_cons TCons)]|]. split; [|discriminate].
    exists (a :: vs). split.
    + apply (il_cons _ _ _ w); [apply lookup_insert|left; exact N1|]. exact (is_list_grows _ _ _ _ G3 L).
    + constructor; [eapply holds_grows; [exact G3|]; eapply holds_grows; [exact G2|exact H1]|]. eapply Forall2_impl; [exact Fv|]. intros x d' Hx. exact (holds_grows _ _ _ _ G3 Hx).
Qed.
Lemma build_dot y : builds y -> forall ds, ds <> [] -> Forall builds ds -> builds (XDot ds y).
Proof.
  intros By ds N F. induction F as [|d ds B F IH]; [congruence|]. intros s W. cbn [sexp_of map slist_tail alloc_sexp]. destruct (B s W) as (a & s1 & R1 & G1 & W1 & H1 & N1).
  destruct ds as [|d2 ds].
  - destruct (By s1 W1) as (w & s2 & R2 & G2 & W2 & H2 & _). pose proof (grows_new_cell s2 a w W2) as G3.
    eexists _, _. split; [eapply runs_bind; [exact R1|]; eapply runs_bind; [exact R2|]; apply runs_cons|].
    split; [eapply grows_trans; [exact G1|]; eapply grows_trans; [exact G2|exact G3]|]. split; [eapply wf_runs; [exact W2|apply (runs_cons TCons)]|]. split; [|discriminate].
    eapply holds_dot; [apply lookup_insert|eapply holds_grows; [exact G3|]; eapply holds_grows; [exact G2|exact H1]|exact (holds_grows _ _ _ _ G3 H2)].
  - destruct (IH ltac:(discriminate) s1 W1) as (w & s2 & R2 & G2 & W2 & H2 & _). pose proof (grows_new_cell s2 a w W2) as G3.
    eexists _, _. split; [eapply runs_bind; [exact R1|]; eapply runs_bind; [exact R2|]; apply runs_cons|].
    split; [eapply grows_trans; [exact G1|]; eapply grows_trans; [exact G2|exact G3]|]. split; [eapply wf_runs; [exact W2|apply (runs_cons TCons)]|]. split; [|discriminate].
    eapply holds_dots; [apply lookup_insert|eapply holds_grows; [exact G3|]; eapply holds_grows; [exact G2|exact H1]|exact (holds_grows _ _ _ _ G3 H2)].
Qed.
Lemma build_tree u d : readable u d -> builds d.
Proof.
  induction d as [z|b|t|t|bs|ds IH|ds y IH IHy] using tree_ind2; intros H; try intros s W; cbn [sexp_of alloc_sexp].
  - eexists _, _. split; [apply runs_ret|]. split; [apply grows_refl|]. split; [exact W|]. split; [constructor|discriminate].
  - eexists _, _. split; [apply runs_ret|]. split; [apply grows_refl|]. split; [exact W|]. split; [constructor|discriminate].
  - eexists _, _. split; [apply runs_new_str|]. split; [apply grows_new_str, W|]. split; [eapply wf_runs; [exact W|apply runs_new_str]|]. split; [|discriminate]. constructor. apply lookup_insert.
  - eexists _, _. split; [apply runs_ret|]. split; [apply grows_refl|]. split; [exact W|]. split; [constructor|discriminate].
  - assert (R : runs denote (b <- do_op (OBytesNew bs) ;; Ret (VBytes b)) s (Done (VBytes (s_next s))) (set_bytes (<[s_next s := bs]> (s_bytes s)) (bump s))) by (eapply runs_bind; [apply runs_op; reflexivity|apply runs_ret]).
    eexists _, _. split; [exact R|]. split; [apply bytes_fresh, W|]. split; [exact (wf_runs _ _ _ _ _ W R)|]. split; [|discriminate]. constructor. apply lookup_insert.
  - inversion H as [| | | | |? F Q|]; subst. assert (B : Forall builds ds). { clear H Q W s. induction ds as [|d ds IHds]; constructor; apply Forall_cons_1 in IH as [I1 I2]; apply Forall_cons_1 in F as [F1 F2]; auto. }
    destruct ds as [|d ds].
    + cbn [map slist alloc_sexp]. eexists _, _. split; [apply runs_cons|]. split; [apply grows_new_cell, W|]. split; [eapply wf_runs; [exact W|apply (runs_cons TCons)]|]. split; [|discriminate].
      apply (holds_list _ _ []); [|constructor]. apply il_empty. apply lookup_insert.
    + destruct (build_tail (d :: ds) B s W) as (v & s' & R & G & W' & (vs & L & Fv) & N). exists v, s'. split; [exact R|]. split; [exact G|]. split; [exact W'|]. split; [|apply N; discriminate]. econstructor; eassumption.
  - inversion H as [| | | | | |? ? N F A R]; subst. apply (build_dot y (IHy R) ds N); [|exact W]. clear H N. induction ds as [|d ds IHds]; constructor; apply Forall_cons_1 in IH as [I1 I2]; apply Forall_cons_1 in F as [F1 F2]; auto.
Qed.
Lemma round_trip u d v s : u = s_uni s -> readable u d -> holds s v d -> exists t, prints v s t /\
  forall w env s1, wf_state s1 -> s_uni s1 = u -> is_str s1 w t -> exists v' s', applies "parse" [w] env s1 (Done (Ok v')) s' /\ grows s1 s' /\ holds s' v' d.
Proof.
  intros -> R H. exists (render d). split; [apply run_prints; [eapply readable_dots, R|exact H]|].
  intros w env s1 W U Hs. pose proof (run_parse w (render d) env s1 W Hs) as P. rewrite U, (reads_parse _ _ _ (reads_tree _ _ R)) in P. destruct P as (r & s' & A & P & G).
  destruct (build_tree _ d R (entering "parse" env s1) (wf_entering _ _ _ W)) as (v' & s'' & A' & _ & _ & H' & _).
  destruct (runs_det _ _ _ _ _ _ _ _ A A') as [E <-]. injection E as <-. eauto.
Qed.
(** A backslash is lost. *)
Lemma string_runes_lost rs : forall n a r, (length rs <= n)%nat -> string_runes (escape_runes rs ++ [34]) = Some (a, r) -> (length a <= length rs)%nat /\ (In 92 rs -> (length a < length rs)%nat).
Proof.
  intros n. revert rs. induction n as [|n IH]; intros rs a r L H.
  - destruct rs; [|cbn in L; lia]. cbn in H. injection H as <- <-. cbn. split; [lia|intros []].
  - destruct rs as [|c rs]; [cbn in H; injection H as <- <-; cbn; split; [lia|intros []]|]. cbn [length] in *. cbn [escape_runes] in H.
    destruct (Z.eqb_spec c 34) as [->|N1].
    + cbn [app string_runes] in H. destruct (string_runes (escape_runes rs ++ [34])) as [[a' r']|] eqn:Q; [|discriminate]. injection H as <- <-. destruct (IH rs a' r' ltac:(lia) Q) as [H1 H2]. cbn [length In]. split; [lia|]. intros [C|C]; [discriminate|]. specialize (H2 C). lia.
    + destruct (Z.eq_dec c 92) as [->|N2].
      * cbn [app] in H. destruct rs as [|d rs]; [discriminate H|]. cbn [escape_runes length] in *. destruct (Z.eqb_spec d 34) as [->|N3].
        { cbn [app string_runes] in H. injection H as <- _. cbn. lia. }
        cbn [app string_runes] in H. destruct (string_runes (escape_runes rs ++ [34])) as [[a' r']|] eqn:Q; [|discriminate]. injection H as <- <-. destruct (IH rs a' r' ltac:(lia) Q) as [H1 _]. cbn [length]. lia.
      * cbn [app] in H. rewrite string_runes_plain in H by assumption. destruct (string_runes (escape_runes rs ++ [34])) as [[a' r']|] eqn:Q; [|discriminate]. injection H as <- <-. destruct (IH rs a' r' ltac:(lia) Q) as [H1 H2]. cbn [length In]. split; [lia|]. intros [C|C]; [congruence|]. specialize (H2 C). lia.
Qed.
(** *** The read value is equal? to the printed one *)
Fixpoint datum_of (d : tree) : datum :=
  match d with
  | XInt z => DInt z
  | XBool b => DBool b
  | XStr t => DStr t
  | XSym t => DSym t
  | XBytes bs => DBytes bs
  | XList ds | XDot ds _ => DList (map datum_of ds)
  end.
Lemma holds_rep d : undotted d -> forall s v, holds s v d -> rep s v (datum_of d).
Proof.
  induction d as [z|b|t|t|bs|ds IH|ds y IH IHy] using tree_ind2; intros U s v H; cbn [datum_of].
  - inversion H; constructor.
  - inversion H; constructor.
  - inversion H; subst. constructor. assumption.
  - inversion H; constructor.
  - inversion H; subst. constructor. assumption.
  - inversion H as [| | | | |? xs ? L F| |]; subst. inversion U as [| | | | |? Us]; subst. apply (rep_list _ _ xs); [exact L|]. clear H L U.
    induction F as [|x q xs ds E F IHF]; cbn [map]; constructor; apply Forall_cons_1 in IH as [I1 I2]; apply Forall_cons_1 in Us as [U1 U2]; auto.
  - inversion U.
Qed.
Lemma frameless_tree d : undotted d -> frameless (datum_of d).
Proof.
  induction d as [z|b|t|t|bs|ds IH|ds y IH IHy] using tree_ind2; intros U; cbn [datum_of]; try constructor.
  - inversion U as [| | | | |? Us]; subst. clear U. induction ds as [|x ds IHds]; cbn [map]; constructor; apply Forall_cons_1 in IH as [I1 I2]; apply Forall_cons_1 in Us as [U1 U2]; auto.
  - inversion U.
Qed.
Lemma round_trip_equal u d v s : u = s_uni s -> readable u d -> undotted d -> holds s v d -> exists t, prints v s t /\
  forall w env s1, grows s s1 -> wf_state s1 -> is_str s1 w t -> exists v' s', applies "parse" [w] env s1 (Done (Ok v')) s' /\
    applies "equal?" [v; v'] env s' (Done (Ok (VBool true))) (entering "equal?" env s').
Proof.
  intros U R D H. destruct (round_trip u d v s U R H) as (t & P & Q). exists t. split; [exact P|]. intros w env s1 G W Hs. assert (U1 : s_uni s1 = u) by (rewrite U; apply (g_uni _ _ G)).
  destruct (Q w env s1 W U1 Hs) as (v' & s' & A & G1 & H'). exists v', s'. split; [exact A|].
  destruct (run_equal_prim "equal?" v v' (datum_of d) (datum_of d) env s') as (b & E & B).
  - cbn. auto.
  - apply frameless_tree, D.
  - apply frameless_tree, D.
  - apply holds_rep; [exact D|]. eapply holds_grows; [|exact H]. eapply grows_trans; eassumption.
  - apply holds_rep; [exact D|exact H'].
  - rewrite (proj2 B eq_refl) in E. exact E.
Qed.
Lemma string_runes_scalar : forall n l a r, (length l <= n)%nat -> Forall scalar l -> string_runes l = Some (a, r) -> Forall scalar a.
Proof.
  induction n as [|n IH]; intros l a r L F H; destruct l as [|c l]; try discriminate; cbn in L; [lia|]. apply Forall_cons_1 in F as [Fc F].
  destruct (Z.eq_dec c 34) as [->|N1]; [cbn in H; injection H as <- <-; constructor|]. destruct (Z.eq_dec c 92) as [->|N2].
  - destruct l as [|d l]; [discriminate|]. cbn [string_runes] in H. destruct (string_runes l) as [[a' r']|] eqn:Q; [|discriminate]. injection H as <- <-. apply Forall_cons_1 in F as [Fd F]. cbn in L.
    constructor; [destruct (d =? 110); [unfold scalar; lia|exact Fd]|]. eapply IH; [|exact F|exact Q]. lia.
  - rewrite string_runes_plain in H by assumption. destruct (string_runes l) as [[a' r']|] eqn:Q; [|discriminate]. injection H as <- <-. constructor; [exact Fc|]. eapply IH; [|exact F|exact Q]. lia.
Qed.
Lemma backslash_lost u t rs : text_of t rs -> In 92 rs -> parse u (quoted t) = PEof \/ exists t', parse u (quoted t) = PSexp (SStr t') /\ t' <> t.
Proof.
  intros T B. destruct (quoted_text t rs T) as [E F]. unfold parse. rewrite tokenize_toks, E. rewrite <- (NumText.str_app_nil_r (string_of_runes _)), runes_app by exact F.
  change (runes_of_string "") with (@nil rune). rewrite app_nil_r, toks_eq, skip_none by lia. unfold read_token. cbv zeta. cbn [Z.eqb Pos.eqb andb]. change (rune_number u 34) with false. cbn match.
  apply Forall_cons_1 in F as [_ F]. destruct (string_runes (escape_runes rs ++ [34])) as [[a r]|] eqn:Q; [|left; reflexivity]. right. exists (string_of_runes a). split; [reflexivity|].
  destruct T as [-> Fr]. intros C. apply (f_equal runes_of_string) in C. pose proof (string_runes_scalar _ _ _ _ (le_n _) F Q) as Fa.
  rewrite <- (NumText.str_app_nil_r (string_of_runes a)), <- (NumText.str_app_nil_r (string_of_runes rs)), !runes_app in C by assumption. apply app_inv_tail in C.
  destruct (string_runes_lost rs _ a r (le_n _) Q) as [_ H]. specialize (H B). rewrite C in H. lia.
Qed.
Lemma backslash_trip v t rs s : is_str s v t -> text_of t rs -> In 92 rs -> exists p, prints v s p /\
  forall w env s1 v' s', wf_state s1 -> is_str s1 w p -> applies "parse" [w] env s1 (Done (Ok v')) s' -> ~ is_str s' v' t.
Proof.
  intros (l & -> & E) T B. exists (quoted t). split; [apply (run_prints s (XStr t)); [exact I|constructor; exact E]|].
  intros w env s1 v' s' W Hs A. pose proof (run_parse w (quoted t) env s1 W Hs) as P. destruct (backslash_lost (s_uni s1) t rs T B) as [Q|(t' & Q & N)]; rewrite Q in P.
  - destruct (applies_det _ _ _ _ _ _ _ _ A P) as [X _]. injection X as ->. intros (? & ? & _). discriminate.
  - destruct P as (r & s2 & R & P & _). destruct (applies_det _ _ _ _ _ _ _ _ A P) as [X ->]. injection X as ->. cbn [alloc_sexp] in R.
    destruct (runs_det _ _ _ _ _ _ _ _ R (runs_new_str t' _)) as [X ->]. injection X as ->. intros (l' & X & L). injection X as <-. cbn in L. rewrite lookup_insert in L. injection L as ->. congruence.
Qed.
(** *** Unclosed text given to the parse built-in *)
Lemma parse_unclosed v t env s : wf_state s -> is_str s v t -> tokenize (s_uni s) t <> [] ->
  (forall used r, used <> [] -> tokenize (s_uni s) t = used ++ r -> total closes used < total opens used) ->
  (forall pre k, tokenize (s_uni s) t = pre ++ [k] -> ~ dangling k) ->
  exists m, applies "parse" [v] env s (Done (Err m)) (entering "parse" env s).
Proof.
  intros W V N U D. pose proof (run_parse v t env s W V) as R. unfold parse in R. destruct (parse_tokens (tokenize (s_uni s) t)) as [[x| |m] r] eqn:Q; cbn [fst] in R.
  - destruct (read_balanced _ _ _ Q) as (used & E & Nu & B). specialize (U used r Nu E). lia.
  - destruct (read_eof _ _ Q) as [E|(pre & k & E & K)]; [contradiction|]. destruct (D pre k E K).
  - eauto.
Qed.
(** *** A sample *)
Lemma read_sample s : wf_state s -> exists s' v w q, wf_state s' /\ s_uni s' = s_uni s /\
  holds s' v (XList [XInt (-5); XList [XSym "quote"; XSym "a"]; XDot [XStr "x y"; XBool true] (XSym "tail"); XBytes [0; 255]; XList []]) /\
  is_str s' w "x\y" /\ is_str s' q "#x7f)".
Proof.
  intros W. assert (F : forall d, builds d -> forall s0, wf_state s0 -> exists v s', grows s0 s' /\ wf_state s' /\ holds s' v d).
  { intros d B s0 W0. destruct (B s0 W0) as (v & s' & _ & G & W' & H & _). eauto. }
  set (d := XList _). assert (R : readable (s_uni s) d).
  { assert (SY : forall c t, is_ascii (String c t) = true -> Forall (fun b => symbol_char (s_uni s) b = true) (bytes_of_string (String c t)) -> String c t <> "." -> rune_number (s_uni s) (byte_of c) = false -> byte_of c <> 45 -> symbol_text (s_uni s) (String c t)).
    { intros c t A Fc Nd Nn Nm. exists (byte_of c), (bytes_of_string t). split; [exact (text_ascii _ A)|]. split; [exact Fc|]. split; [exact Nd|]. split; [exact Nn|]. intros C. congruence. }
    assert (Sy : forall t, In t ["quote"; "a"; "tail"] -> readable (s_uni s) (XSym t)).
    { intros t I. cbn in I. repeat (destruct I as [<-|I]; [constructor; apply SY; [reflexivity|repeat constructor|discriminate|reflexivity|discriminate]|]). contradiction. }
    apply rd_list; [|discriminate]. apply List.Forall_cons; [apply rd_int; unfold int64; lia|]. apply List.Forall_cons.
    { apply rd_list; [|intros r E; injection E as <-; reflexivity]. apply List.Forall_cons; [apply Sy; cbn; auto|]. apply List.Forall_cons; [apply Sy; cbn; auto|constructor]. }
    apply List.Forall_cons.
    { apply rd_dot; [discriminate| |exact I|apply Sy; cbn; auto]. apply List.Forall_cons; [|apply List.Forall_cons; [constructor|constructor]].
      apply (rd_str _ _ (bytes_of_string "x y")); [apply text_ascii; reflexivity|]. cbn. intros [C|[C|[C|[]]]]; discriminate. }
    apply List.Forall_cons; [apply rd_bytes; repeat constructor; lia|]. apply List.Forall_cons; [|constructor]. apply rd_list; [constructor|discriminate]. }
  destruct (F d (build_tree _ d R) s W) as (v & s1 & G1 & W1 & H1).
  pose proof (grows_new_str s1 "x\y" W1) as G2. pose proof (new_str_is s1 "x\y") as I2. set (s2 := set_strs (<[s_next s1 := "x\y"]> (s_strs s1)) (bump s1)) in *. assert (W2 : wf_state s2) by (eapply wf_runs; [exact W1|apply runs_new_str]).
  pose proof (grows_new_str s2 "#x7f)" W2) as G3. pose proof (new_str_is s2 "#x7f)") as I3. set (s3 := set_strs (<[s_next s2 := "#x7f)"]> (s_strs s2)) (bump s2)) in *. assert (W3 : wf_state s3) by (eapply wf_runs; [exact W2|apply runs_new_str]).
  exists s3, v, (VStr (s_next s1)), (VStr (s_next s2)). split; [exact W3|]. split; [exact (eq_trans (g_uni _ _ G3) (eq_trans (g_uni _ _ G2) (g_uni _ _ G1)))|].
  split; [eapply holds_grows; [exact G3|]; eapply holds_grows; [exact G2|]; exact H1|]. split; [eapply is_str_grows; [exact G3|exact I2]|exact I3].
Qed.
Lemma token_takes u c t k r : read_token u c t = Some (k, r) -> exists used, c :: t = (c :: used) ++ r.
Proof. intros H. destruct (read_token_suffix u c t k r H) as [used ->]. exists used. reflexivity. Qed.
Lemma read_all_error u src : total closes (tokenize u src) < total opens (tokenize u src) ->
  (forall pre k, tokenize u src = pre ++ [k] -> ~ dangling k) -> exists xs m, parse_all u src = (xs, Some m).
Proof.
  intros L D. destruct (parse_all u src) as [xs [m|]] eqn:E; [eauto|]. destruct (read_all_unclosed u src xs E) as [H|(pre & k & H & K)]; [lia|]. destruct (D _ _ H K).
Qed.
