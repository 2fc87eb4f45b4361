(** Every function of the interpreter respects the access policies of Policy.v. *)
From Verif Require Export Policy.
From Verif Require Import Data.
Local Open Scope string_scope.
Local Open Scope list_scope.

Create HintDb safe discriminated.

(** *** Byte literals read by the parser hold bytes *)
Fixpoint sexp_ok (x : sexp) : Prop :=
  match x with SCell a d => sexp_ok a /\ sexp_ok d | SBytes l => Forall is_byte l | _ => True end.
Lemma slist_tail_ok l tl : Forall sexp_ok l -> sexp_ok tl -> sexp_ok (slist_tail l tl).
Proof. induction 1; cbn; auto. Qed.
Lemma slist_ok l : Forall sexp_ok l -> sexp_ok (slist l).
Proof. intros H. destruct l; [exact I|]. apply slist_tail_ok; [exact H|exact I]. Qed.
Lemma all_ints_bytes l : forall bs, all_ints l = Some bs -> Forall is_byte bs.
Proof.
  induction l as [|x l IH]; cbn; intros bs H; [injection H as <-; constructor|].
  destruct x; try discriminate. destruct (all_ints l) as [zs|]; [|discriminate]. injection H as <-.
  constructor; [|apply IH; reflexivity]. unfold is_byte. apply Z.mod_pos_bound. lia.
Qed.
Lemma bytearray_sexp_ok l : Forall sexp_ok l -> sexp_ok (bytearray_sexp l).
Proof.
  intros H. unfold bytearray_sexp. destruct (all_ints l) as [bs|] eqn:E; [exact (all_ints_bytes _ _ E)|].
  cbn. split; [exact I|]. split; [|exact I]. split; [exact I|apply slist_ok, H].
Qed.
Definition presult_ok (p : presult) : Prop := match p with PSexp x => sexp_ok x | _ => True end.
Lemma parse_ok fuel :
  (forall ts, presult_ok (fst (parse_expr fuel ts))) /\
  (forall ts cells, Forall sexp_ok cells -> presult_ok (fst (parse_cons fuel ts cells))) /\
  (forall ts cells, Forall sexp_ok cells -> presult_ok (fst (parse_bytes fuel ts cells))) /\
  (forall ts cells, Forall sexp_ok cells -> presult_ok (fst (parse_frame fuel ts cells))).
Proof.
  induction fuel as [|f (IHe & IHc & IHb & IHf)]; [repeat split; intros; exact I|].
  assert (Hw : forall n ts, presult_ok (fst (wrap_quote n (parse_expr f ts)))).
  { intros n ts. specialize (IHe ts). destruct (parse_expr f ts) as [[x| |m] r]; cbn in *; auto. }
  assert (Hi : forall b l, presult_ok (make_integer b l)) by (intros b l; unfold make_integer; destruct (sscanf_int b l); exact I).
  split; [|split; [|split]].
  - intros ts. destruct ts as [|k r]; [exact I|]. destruct k; cbn [parse_expr fst]; try exact I; try apply Hw; try apply Hi.
    + unfold make_float. destruct (parse_f32 _); exact I.
    + apply IHc. constructor.
    + destruct r as [|k r]; [apply IHb; constructor|]. destruct k; try (apply IHb; constructor). constructor.
    + destruct r as [|k r]; [apply IHf; constructor|]. destruct k; try (apply IHf; constructor). exact I.
  - intros ts cells Hc.
    assert (D : presult_ok (fst (match parse_expr f ts with
                | (PSexp x, r) => parse_cons f r (x :: cells)
                | (PEof, r) => (PErr "Unexpected EOF (expected closing parenthesis)", r)
                | (PErr m0, r) => (PErr (eof_message "Unexpected EOF (expected closing parenthesis)" m0), r) end))).
    { specialize (IHe ts). destruct (parse_expr f ts) as [[x| |m] r]; cbn in *; try exact I. apply IHc. constructor; assumption. }
    destruct ts as [|k r]; [exact D|]. destruct k; try exact D; clear D; cbn [parse_cons].
    + apply slist_ok, List.Forall_rev, Hc.
    + specialize (IHe r). destruct (parse_expr f r) as [[x| |m] r']; try exact I.
      destruct r' as [|k r']; [exact I|]. destruct k; try exact I. apply slist_tail_ok; [apply List.Forall_rev, Hc|exact IHe].
  - intros ts cells Hc.
    assert (D : presult_ok (fst (match parse_expr f ts with
                | (PSexp x, r) => match byte_element x with Some m => (PErr m, r) | None => parse_bytes f r (x :: cells) end
                | (PEof, r) => (PErr "Unexpected EOF (expected closing bracket)", r)
                | (PErr m0, r) => (PErr (eof_message "Unexpected EOF (expected closing bracket)" m0), r) end))).
    { specialize (IHe ts). destruct (parse_expr f ts) as [[x| |m] r]; cbn in *; try exact I.
      destruct (byte_element x); [exact I|]. apply IHb. constructor; assumption. }
    destruct ts as [|k r]; [exact D|]. destruct k; try exact D; clear D; cbn [parse_bytes].
    apply bytearray_sexp_ok, List.Forall_rev, Hc.
  - intros ts cells Hc.
    assert (D : presult_ok (fst (match parse_expr f ts with
                | (PSexp x, r) => parse_frame f r (x :: cells)
                | (PEof, r) => (PErr "Unexpected EOF (expected closing brace)", r)
                | (PErr m0, r) => (PErr (eof_message "Unexpected EOF (expected closing brace)" m0), r) end))).
    { specialize (IHe ts). destruct (parse_expr f ts) as [[x| |m] r]; cbn in *; try exact I. apply IHf. constructor; assumption. }
    destruct ts as [|k r]; [exact D|]. destruct k; try exact D; clear D; cbn [parse_frame].
    split; [exact I|apply slist_ok, List.Forall_rev, Hc].
Qed.

#[local] Set Default Proof Using "All".
Section Walk.
  Variables strict MP : Prop.
  Variables R A : loc -> Prop.
  Variable PB : loc -> option bind_rec.
  Variable NB : loc -> string -> option loc.
  Variables W WF : Prop.
  Variables excl forb : string -> Prop.
  Variable sandbox : Prop.
  Hypothesis RA : forall l, R l -> A l.
  (** Outside a sandbox, ancestors of environments can be got hold of too. *)
  Definition opened : Prop := ~ sandbox /\ forall l, A l -> R l.

  #[local] Instance i_loc : Fine loc := fine_loc R.
  #[local] Instance i_val : Fine val := fine_val strict R.
  #[local] Existing Instances fine_string fine_Z fine_nat fine_bool fine_unit fine_uni fine_json fine_token
    fine_list fine_option fine_prod fine_sum fine_res.
  #[local] Instance i_fn : Fine fn := fine_fn strict R.
  #[local] Instance i_mac : Fine mac := fine_mac strict R.
  #[local] Instance i_bind : Fine bind_rec := fine_bind strict R.
  #[local] Instance i_spawn : Fine spawn_req := fine_spawn strict R.
  #[local] Instance i_sexp : Fine sexp := fun x => strict -> sexp_ok x.
  #[local] Instance i_presult : Fine presult := fun p => strict -> presult_ok p.
  (** Types that hold no address. *)
  #[local] Instance i_other {T} : Fine T | 100 := fun _ => True.

  Notation P := (pol strict MP R A PB NB W WF excl forb sandbox).

  (** *** Pure expressions *)
  Lemma fine_nil T `{Fine T} : fine (@nil T). Proof. constructor. Qed.
  Lemma fine_cons T `{Fine T} x (l : list T) : fine x -> fine l -> fine (x :: l).
  Proof. intros. apply List.Forall_cons; assumption. Qed.
  Lemma fine_cons_inv T `{Fine T} x (l : list T) : fine (x :: l) -> fine x /\ fine l.
  Proof. intros Hf. split; [exact (Forall_inv Hf)|exact (Forall_inv_tail Hf)]. Qed.
  Lemma fine_app T `{Fine T} (a b : list T) : fine a -> fine b -> fine (a ++ b).
  Proof. intros. apply Forall_app. split; assumption. Qed.
  Lemma fine_rev T `{Fine T} (a : list T) : fine a -> fine (rev a).
  Proof. intros Ha. apply List.Forall_rev. exact Ha. Qed.
  Lemma fine_incl T `{Fine T} (a b : list T) : fine a -> incl b a -> fine b.
  Proof. intros Ha Hi. apply List.Forall_forall. intros x Hx. exact (proj1 (List.Forall_forall _ _) Ha x (Hi x Hx)). Qed.
  Lemma fine_tl T `{Fine T} (a : list T) : fine a -> fine (tl a).
  Proof. intros Ha. apply (fine_incl _ _ _ Ha). destruct a; intros y Hy; [exact Hy|right; exact Hy]. Qed.
  Lemma fine_skipn T `{Fine T} n (a : list T) : fine a -> fine (skipn n a).
  Proof.
    intros Ha. apply (fine_incl _ _ _ Ha). revert n. induction a; intros [|n]; cbn; intros y Hy; auto.
    right. exact (IHa (Forall_inv_tail Ha) n y Hy).
  Qed.
  Lemma fine_firstn T `{Fine T} n (a : list T) : fine a -> fine (firstn n a).
  Proof.
    intros Ha. apply (fine_incl _ _ _ Ha). revert n. induction a; intros [|n]; cbn; intros y Hy; auto.
    - destruct Hy.
    - destruct Hy as [<-|Hy]; [left; reflexivity|]. right. exact (IHa (Forall_inv_tail Ha) n y Hy).
  Qed.
  Lemma fine_filter T `{Fine T} f (a : list T) : fine a -> fine (List.filter f a).
  Proof. intros Ha. apply (fine_incl _ _ _ Ha). intros y Hy. apply List.filter_In in Hy. apply Hy. Qed.
  Lemma fine_nth T `{Fine T} n (a : list T) d : fine a -> fine d -> fine (nth n a d).
  Proof.
    intros Ha Hd. revert n. induction a; intros [|n]; cbn; try exact Hd; [exact (Forall_inv Ha)|].
    exact (IHa (Forall_inv_tail Ha) n).
  Qed.
  Lemma fine_nth_error T `{Fine T} n (a : list T) : fine a -> fine (nth_error a n).
  Proof.
    intros Ha. revert n. induction a; intros [|n]; cbn; try exact I; [exact (Forall_inv Ha)|].
    exact (IHa (Forall_inv_tail Ha) n).
  Qed.
  Lemma fine_remove_nth T `{Fine T} n (a : list T) : fine a -> fine (remove_nth n a).
  Proof.
    intros Ha. apply (fine_incl _ _ _ Ha). clear Ha. revert n. induction a; intros [|n]; cbn; intros y Hy; auto.
    - right. exact Hy.
    - destruct Hy as [<-|Hy]; [left; reflexivity|right; apply (IHa n y Hy)].
  Qed.
  Lemma fine_last T `{Fine T} (a : list T) d : fine a -> fine d -> fine (List.last a d).
  Proof.
    intros Ha Hd. induction a; cbn; [exact Hd|]. destruct a0; [exact (Forall_inv Ha)|].
    apply IHa. exact (Forall_inv_tail Ha).
  Qed.
  Lemma fine_removelast T `{Fine T} (a : list T) : fine a -> fine (List.removelast a).
  Proof.
    intros Ha. induction a; cbn; [constructor|]. destruct a0; [constructor|].
    apply List.Forall_cons; [exact (Forall_inv Ha)|]. apply IHa. exact (Forall_inv_tail Ha).
  Qed.
  Lemma fine_map T U `{Fine T} `{Fine U} (f : T -> U) a :
    (forall x, fine x -> fine (f x)) -> fine a -> fine (map f a).
  Proof.
    intros Hf Ha. induction a; cbn; [constructor|]. apply List.Forall_cons; [apply Hf, (Forall_inv Ha)|].
    apply IHa, (Forall_inv_tail Ha).
  Qed.
  Lemma fine_repeat T `{Fine T} (x : T) n : fine x -> fine (repeat x n).
  Proof. intros Hx. induction n; cbn; [constructor|apply List.Forall_cons; assumption]. Qed.
  Lemma fine_arg n args : fine args -> fine (arg n args).
  Proof. intros H. apply fine_nth; [exact H|exact I]. Qed.
  Lemma fine_insert_key k (l : list (string * val)) : fine k -> fine l -> fine (insert_key k l).
  Proof.
    intros Hk Hl. induction l as [|h t IH]; cbn; [apply fine_cons; [exact Hk|constructor]|].
    destruct (str_ltb _ _); [|apply fine_cons; assumption].
    apply fine_cons; [exact (Forall_inv Hl)|exact (IH (Forall_inv_tail Hl))].
  Qed.
  Lemma fine_sort_keys (l : list (string * val)) : fine l -> fine (sort_keys l).
  Proof.
    intros Hl. induction l as [|h t IH]; cbn; [constructor|].
    apply fine_insert_key; [exact (Forall_inv Hl)|exact (IH (Forall_inv_tail Hl))].
  Qed.
  Lemma fine_lookup T `{Fine T} k (l : list (string * T)) : fine l -> fine (alookup k l).
  Proof. apply (@fine_alookup T _). Qed.
  Lemma fine_set T `{Fine T} k v (l : list (string * T)) : fine v -> fine l -> fine (aset k v l).
  Proof. apply (@fine_aset T _). Qed.
  Lemma fine_del T `{Fine T} k (l : list (string * T)) : fine l -> fine (adel k l).
  Proof. apply (@fine_adel T _). Qed.

  Ltac inv1 :=
    match goal with
    | H : True |- _ => clear H
    | O : opened, H : ~ sandbox -> _ |- _ => specialize (H (proj1 O))
    | H : _ /\ _ |- _ => destruct H
    | H : exists l, ?v = VFun l /\ R l |- _ => destruct H as (? & -> & ?)
    | H : @fine string _ _ |- _ => clear H
    | H : @fine Z _ _ |- _ => clear H
    | H : @fine bool _ _ |- _ => clear H
    | H : @fine nat _ _ |- _ => clear H
    | H : @fine unit _ _ |- _ => clear H
    | H : @fine _ (@i_other _) _ |- _ => clear H
    | H : @fine loc _ ?l |- _ => change (R l) in H
    | H : @fine val _ (VCell _ ?l) |- _ => change (R l) in H
    | H : @fine val _ (?c ?l) |- _ => first [change (R l) in H | change True in H]
    | H : @fine val _ VNil |- _ => clear H
    | H : @fine val _ VNoCell |- _ => clear H
    | H : @fine _ _ (_, _) |- _ => destruct H as [? ?]
    | H : @fine (_ * _) _ ?x |- _ => is_var x; destruct x
    | H : @fine _ _ (?a :: ?b) |- _ => apply fine_cons_inv in H; destruct H
    | H : @fine _ _ (@nil _) |- _ => clear H
    | H : @fine (option ?T) _ (Some ?x) |- _ => change (@fine T _ x) in H
    | H : @fine (option ?T) _ None |- _ => clear H
    | H : @fine (res ?T) _ (Ok ?x) |- _ => change (@fine T _ x) in H
    | H : @fine (res ?T) _ (Err ?x) |- _ => clear H
    | H : @fine (?T + ?U) _ (inl ?x) |- _ => change (@fine T _ x) in H
    | H : @fine (?T + ?U) _ (inr ?x) |- _ => change (@fine U _ x) in H
    | H : @fine presult _ (PSexp ?x) |- _ => change (@fine sexp _ x) in H
    | H : @fine presult _ PEof |- _ => clear H
    | H : @fine presult _ (PErr _) |- _ => clear H
    | H : @fine fn _ ?f |- _ => destruct H as (? & ? & ?)
    | H : @fine mac _ ?f |- _ => destruct H as (? & ? & ?)
    | H : @fine bind_rec _ ?f |- _ => destruct H as (? & ?)
    end.
  Ltac inv := repeat (inv1; cbn [fst snd] in * ).

  (** Lists of bytes. *)
  Lemma okbytes_nil : okbytes strict [].
  Proof. intros _. constructor. Qed.
  Lemma okbytes_app a b : okbytes strict a -> okbytes strict b -> okbytes strict (a ++ b).
  Proof. intros Ha Hb Hs. apply Forall_app. auto. Qed.
  Lemma okbytes_firstn n a : okbytes strict a -> okbytes strict (firstn n a).
  Proof. intros Ha Hs. specialize (Ha Hs). revert n. induction Ha; intros [|n]; cbn; constructor; auto. Qed.
  Lemma okbytes_skipn n a : okbytes strict a -> okbytes strict (skipn n a).
  Proof. intros Ha Hs. specialize (Ha Hs). revert n. induction Ha; intros [|n]; cbn; auto. Qed.
  Lemma okbytes_one z : (strict -> is_byte z) -> okbytes strict [z].
  Proof. intros Hz Hs. constructor; [auto|constructor]. Qed.
  Ltac okb := first [ assumption | apply okbytes_nil | apply okbytes_firstn; okb | apply okbytes_skipn; okb
                    | apply okbytes_app; okb | apply okbytes_one; assumption ].

  Lemma fine_parse_tokens ts : fine (parse_tokens ts).
  Proof. split; [|apply List.Forall_forall; intros; exact I]. intros _. apply parse_ok. Qed.
  Lemma fine_parse_after n : forall ts, fine (parse_after n ts).
  Proof. induction n as [|n IH]; intros ts; cbn [parse_after]; [|apply IH]. apply (fine_parse_tokens ts). Qed.
  Lemma fine_parse u src : fine (parse u src).
  Proof. apply fine_parse_tokens. Qed.

  Ltac ffun0 :=
    first [ apply fine_parse_tokens | apply fine_parse_after | apply fine_parse | apply fine_app | apply fine_rev | apply fine_tl | apply fine_skipn | apply fine_firstn
          | apply fine_filter | apply fine_nth | apply fine_arg | apply fine_last | apply fine_removelast
          | apply fine_sort_keys | apply fine_lookup | apply fine_set | apply fine_del | apply fine_nth_error
          | apply fine_remove_nth | apply fine_repeat | refine (fine_map _ _ _ _ _ _) ].

  Ltac fa :=
    cbn [fst snd];
    lazymatch goal with
    | |- True => exact I
    | |- R (match ?x with _ => _ end) => fcase x; fa
    | |- R _ => first [assumption | match goal with H : opened |- _ => apply (proj2 H); first [assumption | apply RA; assumption] end]
    | |- A _ => first [assumption | apply RA; assumption]
    | |- W => assumption
    | |- MP => assumption
    | |- WF => assumption
    | |- _ /\ _ => split; fa
    | |- @fine string _ _ => exact I
    | |- @fine Z _ _ => exact I
    | |- @fine bool _ _ => exact I
    | |- @fine nat _ _ => exact I
    | |- @fine unit _ _ => exact I
    | |- @fine json _ _ => exact I
    | |- @fine uni_table _ _ => exact I
    | |- @fine token _ _ => exact I
    | |- @fine (list string) _ _ => apply List.Forall_forall; intros; exact I
    | |- @fine (list Z) _ _ => apply List.Forall_forall; intros; exact I
    | |- @fine (list token) _ _ => apply List.Forall_forall; intros; exact I
    | |- @fine (list json) _ _ => apply List.Forall_forall; intros; exact I
    | |- @fine (list (string * json)) _ _ => apply List.Forall_forall; intros; split; exact I
    | |- @fine loc _ ?l => change (R l); fa
    | |- @fine val _ (VCell _ ?l) => change (R l); fa
    | |- @fine val _ (VStr ?l) => change (R l); fa
    | |- @fine val _ (VFun ?l) => change (R l); fa
    | |- @fine val _ (VMacro ?l) => change (R l); fa
    | |- @fine val _ (VBytes ?l) => change (R l); fa
    | |- @fine val _ (VChan ?l) => change (R l); fa
    | |- @fine val _ (VProc ?l) => change (R l); fa
    | |- @fine val _ (VAtomic ?l) => change (R l); fa
    | |- @fine val _ (VFrame ?l) => change (R l); fa
    | |- @fine val _ (VEnv ?l) => change (R l); fa
    | |- @fine val _ (VPort ?l) => change (R l); fa
    | |- @fine val _ VNil => exact I
    | |- @fine val _ VNoCell => exact I
    | |- @fine val _ (VInt _) => exact I
    | |- @fine val _ (VFloat _) => exact I
    | |- @fine val _ (VBool _) => exact I
    | |- @fine val _ (VSym _) => exact I
    | |- @fine val _ (VPrim _) => assumption
    | |- okbytes _ _ => okb
    | |- strict -> is_byte _ => assumption
    | |- @fine _ _ (_, _) => split; fa
    | |- @fine _ _ (@nil _) => apply fine_nil
    | |- @fine _ _ (_ :: _) => apply fine_cons; fa
    | |- @fine (option ?T) _ (Some ?x) => change (@fine T _ x); fa
    | |- @fine (option ?T) _ None => exact I
    | |- @fine (res ?T) _ (Ok ?x) => change (@fine T _ x); fa
    | |- @fine (res ?T) _ (Err ?x) => exact I
    | |- @fine (?T + ?U) _ (inl ?x) => change (@fine T _ x); fa
    | |- @fine (?T + ?U) _ (inr ?x) => change (@fine U _ x); fa
    | |- @fine bind_rec _ (Binding _ _ _) => split; fa
    | |- @fine fn _ (Fn _ _ _ _ _ _) => split; [|split]; cbn [f_params f_body f_env]; fa
    | |- @fine mac _ (Mac _ _ _ _ _ _) => split; [|split]; cbn [m_params m_body m_env]; fa
    | |- @fine spawn_req _ (if ?b then _ else _) => destruct b; fa
    | |- @fine spawn_req _ (SpawnFork ?p ?f ?a ?e) => change (R p /\ R f /\ fine a /\ R e); fa
    | |- @fine spawn_req _ (SpawnSched ?p ?f ?a ?e) => change (R p /\ R f /\ fine a /\ R e); fa
    | |- fine (match ?x with _ => _ end) =>
        first [assumption | fcase x; fa]
    | |- fine _ => first [assumption | exact I | ffun; fa]
    | |- forall _, _ => intros; inv; fa
    end
  with fcase x :=
    let E := fresh "E" in
    first [ is_var x; destruct x
          | let T := type of x in
            let H := fresh "H" in
            assert (H : fine x) by fa; destruct x eqn:E in H |- *; inv
          | destruct x ]; inv
  with ffun := ffun0.

  (** *** Loops *)
  Lemma safe_ret T `{Fine T} (x : T) (Q : T -> Prop) : Q x -> safe P (Ret x) Q.
  Proof. auto. Qed.
  Lemma safe_nilp v : fine v -> safe P (nilp v) fine.
  Proof.
    intros H. destruct v; try exact I. cbn. split; [exact H|]. intros x Hx. destruct (is_nil x); cbn; [|exact I].
    split; [exact H|]. intros; exact I.
  Qed.
  Lemma safe_car v : fine v -> safe P (car v) fine.
  Proof. intros H. destruct v; try exact I. cbn. split; [exact H|]. auto. Qed.
  Lemma safe_cdr v : fine v -> safe P (cdr v) fine.
  Proof. intros H. destruct v; try exact I. cbn. split; [exact H|]. auto. Qed.
  Lemma safe_for_cells S T `{Fine S} `{Fine T} (body : S -> val -> prog (S + T)) fin d s0 :
    fine d -> fine s0 -> (forall s c, fine s -> fine c -> safe P (body s c) fine) ->
    (forall s, fine s -> safe P (fin s) fine) -> safe P (for_cells body fin d s0) fine.
  Proof.
    intros Hd Hs Hb Hf. apply (safe_loop _ _ _ _ _ fine fine); [split; assumption|].
    intros [c s] [Hc Hs']. apply safe_bind. eapply safe_conseq; [apply safe_nilp, Hc|]. intros [] _.
    - apply safe_bind. eapply safe_conseq; [apply Hf, Hs'|]. intros x Hx. exact Hx.
    - apply safe_bind. eapply safe_conseq; [apply Hb; assumption|]. intros [s1|r] Hx; [|exact Hx].
      apply safe_bind. eapply safe_conseq; [apply safe_cdr, Hc|]. intros c' Hc'. split; assumption.
  Qed.
  Lemma safe_for_cells_to S T `{Fine S} (J : T -> Prop) (body : S -> val -> prog (S + T)) fin d s0 :
    fine d -> fine s0 ->
    (forall s c, fine s -> fine c -> safe P (body s c) (fun r => match r with inl s' => fine s' | inr x => J x end)) ->
    (forall s, fine s -> safe P (fin s) J) -> safe P (for_cells body fin d s0) J.
  Proof.
    intros Hd Hs Hb Hf. apply (safe_loop _ _ _ _ _ fine J); [split; assumption|].
    intros [c s] [Hc Hs']. apply safe_bind. eapply safe_conseq; [apply safe_nilp, Hc|]. intros [] _.
    - apply safe_bind. eapply safe_conseq; [apply Hf, Hs'|]. intros x Hx. exact Hx.
    - apply safe_bind. eapply safe_conseq; [apply Hb; assumption|]. intros [s1|r] Hx; [|exact Hx].
      apply safe_bind. eapply safe_conseq; [apply safe_cdr, Hc|]. intros c' Hc'. split; assumption.
  Qed.
  Lemma safe_for_ptrs S `{Fine S} (body : S -> val -> prog S) d s0 :
    fine d -> fine s0 -> (forall s c, fine s -> fine c -> safe P (body s c) fine) ->
    safe P (for_ptrs body d s0) fine.
  Proof.
    intros Hd Hs Hb. apply (safe_loop _ _ _ _ _ fine fine); [split; assumption|].
    intros [c s] [Hc Hs']. destruct (is_nil c); [exact Hs'|].
    apply safe_bind. eapply safe_conseq; [apply Hb; assumption|]. intros s1 Hx.
    apply safe_bind. eapply safe_conseq; [apply safe_cdr, Hc|]. intros c' Hc'. split; assumption.
  Qed.
  Lemma safe_loop_fine S T `{Fine S} `{Fine T} (body : S -> prog (S + T)) s :
    fine s -> (forall s, fine s -> safe P (body s) fine) -> safe P (loop body s) fine.
  Proof. intros Hs Hb. apply (safe_loop _ _ _ _ _ fine fine); [exact Hs|]. intros s1 H1. apply (Hb s1 H1). Qed.

  (** Symbolic execution. *)
  Ltac side :=
    cbn [good_op good_req pol okop okreq];
    repeat match goal with |- _ /\ _ => split end;
    lazymatch goal with
    | |- PB ?l = None =>
        first [match goal with H : forall l, PB l = None |- _ => apply H end
        | match goal with H : PB l <> None -> false = true |- _ =>
          destruct (PB l); [exfalso; assert (false = true) by (apply H; discriminate); discriminate|reflexivity] end]
    | |- Some _ <> None => discriminate
    | |- _ => fa
    end.
  Ltac post := let x := fresh "x" in let Hx := fresh "Hx" in
               intros x Hx; cbn beta in Hx |- *; cbn [good_ans good_res pol okans okres] in Hx; inv.
  Ltac scase x :=
    first [ is_var x; destruct x
          | let H := fresh "H" in
            assert (H : fine x) by fa;
            let y := fresh "y" in set (y := x) in *; clearbody y; destruct y
          | destruct x ]; inv.
  Ltac head e := lazymatch e with ?f _ => head f | _ => e end.
  Ltac unfold_helper h :=
    lazymatch h with
    | @fail_got => unfold fail_got
    | @needs_fun => unfold needs_fun
    | @fold_args => unfold fold_args
    | @call_tuples => unfold call_tuples
    | @fail_recv => unfold fail_recv
    | @need_number => unfold need_number
    | @need_integer => unfold need_integer
    | @with_floats => unfold with_floats
    | @div_zero => unfold div_zero
    | @need_int2 => unfold need_int2
    | @need_bytes => unfold need_bytes
    | @need_frame => unfold need_frame
    | @need_naked => unfold need_naked
    | @with_env1 => unfold with_env1
    | @with_env2 => unfold with_env2
    | @need_string => unfold need_string
    | @two_strings => unfold two_strings
    | @write_to => unfold write_to
    | @fail_object => unfold fail_object
    | @fail_type => unfold fail_type
    | @need_process => unfold need_process
    | @need_atomic => unfold need_atomic
    | @need_int_arg => unfold need_int_arg
    | @not_function_slot => unfold not_function_slot
    | @super_select => unfold super_select
    end.
  Ltac sf :=
    cbn beta zeta;
    lazymatch goal with
    | |- safe _ (Ret ?x) ?Q => change (Q x); sf
    | |- safe _ (Panic _) _ => change MP; assumption
    | |- safe _ (ok _) _ => unfold ok; sf
    | |- safe _ (fail _) _ => unfold fail; sf
    | |- safe _ (bind _ _) _ => apply safe_bind; sf
    | |- safe _ (bind_ok _ _) _ => unfold bind_ok; sf
    | |- safe _ (Vis _ _) _ => split; [side | post; sf]
    | |- safe _ (do_op _) _ => eapply safe_conseq; [apply safe_op; side | post; sf]
    | |- safe _ (call _) _ => eapply safe_conseq; [apply safe_call; side | post; sf]
    | |- safe _ (loop _ _) _ =>
        eapply safe_conseq; [refine (safe_loop_fine _ _ _ _ _ _); [fa | intros; inv; sf] | post; sf]
    | |- safe _ (for_cells _ _ _ _) _ =>
        eapply safe_conseq; [refine (safe_for_cells _ _ _ _ _ _ _ _ _ _); [fa | fa | intros; inv; sf | intros; inv; sf] | post; sf]
    | |- safe _ (for_ptrs _ _ _) _ =>
        eapply safe_conseq; [refine (safe_for_ptrs _ _ _ _ _ _ _); [fa | fa | intros; inv; sf] | post; sf]
    | |- safe _ (match ?x with _ => _ end) _ => scase x; sf
    | |- safe _ ?p _ =>
        let h := head p in
        first [ unfold_helper h; sf | eapply safe_conseq; [solve [eauto 2 with safe] | post; sf] ]
    | |- match ?x with _ => _ end => scase x; sf
    | |- exists l, VFun ?x = VFun l /\ _ => exists x; split; [reflexivity|assumption]
    | |- _ => fa
    end.
  #[local] Hint Extern 1 (fine _) => fa : safe.
  #[local] Hint Extern 1 (R _) => fa : safe.
  #[local] Hint Extern 1 (A _) => fa : safe.
  #[local] Hint Extern 1 W => assumption : safe.
  #[local] Hint Extern 1 MP => assumption : safe.

  #[local] Hint Extern 1 opened => assumption : safe.
  #[local] Hint Extern 1 (forall l, PB l = None) => assumption : safe.
  #[local] Hint Extern 1 WF => assumption : safe.
  #[local] Hint Resolve safe_nilp safe_car safe_cdr : safe.
  Lemma safe_cons_t (a0 : ctag) (a1 : val) (a2 : val) : fine a1 -> fine a2 -> safe P (cons_t a0 a1 a2) fine.
  Proof. intros; unfold cons_t; inv; sf. Qed.
  #[local] Hint Resolve safe_cons_t : safe.
  Lemma safe_cons (a0 : val) (a1 : val) : fine a0 -> fine a1 -> safe P (cons a0 a1) fine.
  Proof. intros; unfold cons; inv; sf. Qed.
  #[local] Hint Resolve safe_cons : safe.
  Lemma safe_empty_cons  : safe P (empty_cons) fine.
  Proof. intros; unfold empty_cons; inv; sf. Qed.
  #[local] Hint Resolve safe_empty_cons : safe.
  Lemma safe_set_cdr_cell t l (a1 : val) : W -> R l -> fine a1 -> safe P (set_cdr (VCell t l) a1) fine.
  Proof. intros; unfold set_cdr; inv; sf. Qed.
  Lemma safe_set_cdr (a0 : val) (a1 : val) : MP -> W -> fine a0 -> fine a1 -> safe P (set_cdr a0 a1) fine.
  Proof. intros; unfold set_cdr; inv; sf. Qed.
  #[local] Hint Resolve safe_set_cdr : safe.
  Lemma safe_set_car (a0 : val) (a1 : val) : MP -> W -> fine a0 -> fine a1 -> safe P (set_car a0 a1) fine.
  Proof. intros; unfold set_car; inv; sf. Qed.
  #[local] Hint Resolve safe_set_car : safe.
  Lemma safe_string_value (a0 : val) : fine a0 -> safe P (string_value a0) fine.
  Proof. intros; unfold string_value; inv; sf. Qed.
  #[local] Hint Resolve safe_string_value : safe.
  Lemma safe_new_str (a0 : string) : safe P (new_str a0) fine.
  Proof. intros; unfold new_str; inv; sf. Qed.
  #[local] Hint Resolve safe_new_str : safe.
  Lemma safe_boolean_value (a0 : val) : fine a0 -> safe P (boolean_value a0) fine.
  Proof. intros; unfold boolean_value; inv; sf. Qed.
  #[local] Hint Resolve safe_boolean_value : safe.
  Lemma safe_walk_rev (a0 : list ascii) (a1 : val) : fine a1 -> safe P (walk_rev a0 a1) fine.
  Proof. revert a1. induction a0; intros; cbn [walk_rev]; inv; sf. Qed.
  #[local] Hint Resolve safe_walk_rev : safe.
  Lemma safe_walk_list (a0 : string) (a1 : val) : fine a1 -> safe P (walk_list a0 a1) fine.
  Proof. intros; unfold walk_list; inv; sf. Qed.
  #[local] Hint Resolve safe_walk_list : safe.
  Lemma safe_caar (a0 : val) : fine a0 -> safe P (caar a0) fine.
  Proof. intros; unfold caar; inv; sf. Qed.
  #[local] Hint Resolve safe_caar : safe.
  Lemma safe_cadr (a0 : val) : fine a0 -> safe P (cadr a0) fine.
  Proof. intros; unfold cadr; inv; sf. Qed.
  #[local] Hint Resolve safe_cadr : safe.
  Lemma safe_cdar (a0 : val) : fine a0 -> safe P (cdar a0) fine.
  Proof. intros; unfold cdar; inv; sf. Qed.
  #[local] Hint Resolve safe_cdar : safe.
  Lemma safe_cddr (a0 : val) : fine a0 -> safe P (cddr a0) fine.
  Proof. intros; unfold cddr; inv; sf. Qed.
  #[local] Hint Resolve safe_cddr : safe.
  Lemma safe_caddr (a0 : val) : fine a0 -> safe P (caddr a0) fine.
  Proof. intros; unfold caddr; inv; sf. Qed.
  #[local] Hint Resolve safe_caddr : safe.
  Lemma safe_cdddr (a0 : val) : fine a0 -> safe P (cdddr a0) fine.
  Proof. intros; unfold cdddr; inv; sf. Qed.
  #[local] Hint Resolve safe_cdddr : safe.
  Lemma safe_to_array (a0 : val) : fine a0 -> safe P (to_array a0) fine.
  Proof. intros; unfold to_array; inv; sf. Qed.
  #[local] Hint Resolve safe_to_array : safe.
  Lemma safe_mk_tail (a0 : list val) (a1 : val) : fine a0 -> fine a1 -> safe P (mk_tail a0 a1) fine.
  Proof. revert a1. induction a0; intros; cbn [mk_tail]; inv; sf. Qed.
  #[local] Hint Resolve safe_mk_tail : safe.
  Lemma safe_array_to_list (a0 : list val) : fine a0 -> safe P (array_to_list a0) fine.
  Proof. intros; unfold array_to_list; inv; sf. Qed.
  #[local] Hint Resolve safe_array_to_list : safe.
  Lemma safe_array_to_list_with_tail (a0 : list val) (a1 : val) : fine a0 -> fine a1 -> safe P (array_to_list_with_tail a0 a1) fine.
  Proof. intros; unfold array_to_list_with_tail; inv; sf. Qed.
  #[local] Hint Resolve safe_array_to_list_with_tail : safe.
  Lemma safe_length_of (a0 : val) : fine a0 -> safe P (length_of a0) fine.
  Proof. intros; unfold length_of; inv; sf. Qed.
  #[local] Hint Resolve safe_length_of : safe.
  Lemma safe_cdr_times (a0 : nat) (a1 : val) : fine a1 -> safe P (cdr_times a0 a1) fine.
  Proof. revert a1. induction a0; intros; cbn [cdr_times]; inv; sf. Qed.
  #[local] Hint Resolve safe_cdr_times : safe.
  Lemma safe_nth_of (a0 : val) (a1 : Z) : fine a0 -> safe P (nth_of a0 a1) fine.
  Proof. intros; unfold nth_of; inv; sf. Qed.
  #[local] Hint Resolve safe_nth_of : safe.
  Lemma safe_set_nth (a0 : val) (a1 : Z) (a2 : val) : MP -> W -> fine a0 -> fine a2 -> safe P (set_nth a0 a1 a2) fine.
  Proof. intros; unfold set_nth; inv; sf. Qed.
  #[local] Hint Resolve safe_set_nth : safe.
  Lemma safe_last_cell (a0 : val) : fine a0 -> safe P (last_cell a0) fine.
  Proof. intros; unfold last_cell; inv; sf. Qed.
  #[local] Hint Resolve safe_last_cell : safe.
  Lemma safe_append_bang (a0 : val) (a1 : val) : MP -> W -> fine a0 -> fine a1 -> safe P (append_bang a0 a1) fine.
  Proof. intros; unfold append_bang; inv; sf. Qed.
  #[local] Hint Resolve safe_append_bang : safe.
  Lemma safe_append_bang_list (a0 : val) (a1 : val) : MP -> W -> fine a0 -> fine a1 -> safe P (append_bang_list a0 a1) fine.
  Proof. intros; unfold append_bang_list; inv; sf. Qed.
  #[local] Hint Resolve safe_append_bang_list : safe.
  Lemma safe_append_one (a0 : val) (a1 : val) : MP -> W -> fine a0 -> fine a1 -> safe P (append_one a0 a1) fine.
  Proof. intros; unfold append_one; inv; sf. Qed.
  #[local] Hint Resolve safe_append_one : safe.
  Lemma safe_append_list (a0 : val) (a1 : val) : MP -> W -> fine a0 -> fine a1 -> safe P (append_list a0 a1) fine.
  Proof. intros; unfold append_list; inv; sf. Qed.
  #[local] Hint Resolve safe_append_list : safe.
  Lemma safe_remove_from_list_bang (a0 : val) (a1 : val) : W -> fine a0 -> fine a1 -> safe P (remove_from_list_bang a0 a1) fine.
  Proof.
    intros HW H0 H1. unfold remove_from_list_bang, for_cells.
    apply (safe_loop _ _ _ _ _ (fun p : val * val => fine (fst p) /\ fine (snd p) /\
             (snd p = VNil \/ (exists t l, snd p = VCell t l) \/ fst p = VNil)) fine); [repeat split; auto|].
    intros [c prev] (Hc & Hp & Hor). cbn [fst snd] in *.
    destruct (is_nil c) eqn:N; [destruct c; try discriminate; cbn; exact H0|].
    assert (Hprev : prev = VNil \/ exists t l, prev = VCell t l) by (destruct Hor as [?|[?|E]]; [auto|auto|subst c; discriminate]).
    apply safe_bind. eapply safe_conseq; [apply safe_nilp, Hc|]. intros [] _; [cbn; exact H0|].
    apply safe_bind.
    apply (safe_conseq _ _ _ (fun r : val + val => match r with inl x => x = c | inr x => fine x end)).
    - apply safe_bind. eapply safe_conseq; [apply safe_car, Hc|]. intros a Ha.
      apply safe_bind. eapply safe_conseq; [apply safe_call; split; assumption|]. intros [] _; [|reflexivity].
      destruct Hprev as [->|(t & l & ->)].
      + cbn [nilp bind]. apply safe_bind. eapply safe_conseq; [apply safe_cdr, Hc|]. intros d Hd. exact Hd.
      + apply safe_bind. eapply safe_conseq; [apply safe_nilp, Hp|]. intros n _.
        destruct n; [apply safe_bind; eapply safe_conseq; [apply safe_cdr, Hc|]; intros d Hd; exact Hd|]. apply safe_bind. eapply safe_conseq; [apply safe_cdr, Hc|]. intros d Hd.
        apply safe_bind. eapply safe_conseq; [apply safe_set_cdr_cell; [exact HW|exact Hp|exact Hd]|]. intros _ _. exact H0.
    - intros [x|x] Hx; [subst x|exact Hx]. destruct c; try discriminate; try (cbn; repeat split; auto; fail).
      cbn. split; [exact Hc|]. intros d Hd. repeat split; eauto.
  Qed.
  #[local] Hint Resolve safe_remove_from_list_bang : safe.
  Lemma safe_reverse (a0 : val) : fine a0 -> safe P (reverse a0) fine.
  Proof. intros; unfold reverse; inv; sf. Qed.
  #[local] Hint Resolve safe_reverse : safe.
  Lemma safe_flatten (a0 : val) : fine a0 -> safe P (flatten a0) fine.
  Proof. intros; unfold flatten; inv; sf. Qed.
  #[local] Hint Resolve safe_flatten : safe.
  Lemma safe_rec_flatten_body (a0 : val) : fine a0 -> safe P (rec_flatten_body a0) fine.
  Proof. intros; unfold rec_flatten_body; inv; sf. Qed.
  #[local] Hint Resolve safe_rec_flatten_body : safe.
  Lemma safe_quote_it (a0 : val) : fine a0 -> safe P (quote_it a0) fine.
  Proof. intros; unfold quote_it; inv; sf. Qed.
  #[local] Hint Resolve safe_quote_it : safe.
  Lemma safe_quote_all (a0 : val) : fine a0 -> safe P (quote_all a0) fine.
  Proof. intros; unfold quote_all; inv; sf. Qed.
  #[local] Hint Resolve safe_quote_all : safe.
  Lemma safe_assoc (a0 : val) (a1 : val) : fine a0 -> fine a1 -> safe P (assoc a0 a1) fine.
  Proof. intros; unfold assoc; inv; sf. Qed.
  #[local] Hint Resolve safe_assoc : safe.
  (** What assoc finds is nil or a cell. *)
  Definition cellish (v : val) : Prop := match v with VNil | VNoCell | VCell _ _ => True | _ => False end.
  Lemma safe_assoc_cell (a0 : val) (a1 : val) : fine a0 -> fine a1 ->
    safe P (assoc a0 a1) (fun r => match r with Ok v => fine v /\ cellish v | Err _ => True end).
  Proof.
    intros H0 H1. unfold assoc. apply (safe_for_cells_to unit (res val)); [exact H1|exact I| |intros _ _; split; exact I].
    intros [] c _ Hc. apply safe_bind. eapply safe_conseq; [apply safe_car, Hc|]. intros pair Hp.
    destruct (negb (dottedp pair) && negb (pairp pair)) eqn:E; [exact I|].
    assert (Hcell : cellish pair) by (destruct pair; try exact I; discriminate).
    apply safe_bind. eapply safe_conseq; [apply safe_car, Hp|]. intros k Hk.
    apply safe_bind. eapply safe_conseq; [apply safe_call; split; assumption|]. intros [] _; [split; assumption|exact I].
  Qed.
  Lemma safe_acons (a0 : val) (a1 : val) (a2 : val) : W -> fine a0 -> fine a1 -> fine a2 -> safe P (acons a0 a1 a2) fine.
  Proof.
    intros HW H0 H1 H2. unfold acons. apply safe_bind. eapply safe_conseq; [apply safe_assoc_cell; assumption|].
    intros r Hr. cbv zeta.
    assert (Hn : fine (match r with Ok p => p | Err _ => VNil end) /\ cellish (match r with Ok p => p | Err _ => VNil end))
      by (destruct r; [exact Hr|split; exact I]).
    destruct Hn as [Hf Hc]. set (pair := match r with Ok p => p | Err _ => VNil end) in *. clearbody pair. clear Hr.
    destruct pair; try contradiction; try (cbn [nilp bind]; sf; fail).
    apply safe_bind. eapply safe_conseq; [apply safe_nilp, Hf|]. intros [] _; [sf|].
    apply safe_bind. eapply safe_conseq; [apply safe_set_cdr_cell; [exact HW|exact Hf|exact H1]|]. intros _ _. exact H2.
  Qed.
  #[local] Hint Resolve safe_acons : safe.
  Lemma safe_alist_body (a0 : val) : W -> fine a0 -> safe P (alist_body a0) fine.
  Proof. intros; unfold alist_body; inv; sf. Qed.
  #[local] Hint Resolve safe_alist_body : safe.
  Lemma safe_dissoc (a0 : val) (a1 : val) : W -> fine a0 -> fine a1 -> safe P (dissoc a0 a1) fine.
  Proof. intros; unfold dissoc; inv; sf. Qed.
  #[local] Hint Resolve safe_dissoc : safe.
  Lemma safe_permute T `{Fine T} n (l : list T) : fine l -> safe P (permute n l) fine.
  Proof.
    revert l. induction n as [|n IH]; intros l Hl; cbn [permute]; [exact Hl|].
    destruct l as [|y l]; [exact Hl|]. apply safe_bind. eapply safe_conseq; [apply safe_op; exact I|].
    intros z _. pose proof (fine_nth_error _ (Z.to_nat (z mod Z.of_nat (length (y :: l)))) _ Hl) as He.
    cbv zeta. destruct (nth_error _ _); [|exact Hl].
    apply safe_bind. eapply safe_conseq; [apply IH; apply fine_remove_nth, Hl|].
    intros r Hr. apply fine_cons; assumption.
  Qed.
  Lemma safe_range_map T `{Fine T} (l : list T) : fine l -> safe P (range_map l) fine.
  Proof. apply safe_permute. Qed.
  #[local] Hint Resolve safe_permute safe_range_map : safe.


  Lemma safe_copy_slots (a0 : list (string * val)) (a1 : list (string * val)) : W -> fine a0 -> fine a1 -> safe P (copy_slots a0 a1) fine.
  Proof. revert a1. induction a0; intros; cbn [copy_slots]; inv; sf. Qed.
  #[local] Hint Resolve safe_copy_slots : safe.
  Lemma safe_copy_pair_onto (a0 : val) (a1 : val) : W -> fine a0 -> fine a1 -> safe P (copy_pair_onto a0 a1) fine.
  Proof. intros; unfold copy_pair_onto; inv; sf. Qed.
  #[local] Hint Resolve safe_copy_pair_onto : safe.
  Lemma safe_copy_body (a0 : val) : W -> fine a0 -> safe P (copy_body a0) fine.
  Proof. intros; unfold copy_body; inv; sf. Qed.
  #[local] Hint Resolve safe_copy_body : safe.
  Lemma safe_equal_lists (a0 : val) (a1 : val) : fine a0 -> fine a1 -> safe P (equal_lists a0 a1) fine.
  Proof. intros; unfold equal_lists; inv; sf. Qed.
  #[local] Hint Resolve safe_equal_lists : safe.
  Lemma safe_equal_slots (a0 : list (string * val)) (a1 : loc) : fine a0 -> fine a1 -> safe P (equal_slots a0 a1) fine.
  Proof. revert a1. induction a0; intros; cbn [equal_slots]; inv; sf. Qed.
  #[local] Hint Resolve safe_equal_slots : safe.
  Lemma safe_equal_alists (a0 : val) (a1 : val) : fine a0 -> fine a1 -> safe P (equal_alists a0 a1) fine.
  Proof. intros; unfold equal_alists; inv; sf. Qed.
  #[local] Hint Resolve safe_equal_alists : safe.
  Lemma safe_equal_body (a0 : val) (a1 : val) : fine a0 -> fine a1 -> safe P (equal_body a0 a1) fine.
  Proof. intros; unfold equal_body; inv; sf. Qed.
  #[local] Hint Resolve safe_equal_body : safe.
  Lemma safe_string_slots (a0 : list (string * val)) : fine a0 -> safe P (string_slots a0) fine.
  Proof. induction a0; intros; cbn [string_slots]; inv; sf. Qed.
  #[local] Hint Resolve safe_string_slots : safe.
  Lemma safe_string_body (a0 : val) : fine a0 -> safe P (string_body a0) fine.
  Proof. intros; unfold string_body; inv; sf. Qed.
  #[local] Hint Resolve safe_string_body : safe.
  Lemma safe_print_string (a0 : val) : fine a0 -> safe P (print_string a0) fine.
  Proof. intros; unfold print_string; inv; sf. Qed.
  #[local] Hint Resolve safe_print_string : safe.
  Lemma safe_shortcut (a0 : list val) (a1 : val) : fine a0 -> fine a1 -> safe P (shortcut a0 a1) fine.
  Proof. intros; unfold shortcut; inv; sf. Qed.
  #[local] Hint Resolve safe_shortcut : safe.
  Lemma safe_post_process_shortcuts (a0 : val) : fine a0 -> safe P (post_process_shortcuts a0) fine.
  Proof. intros; unfold post_process_shortcuts; inv; sf. Qed.
  #[local] Hint Resolve safe_post_process_shortcuts : safe.
  Definition all_frames (l : list val) : Prop := MP \/ Forall (fun v => exists f, v = VFrame f) l.
  Lemma all_frames_cons v l : all_frames (v :: l) -> (MP \/ exists f, v = VFrame f) /\ all_frames l.
  Proof. intros [?|H]; [split; left; assumption|]. split; right; [exact (Forall_inv H)|exact (Forall_inv_tail H)]. Qed.
  Lemma safe_parents_of (a0 : loc) : fine a0 -> safe P (parents_of a0) (fun ps => fine ps /\ all_frames ps).
  Proof.
    intros H0. unfold parents_of. apply safe_bind. eapply safe_conseq; [apply safe_op; exact H0|].
    intros sl [Hf Hp].
    pose (i := fun kv : string * val => fine kv /\ (MP \/ (is_parent_key (fst kv) = true -> is_nil (snd kv) = true \/ exists f, snd kv = VFrame f))).
    apply safe_bind. apply (safe_conseq _ _ _ (Forall i)).
    - apply (@safe_range_map _ i). apply List.Forall_forall. intros [k v] Hi. split; [exact (proj1 (List.Forall_forall _ _) Hf _ Hi)|].
      destruct Hp as [?|Hp]; [left; assumption|right; intros Hk; exact (Hp k v Hi Hk)].
    - intros sl' Hsl. cbn. clear Hf Hp sl. split.
      + refine (fine_map _ _ _ _ _ _); [intros [k v] [_ Hv]; exact Hv|]. apply fine_filter. eapply List.Forall_impl; [|exact Hsl]. intros x Hx. apply Hx.
      + induction Hsl as [|[k v] l [_ Hx] Hl IH]; cbn; [right; constructor|].
        destruct (is_parent_key k) eqn:E1; cbn; [|exact IH]. destruct (is_nil v) eqn:E2; cbn; [exact IH|].
        destruct Hx as [?|Hx]; [left; assumption|]. cbn in Hx. destruct (Hx E1) as [?|Hx']; [congruence|].
        destruct IH as [?|IH]; [left; assumption|]. right. constructor; assumption.
  Qed.
  #[local] Hint Resolve safe_parents_of : safe.
  #[local] Hint Extern 1 (all_frames _) => assumption : safe.
  Lemma safe_has_slot_parents (a0 : string) (a1 : list val) (a2 : list loc) : all_frames a1 -> fine a1 -> fine a2 -> safe P (has_slot_parents a0 a1 a2) fine.
  Proof.
    revert a2. induction a1 as [|v a1 IH]; intros; cbn [has_slot_parents]; [inv; sf|].
    match goal with H : all_frames _ |- _ => apply all_frames_cons in H; destruct H as [Hv ?] end.
    destruct v; try (destruct Hv as [?|(? & Hv)]; [change MP; assumption|discriminate]). inv; sf.
  Qed.
  #[local] Hint Resolve safe_has_slot_parents : safe.
  Lemma safe_has_slot_body (a0 : string) (a1 : loc) (a2 : list loc) : fine a1 -> fine a2 -> safe P (has_slot_body a0 a1 a2) fine.
  Proof. intros; unfold has_slot_body; inv; sf. Qed.
  #[local] Hint Resolve safe_has_slot_body : safe.
  Lemma safe_has_slot (a0 : loc) (a1 : string) : fine a0 -> safe P (has_slot a0 a1) fine.
  Proof. intros; unfold has_slot; inv; sf. Qed.
  #[local] Hint Resolve safe_has_slot : safe.
  Lemma safe_get_slot_parents (a0 : string) (a1 : list val) (a2 : list loc) : all_frames a1 -> fine a1 -> fine a2 -> safe P (get_slot_parents a0 a1 a2) fine.
  Proof.
    revert a2. induction a1 as [|v a1 IH]; intros; cbn [get_slot_parents]; [inv; sf|].
    match goal with H : all_frames _ |- _ => apply all_frames_cons in H; destruct H as [Hv ?] end.
    destruct v; try (destruct Hv as [?|(? & Hv)]; [change MP; assumption|discriminate]). inv; sf.
  Qed.
  #[local] Hint Resolve safe_get_slot_parents : safe.
  Lemma safe_get_slot_body (a0 : string) (a1 : loc) (a2 : list loc) : fine a1 -> fine a2 -> safe P (get_slot_body a0 a1 a2) fine.
  Proof. intros; unfold get_slot_body; inv; sf. Qed.
  #[local] Hint Resolve safe_get_slot_body : safe.
  Lemma safe_get_slot (a0 : loc) (a1 : string) : fine a0 -> safe P (get_slot a0 a1) fine.
  Proof. intros; unfold get_slot; inv; sf. Qed.
  #[local] Hint Resolve safe_get_slot : safe.
  Lemma safe_register_top (a0 : option loc) (a1 : string) (a2 : loc) : fine a0 -> fine a2 -> safe P (register_top a0 a1 a2) fine.
  Proof. intros; unfold register_top; inv; sf. Qed.
  #[local] Hint Resolve safe_register_top : safe.
  Lemma safe_new_env_below p n : R p -> safe P (new_env_below (Some p) n) fine.
  Proof. intros; unfold new_env_below; inv; sf. Qed.
  #[local] Hint Resolve safe_new_env_below : safe.

  Lemma safe_new_env_below_with_frame (a0 : loc) (a1 : option loc) (a2 : string) : fine a0 -> fine a1 -> safe P (new_env_below_with_frame a0 a1 a2) fine.
  Proof. intros; unfold new_env_below_with_frame; inv; sf. Qed.
  #[local] Hint Resolve safe_new_env_below_with_frame : safe.
  Lemma safe_find_local (a0 : loc) (a1 : val) : fine a0 -> fine a1 -> safe P (find_local a0 a1) fine.
  Proof. intros; unfold find_local; inv; sf. Qed.
  #[local] Hint Resolve safe_find_local : safe.
  Lemma safe_find_binding env sym : R env -> fine sym -> safe P (find_binding env sym) fine.
  Proof.
    intros He Hs. unfold find_binding. apply safe_bind. eapply safe_conseq; [apply safe_string_value, Hs|].
    intros n _. apply (safe_loop _ _ _ _ _ A fine); [apply RA, He|]. intros e Ha.
    apply safe_bind. eapply safe_conseq; [apply safe_op; exact Ha|]. intros [b|] [Hb _]; [exact Hb|].
    apply safe_bind. eapply safe_conseq; [apply safe_op; exact Ha|]. intros [p|] Hp; [exact Hp|exact I].
  Qed.
  #[local] Hint Resolve safe_find_binding : safe.



  Lemma safe_bind_locally env sym v : R env -> fine sym -> fine v -> safe P (bind_locally env sym v) fine.
  Proof.
    intros He Hs Hv. unfold bind_locally. apply safe_bind. eapply safe_conseq; [apply safe_string_value, Hs|].
    intros n _. apply safe_bind. eapply safe_conseq; [apply safe_op; apply RA, He|]. intros [b|] [Hb Hn]; inv.
    - sf.
    - apply safe_bind. eapply safe_conseq; [apply safe_op; side|]. intros b Hb.
      apply safe_bind. eapply safe_conseq; [apply safe_op; split; [exact He|split; [exact Hb|]]|intros; sf].
      destruct (NB env n); [exfalso; apply Hn; [discriminate|reflexivity]|reflexivity].
  Qed.
  #[local] Hint Resolve safe_bind_locally : safe.

  Lemma safe_set_to env sym v : WF -> R env -> fine sym -> fine v -> safe P (set_to env sym v) fine.
  Proof. intros; unfold set_to; inv; sf. Qed.
  #[local] Hint Resolve safe_set_to : safe.

  Lemma safe_mark_slot (a0 : val) (a1 : bool) : fine a0 -> safe P (mark_slot a0 a1) fine.
  Proof. intros; unfold mark_slot; inv; sf. Qed.
  #[local] Hint Resolve safe_mark_slot : safe.
  Lemma safe_lookup_chain (a0 : loc) (a1 : val) : fine a0 -> fine a1 -> safe P (lookup_chain a0 a1) fine.
  Proof. intros; unfold lookup_chain; inv; sf. Qed.
  #[local] Hint Resolve safe_lookup_chain : safe.
  Lemma safe_value_of (a0 : loc) (a1 : val) (a2 : bool) : fine a0 -> fine a1 -> safe P (value_of a0 a1 a2) fine.
  Proof. intros; unfold value_of; inv; sf. Qed.
  #[local] Hint Resolve safe_value_of : safe.
  Lemma safe_required_args (a0 : val) : fine a0 -> safe P (required_args a0) fine.
  Proof. intros; unfold required_args; inv; sf. Qed.
  #[local] Hint Resolve safe_required_args : safe.
  Lemma safe_make_function (a0 : string) (a1 : val) (a2 : val) (a3 : loc) : fine a1 -> fine a2 -> fine a3 -> safe P (make_function a0 a1 a2 a3) (fun v => exists l, v = VFun l /\ R l).
  Proof. intros; unfold make_function; inv; sf. Qed.
  #[local] Hint Resolve safe_make_function : safe.
  Lemma safe_make_macro (a0 : string) (a1 : val) (a2 : val) (a3 : loc) : fine a1 -> fine a2 -> fine a3 -> safe P (make_macro a0 a1 a2 a3) fine.
  Proof. intros; unfold make_macro; inv; sf. Qed.
  #[local] Hint Resolve safe_make_macro : safe.
  Lemma safe_mlb_step (a0 : bool) (a1 : loc) (a2 : loc) (a3 : mlb_state) (a4 : val) : fine a1 -> fine a2 -> fine a3 -> fine a4 -> safe P (mlb_step a0 a1 a2 a3 a4) fine.
  Proof. intros; unfold mlb_step; inv; sf. Qed.
  #[local] Hint Resolve safe_mlb_step : safe.
  Lemma safe_make_local_bindings (a0 : string) (a1 : val) (a2 : bool) (a3 : Z) (a4 : val) (a5 : loc) (a6 : loc) (a7 : bool) : fine a1 -> fine a4 -> fine a5 -> fine a6 -> safe P (make_local_bindings a0 a1 a2 a3 a4 a5 a6 a7) fine.
  Proof. intros; unfold make_local_bindings; inv; sf. Qed.
  #[local] Hint Resolve safe_make_local_bindings : safe.
  Lemma safe_eval_body_forms (a0 : string) (a1 : val) (a2 : loc) : fine a1 -> fine a2 -> safe P (eval_body_forms a0 a1 a2) fine.
  Proof. intros; unfold eval_body_forms; inv; sf. Qed.
  #[local] Hint Resolve safe_eval_body_forms : safe.
  Lemma safe_fun_apply (a0 : loc) (a1 : val) (a2 : loc) (a3 : option loc) (a4 : bool) : fine a0 -> fine a1 -> fine a2 -> fine a3 -> safe P (fun_apply a0 a1 a2 a3 a4) fine.
  Proof. intros; unfold fun_apply; inv; sf. Qed.
  #[local] Hint Resolve safe_fun_apply : safe.
  Lemma safe_fun_apply_overriding (a0 : loc) (a1 : val) (a2 : loc) : fine a0 -> fine a1 -> fine a2 -> safe P (fun_apply_overriding a0 a1 a2) fine.
  Proof. intros; unfold fun_apply_overriding; inv; sf. Qed.
  #[local] Hint Resolve safe_fun_apply_overriding : safe.
  Lemma safe_macro_expand (a0 : loc) (a1 : val) (a2 : loc) : fine a0 -> fine a1 -> fine a2 -> safe P (macro_expand a0 a1 a2) fine.
  Proof. intros; unfold macro_expand; inv; sf. Qed.
  #[local] Hint Resolve safe_macro_expand : safe.
  Lemma safe_macro_apply (a0 : loc) (a1 : val) (a2 : loc) : fine a0 -> fine a1 -> fine a2 -> safe P (macro_apply a0 a1 a2) fine.
  Proof. intros; unfold macro_apply; inv; sf. Qed.
  #[local] Hint Resolve safe_macro_apply : safe.
  Lemma safe_norm_args (a0 : list val) : fine a0 -> safe P (norm_args a0) fine.
  Proof. induction a0; intros; cbn [norm_args]; inv; sf. Qed.
  #[local] Hint Resolve safe_norm_args : safe.
  Lemma safe_collect_args (a0 : bool) (a1 : val) (a2 : loc) : fine a1 -> fine a2 -> safe P (collect_args a0 a1 a2) fine.
  Proof. intros; unfold collect_args; inv; sf. Qed.
  #[local] Hint Resolve safe_collect_args : safe.
  Lemma safe_eval_body (a0 : val) (a1 : loc) (a2 : bool) : fine a0 -> fine a1 -> safe P (eval_body a0 a1 a2) fine.
  Proof. intros; unfold eval_body; inv; sf. Qed.
  #[local] Hint Resolve safe_eval_body : safe.
  Lemma safe_eval (a0 : val) (a1 : loc) : fine a0 -> fine a1 -> safe P (eval a0 a1) fine.
  Proof. intros; unfold eval; inv; sf. Qed.
  #[local] Hint Resolve safe_eval : safe.
  Lemma safe_tail_list (a0 : nat) (a1 : list val) : fine a1 -> safe P (tail_list a0 a1) fine.
  Proof. intros; unfold tail_list; inv; sf. Qed.
  #[local] Hint Resolve safe_tail_list : safe.
  Lemma safe_eval_seq (a0 : list val) (a1 : loc) (a2 : val) : fine a0 -> fine a1 -> fine a2 -> safe P (eval_seq a0 a1 a2) fine.
  Proof. revert a1 a2. induction a0; intros; cbn [eval_seq]; inv; sf. Qed.
  #[local] Hint Resolve safe_eval_seq : safe.
  Lemma safe_evaluate_body (a0 : val) (a1 : loc) : fine a0 -> fine a1 -> safe P (evaluate_body a0 a1) fine.
  Proof. intros; unfold evaluate_body; inv; sf. Qed.
  #[local] Hint Resolve safe_evaluate_body : safe.
  Lemma safe_cond_clauses (a0 : list val) (a1 : loc) : fine a0 -> fine a1 -> safe P (cond_clauses a0 a1) fine.
  Proof. revert a1. induction a0; intros; cbn [cond_clauses]; inv; sf. Qed.
  #[local] Hint Resolve safe_cond_clauses : safe.
  Lemma safe_cond_impl (a0 : list val) (a1 : loc) : fine a0 -> fine a1 -> safe P (cond_impl a0 a1) fine.
  Proof. intros; unfold cond_impl; inv; sf. Qed.
  #[local] Hint Resolve safe_cond_impl : safe.
  Lemma safe_case_member (a0 : val) (a1 : val) : fine a0 -> fine a1 -> safe P (case_member a0 a1) fine.
  Proof. intros; unfold case_member; inv; sf. Qed.
  #[local] Hint Resolve safe_case_member : safe.
  Lemma safe_case_clauses (a0 : val) (a1 : list val) (a2 : loc) : fine a0 -> fine a1 -> fine a2 -> safe P (case_clauses a0 a1 a2) fine.
  Proof. revert a0 a2. induction a1; intros; cbn [case_clauses]; inv; sf. Qed.
  #[local] Hint Resolve safe_case_clauses : safe.
  Lemma safe_case_impl (a0 : list val) (a1 : loc) : fine a0 -> fine a1 -> safe P (case_impl a0 a1) fine.
  Proof. intros; unfold case_impl; inv; sf. Qed.
  #[local] Hint Resolve safe_case_impl : safe.
  Lemma safe_if_impl (a0 : list val) (a1 : loc) : fine a0 -> fine a1 -> safe P (if_impl a0 a1) fine.
  Proof. intros; unfold if_impl; inv; sf. Qed.
  #[local] Hint Resolve safe_if_impl : safe.
  Lemma safe_when_impl (a0 : list val) (a1 : loc) : fine a0 -> fine a1 -> safe P (when_impl a0 a1) fine.
  Proof. intros; unfold when_impl; inv; sf. Qed.
  #[local] Hint Resolve safe_when_impl : safe.
  Lemma safe_unless_impl (a0 : list val) (a1 : loc) : fine a0 -> fine a1 -> safe P (unless_impl a0 a1) fine.
  Proof. intros; unfold unless_impl; inv; sf. Qed.
  #[local] Hint Resolve safe_unless_impl : safe.
  Lemma safe_lambda_impl (a0 : list val) (a1 : loc) : fine a0 -> fine a1 -> safe P (lambda_impl a0 a1) fine.
  Proof. intros; unfold lambda_impl; inv; sf. Qed.
  #[local] Hint Resolve safe_lambda_impl : safe.
  Lemma safe_named_lambda_impl (a0 : list val) (a1 : loc) : fine a0 -> fine a1 -> safe P (named_lambda_impl a0 a1) fine.
  Proof. intros; unfold named_lambda_impl; inv; sf. Qed.
  #[local] Hint Resolve safe_named_lambda_impl : safe.
  Lemma safe_define_impl (a0 : list val) (a1 : loc) : fine a0 -> fine a1 -> safe P (define_impl a0 a1) fine.
  Proof. intros; unfold define_impl; inv; sf. Qed.
  #[local] Hint Resolve safe_define_impl : safe.
  Lemma safe_defmacro_impl (a0 : list val) (a1 : loc) : fine a0 -> fine a1 -> safe P (defmacro_impl a0 a1) fine.
  Proof. intros; unfold defmacro_impl; inv; sf. Qed.
  #[local] Hint Resolve safe_defmacro_impl : safe.
  Lemma safe_bind_let_check (a0 : bool) (a1 : loc) (a2 : val) : fine a1 -> fine a2 -> safe P (bind_let_check a0 a1 a2) fine.
  Proof. intros; unfold bind_let_check; inv; sf. Qed.
  #[local] Hint Resolve safe_bind_let_check : safe.
  Lemma safe_bind_let_eval (a0 : loc) (a1 : loc) (a2 : val) : fine a0 -> fine a1 -> fine a2 -> safe P (bind_let_eval a0 a1 a2) fine.
  Proof. intros; unfold bind_let_eval; inv; sf. Qed.
  #[local] Hint Resolve safe_bind_let_eval : safe.
  Lemma safe_bind_let_locals (a0 : val) (a1 : bool) (a2 : loc) (a3 : loc) : fine a0 -> fine a2 -> fine a3 -> safe P (bind_let_locals a0 a1 a2 a3) fine.
  Proof. intros; unfold bind_let_locals; inv; sf. Qed.
  #[local] Hint Resolve safe_bind_let_locals : safe.
  Lemma safe_let_common (a0 : bool) (a1 : bool) (a2 : list val) (a3 : loc) : fine a2 -> fine a3 -> safe P (let_common a0 a1 a2 a3) fine.
  Proof. intros; unfold let_common; inv; sf. Qed.
  #[local] Hint Resolve safe_let_common : safe.
  Lemma safe_named_let_impl (a0 : list val) (a1 : loc) : fine a0 -> fine a1 -> safe P (named_let_impl a0 a1) fine.
  Proof. intros; unfold named_let_impl; inv; sf. Qed.
  #[local] Hint Resolve safe_named_let_impl : safe.
  Lemma safe_let_impl (a0 : list val) (a1 : loc) : fine a0 -> fine a1 -> safe P (let_impl a0 a1) fine.
  Proof. intros; unfold let_impl; inv; sf. Qed.
  #[local] Hint Resolve safe_let_impl : safe.
  Lemma safe_let_star_impl (a0 : list val) (a1 : loc) : fine a0 -> fine a1 -> safe P (let_star_impl a0 a1) fine.
  Proof. intros; unfold let_star_impl; inv; sf. Qed.
  #[local] Hint Resolve safe_let_star_impl : safe.
  Lemma safe_letrec_impl (a0 : list val) (a1 : loc) : fine a0 -> fine a1 -> safe P (letrec_impl a0 a1) fine.
  Proof. intros; unfold letrec_impl; inv; sf. Qed.
  #[local] Hint Resolve safe_letrec_impl : safe.
  Lemma safe_begin_impl (a0 : list val) (a1 : loc) : fine a0 -> fine a1 -> safe P (begin_impl a0 a1) fine.
  Proof. intros; unfold begin_impl; inv; sf. Qed.
  #[local] Hint Resolve safe_begin_impl : safe.
  Lemma safe_rebind_all (a0 : list (val * val)) (a1 : loc) : fine a0 -> fine a1 -> safe P (rebind_all a0 a1) fine.
  Proof. revert a1. induction a0; intros; cbn [rebind_all]; inv; sf. Qed.
  #[local] Hint Resolve safe_rebind_all : safe.
  Lemma safe_rebind_do_locals (a0 : val) (a1 : loc) : fine a0 -> fine a1 -> safe P (rebind_do_locals a0 a1) fine.
  Proof. intros; unfold rebind_do_locals; inv; sf. Qed.
  #[local] Hint Resolve safe_rebind_do_locals : safe.
  Lemma safe_do_turn (a0 : val) (a1 : list val) (a2 : val) (a3 : loc) (a4 : val) : fine a0 -> fine a1 -> fine a2 -> fine a3 -> fine a4 -> safe P (do_turn a0 a1 a2 a3 a4) fine.
  Proof. intros; unfold do_turn; inv; sf. Qed.
  #[local] Hint Resolve safe_do_turn : safe.
  Lemma safe_do_impl (a0 : list val) (a1 : loc) : fine a0 -> fine a1 -> safe P (do_impl a0 a1) fine.
  Proof. intros; unfold do_impl; inv; sf. Qed.
  #[local] Hint Resolve safe_do_impl : safe.
  Lemma safe_apply_impl (a0 : list val) (a1 : loc) : MP -> fine a0 -> fine a1 -> safe P (apply_impl a0 a1) fine.
  Proof. intros; unfold apply_impl; inv; sf. Qed.
  #[local] Hint Resolve safe_apply_impl : safe.
  Lemma safe_thread_expr (a0 : val) (a1 : val) : fine a0 -> fine a1 -> safe P (thread_expr a0 a1) fine.
  Proof. intros; unfold thread_expr; inv; sf. Qed.
  #[local] Hint Resolve safe_thread_expr : safe.
  Lemma safe_chain_go (a0 : list val) (a1 : val) (a2 : loc) : fine a0 -> fine a1 -> fine a2 -> safe P (chain_go a0 a1 a2) fine.
  Proof. revert a1 a2. induction a0; intros; cbn [chain_go]; inv; sf. Qed.
  #[local] Hint Resolve safe_chain_go : safe.
  Lemma safe_chain_impl (a0 : list val) (a1 : loc) : fine a0 -> fine a1 -> safe P (chain_impl a0 a1) fine.
  Proof. intros; unfold chain_impl; inv; sf. Qed.
  #[local] Hint Resolve safe_chain_impl : safe.
  Lemma safe_tap_go (a0 : list val) (a1 : val) (a2 : loc) : fine a0 -> fine a1 -> fine a2 -> safe P (tap_go a0 a1 a2) fine.
  Proof. revert a1 a2. induction a0; intros; cbn [tap_go]; inv; sf. Qed.
  #[local] Hint Resolve safe_tap_go : safe.
  Lemma safe_tap_impl (a0 : list val) (a1 : loc) : fine a0 -> fine a1 -> safe P (tap_impl a0 a1) fine.
  Proof. intros; unfold tap_impl; inv; sf. Qed.
  #[local] Hint Resolve safe_tap_impl : safe.
  Lemma safe_definition_of_impl (a0 : list val) (a1 : loc) : fine a0 -> fine a1 -> safe P (definition_of_impl a0 a1) fine.
  Proof. intros; unfold definition_of_impl; inv; sf. Qed.
  #[local] Hint Resolve safe_definition_of_impl : safe.
  Lemma safe_quote_impl (a0 : list val) (a1 : loc) : fine a0 -> fine a1 -> safe P (quote_impl a0 a1) fine.
  Proof. intros; unfold quote_impl; inv; sf. Qed.
  #[local] Hint Resolve safe_quote_impl : safe.
  Lemma safe_quasi_parts (a0 : list val) (a1 : Z) (a2 : loc) : fine a0 -> fine a2 -> safe P (quasi_parts a0 a1 a2) fine.
  Proof. revert a1 a2. induction a0; intros; cbn [quasi_parts]; inv; sf. Qed.
  #[local] Hint Resolve safe_quasi_parts : safe.
  Lemma safe_quasi_wrap (a0 : string) (a1 : val) (a2 : Z) (a3 : loc) : fine a1 -> fine a3 -> safe P (quasi_wrap a0 a1 a2 a3) fine.
  Proof. intros; unfold quasi_wrap; inv; sf. Qed.
  #[local] Hint Resolve safe_quasi_wrap : safe.
  Lemma safe_quasi_body (a0 : val) (a1 : Z) (a2 : loc) : fine a0 -> fine a2 -> safe P (quasi_body a0 a1 a2) fine.
  Proof. intros; unfold quasi_body; inv; sf. Qed.
  #[local] Hint Resolve safe_quasi_body : safe.
  Lemma safe_quasiquote_impl (a0 : list val) (a1 : loc) : fine a0 -> fine a1 -> safe P (quasiquote_impl a0 a1) fine.
  Proof. intros; unfold quasiquote_impl; inv; sf. Qed.
  #[local] Hint Resolve safe_quasiquote_impl : safe.
  Lemma safe_unquote_impl (a0 : list val) (a1 : loc) : fine a0 -> fine a1 -> safe P (unquote_impl a0 a1) fine.
  Proof. intros; unfold unquote_impl; inv; sf. Qed.
  #[local] Hint Resolve safe_unquote_impl : safe.
  Lemma safe_unquote_splicing_impl (a0 : list val) (a1 : loc) : fine a0 -> fine a1 -> safe P (unquote_splicing_impl a0 a1) fine.
  Proof. intros; unfold unquote_splicing_impl; inv; sf. Qed.
  #[local] Hint Resolve safe_unquote_splicing_impl : safe.
  Lemma safe_expand_impl (a0 : list val) (a1 : loc) : fine a0 -> fine a1 -> safe P (expand_impl a0 a1) fine.
  Proof. intros; unfold expand_impl; inv; sf. Qed.
  #[local] Hint Resolve safe_expand_impl : safe.
  Lemma safe_apply_noeval (a0 : val) (a1 : val) (a2 : loc) : fine a0 -> fine a1 -> fine a2 -> safe P (apply_noeval a0 a1 a2) fine.
  Proof. intros; unfold apply_noeval; inv; sf. Qed.
  #[local] Hint Resolve safe_apply_noeval : safe.
  Lemma safe_lisp_bool (a0 : bool) : safe P (lisp_bool a0) fine.
  Proof. intros; unfold lisp_bool; inv; sf. Qed.
  #[local] Hint Resolve safe_lisp_bool : safe.
  Lemma safe_walk_impl (a0 : string) (a1 : list val) (a2 : loc) : fine a1 -> fine a2 -> safe P (walk_impl a0 a1 a2) fine.
  Proof. intros; unfold walk_impl; inv; sf. Qed.
  #[local] Hint Resolve safe_walk_impl : safe.
  Lemma safe_general_car_cdr_impl (a0 : list val) (a1 : loc) : fine a0 -> fine a1 -> safe P (general_car_cdr_impl a0 a1) fine.
  Proof. intros; unfold general_car_cdr_impl; inv; sf. Qed.
  #[local] Hint Resolve safe_general_car_cdr_impl : safe.
  Lemma safe_nth_const_impl (a0 : Z) (a1 : list val) (a2 : loc) : fine a1 -> fine a2 -> safe P (nth_const_impl a0 a1 a2) fine.
  Proof. intros; unfold nth_const_impl; inv; sf. Qed.
  #[local] Hint Resolve safe_nth_const_impl : safe.
  Lemma safe_nth_impl (a0 : list val) (a1 : loc) : fine a0 -> fine a1 -> safe P (nth_impl a0 a1) fine.
  Proof. intros; unfold nth_impl; inv; sf. Qed.
  #[local] Hint Resolve safe_nth_impl : safe.
  Lemma safe_take_items (a0 : Z) (a1 : val) : fine a1 -> safe P (take_items a0 a1) fine.
  Proof. intros; unfold take_items; inv; sf. Qed.
  #[local] Hint Resolve safe_take_items : safe.
  Lemma safe_drop_cells (a0 : Z) (a1 : val) : fine a1 -> safe P (drop_cells a0 a1) fine.
  Proof. intros; unfold drop_cells; inv; sf. Qed.
  #[local] Hint Resolve safe_drop_cells : safe.
  Lemma safe_or_fail (a0 : bool) (a1 : string) (a2 : val) : fine a2 -> safe P (or_fail a0 a1 a2) fine.
  Proof. intros; unfold or_fail; inv; sf. Qed.
  #[local] Hint Resolve safe_or_fail : safe.
  Lemma safe_take_impl_count (a0 : list val) (a1 : loc) : MP \/ (0 <= int_value (arg 0 a0))%Z -> fine a0 -> fine a1 -> safe P (take_impl a0 a1) fine.
  Proof.
    intros HM H0 H1. unfold take_impl, or_fail. pose proof (fine_arg 1 _ H0) as Ha. destruct (arg 1 a0); try (inv; sf; fail).
    change (R l) in Ha. apply safe_bind. eapply safe_conseq; [apply safe_op; exact Ha|]. intros bs Hbs. change (okbytes strict bs) in Hbs.
    destruct (_ <=? _)%Z; [inv; sf|]. destruct (int_value (arg 0 a0) <? 0)%Z eqn:E; [|inv; sf].
    destruct HM as [?|HM]; [change MP; assumption|apply Z.ltb_lt in E; lia].
  Qed.
  Lemma safe_take_impl (a0 : list val) (a1 : loc) : MP -> fine a0 -> fine a1 -> safe P (take_impl a0 a1) fine.
  Proof. intros H. apply safe_take_impl_count. left. exact H. Qed.
  #[local] Hint Resolve safe_take_impl : safe.
  Lemma safe_drop_impl_count (a0 : list val) (a1 : loc) : MP \/ (0 <= int_value (arg 0 a0))%Z -> fine a0 -> fine a1 -> safe P (drop_impl a0 a1) fine.
  Proof.
    intros HM H0 H1. unfold drop_impl, or_fail. pose proof (fine_arg 1 _ H0) as Ha. destruct (arg 1 a0); try (inv; sf; fail).
    change (R l) in Ha. apply safe_bind. eapply safe_conseq; [apply safe_op; exact Ha|]. intros bs Hbs. change (okbytes strict bs) in Hbs.
    destruct (_ <=? _)%Z; [inv; sf|]. destruct (int_value (arg 0 a0) <? 0)%Z eqn:E; [|inv; sf].
    destruct HM as [?|HM]; [change MP; assumption|apply Z.ltb_lt in E; lia].
  Qed.
  Lemma safe_drop_impl (a0 : list val) (a1 : loc) : MP -> fine a0 -> fine a1 -> safe P (drop_impl a0 a1) fine.
  Proof. intros H. apply safe_drop_impl_count. left. exact H. Qed.
  #[local] Hint Resolve safe_drop_impl : safe.
  Lemma safe_list_ref_impl (a0 : list val) (a1 : loc) : fine a0 -> fine a1 -> safe P (list_ref_impl a0 a1) fine.
  Proof. intros; unfold list_ref_impl; inv; sf. Qed.
  #[local] Hint Resolve safe_list_ref_impl : safe.
  Lemma safe_list_head_impl (a0 : list val) (a1 : loc) : fine a0 -> fine a1 -> safe P (list_head_impl a0 a1) fine.
  Proof. intros; unfold list_head_impl; inv; sf. Qed.
  #[local] Hint Resolve safe_list_head_impl : safe.
  Lemma safe_list_tail_impl (a0 : list val) (a1 : loc) : fine a0 -> fine a1 -> safe P (list_tail_impl a0 a1) fine.
  Proof. intros; unfold list_tail_impl; inv; sf. Qed.
  #[local] Hint Resolve safe_list_tail_impl : safe.
  Lemma safe_last_pair_impl (a0 : list val) (a1 : loc) : fine a0 -> fine a1 -> safe P (last_pair_impl a0 a1) fine.
  Proof. intros; unfold last_pair_impl; inv; sf. Qed.
  #[local] Hint Resolve safe_last_pair_impl : safe.
  Lemma safe_collections (a0 : string) (a1 : bool) (a2 : list val) (a3 : list val) (a4 : Z) : fine a2 -> fine a3 -> safe P (collections a0 a1 a2 a3 a4) fine.
  Proof. revert a0 a1 a3 a4. induction a2; intros; cbn [collections]; inv; sf. Qed.
  #[local] Hint Resolve safe_collections : safe.
  Lemma safe_next_args (a0 : list val) : fine a0 -> safe P (next_args a0) fine.
  Proof. induction a0; intros; cbn [next_args]; inv; sf. Qed.
  #[local] Hint Resolve safe_next_args : safe.
  Lemma safe_map_impl (a0 : list val) (a1 : loc) : fine a0 -> fine a1 -> safe P (map_impl a0 a1) fine.
  Proof. intros; unfold map_impl; inv; sf. Qed.
  #[local] Hint Resolve safe_map_impl : safe.
  Lemma safe_for_each_impl (a0 : list val) (a1 : loc) : fine a0 -> fine a1 -> safe P (for_each_impl a0 a1) fine.
  Proof. intros; unfold for_each_impl; inv; sf. Qed.
  #[local] Hint Resolve safe_for_each_impl : safe.
  Lemma safe_any_impl (a0 : list val) (a1 : loc) : fine a0 -> fine a1 -> safe P (any_impl a0 a1) fine.
  Proof. intros; unfold any_impl; inv; sf. Qed.
  #[local] Hint Resolve safe_any_impl : safe.
  Lemma safe_every_impl (a0 : list val) (a1 : loc) : fine a0 -> fine a1 -> safe P (every_impl a0 a1) fine.
  Proof. intros; unfold every_impl; inv; sf. Qed.
  #[local] Hint Resolve safe_every_impl : safe.
  Lemma safe_reduce_fold (a0 : bool) (a1 : val) (a2 : loc) (a3 : val) (a4 : list val) : fine a1 -> fine a2 -> fine a3 -> fine a4 -> safe P (reduce_fold a0 a1 a2 a3 a4) fine.
  Proof. revert a0 a1 a2 a3. induction a4; intros; cbn [reduce_fold]; inv; sf. Qed.
  #[local] Hint Resolve safe_reduce_fold : safe.
  Lemma safe_reduce_left_impl (a0 : list val) (a1 : loc) : fine a0 -> fine a1 -> safe P (reduce_left_impl a0 a1) fine.
  Proof. intros; unfold reduce_left_impl; inv; sf. Qed.
  #[local] Hint Resolve safe_reduce_left_impl : safe.
  Lemma safe_reduce_right_impl (a0 : list val) (a1 : loc) : fine a0 -> fine a1 -> safe P (reduce_right_impl a0 a1) fine.
  Proof. intros; unfold reduce_right_impl; inv; sf. Qed.
  #[local] Hint Resolve safe_reduce_right_impl : safe.
  Lemma safe_fold_left_impl (a0 : list val) (a1 : loc) : fine a0 -> fine a1 -> safe P (fold_left_impl a0 a1) fine.
  Proof. intros; unfold fold_left_impl; inv; sf. Qed.
  #[local] Hint Resolve safe_fold_left_impl : safe.
  Lemma safe_fold_right_impl (a0 : list val) (a1 : loc) : fine a0 -> fine a1 -> safe P (fold_right_impl a0 a1) fine.
  Proof. intros; unfold fold_right_impl; inv; sf. Qed.
  #[local] Hint Resolve safe_fold_right_impl : safe.
  Lemma safe_filter_impl (a0 : string) (a1 : bool) (a2 : list val) (a3 : loc) : fine a2 -> fine a3 -> safe P (filter_impl a0 a1 a2 a3) fine.
  Proof. intros; unfold filter_impl; inv; sf. Qed.
  #[local] Hint Resolve safe_filter_impl : safe.
  Lemma safe_memq_impl (a0 : list val) (a1 : loc) : fine a0 -> fine a1 -> safe P (memq_impl a0 a1) fine.
  Proof. intros; unfold memq_impl; inv; sf. Qed.
  #[local] Hint Resolve safe_memq_impl : safe.
  Lemma safe_find_impl (a0 : bool) (a1 : list val) (a2 : loc) : fine a1 -> fine a2 -> safe P (find_impl a0 a1 a2) fine.
  Proof. intros; unfold find_impl; inv; sf. Qed.
  #[local] Hint Resolve safe_find_impl : safe.
  Lemma safe_make_list_impl (a0 : list val) (a1 : loc) : MP -> fine a0 -> fine a1 -> safe P (make_list_impl a0 a1) fine.
  Proof. intros; unfold make_list_impl; inv; sf. Qed.
  #[local] Hint Resolve safe_make_list_impl : safe.
  Lemma safe_list_impl (a0 : list val) (a1 : loc) : fine a0 -> fine a1 -> safe P (list_impl a0 a1) fine.
  Proof. intros; unfold list_impl; inv; sf. Qed.
  #[local] Hint Resolve safe_list_impl : safe.
  Lemma safe_cons_star_impl (a0 : list val) (a1 : loc) : MP -> fine a0 -> fine a1 -> safe P (cons_star_impl a0 a1) fine.
  Proof. intros; unfold cons_star_impl; inv; sf. Qed.
  #[local] Hint Resolve safe_cons_star_impl : safe.
  Lemma safe_length_impl (a0 : list val) (a1 : loc) : fine a0 -> fine a1 -> safe P (length_impl a0 a1) fine.
  Proof. intros; unfold length_impl; inv; sf. Qed.
  #[local] Hint Resolve safe_length_impl : safe.
  Lemma safe_cons_impl (a0 : list val) (a1 : loc) : fine a0 -> fine a1 -> safe P (cons_impl a0 a1) fine.
  Proof. intros; unfold cons_impl; inv; sf. Qed.
  #[local] Hint Resolve safe_cons_impl : safe.
  Lemma safe_reverse_impl (a0 : list val) (a1 : loc) : fine a0 -> fine a1 -> safe P (reverse_impl a0 a1) fine.
  Proof. intros; unfold reverse_impl; inv; sf. Qed.
  #[local] Hint Resolve safe_reverse_impl : safe.
  Lemma safe_flatten_impl (a0 : list val) (a1 : loc) : fine a0 -> fine a1 -> safe P (flatten_impl a0 a1) fine.
  Proof. intros; unfold flatten_impl; inv; sf. Qed.
  #[local] Hint Resolve safe_flatten_impl : safe.
  Lemma safe_rec_flatten_impl (a0 : list val) (a1 : loc) : fine a0 -> fine a1 -> safe P (rec_flatten_impl a0 a1) fine.
  Proof. intros; unfold rec_flatten_impl; inv; sf. Qed.
  #[local] Hint Resolve safe_rec_flatten_impl : safe.
  Lemma safe_append_bang_impl (a0 : list val) (a1 : loc) : MP -> WF -> W -> fine a0 -> fine a1 -> safe P (append_bang_impl a0 a1) fine.
  Proof. intros; unfold append_bang_impl; inv; sf. Qed.
  #[local] Hint Resolve safe_append_bang_impl : safe.
  Lemma safe_append_items (a0 : list val) : fine a0 -> safe P (append_items a0) fine.
  Proof. induction a0; intros; cbn [append_items]; inv; sf. Qed.
  #[local] Hint Resolve safe_append_items : safe.
  Lemma safe_append_impl (a0 : list val) (a1 : loc) : fine a0 -> fine a1 -> safe P (append_impl a0 a1) fine.
  Proof. intros; unfold append_impl; inv; sf. Qed.
  #[local] Hint Resolve safe_append_impl : safe.
  Lemma safe_copy_impl (a0 : list val) (a1 : loc) : W -> fine a0 -> fine a1 -> safe P (copy_impl a0 a1) fine.
  Proof. intros; unfold copy_impl; inv; sf. Qed.
  #[local] Hint Resolve safe_copy_impl : safe.
  Lemma safe_partition_by_size (a0 : Z) (a1 : val) : fine a1 -> safe P (partition_by_size a0 a1) fine.
  Proof. intros; unfold partition_by_size; inv; sf. Qed.
  #[local] Hint Resolve safe_partition_by_size : safe.
  Lemma safe_partition_by_predicate (a0 : val) (a1 : val) (a2 : loc) : fine a0 -> fine a1 -> fine a2 -> safe P (partition_by_predicate a0 a1 a2) fine.
  Proof. intros; unfold partition_by_predicate; inv; sf. Qed.
  #[local] Hint Resolve safe_partition_by_predicate : safe.
  Lemma safe_partition_impl (a0 : list val) (a1 : loc) : fine a0 -> fine a1 -> safe P (partition_impl a0 a1) fine.
  Proof. intros; unfold partition_impl; inv; sf. Qed.
  #[local] Hint Resolve safe_partition_impl : safe.
  Lemma safe_sublist_items (a0 : Z) (a1 : Z) (a2 : val) : fine a2 -> safe P (sublist_items a0 a1 a2) fine.
  Proof. intros; unfold sublist_items; inv; sf. Qed.
  #[local] Hint Resolve safe_sublist_items : safe.
  Lemma safe_sublist_impl (a0 : list val) (a1 : loc) : fine a0 -> fine a1 -> safe P (sublist_impl a0 a1) fine.
  Proof. intros; unfold sublist_impl; inv; sf. Qed.
  #[local] Hint Resolve safe_sublist_impl : safe.
  Lemma safe_sort_compare (a0 : val) (a1 : val) (a2 : val) (a3 : loc) : fine a0 -> fine a1 -> fine a2 -> fine a3 -> safe P (sort_compare a0 a1 a2 a3) fine.
  Proof. intros; unfold sort_compare; inv; sf. Qed.
  #[local] Hint Resolve safe_sort_compare : safe.
  Lemma safe_sort_insert (a0 : val) (a1 : val) (a2 : loc) (a3 : list val) : fine a0 -> fine a1 -> fine a2 -> fine a3 -> safe P (sort_insert a0 a1 a2 a3) fine.
  Proof. revert a0 a1 a2. induction a3; intros; cbn [sort_insert]; inv; sf. Qed.
  #[local] Hint Resolve safe_sort_insert : safe.
  Lemma safe_sort_slice (a0 : list val) (a1 : val) (a2 : loc) (a3 : list val) : fine a0 -> fine a1 -> fine a2 -> fine a3 -> safe P (sort_slice a0 a1 a2 a3) fine.
  Proof. revert a1 a2 a3. induction a0; intros; cbn [sort_slice]; inv; sf. Qed.
  #[local] Hint Resolve safe_sort_slice : safe.
  Lemma safe_sort_impl (a0 : list val) (a1 : loc) : fine a0 -> fine a1 -> safe P (sort_impl a0 a1) fine.
  Proof. intros; unfold sort_impl; inv; sf. Qed.
  #[local] Hint Resolve safe_sort_impl : safe.
  Lemma safe_memp (a0 : val) (a1 : val) : fine a0 -> fine a1 -> safe P (memp a0 a1) fine.
  Proof. intros; unfold memp; inv; sf. Qed.
  #[local] Hint Resolve safe_memp : safe.
  Lemma safe_union_one (a0 : val) (a1 : val) : MP -> W -> fine a0 -> fine a1 -> safe P (union_one a0 a1) fine.
  Proof. intros; unfold union_one; inv; sf. Qed.
  #[local] Hint Resolve safe_union_one : safe.
  Lemma safe_union_go (a0 : list val) (a1 : val) : MP -> W -> fine a0 -> fine a1 -> safe P (union_go a0 a1) fine.
  Proof. revert a1. induction a0; intros; cbn [union_go]; inv; sf. Qed.
  #[local] Hint Resolve safe_union_go : safe.
  Lemma safe_union_impl (a0 : list val) (a1 : loc) : MP -> W -> fine a0 -> fine a1 -> safe P (union_impl a0 a1) fine.
  Proof. intros; unfold union_impl; inv; sf. Qed.
  #[local] Hint Resolve safe_union_impl : safe.
  Lemma safe_prune_one (a0 : bool) (a1 : val) (a2 : val) : W -> fine a1 -> fine a2 -> safe P (prune_one a0 a1 a2) fine.
  Proof. intros; unfold prune_one; inv; sf. Qed.
  #[local] Hint Resolve safe_prune_one : safe.
  Lemma safe_prune_go (a0 : string) (a1 : bool) (a2 : list val) (a3 : val) : W -> fine a2 -> fine a3 -> safe P (prune_go a0 a1 a2 a3) fine.
  Proof. revert a0 a1 a3. induction a2; intros; cbn [prune_go]; inv; sf. Qed.
  #[local] Hint Resolve safe_prune_go : safe.
  Lemma safe_prune_impl (a0 : string) (a1 : bool) (a2 : list val) (a3 : loc) : W -> fine a2 -> fine a3 -> safe P (prune_impl a0 a1 a2 a3) fine.
  Proof. intros; unfold prune_impl; inv; sf. Qed.
  #[local] Hint Resolve safe_prune_impl : safe.
  Lemma safe_alist_impl (a0 : list val) (a1 : loc) : W -> fine a0 -> fine a1 -> safe P (alist_impl a0 a1) fine.
  Proof. intros; unfold alist_impl; inv; sf. Qed.
  #[local] Hint Resolve safe_alist_impl : safe.
  Lemma safe_acons_impl (a0 : list val) (a1 : loc) : W -> fine a0 -> fine a1 -> safe P (acons_impl a0 a1) fine.
  Proof. intros; unfold acons_impl; inv; sf. Qed.
  #[local] Hint Resolve safe_acons_impl : safe.
  Lemma safe_pairlis_impl (a0 : list val) (a1 : loc) : W -> fine a0 -> fine a1 -> safe P (pairlis_impl a0 a1) fine.
  Proof. intros; unfold pairlis_impl; inv; sf. Qed.
  #[local] Hint Resolve safe_pairlis_impl : safe.
  Lemma safe_assoc_impl (a0 : list val) (a1 : loc) : fine a0 -> fine a1 -> safe P (assoc_impl a0 a1) fine.
  Proof. intros; unfold assoc_impl; inv; sf. Qed.
  #[local] Hint Resolve safe_assoc_impl : safe.
  Lemma safe_dissoc_impl (a0 : list val) (a1 : loc) : W -> fine a0 -> fine a1 -> safe P (dissoc_impl a0 a1) fine.
  Proof. intros; unfold dissoc_impl; inv; sf. Qed.
  #[local] Hint Resolve safe_dissoc_impl : safe.
  Lemma safe_rassoc_impl (a0 : list val) (a1 : loc) : fine a0 -> fine a1 -> safe P (rassoc_impl a0 a1) fine.
  Proof. intros; unfold rassoc_impl; inv; sf. Qed.
  #[local] Hint Resolve safe_rassoc_impl : safe.
  Lemma safe_set_var_impl (a0 : list val) (a1 : loc) : WF -> fine a0 -> fine a1 -> safe P (set_var_impl a0 a1) fine.
  Proof. intros; unfold set_var_impl; inv; sf. Qed.
  #[local] Hint Resolve safe_set_var_impl : safe.
  Lemma safe_eval_or_nil (a0 : val) (a1 : loc) : fine a0 -> fine a1 -> safe P (eval_or_nil a0 a1) fine.
  Proof. intros; unfold eval_or_nil; inv; sf. Qed.
  #[local] Hint Resolve safe_eval_or_nil : safe.
  Lemma safe_set_car_impl (a0 : list val) (a1 : loc) : MP -> W -> fine a0 -> fine a1 -> safe P (set_car_impl a0 a1) fine.
  Proof. intros; unfold set_car_impl; inv; sf. Qed.
  #[local] Hint Resolve safe_set_car_impl : safe.
  Lemma safe_set_cdr_impl (a0 : list val) (a1 : loc) : MP -> W -> fine a0 -> fine a1 -> safe P (set_cdr_impl a0 a1) fine.
  Proof. intros; unfold set_cdr_impl; inv; sf. Qed.
  #[local] Hint Resolve safe_set_cdr_impl : safe.
  Lemma safe_set_nth_impl (a0 : list val) (a1 : loc) : MP -> W -> fine a0 -> fine a1 -> safe P (set_nth_impl a0 a1) fine.
  Proof. intros; unfold set_nth_impl; inv; sf. Qed.
  #[local] Hint Resolve safe_set_nth_impl : safe.
  Lemma safe_oracle_float  : safe P (oracle_float) fine.
  Proof. intros; unfold oracle_float; inv; sf. Qed.
  #[local] Hint Resolve safe_oracle_float : safe.
  Lemma safe_unary_float_impl (a0 : string) (a1 : list val) (a2 : loc) : fine a1 -> fine a2 -> safe P (unary_float_impl a0 a1 a2) fine.
  Proof. intros; unfold unary_float_impl; inv; sf. Qed.
  #[local] Hint Resolve safe_unary_float_impl : safe.
  Lemma safe_succ_impl (a0 : list val) (a1 : loc) : fine a0 -> fine a1 -> safe P (succ_impl a0 a1) fine.
  Proof. intros; unfold succ_impl; inv; sf. Qed.
  #[local] Hint Resolve safe_succ_impl : safe.
  Lemma safe_pred_impl (a0 : list val) (a1 : loc) : fine a0 -> fine a1 -> safe P (pred_impl a0 a1) fine.
  Proof. intros; unfold pred_impl; inv; sf. Qed.
  #[local] Hint Resolve safe_pred_impl : safe.
  Lemma fine_any_floats l : fine l -> fine (any_floats l).
  Proof.
    induction l as [|x l IH]; cbn; intros H; [exact I|]. apply fine_cons_inv in H. destruct H as [Hx Hl].
    destruct (negb (numberp x)); [exact Hx|]. destruct (floatp x); [exact I|exact (IH Hl)].
  Qed.
  Ltac ffun ::= first [ffun0 | apply fine_any_floats].

  Lemma safe_add_impl (a0 : list val) (a1 : loc) : fine a0 -> fine a1 -> safe P (add_impl a0 a1) fine.
  Proof. intros; unfold add_impl; inv; sf. Qed.
  #[local] Hint Resolve safe_add_impl : safe.
  Lemma safe_subtract_impl (a0 : list val) (a1 : loc) : fine a0 -> fine a1 -> safe P (subtract_impl a0 a1) fine.
  Proof. intros; unfold subtract_impl; inv; sf. Qed.
  #[local] Hint Resolve safe_subtract_impl : safe.
  Lemma safe_multiply_impl (a0 : list val) (a1 : loc) : fine a0 -> fine a1 -> safe P (multiply_impl a0 a1) fine.
  Proof. intros; unfold multiply_impl; inv; sf. Qed.
  #[local] Hint Resolve safe_multiply_impl : safe.
  Lemma safe_quotient_impl (a0 : list val) (a1 : loc) : fine a0 -> fine a1 -> safe P (quotient_impl a0 a1) fine.
  Proof. intros; unfold quotient_impl; inv; sf. Qed.
  #[local] Hint Resolve safe_quotient_impl : safe.
  Lemma safe_remainder_impl (a0 : list val) (a1 : loc) : MP -> fine a0 -> fine a1 -> safe P (remainder_impl a0 a1) fine.
  Proof. intros; unfold remainder_impl; inv; sf. Qed.
  #[local] Hint Resolve safe_remainder_impl : safe.
  Lemma safe_random_byte_impl (a0 : list val) (a1 : loc) : fine a0 -> fine a1 -> safe P (random_byte_impl a0 a1) fine.
  Proof. intros; unfold random_byte_impl; inv; sf. Qed.
  #[local] Hint Resolve safe_random_byte_impl : safe.
  Lemma safe_interval_items (a0 : bool) (a1 : Z) (a2 : Z) (a3 : Z) : safe P (interval_items a0 a1 a2 a3) fine.
  Proof. intros; unfold interval_items; inv; sf. Qed.
  #[local] Hint Resolve safe_interval_items : safe.
  Lemma safe_interval_list (a0 : bool) (a1 : Z) (a2 : Z) (a3 : Z) : MP -> safe P (interval_list a0 a1 a2 a3) fine.
  Proof. intros; unfold interval_list; inv; sf. Qed.
  #[local] Hint Resolve safe_interval_list : safe.
  Lemma safe_interval_impl (a0 : list val) (a1 : loc) : MP -> fine a0 -> fine a1 -> safe P (interval_impl a0 a1) fine.
  Proof. intros; unfold interval_impl; inv; sf. Qed.
  #[local] Hint Resolve safe_interval_impl : safe.
  Lemma safe_to_int_impl (a0 : list val) (a1 : loc) : fine a0 -> fine a1 -> safe P (to_int_impl a0 a1) fine.
  Proof. intros; unfold to_int_impl; inv; sf. Qed.
  #[local] Hint Resolve safe_to_int_impl : safe.
  Lemma safe_to_float_impl (a0 : list val) (a1 : loc) : fine a0 -> fine a1 -> safe P (to_float_impl a0 a1) fine.
  Proof. intros; unfold to_float_impl; inv; sf. Qed.
  #[local] Hint Resolve safe_to_float_impl : safe.
  Lemma safe_number_to_string_impl (a0 : list val) (a1 : loc) : fine a0 -> fine a1 -> safe P (number_to_string_impl a0 a1) fine.
  Proof. intros; unfold number_to_string_impl; inv; sf. Qed.
  #[local] Hint Resolve safe_number_to_string_impl : safe.
  Lemma safe_string_to_number_impl (a0 : list val) (a1 : loc) : fine a0 -> fine a1 -> safe P (string_to_number_impl a0 a1) fine.
  Proof. intros; unfold string_to_number_impl; inv; sf. Qed.
  #[local] Hint Resolve safe_string_to_number_impl : safe.
  Lemma fine_best_ints b acc l : fine l -> fine (best_ints b acc l).
  Proof.
    revert acc. induction l as [|x l IH]; intros acc H; [exact I|]. apply fine_cons_inv in H. destruct H as [Hx Hl].
    destruct x; cbn [best_ints]; try exact Hx; apply IH, Hl.
  Qed.
  Lemma fine_best_floats b acc l : fine l -> fine (best_floats b acc l).
  Proof.
    revert acc. induction l as [|x l IH]; intros acc H; [exact I|]. apply fine_cons_inv in H. destruct H as [Hx Hl].
    cbn [best_floats]. destruct (numberp x); [apply IH, Hl|exact Hx].
  Qed.
  Ltac ffun ::= first [ffun0 | apply fine_any_floats | apply fine_best_ints | apply fine_best_floats].
  Lemma safe_best_impl a0 a1 a2 a3 a4 : fine a3 -> fine a4 -> safe P (best_impl a0 a1 a2 a3 a4) fine.
  Proof. intros; unfold best_impl; inv; sf. Qed.
  #[local] Hint Resolve safe_best_impl : safe.

  Lemma safe_min_impl (a0 : list val) (a1 : loc) : fine a0 -> fine a1 -> safe P (min_impl a0 a1) fine.
  Proof. intros; unfold min_impl; inv; sf. Qed.
  #[local] Hint Resolve safe_min_impl : safe.
  Lemma safe_max_impl (a0 : list val) (a1 : loc) : fine a0 -> fine a1 -> safe P (max_impl a0 a1) fine.
  Proof. intros; unfold max_impl; inv; sf. Qed.
  #[local] Hint Resolve safe_max_impl : safe.
  Lemma safe_floor_impl (a0 : list val) (a1 : loc) : fine a0 -> fine a1 -> safe P (floor_impl a0 a1) fine.
  Proof. intros; unfold floor_impl; inv; sf. Qed.
  #[local] Hint Resolve safe_floor_impl : safe.
  Lemma safe_ceiling_impl (a0 : list val) (a1 : loc) : fine a0 -> fine a1 -> safe P (ceiling_impl a0 a1) fine.
  Proof. intros; unfold ceiling_impl; inv; sf. Qed.
  #[local] Hint Resolve safe_ceiling_impl : safe.
  Lemma safe_abs_impl (a0 : list val) (a1 : loc) : fine a0 -> fine a1 -> safe P (abs_impl a0 a1) fine.
  Proof. intros; unfold abs_impl; inv; sf. Qed.
  #[local] Hint Resolve safe_abs_impl : safe.
  Lemma safe_float_test (a0 : string) (a1 : (f32 -> bool)) (a2 : list val) (a3 : loc) : fine a2 -> fine a3 -> safe P (float_test a0 a1 a2 a3) fine.
  Proof. intros; unfold float_test; inv; sf. Qed.
  #[local] Hint Resolve safe_float_test : safe.
  Lemma safe_zero_impl (a0 : list val) (a1 : loc) : fine a0 -> fine a1 -> safe P (zero_impl a0 a1) fine.
  Proof. intros; unfold zero_impl; inv; sf. Qed.
  #[local] Hint Resolve safe_zero_impl : safe.
  Lemma safe_positive_impl (a0 : list val) (a1 : loc) : fine a0 -> fine a1 -> safe P (positive_impl a0 a1) fine.
  Proof. intros; unfold positive_impl; inv; sf. Qed.
  #[local] Hint Resolve safe_positive_impl : safe.
  Lemma safe_negative_impl (a0 : list val) (a1 : loc) : fine a0 -> fine a1 -> safe P (negative_impl a0 a1) fine.
  Proof. intros; unfold negative_impl; inv; sf. Qed.
  #[local] Hint Resolve safe_negative_impl : safe.
  Lemma safe_even_impl (a0 : list val) (a1 : loc) : fine a0 -> fine a1 -> safe P (even_impl a0 a1) fine.
  Proof. intros; unfold even_impl; inv; sf. Qed.
  #[local] Hint Resolve safe_even_impl : safe.
  Lemma safe_odd_impl (a0 : list val) (a1 : loc) : fine a0 -> fine a1 -> safe P (odd_impl a0 a1) fine.
  Proof. intros; unfold odd_impl; inv; sf. Qed.
  #[local] Hint Resolve safe_odd_impl : safe.
  Lemma safe_sign_impl (a0 : list val) (a1 : loc) : fine a0 -> fine a1 -> safe P (sign_impl a0 a1) fine.
  Proof. intros; unfold sign_impl; inv; sf. Qed.
  #[local] Hint Resolve safe_sign_impl : safe.
  Lemma safe_pow_impl (a0 : list val) (a1 : loc) : fine a0 -> fine a1 -> safe P (pow_impl a0 a1) fine.
  Proof. intros; unfold pow_impl; inv; sf. Qed.
  #[local] Hint Resolve safe_pow_impl : safe.
  Lemma safe_inf_impl (a0 : list val) (a1 : loc) : fine a0 -> fine a1 -> safe P (inf_impl a0 a1) fine.
  Proof. intros; unfold inf_impl; inv; sf. Qed.
  #[local] Hint Resolve safe_inf_impl : safe.
  Lemma safe_nan_impl (a0 : list val) (a1 : loc) : fine a0 -> fine a1 -> safe P (nan_impl a0 a1) fine.
  Proof. intros; unfold nan_impl; inv; sf. Qed.
  #[local] Hint Resolve safe_nan_impl : safe.
  Lemma safe_float_to_bits_impl (a0 : list val) (a1 : loc) : fine a0 -> fine a1 -> safe P (float_to_bits_impl a0 a1) fine.
  Proof. intros; unfold float_to_bits_impl; inv; sf. Qed.
  #[local] Hint Resolve safe_float_to_bits_impl : safe.
  Lemma safe_bits_to_float_impl (a0 : list val) (a1 : loc) : fine a0 -> fine a1 -> safe P (bits_to_float_impl a0 a1) fine.
  Proof. intros; unfold bits_to_float_impl; inv; sf. Qed.
  #[local] Hint Resolve safe_bits_to_float_impl : safe.
  Lemma safe_bin2_impl (a0 : (Z -> Z -> Z)) (a1 : list val) (a2 : loc) : fine a1 -> fine a2 -> safe P (bin2_impl a0 a1 a2) fine.
  Proof. intros; unfold bin2_impl; inv; sf. Qed.
  #[local] Hint Resolve safe_bin2_impl : safe.
  Lemma safe_binary_not_impl (a0 : list val) (a1 : loc) : fine a0 -> fine a1 -> safe P (binary_not_impl a0 a1) fine.
  Proof. intros; unfold binary_not_impl; inv; sf. Qed.
  #[local] Hint Resolve safe_binary_not_impl : safe.
  Definition ok_res_bytes (r : res (list Z)) : Prop := match r with Ok b => okbytes strict b | Err _ => True end.
  Lemma byte_range z : ((z <? 0)%Z || (255 <? z)%Z) = false -> is_byte z.
  Proof. intros H. apply orb_false_iff in H. destruct H as [H1 H2]. apply Z.ltb_ge in H1, H2. unfold is_byte. lia. Qed.
  Lemma safe_list_to_bytes (a0 : val) : fine a0 -> safe P (list_to_bytes a0) ok_res_bytes.
  Proof.
    intros H0. unfold list_to_bytes. apply safe_bind. eapply safe_conseq; [apply safe_nilp, H0|]. intros [] _; [exact I|].
    destruct (negb (listp a0)); [exact I|].
    apply (@safe_for_cells_to (list Z) _ (okbytes strict)); [exact H0|exact okbytes_nil| |intros acc Ha; exact Ha].
    intros acc c Ha Hc. apply safe_bind. eapply safe_conseq; [apply safe_car, Hc|]. intros x Hx.
    destruct x; try exact I.
    - destruct ((z <? 0)%Z || (255 <? z)%Z) eqn:E; [exact I|]. apply okbytes_app; [exact Ha|]. apply okbytes_one. intros _. apply byte_range, E.
    - apply safe_bind. eapply safe_conseq; [apply safe_op; exact Hx|]. intros b Hb. apply okbytes_app; [exact Ha|exact Hb].
  Qed.
  #[local] Hint Resolve safe_list_to_bytes : safe.
  Lemma safe_list_to_bytes_impl (a0 : list val) (a1 : loc) : fine a0 -> fine a1 -> safe P (list_to_bytes_impl a0 a1) fine.
  Proof.
    intros. unfold list_to_bytes_impl, bind_ok. apply safe_bind. eapply safe_conseq; [apply safe_list_to_bytes; fa|].
    intros [b|m] Hb; [|exact I]. change (okbytes strict b) in Hb. inv. sf.
  Qed.
  #[local] Hint Resolve safe_list_to_bytes_impl : safe.
  Lemma safe_bytes_to_list_impl (a0 : list val) (a1 : loc) : fine a0 -> fine a1 -> safe P (bytes_to_list_impl a0 a1) fine.
  Proof. intros; unfold bytes_to_list_impl; inv; sf. Qed.
  #[local] Hint Resolve safe_bytes_to_list_impl : safe.
  Lemma safe_replace_byte_impl b args env :
    (b = false -> W) -> fine args -> fine env -> safe P (replace_byte_impl b args env) fine.
  Proof.
    intros Hb Ha He. unfold replace_byte_impl, need_bytes. pose proof (fine_arg 0 _ Ha) as H0.
    destruct (arg 0 args) eqn:E0; try exact I. apply safe_bind. eapply safe_conseq; [apply safe_op; exact H0|].
    intros bs Hbs. change (okbytes strict bs) in Hbs. destruct (arg 1 args); try exact I.
    destruct (Z.of_nat (length bs) <=? z)%Z; [exact I|]. destruct (z <? 0)%Z; [exact I|].
    destruct (arg 2 args); try exact I. rename z0 into v.
    destruct ((v <? 0)%Z || (255 <? v)%Z) eqn:E; [exact I|]. assert (Hv : strict -> is_byte v) by (intros _; apply byte_range, E).
    destruct b.
    - unfold set_byte. sf.
    - specialize (Hb eq_refl). change (R l) in H0. apply safe_bind. eapply safe_conseq; [apply safe_op|].
      + split; [exact Hb|split; [exact H0|exact Hv]].
      + intros _ _. exact H0.
  Qed.

  Lemma safe_extract_byte_impl (a0 : list val) (a1 : loc) : fine a0 -> fine a1 -> safe P (extract_byte_impl a0 a1) fine.
  Proof. intros; unfold extract_byte_impl; inv; sf. Qed.
  #[local] Hint Resolve safe_extract_byte_impl : safe.
  Lemma safe_append_bytes_of (a0 : list val) : fine a0 -> safe P (append_bytes_of a0) (fun r => ok_res_bytes r /\ match r with Ok _ => exists l, arg 0 a0 = VBytes l | Err _ => True end).
  Proof.
    intros H. unfold append_bytes_of, need_bytes. pose proof (fine_arg 0 _ H) as H0.
    destruct (arg 0 a0) eqn:E0; try (split; exact I). change (R l) in H0. unfold bind_ok. apply safe_bind.
    apply (safe_conseq _ _ _ ok_res_bytes).
    - assert (T : safe P (t <- tail_list 1 a0;; list_to_bytes t) ok_res_bytes).
      { apply safe_bind. eapply safe_conseq; [apply safe_tail_list; fa|]. intros t Ht. apply safe_list_to_bytes, Ht. }
      destruct a0 as [|y [|x [|]]]; try exact T; [|destruct x; exact T]. assert (Hx : fine x) by (apply fine_cons_inv in H; destruct H as [_ H]; apply fine_cons_inv in H; apply H).
      destruct x; try exact T; try (destruct (listp _); [apply safe_list_to_bytes, Hx|exact T]).
      apply safe_bind. eapply safe_conseq; [apply safe_op; exact Hx|]. intros b Hb. exact Hb.
    - intros [b|m] Hb; [|split; exact I]. apply safe_bind. eapply safe_conseq; [apply safe_op; exact H0|]. intros bs Hbs.
      split; [apply okbytes_app; [exact Hbs|exact Hb]|]. eauto.
  Qed.
  #[local] Hint Resolve safe_append_bytes_of : safe.
  Lemma safe_append_bytes_impl (a0 : list val) (a1 : loc) : fine a0 -> fine a1 -> safe P (append_bytes_impl a0 a1) fine.
  Proof.
    intros. unfold append_bytes_impl, bind_ok. apply safe_bind. eapply safe_conseq; [apply safe_append_bytes_of; fa|].
    intros [b|m] [Hb _]; [|exact I]. change (okbytes strict b) in Hb. inv. sf.
  Qed.
  #[local] Hint Resolve safe_append_bytes_impl : safe.
  Lemma safe_append_bytes_bang_impl (a0 : list val) (a1 : loc) : W -> fine a0 -> fine a1 -> safe P (append_bytes_bang_impl a0 a1) fine.
  Proof.
    intros HW H0 H1. unfold append_bytes_bang_impl, bind_ok. apply safe_bind. eapply safe_conseq; [apply safe_append_bytes_of; fa|].
    pose proof (fine_arg 0 _ H0) as Ha. intros [b|m] [Hb Hl]; [|exact I]. change (okbytes strict b) in Hb. destruct Hl as (l & El). rewrite El in Ha |- *.
    apply safe_bind. eapply safe_conseq; [apply safe_op; split; [exact HW|split; [exact Ha|exact Hb]]|]. intros _ _. exact Ha.
  Qed.
  #[local] Hint Resolve safe_append_bytes_bang_impl : safe.
  Lemma safe_extract_bytes_impl (a0 : list val) (a1 : loc) : fine a0 -> fine a1 -> safe P (extract_bytes_impl a0 a1) fine.
  Proof.
    intros H0 H1. unfold extract_bytes_impl, need_bytes. pose proof (fine_arg 0 _ H0) as Ha. destruct (arg 0 a0); try exact I.
    change (R l) in Ha. apply safe_bind. eapply safe_conseq; [apply safe_op; exact Ha|]. intros bs _. cbv zeta.
    destruct (arg 1 a0); try exact I. destruct ((z <? 0)%Z || _) eqn:E1; [exact I|]. apply orb_false_iff in E1. destruct E1 as [E1 _]. apply Z.ltb_ge in E1.
    destruct (arg 2 a0); try exact I. destruct (z0 <? 0)%Z eqn:E2; [exact I|]. apply Z.ltb_ge in E2.
    destruct (_ <? wrap64 _)%Z; [exact I|]. unfold bind_ok. apply safe_bind.
    eapply safe_conseq; [apply safe_drop_impl_count; [right; exact E1|fa|exact H1]|]. intros [d|m] Hd; [|exact I].
    apply safe_take_impl_count; [right; exact E2| |exact H1]. change (fine d) in Hd. fa.
  Qed.
  #[local] Hint Resolve safe_extract_bytes_impl : safe.
  Lemma safe_compare_impl (a0 : (f32 -> f32 -> bool)) (a1 : list val) (a2 : loc) : fine a1 -> fine a2 -> safe P (compare_impl a0 a1 a2) fine.
  Proof. intros; unfold compare_impl; inv; sf. Qed.
  #[local] Hint Resolve safe_compare_impl : safe.
  Lemma safe_equal_impl (a0 : list val) (a1 : loc) : fine a0 -> fine a1 -> safe P (equal_impl a0 a1) fine.
  Proof. intros; unfold equal_impl; inv; sf. Qed.
  #[local] Hint Resolve safe_equal_impl : safe.
  Lemma safe_not_equal_impl (a0 : list val) (a1 : loc) : fine a0 -> fine a1 -> safe P (not_equal_impl a0 a1) fine.
  Proof. intros; unfold not_equal_impl; inv; sf. Qed.
  #[local] Hint Resolve safe_not_equal_impl : safe.
  Lemma safe_not_impl (a0 : list val) (a1 : loc) : fine a0 -> fine a1 -> safe P (not_impl a0 a1) fine.
  Proof. intros; unfold not_impl; inv; sf. Qed.
  #[local] Hint Resolve safe_not_impl : safe.
  Lemma safe_logic_go (a0 : bool) (a1 : list val) (a2 : loc) (a3 : val) : fine a1 -> fine a2 -> fine a3 -> safe P (logic_go a0 a1 a2 a3) fine.
  Proof. revert a0 a2 a3. induction a1; intros; cbn [logic_go]; inv; sf. Qed.
  #[local] Hint Resolve safe_logic_go : safe.
  Lemma safe_and_impl (a0 : list val) (a1 : loc) : fine a0 -> fine a1 -> safe P (and_impl a0 a1) fine.
  Proof. intros; unfold and_impl; inv; sf. Qed.
  #[local] Hint Resolve safe_and_impl : safe.
  Lemma safe_or_impl (a0 : list val) (a1 : loc) : fine a0 -> fine a1 -> safe P (or_impl a0 a1) fine.
  Proof. intros; unfold or_impl; inv; sf. Qed.
  #[local] Hint Resolve safe_or_impl : safe.
  Lemma safe_pred_of (a0 : (val -> bool)) (a1 : list val) (a2 : loc) : fine a1 -> fine a2 -> safe P (pred_of a0 a1 a2) fine.
  Proof. intros; unfold pred_of; inv; sf. Qed.
  #[local] Hint Resolve safe_pred_of : safe.
  Lemma safe_nilp_impl (a0 : list val) (a1 : loc) : fine a0 -> fine a1 -> safe P (nilp_impl a0 a1) fine.
  Proof. intros; unfold nilp_impl; inv; sf. Qed.
  #[local] Hint Resolve safe_nilp_impl : safe.
  Lemma safe_notnilp_impl (a0 : list val) (a1 : loc) : fine a0 -> fine a1 -> safe P (notnilp_impl a0 a1) fine.
  Proof. intros; unfold notnilp_impl; inv; sf. Qed.
  #[local] Hint Resolve safe_notnilp_impl : safe.
  Lemma safe_frame_slots : forall l acc, fine l -> fine acc -> safe P (frame_slots l acc) fine.
  Proof.
    fix IH 1. intros [|k [|v l]] acc Hl Ha; cbn [frame_slots]; try exact Ha. inv. unfold need_naked.
    destruct k; try (clear IH; sf; fail). destruct (naked_name s); [|clear IH; sf]. apply IH; fa.
  Qed.
  #[local] Hint Resolve safe_frame_slots : safe.

  Lemma safe_make_frame_impl (a0 : list val) (a1 : loc) : fine a0 -> fine a1 -> safe P (make_frame_impl a0 a1) fine.
  Proof. intros; unfold make_frame_impl; inv; sf. Qed.
  #[local] Hint Resolve safe_make_frame_impl : safe.
  Lemma safe_has_slot_impl (a0 : list val) (a1 : loc) : fine a0 -> fine a1 -> safe P (has_slot_impl a0 a1) fine.
  Proof. intros; unfold has_slot_impl; inv; sf. Qed.
  #[local] Hint Resolve safe_has_slot_impl : safe.
  Lemma safe_get_slot_impl (a0 : list val) (a1 : loc) : fine a0 -> fine a1 -> safe P (get_slot_impl a0 a1) fine.
  Proof. intros; unfold get_slot_impl; inv; sf. Qed.
  #[local] Hint Resolve safe_get_slot_impl : safe.
  Lemma safe_get_slot_or_nil_impl (a0 : list val) (a1 : loc) : fine a0 -> fine a1 -> safe P (get_slot_or_nil_impl a0 a1) fine.
  Proof. intros; unfold get_slot_or_nil_impl; inv; sf. Qed.
  #[local] Hint Resolve safe_get_slot_or_nil_impl : safe.
  Lemma safe_remove_slot_impl (a0 : list val) (a1 : loc) : WF -> fine a0 -> fine a1 -> safe P (remove_slot_impl a0 a1) fine.
  Proof. intros; unfold remove_slot_impl; inv; sf. Qed.
  #[local] Hint Resolve safe_remove_slot_impl : safe.
  Lemma safe_set_slot_impl (a0 : list val) (a1 : loc) : WF -> fine a0 -> fine a1 -> safe P (set_slot_impl a0 a1) fine.
  Proof. intros; unfold set_slot_impl; inv; sf. Qed.
  #[local] Hint Resolve safe_set_slot_impl : safe.
  Lemma safe_send_impl (a0 : list val) (a1 : loc) : fine a0 -> fine a1 -> safe P (send_impl a0 a1) fine.
  Proof. intros; unfold send_impl; inv; sf. Qed.
  #[local] Hint Resolve safe_send_impl : safe.
  Lemma safe_super_parents (a0 : string) (a1 : list val) : all_frames a1 -> fine a1 -> safe P (super_parents a0 a1) fine.
  Proof.
     induction a1 as [|v a1 IH]; intros; cbn [super_parents]; [inv; sf|].
    match goal with H : all_frames _ |- _ => apply all_frames_cons in H; destruct H as [Hv ?] end.
    destruct v; try (destruct Hv as [?|(? & Hv)]; [change MP; assumption|discriminate]). inv; sf.
  Qed.
  #[local] Hint Resolve safe_super_parents : safe.
  Lemma safe_super_function (a0 : string) (a1 : loc) : fine a1 -> safe P (super_function a0 a1) fine.
  Proof. intros; unfold super_function; inv; sf. Qed.
  #[local] Hint Resolve safe_super_function : safe.
  Lemma safe_super_apply (a0 : loc) (a1 : val) (a2 : loc) (a3 : loc) : fine a0 -> fine a1 -> fine a2 -> fine a3 -> safe P (super_apply a0 a1 a2 a3) fine.
  Proof. intros; unfold super_apply; inv; sf. Qed.
  #[local] Hint Resolve safe_super_apply : safe.
  Lemma safe_send_super_impl (a0 : list val) (a1 : loc) : fine a0 -> fine a1 -> safe P (send_super_impl a0 a1) fine.
  Proof. intros; unfold send_super_impl; inv; sf. Qed.
  #[local] Hint Resolve safe_send_super_impl : safe.
  Lemma safe_eval_all (a0 : list val) (a1 : loc) : fine a0 -> fine a1 -> safe P (eval_all a0 a1) fine.
  Proof. revert a1. induction a0; intros; cbn [eval_all]; inv; sf. Qed.
  #[local] Hint Resolve safe_eval_all : safe.
  Lemma safe_spread_args (a0 : list val) : MP -> fine a0 -> safe P (spread_args a0) fine.
  Proof. intros; unfold spread_args; inv; sf. Qed.
  #[local] Hint Resolve safe_spread_args : safe.
  Lemma safe_apply_slot_impl (a0 : list val) (a1 : loc) : MP -> fine a0 -> fine a1 -> safe P (apply_slot_impl a0 a1) fine.
  Proof. intros; unfold apply_slot_impl; inv; sf. Qed.
  #[local] Hint Resolve safe_apply_slot_impl : safe.
  Lemma safe_apply_slot_super_impl (a0 : list val) (a1 : loc) : MP -> fine a0 -> fine a1 -> safe P (apply_slot_super_impl a0 a1) fine.
  Proof. intros; unfold apply_slot_super_impl; inv; sf. Qed.
  #[local] Hint Resolve safe_apply_slot_super_impl : safe.
  Lemma safe_clone_impl (a0 : list val) (a1 : loc) : fine a0 -> fine a1 -> safe P (clone_impl a0 a1) fine.
  Proof. intros; unfold clone_impl; inv; sf. Qed.
  #[local] Hint Resolve safe_clone_impl : safe.
  Lemma safe_frame_keys_impl (a0 : list val) (a1 : loc) : fine a0 -> fine a1 -> safe P (frame_keys_impl a0 a1) fine.
  Proof. intros; unfold frame_keys_impl; inv; sf. Qed.
  #[local] Hint Resolve safe_frame_keys_impl : safe.
  Lemma safe_frame_values_impl (a0 : list val) (a1 : loc) : fine a0 -> fine a1 -> safe P (frame_values_impl a0 a1) fine.
  Proof. intros; unfold frame_values_impl; inv; sf. Qed.
  #[local] Hint Resolve safe_frame_values_impl : safe.
  Lemma safe_environmentp_impl (a0 : list val) (a1 : loc) : fine a0 -> fine a1 -> safe P (environmentp_impl a0 a1) fine.
  Proof. intros; unfold environmentp_impl; inv; sf. Qed.
  #[local] Hint Resolve safe_environmentp_impl : safe.
  Lemma safe_environment_has_parent_impl (a0 : list val) (a1 : loc) : fine a0 -> fine a1 -> safe P (environment_has_parent_impl a0 a1) fine.
  Proof. intros; unfold environment_has_parent_impl; inv; sf. Qed.
  #[local] Hint Resolve safe_environment_has_parent_impl : safe.
  Lemma safe_environment_parent_impl (a0 : list val) (a1 : loc) : opened -> fine a0 -> fine a1 -> safe P (environment_parent_impl a0 a1) fine.
  Proof. intros; unfold environment_parent_impl; inv; sf. Qed.
  #[local] Hint Resolve safe_environment_parent_impl : safe.
  Lemma safe_binding_syms (a0 : bool) (a1 : list (string * loc)) : fine a1 -> safe P (binding_syms a0 a1) fine.
  Proof. revert a0. induction a1; intros; cbn [binding_syms]; inv; sf. Qed.
  #[local] Hint Resolve safe_binding_syms : safe.
  Lemma safe_binding_lists (a0 : list (string * loc)) : fine a0 -> safe P (binding_lists a0) fine.
  Proof. induction a0; intros; cbn [binding_lists]; inv; sf. Qed.
  #[local] Hint Resolve safe_binding_lists : safe.
  Lemma safe_environment_bound_names_impl (a0 : list val) (a1 : loc) : fine a0 -> fine a1 -> safe P (environment_bound_names_impl a0 a1) fine.
  Proof. intros; unfold environment_bound_names_impl; inv; sf. Qed.
  #[local] Hint Resolve safe_environment_bound_names_impl : safe.
  Lemma safe_environment_macro_names_impl (a0 : list val) (a1 : loc) : fine a0 -> fine a1 -> safe P (environment_macro_names_impl a0 a1) fine.
  Proof. intros; unfold environment_macro_names_impl; inv; sf. Qed.
  #[local] Hint Resolve safe_environment_macro_names_impl : safe.
  Lemma safe_environment_bindings_impl (a0 : list val) (a1 : loc) : fine a0 -> fine a1 -> safe P (environment_bindings_impl a0 a1) fine.
  Proof. intros; unfold environment_bindings_impl; inv; sf. Qed.
  #[local] Hint Resolve safe_environment_bindings_impl : safe.
  Lemma safe_environment_reference_type_impl (a0 : list val) (a1 : loc) : fine a0 -> fine a1 -> safe P (environment_reference_type_impl a0 a1) fine.
  Proof. intros; unfold environment_reference_type_impl; inv; sf. Qed.
  #[local] Hint Resolve safe_environment_reference_type_impl : safe.
  Lemma safe_environment_bound_impl (a0 : string) (a1 : list val) (a2 : loc) : fine a1 -> fine a2 -> safe P (environment_bound_impl a0 a1 a2) fine.
  Proof. intros; unfold environment_bound_impl; inv; sf. Qed.
  #[local] Hint Resolve safe_environment_bound_impl : safe.
  Lemma safe_environment_assigned_impl (a0 : list val) (a1 : loc) : fine a0 -> fine a1 -> safe P (environment_assigned_impl a0 a1) fine.
  Proof. intros; unfold environment_assigned_impl; inv; sf. Qed.
  #[local] Hint Resolve safe_environment_assigned_impl : safe.
  Lemma safe_environment_lookup_impl (a0 : list val) (a1 : loc) : fine a0 -> fine a1 -> safe P (environment_lookup_impl a0 a1) fine.
  Proof. intros; unfold environment_lookup_impl; inv; sf. Qed.
  #[local] Hint Resolve safe_environment_lookup_impl : safe.
  Lemma safe_environment_lookup_macro_impl (a0 : list val) (a1 : loc) : fine a0 -> fine a1 -> safe P (environment_lookup_macro_impl a0 a1) fine.
  Proof. intros; unfold environment_lookup_macro_impl; inv; sf. Qed.
  #[local] Hint Resolve safe_environment_lookup_macro_impl : safe.
  Lemma safe_environment_assign_impl (a0 : list val) (a1 : loc) : (forall l, PB l = None) -> fine a0 -> fine a1 -> safe P (environment_assign_impl a0 a1) fine.
  Proof. intros; unfold environment_assign_impl; inv; sf. Qed.
  #[local] Hint Resolve safe_environment_assign_impl : safe.
  Lemma safe_environment_definable_impl (a0 : list val) (a1 : loc) : fine a0 -> fine a1 -> safe P (environment_definable_impl a0 a1) fine.
  Proof. intros; unfold environment_definable_impl; inv; sf. Qed.
  #[local] Hint Resolve safe_environment_definable_impl : safe.
  Lemma safe_environment_define_impl (a0 : list val) (a1 : loc) : fine a0 -> fine a1 -> safe P (environment_define_impl a0 a1) fine.
  Proof. intros; unfold environment_define_impl; inv; sf. Qed.
  #[local] Hint Resolve safe_environment_define_impl : safe.
  Lemma safe_system_global_impl (a0 : list val) (a1 : loc) : opened -> fine a0 -> fine a1 -> safe P (system_global_impl a0 a1) fine.
  Proof. intros; unfold system_global_impl; inv; sf. Qed.
  #[local] Hint Resolve safe_system_global_impl : safe.
  Lemma safe_the_environment_impl (a0 : list val) (a1 : loc) : fine a0 -> fine a1 -> safe P (the_environment_impl a0 a1) fine.
  Proof. intros; unfold the_environment_impl; inv; sf. Qed.
  #[local] Hint Resolve safe_the_environment_impl : safe.
  Lemma safe_bind_names (a0 : loc) (a1 : val) (a2 : val) (a3 : bool) : fine a0 -> fine a1 -> fine a2 -> safe P (bind_names a0 a1 a2 a3) fine.
  Proof. intros; unfold bind_names; inv; sf. Qed.
  #[local] Hint Resolve safe_bind_names : safe.
  Lemma safe_make_top_level_impl (a0 : list val) (a1 : loc) : opened -> fine a0 -> fine a1 -> safe P (make_top_level_impl a0 a1) fine.
  Proof. intros; unfold make_top_level_impl; inv; sf. Qed.
  #[local] Hint Resolve safe_make_top_level_impl : safe.
  Lemma safe_find_top_level_impl (a0 : list val) (a1 : loc) : opened -> fine a0 -> fine a1 -> safe P (find_top_level_impl a0 a1) fine.
  Proof. intros; unfold find_top_level_impl; inv; sf. Qed.
  #[local] Hint Resolve safe_find_top_level_impl : safe.
  Lemma safe_procedure_environment_impl (a0 : list val) (a1 : loc) : fine a0 -> fine a1 -> safe P (procedure_environment_impl a0 a1) fine.
  Proof. intros; unfold procedure_environment_impl; inv; sf. Qed.
  #[local] Hint Resolve safe_procedure_environment_impl : safe.
  Lemma safe_restrict_environment_impl (a0 : list val) (a1 : loc) : fine a0 -> fine a1 -> safe P (restrict_environment_impl a0 a1) fine.
  Proof. intros; unfold restrict_environment_impl; inv; sf. Qed.
  #[local] Hint Resolve safe_restrict_environment_impl : safe.
  Lemma safe_alloc_sexp (x : sexp) : fine x -> safe P (alloc_sexp x) fine.
  Proof.
    induction x; intros Hx; cbn [alloc_sexp]; try (sf; fail).
    - assert (fine x1) by (intros Hs; exact (proj1 (Hx Hs))). assert (fine x2) by (intros Hs; exact (proj2 (Hx Hs))). sf.
  Qed.
  #[local] Hint Resolve safe_alloc_sexp : safe.

  Lemma safe_parse_impl (a0 : list val) (a1 : loc) : fine a0 -> fine a1 -> safe P (parse_impl a0 a1) fine.
  Proof. intros; unfold parse_impl; inv; sf. Qed.
  #[local] Hint Resolve safe_parse_impl : safe.
  Lemma safe_eval_all_tokens (a0 : loc) (a1 : list token) : fine a0 -> safe P (eval_all_tokens a0 a1) fine.
  Proof. intros; unfold eval_all_tokens; inv; sf. Qed.
  #[local] Hint Resolve safe_eval_all_tokens : safe.
  Lemma safe_parse_and_eval_all (a0 : string) (a1 : loc) : fine a1 -> safe P (parse_and_eval_all a0 a1) fine.
  Proof. intros; unfold parse_and_eval_all; inv; sf. Qed.
  #[local] Hint Resolve safe_parse_and_eval_all : safe.
  Lemma safe_parse_and_eval (a0 : string) (a1 : loc) : fine a1 -> safe P (parse_and_eval a0 a1) fine.
  Proof. intros; unfold parse_and_eval; inv; sf. Qed.
  #[local] Hint Resolve safe_parse_and_eval : safe.
  Lemma safe_new_strs (a0 : list string) : safe P (new_strs a0) fine.
  Proof. induction a0; intros; cbn [new_strs]; inv; sf. Qed.
  #[local] Hint Resolve safe_new_strs : safe.
  Lemma safe_string_split_impl (a0 : list val) (a1 : loc) : fine a0 -> fine a1 -> safe P (string_split_impl a0 a1) fine.
  Proof. intros; unfold string_split_impl; inv; sf. Qed.
  #[local] Hint Resolve safe_string_split_impl : safe.
  Lemma safe_string_join_impl (a0 : list val) (a1 : loc) : fine a0 -> fine a1 -> safe P (string_join_impl a0 a1) fine.
  Proof. intros; unfold string_join_impl; inv; sf. Qed.
  #[local] Hint Resolve safe_string_join_impl : safe.
  Lemma safe_trim_impl (a0 : trim_side) (a1 : list val) (a2 : loc) : fine a1 -> fine a2 -> safe P (trim_impl a0 a1 a2) fine.
  Proof. intros; unfold trim_impl; inv; sf. Qed.
  #[local] Hint Resolve safe_trim_impl : safe.
  Lemma safe_case_impl_of n b f args env :
    (b = true -> W) -> (forall u s, f u s = None -> MP) -> fine args -> fine env -> safe P (case_impl_of n b f args env) fine.
  Proof.
    intros Hb Hf Ha He. unfold case_impl_of, need_string. pose proof (fine_arg 0 _ Ha) as H0. destruct (arg 0 args); try (clear Hf; inv; sf; fail).
    change (R l) in H0. apply safe_bind. eapply safe_conseq; [apply safe_op; exact H0|]. intros s0 _.
    apply safe_bind. eapply safe_conseq; [apply safe_op; exact I|]. intros u _.
    destruct (f u s0) as [t|] eqn:E; [clear Hf|exact (Hf _ _ E)].
    destruct b; [specialize (Hb eq_refl)|clear Hb]; sf.
  Qed.

  Lemma safe_string_length_impl (a0 : list val) (a1 : loc) : fine a0 -> fine a1 -> safe P (string_length_impl a0 a1) fine.
  Proof. intros; unfold string_length_impl; inv; sf. Qed.
  #[local] Hint Resolve safe_string_length_impl : safe.
  Lemma safe_string_null_impl (a0 : list val) (a1 : loc) : fine a0 -> fine a1 -> safe P (string_null_impl a0 a1) fine.
  Proof. intros; unfold string_null_impl; inv; sf. Qed.
  #[local] Hint Resolve safe_string_null_impl : safe.
  Lemma safe_substring_impl (a0 : list val) (a1 : loc) : MP -> fine a0 -> fine a1 -> safe P (substring_impl a0 a1) fine.
  Proof. intros; unfold substring_impl; inv; sf. Qed.
  #[local] Hint Resolve safe_substring_impl : safe.
  Lemma safe_part_test (a0 : string) (a1 : (string -> string -> bool)) (a2 : list val) (a3 : loc) : fine a2 -> fine a3 -> safe P (part_test a0 a1 a2 a3) fine.
  Proof. intros; unfold part_test; inv; sf. Qed.
  #[local] Hint Resolve safe_part_test : safe.
  Lemma safe_substringp_impl (a0 : list val) (a1 : loc) : fine a0 -> fine a1 -> safe P (substringp_impl a0 a1) fine.
  Proof. intros; unfold substringp_impl; inv; sf. Qed.
  #[local] Hint Resolve safe_substringp_impl : safe.
  Lemma safe_string_prefix_impl (a0 : list val) (a1 : loc) : fine a0 -> fine a1 -> safe P (string_prefix_impl a0 a1) fine.
  Proof. intros; unfold string_prefix_impl; inv; sf. Qed.
  #[local] Hint Resolve safe_string_prefix_impl : safe.
  Lemma safe_string_suffix_impl (a0 : list val) (a1 : loc) : fine a0 -> fine a1 -> safe P (string_suffix_impl a0 a1) fine.
  Proof. intros; unfold string_suffix_impl; inv; sf. Qed.
  #[local] Hint Resolve safe_string_suffix_impl : safe.
  Lemma safe_string_compare_impl (a0 : string) (a1 : bool) (a2 : (string -> string -> bool)) (a3 : list val) (a4 : loc) : fine a3 -> fine a4 -> safe P (string_compare_impl a0 a1 a2 a3 a4) fine.
  Proof. intros; unfold string_compare_impl; inv; sf. Qed.
  #[local] Hint Resolve safe_string_compare_impl : safe.
  Lemma safe_external (a0 : string) (a1 : list val) (a2 : loc) : fine a1 -> fine a2 -> safe P (external a0 a1 a2) fine.
  Proof. intros; unfold external; inv; sf. Qed.
  #[local] Hint Resolve safe_external : safe.
  Lemma safe_oracle_bytes (a0 : nat) : safe P (oracle_bytes a0) fine.
  Proof. induction a0; intros; cbn [oracle_bytes]; inv; sf. Qed.
  #[local] Hint Resolve safe_oracle_bytes : safe.
  Lemma safe_oracle_text  : safe P (oracle_text) fine.
  Proof. intros; unfold oracle_text; inv; sf. Qed.
  #[local] Hint Resolve safe_oracle_text : safe.
  Lemma safe_oracle_texts (a0 : nat) : safe P (oracle_texts a0) fine.
  Proof. induction a0; intros; cbn [oracle_texts]; inv; sf. Qed.
  #[local] Hint Resolve safe_oracle_texts : safe.
  Lemma safe_sleep_impl (a0 : list val) (a1 : loc) : fine a0 -> fine a1 -> safe P (sleep_impl a0 a1) fine.
  Proof. intros; unfold sleep_impl; inv; sf. Qed.
  #[local] Hint Resolve safe_sleep_impl : safe.
  Lemma safe_millis_impl (a0 : list val) (a1 : loc) : fine a0 -> fine a1 -> safe P (millis_impl a0 a1) fine.
  Proof. intros; unfold millis_impl; inv; sf. Qed.
  #[local] Hint Resolve safe_millis_impl : safe.
  Lemma safe_concat_forms (a0 : list val) : fine a0 -> safe P (concat_forms a0) fine.
  Proof. induction a0; intros; cbn [concat_forms]; inv; sf. Qed.
  #[local] Hint Resolve safe_concat_forms : safe.
  Lemma safe_concat_string_forms (a0 : list val) : fine a0 -> safe P (concat_string_forms a0) fine.
  Proof. intros; unfold concat_string_forms; inv; sf. Qed.
  #[local] Hint Resolve safe_concat_string_forms : safe.
  Lemma safe_write_line_impl (a0 : list val) (a1 : loc) : fine a0 -> fine a1 -> safe P (write_line_impl a0 a1) fine.
  Proof. intros; unfold write_line_impl; inv; sf. Qed.
  #[local] Hint Resolve safe_write_line_impl : safe.
  Lemma safe_write_log_impl (a0 : list val) (a1 : loc) : fine a0 -> fine a1 -> safe P (write_log_impl a0 a1) fine.
  Proof. intros; unfold write_log_impl; inv; sf. Qed.
  #[local] Hint Resolve safe_write_log_impl : safe.
  Lemma safe_str_impl (a0 : list val) (a1 : loc) : fine a0 -> fine a1 -> safe P (str_impl a0 a1) fine.
  Proof. intros; unfold str_impl; inv; sf. Qed.
  #[local] Hint Resolve safe_str_impl : safe.
  Lemma safe_intern_impl (a0 : list val) (a1 : loc) : fine a0 -> fine a1 -> safe P (intern_impl a0 a1) fine.
  Proof. intros; unfold intern_impl; inv; sf. Qed.
  #[local] Hint Resolve safe_intern_impl : safe.
  Lemma safe_quit_impl (a0 : list val) (a1 : loc) : fine a0 -> fine a1 -> safe P (quit_impl a0 a1) fine.
  Proof. intros; unfold quit_impl; inv; sf. Qed.
  #[local] Hint Resolve safe_quit_impl : safe.
  Lemma safe_gensym_impl (a0 : string) (a1 : bool) (a2 : list val) (a3 : loc) : fine a2 -> fine a3 -> safe P (gensym_impl a0 a1 a2 a3) fine.
  Proof. intros; unfold gensym_impl; inv; sf. Qed.
  #[local] Hint Resolve safe_gensym_impl : safe.
  Lemma safe_eval_impl (a0 : list val) (a1 : loc) : fine a0 -> fine a1 -> safe P (eval_impl a0 a1) fine.
  Proof. intros; unfold eval_impl; inv; sf. Qed.
  #[local] Hint Resolve safe_eval_impl : safe.
  Lemma safe_global_eval_impl (a0 : list val) (a1 : loc) : opened -> fine a0 -> fine a1 -> safe P (global_eval_impl a0 a1) fine.
  Proof. intros; unfold global_eval_impl; inv; sf. Qed.
  #[local] Hint Resolve safe_global_eval_impl : safe.
  Lemma safe_panic_impl (a0 : list val) (a1 : loc) : MP -> fine a0 -> fine a1 -> safe P (panic_impl a0 a1) fine.
  Proof. intros; unfold panic_impl; inv; sf. Qed.
  #[local] Hint Resolve safe_panic_impl : safe.
  Lemma safe_error_impl (a0 : list val) (a1 : loc) : fine a0 -> fine a1 -> safe P (error_impl a0 a1) fine.
  Proof. intros; unfold error_impl; inv; sf. Qed.
  #[local] Hint Resolve safe_error_impl : safe.
  Lemma safe_on_error_impl (a0 : list val) (a1 : loc) : fine a0 -> fine a1 -> safe P (on_error_impl a0 a1) fine.
  Proof. intros; unfold on_error_impl; inv; sf. Qed.
  #[local] Hint Resolve safe_on_error_impl : safe.
  Lemma safe_time_impl (a0 : list val) (a1 : loc) : fine a0 -> fine a1 -> safe P (time_impl a0 a1) fine.
  Proof. intros; unfold time_impl; inv; sf. Qed.
  #[local] Hint Resolve safe_time_impl : safe.
  Lemma safe_profile_impl (a0 : list val) (a1 : loc) : fine a0 -> fine a1 -> safe P (profile_impl a0 a1) fine.
  Proof. intros; unfold profile_impl; inv; sf. Qed.
  #[local] Hint Resolve safe_profile_impl : safe.
  Lemma safe_load_impl (a0 : list val) (a1 : loc) : opened -> fine a0 -> fine a1 -> safe P (load_impl a0 a1) fine.
  Proof. intros; unfold load_impl; inv; sf. Qed.
  #[local] Hint Resolve safe_load_impl : safe.
  Lemma safe_port_write (a0 : string) (a1 : loc) (a2 : string) : fine a1 -> safe P (port_write a0 a1 a2) fine.
  Proof. intros; unfold port_write; inv; sf. Qed.
  #[local] Hint Resolve safe_port_write : safe.
  Lemma safe_write_string_impl (a0 : list val) (a1 : loc) : fine a0 -> fine a1 -> safe P (write_string_impl a0 a1) fine.
  Proof. intros; unfold write_string_impl; inv; sf. Qed.
  #[local] Hint Resolve safe_write_string_impl : safe.
  Lemma safe_write_impl (a0 : list val) (a1 : loc) : fine a0 -> fine a1 -> safe P (write_impl a0 a1) fine.
  Proof. intros; unfold write_impl; inv; sf. Qed.
  #[local] Hint Resolve safe_write_impl : safe.
  Lemma safe_newline_impl (a0 : list val) (a1 : loc) : fine a0 -> fine a1 -> safe P (newline_impl a0 a1) fine.
  Proof. intros; unfold newline_impl; inv; sf. Qed.
  #[local] Hint Resolve safe_newline_impl : safe.
  Lemma safe_eof_object_impl (a0 : list val) (a1 : loc) : fine a0 -> fine a1 -> safe P (eof_object_impl a0 a1) fine.
  Proof. intros; unfold eof_object_impl; inv; sf. Qed.
  #[local] Hint Resolve safe_eof_object_impl : safe.
  Lemma safe_open_impl (a0 : string) (a1 : string) (b : bool) (a2 : list val) (a3 : loc) : fine a2 -> fine a3 -> safe P (open_impl a0 a1 b a2 a3) fine.
  Proof. intros; unfold open_impl; inv; sf. Qed.
  #[local] Hint Resolve safe_open_impl : safe.
  Lemma safe_close_port_impl (a0 : list val) (a1 : loc) : fine a0 -> fine a1 -> safe P (close_port_impl a0 a1) fine.
  Proof. intros; unfold close_port_impl; inv; sf. Qed.
  #[local] Hint Resolve safe_close_port_impl : safe.
  Lemma safe_write_bytes_impl (a0 : list val) (a1 : loc) : fine a0 -> fine a1 -> safe P (write_bytes_impl a0 a1) fine.
  Proof. intros; unfold write_bytes_impl; inv; sf. Qed.
  #[local] Hint Resolve safe_write_bytes_impl : safe.
  Lemma safe_port_reader (a0 : loc) : fine a0 -> safe P (port_reader a0) (fun _ => True).
  Proof. intros; unfold port_reader; inv; sf. Qed.
  #[local] Hint Resolve safe_port_reader : safe.
  Lemma safe_read_impl (a0 : list val) (a1 : loc) : fine a0 -> fine a1 -> safe P (read_impl a0 a1) fine.
  Proof. intros; unfold read_impl; inv; sf. Qed.
  #[local] Hint Resolve safe_read_impl : safe.
  Lemma safe_list_directory_impl (a0 : list val) (a1 : loc) : fine a0 -> fine a1 -> safe P (list_directory_impl a0 a1) fine.
  Proof. intros; unfold list_directory_impl; inv; sf. Qed.
  #[local] Hint Resolve safe_list_directory_impl : safe.
  Lemma safe_format_number (a0 : string) (a1 : Z) (a2 : list val) : fine a2 -> safe P (format_number a0 a1 a2) fine.
  Proof. intros; unfold format_number; inv; sf. Qed.
  #[local] Hint Resolve safe_format_number : safe.
  Lemma safe_format_go (a0 : nat) (a1 : string) (a2 : Z) (a3 : list val) (a4 : bool) (a5 : string) : MP -> fine a3 -> safe P (format_go a0 a1 a2 a3 a4 a5) fine.
  Proof. revert a1 a2 a3 a4 a5. induction a0; intros; cbn [format_go]; inv; sf. Qed.
  #[local] Hint Resolve safe_format_go : safe.
  Lemma safe_format_impl (a0 : list val) (a1 : loc) : MP -> fine a0 -> fine a1 -> safe P (format_impl a0 a1) fine.
  Proof. intros; unfold format_impl; inv; sf. Qed.
  #[local] Hint Resolve safe_format_impl : safe.
  Lemma safe_make_channel_impl (a0 : list val) (a1 : loc) : MP -> fine a0 -> fine a1 -> safe P (make_channel_impl a0 a1) fine.
  Proof. intros; unfold make_channel_impl; inv; sf. Qed.
  #[local] Hint Resolve safe_make_channel_impl : safe.
  Lemma safe_channel_write_impl (a0 : list val) (a1 : loc) : fine a0 -> fine a1 -> safe P (channel_write_impl a0 a1) fine.
  Proof. intros; unfold channel_write_impl; inv; sf. Qed.
  #[local] Hint Resolve safe_channel_write_impl : safe.
  Lemma safe_channel_read_impl (a0 : list val) (a1 : loc) : fine a0 -> fine a1 -> safe P (channel_read_impl a0 a1) fine.
  Proof. intros; unfold channel_read_impl; inv; sf. Qed.
  #[local] Hint Resolve safe_channel_read_impl : safe.
  Lemma safe_channel_try_write_impl (a0 : list val) (a1 : loc) : fine a0 -> fine a1 -> safe P (channel_try_write_impl a0 a1) fine.
  Proof. intros; unfold channel_try_write_impl; inv; sf. Qed.
  #[local] Hint Resolve safe_channel_try_write_impl : safe.
  Lemma safe_channel_try_read_impl (a0 : list val) (a1 : loc) : fine a0 -> fine a1 -> safe P (channel_try_read_impl a0 a1) fine.
  Proof. intros; unfold channel_try_read_impl; inv; sf. Qed.
  #[local] Hint Resolve safe_channel_try_read_impl : safe.
  Lemma safe_close_channel_impl (a0 : list val) (a1 : loc) : fine a0 -> fine a1 -> safe P (close_channel_impl a0 a1) fine.
  Proof. intros; unfold close_channel_impl; inv; sf. Qed.
  #[local] Hint Resolve safe_close_channel_impl : safe.
  Lemma safe_start_process (a0 : string) (a1 : bool) (a2 : loc) (a3 : val) (a4 : loc) : fine a2 -> fine a3 -> fine a4 -> safe P (start_process a0 a1 a2 a3 a4) fine.
  Proof. intros; unfold start_process; inv; sf. Qed.
  #[local] Hint Resolve safe_start_process : safe.
  Lemma safe_fork_impl (a0 : list val) (a1 : loc) : fine a0 -> fine a1 -> safe P (fork_impl a0 a1) fine.
  Proof. intros; unfold fork_impl; inv; sf. Qed.
  #[local] Hint Resolve safe_fork_impl : safe.
  Lemma safe_schedule_impl (a0 : list val) (a1 : loc) : fine a0 -> fine a1 -> safe P (schedule_impl a0 a1) fine.
  Proof. intros; unfold schedule_impl; inv; sf. Qed.
  #[local] Hint Resolve safe_schedule_impl : safe.
  Lemma safe_result_value (a0 : res val) : fine a0 -> safe P (result_value a0) fine.
  Proof. intros; unfold result_value; inv; sf. Qed.
  #[local] Hint Resolve safe_result_value : safe.
  Lemma safe_process_call (a0 : loc) (a1 : loc) (a2 : val) (a3 : loc) : fine a0 -> fine a1 -> fine a2 -> fine a3 -> safe P (process_call a0 a1 a2 a3) fine.
  Proof. intros; unfold process_call; inv; sf. Qed.
  #[local] Hint Resolve safe_process_call : safe.
  Lemma safe_scheduled_call (a0 : loc) (a1 : loc) (a2 : val) (a3 : loc) : fine a0 -> fine a1 -> fine a2 -> fine a3 -> safe P (scheduled_call a0 a1 a2 a3) fine.
  Proof. intros; unfold scheduled_call; inv; sf. Qed.
  #[local] Hint Resolve safe_scheduled_call : safe.
  Lemma safe_spawn_work r : fine r -> safe P (spawn_work r) fine.
  Proof.
    intros H. destruct r as [p f a e|p f a e]; change (R p /\ R f /\ fine a /\ R e) in H; inv;
      cbn [spawn_work]; sf.
  Qed.

  Lemma safe_ok_string  : safe P (ok_string) fine.
  Proof. intros; unfold ok_string; inv; sf. Qed.
  #[local] Hint Resolve safe_ok_string : safe.
  Lemma safe_proc_sleep_impl (a0 : list val) (a1 : loc) : fine a0 -> fine a1 -> safe P (proc_sleep_impl a0 a1) fine.
  Proof. intros; unfold proc_sleep_impl; inv; sf. Qed.
  #[local] Hint Resolve safe_proc_sleep_impl : safe.
  Lemma safe_wake_impl (a0 : list val) (a1 : loc) : fine a0 -> fine a1 -> safe P (wake_impl a0 a1) fine.
  Proof. intros; unfold wake_impl; inv; sf. Qed.
  #[local] Hint Resolve safe_wake_impl : safe.
  Lemma safe_abandon_impl (a0 : list val) (a1 : loc) : fine a0 -> fine a1 -> safe P (abandon_impl a0 a1) fine.
  Proof. intros; unfold abandon_impl; inv; sf. Qed.
  #[local] Hint Resolve safe_abandon_impl : safe.
  Lemma safe_reset_timeout_impl (a0 : list val) (a1 : loc) : fine a0 -> fine a1 -> safe P (reset_timeout_impl a0 a1) fine.
  Proof. intros; unfold reset_timeout_impl; inv; sf. Qed.
  #[local] Hint Resolve safe_reset_timeout_impl : safe.
  Lemma safe_join_impl (a0 : list val) (a1 : loc) : fine a0 -> fine a1 -> safe P (join_impl a0 a1) fine.
  Proof. intros; unfold join_impl; inv; sf. Qed.
  #[local] Hint Resolve safe_join_impl : safe.
  Lemma safe_atomic_impl (a0 : list val) (a1 : loc) : fine a0 -> fine a1 -> safe P (atomic_impl a0 a1) fine.
  Proof. intros; unfold atomic_impl; inv; sf. Qed.
  #[local] Hint Resolve safe_atomic_impl : safe.
  Lemma safe_atomic_load_impl (a0 : list val) (a1 : loc) : fine a0 -> fine a1 -> safe P (atomic_load_impl a0 a1) fine.
  Proof. intros; unfold atomic_load_impl; inv; sf. Qed.
  #[local] Hint Resolve safe_atomic_load_impl : safe.
  Lemma safe_atomic_store_impl (a0 : list val) (a1 : loc) : fine a0 -> fine a1 -> safe P (atomic_store_impl a0 a1) fine.
  Proof. intros; unfold atomic_store_impl; inv; sf. Qed.
  #[local] Hint Resolve safe_atomic_store_impl : safe.
  Lemma safe_atomic_add_impl (a0 : list val) (a1 : loc) : fine a0 -> fine a1 -> safe P (atomic_add_impl a0 a1) fine.
  Proof. intros; unfold atomic_add_impl; inv; sf. Qed.
  #[local] Hint Resolve safe_atomic_add_impl : safe.
  Lemma safe_atomic_swap_impl (a0 : list val) (a1 : loc) : fine a0 -> fine a1 -> safe P (atomic_swap_impl a0 a1) fine.
  Proof. intros; unfold atomic_swap_impl; inv; sf. Qed.
  #[local] Hint Resolve safe_atomic_swap_impl : safe.
  Lemma safe_atomic_cas_impl (a0 : list val) (a1 : loc) : fine a0 -> fine a1 -> safe P (atomic_cas_impl a0 a1) fine.
  Proof. intros; unfold atomic_cas_impl; inv; sf. Qed.
  #[local] Hint Resolve safe_atomic_cas_impl : safe.
  Lemma safe_json_to_frames : forall j, safe P (json_to_frames j) fine.
  Proof.
    fix IH 1. intros [| b | z | f | s | l | l]; cbn [json_to_frames]; try (sf; fail).
    - unfold number_to_lisp. sf.
    - destruct l as [|y l]; [exact I|]. apply safe_bind.
      apply (safe_conseq _ _ _ fine); [|post; sf].
      apply safe_bind. eapply safe_conseq; [apply IH|post].
      apply safe_bind. eapply safe_conseq; [apply safe_cons; fa|post].
      match goal with H : fine ?a |- safe _ (_ ?a) _ => revert H; generalize a end.
      clear - IH RA. induction l as [|z l IHl]; intros acc Ha; [exact Ha|].
      apply safe_bind. eapply safe_conseq; [apply IH|post].
      apply safe_bind. eapply safe_conseq; [apply safe_cons; fa|post]. apply IHl. fa.
    - apply safe_bind.
      apply (safe_conseq _ _ _ fine); [|post; sf].
      assert (Ha : fine (@nil (string * val))) by constructor. revert Ha. generalize (@nil (string * val)).
      induction l as [|[k x] l IHl]; intros acc Ha; [exact Ha|].
      apply safe_bind. eapply safe_conseq; [apply IH|post]. apply IHl. fa.
  Qed.
  #[local] Hint Resolve safe_json_to_frames : safe.

  Lemma safe_add_members (a0 : list (string * val)) (a1 : val) : W -> fine a0 -> fine a1 -> safe P (add_members a0 a1) fine.
  Proof. revert a1. induction a0; intros; cbn [add_members]; inv; sf. Qed.
  #[local] Hint Resolve safe_add_members : safe.
  Lemma safe_json_to_alist : W -> forall j, safe P (json_to_alist j) fine.
  Proof.
    intros HW. fix IH 1. intros [| b | z | f | s | l | l]; cbn [json_to_alist]; try (sf; fail).
    - unfold number_to_lisp. sf.
    - apply safe_bind.
      apply (safe_conseq _ _ _ fine); [|post; sf].
      assert (Ha : fine VNil) by exact I. revert Ha. generalize VNil.
      induction l as [|x l IHl]; intros acc Ha; [exact Ha|].
      apply safe_bind. eapply safe_conseq; [apply IH|post].
      apply safe_bind. eapply safe_conseq; [apply safe_cons; fa|post]. apply IHl. fa.
    - apply safe_bind.
      apply (safe_conseq _ _ _ fine); [|post; sf].
      induction l as [|[k x] l IHl]; [constructor|].
      apply safe_bind. eapply safe_conseq; [apply IH|post].
      apply safe_bind. eapply safe_conseq; [apply IHl|post]. sf.
  Qed.
  #[local] Hint Resolve safe_json_to_alist : safe.

  Lemma safe_to_json_body (a0 : val) : fine a0 -> safe P (to_json_body a0) fine.
  Proof. intros; unfold to_json_body; inv; sf. Qed.
  #[local] Hint Resolve safe_to_json_body : safe.
  Lemma safe_json_slots (a0 : list (string * val)) (a1 : list (string * json)) : fine a0 -> safe P (json_slots a0 a1) fine.
  Proof. revert a1. induction a0; intros; cbn [json_slots]; inv; sf. Qed.
  #[local] Hint Resolve safe_json_slots : safe.
  Lemma safe_to_json_f_body (a0 : val) : fine a0 -> safe P (to_json_f_body a0) fine.
  Proof. intros; unfold to_json_f_body; inv; sf. Qed.
  #[local] Hint Resolve safe_to_json_f_body : safe.
  Lemma safe_json_string_to_frames (a0 : string) : MP -> safe P (json_string_to_frames a0) fine.
  Proof. intros; unfold json_string_to_frames; inv; sf. Qed.
  #[local] Hint Resolve safe_json_string_to_frames : safe.
  Lemma safe_frames_to_json_string (a0 : val) : fine a0 -> safe P (frames_to_json_string a0) fine.
  Proof. intros; unfold frames_to_json_string; inv; sf. Qed.
  #[local] Hint Resolve safe_frames_to_json_string : safe.
  Lemma safe_json_string_to_lisp (a0 : string) : MP -> W -> safe P (json_string_to_lisp a0) fine.
  Proof. intros; unfold json_string_to_lisp; inv; sf. Qed.
  #[local] Hint Resolve safe_json_string_to_lisp : safe.
  Lemma safe_lisp_to_json_string (a0 : val) : fine a0 -> safe P (lisp_to_json_string a0) fine.
  Proof. intros; unfold lisp_to_json_string; inv; sf. Qed.
  #[local] Hint Resolve safe_lisp_to_json_string : safe.
  Lemma safe_json_to_lisp_impl (a0 : list val) (a1 : loc) : MP -> fine a0 -> fine a1 -> safe P (json_to_lisp_impl a0 a1) fine.
  Proof. intros; unfold json_to_lisp_impl; inv; sf. Qed.
  #[local] Hint Resolve safe_json_to_lisp_impl : safe.
  Lemma safe_lisp_to_json_impl (a0 : list val) (a1 : loc) : fine a0 -> fine a1 -> safe P (lisp_to_json_impl a0 a1) fine.
  Proof. intros; unfold lisp_to_json_impl; inv; sf. Qed.
  #[local] Hint Resolve safe_lisp_to_json_impl : safe.

  (** *** The table of built-ins *)
  (** Built-ins that write cells, strings or bytes; those that write frame slots. *)
  Definition data_writers : list string :=
    ["set-car!"; "set-cdr!"; "set-nth!"; "append!"; "acons"; "pairlis"; "dissoc"; "alist"; "copy"; "union";
     "intersection"; "complement"; "replace-byte!"; "append-bytes!"; "string-upcase!"; "string-downcase!";
     "string-capitalize!"].
  Definition frame_writers : list string := ["set!"; "append!"; "set-slot!"; "remove-slot!"].
  (** Built-ins whose walk needs the right to panic. *)
  Definition crashers : list string :=
    ["set-car!"; "set-cdr!"; "set-nth!"; "append!"; "union"; "apply"; "take"; "drop"; "make-list"; "cons*";
     "modulo"; "%"; "interval"; "apply-slot"; "apply-slot-super"; "string-capitalize"; "string-capitalize!"; "substring";
     "panic!"; "format"; "make-channel"; "json->lisp"].
  Hypothesis HR : sandbox \/ opened.
  Hypothesis HW : W \/ forall n, In n data_writers -> excl n.
  Hypothesis HWF : WF \/ forall n, In n frame_writers -> excl n.
  Hypothesis HMP : MP \/ (strict /\ forall n, In n crashers -> excl n).
  Hypothesis HP : (forall l, PB l = None) \/ excl "environment-assign!".
  Hypothesis HF : forall p, In p all_prims -> forb (p_name p) -> p_restricted p = true /\ sandbox.

  Definition prim_safe (p : prim) : Prop :=
    forall args env, fine args -> fine env -> ~ excl (p_name p) -> (p_restricted p = true -> ~ sandbox) ->
      safe P (p_body p args env) fine.
  Ltac inlist := cbn [In data_writers frame_writers crashers]; repeat (first [left; reflexivity | right]).
  Ltac getW Hx := try (assert W by (destruct HW as [?|HW']; [assumption|exfalso; apply Hx, HW'; inlist; fail])).
  Ltac getWF Hx := try (assert WF by (destruct HWF as [?|HW']; [assumption|exfalso; apply Hx, HW'; inlist; fail])).
  Ltac getM Hx := try (assert MP by (destruct HMP as [?|[_ HW']]; [assumption|exfalso; apply Hx, HW'; inlist; fail])).
  Ltac getP Hx := try (assert (forall l, PB l = None) by (destruct HP as [?|HW']; [assumption|exfalso; apply Hx, HW'])).
  Ltac getR Hr := try (assert opened by (destruct HR as [HR'|?]; [exfalso; exact (Hr eq_refl HR')|assumption])).
  Ltac prims :=
    repeat first [apply List.Forall_nil | apply List.Forall_cons];
    intros args env Ha He Hx Hr; cbn [p_name p_body p_restricted func rfunc special rspecial] in Hx, Hr |- *;
    getW Hx; getWF Hx; getM Hx; getP Hx; getR Hr; clear HW HWF HMP HP HR HF Hx Hr;
    first [ solve [eauto 2 with safe]
          | apply safe_replace_byte_impl; [first [discriminate|intros _; assumption]|fa|fa]
          | apply safe_case_impl_of; [first [discriminate|intros _; assumption]|first [discriminate|intros _ _ _; assumption]|fa|fa]
          | solve [sf] ].
  Lemma safe_type_prims : Forall prim_safe type_prims.
  Proof. unfold type_prims. prims. Qed.
  Lemma safe_math_prims : Forall prim_safe math_prims.
  Proof. unfold math_prims. prims. Qed.
  Lemma safe_binary_prims : Forall prim_safe binary_prims.
  Proof. unfold binary_prims. prims. Qed.
  Lemma safe_relative_prims : Forall prim_safe relative_prims.
  Proof. unfold relative_prims. prims. Qed.
  Lemma safe_special_prims : Forall prim_safe special_prims.
  Proof. unfold special_prims. prims. Qed.
  Lemma safe_mutator_prims : Forall prim_safe mutator_prims.
  Proof. unfold mutator_prims. prims. Qed.
  Lemma safe_list_manip_prims : Forall prim_safe list_manip_prims.
  Proof. unfold list_manip_prims. prims. Qed.
  Lemma safe_list_access_prims : Forall prim_safe list_access_prims.
  Proof. unfold list_access_prims. prims. Qed.
  Lemma safe_list_function_prims : Forall prim_safe list_function_prims.
  Proof. unfold list_function_prims. prims. Qed.
  Lemma safe_list_set_prims : Forall prim_safe list_set_prims.
  Proof. unfold list_set_prims. prims. Qed.
  Lemma safe_alist_prims : Forall prim_safe alist_prims.
  Proof. unfold alist_prims. prims. Qed.
  Lemma safe_system_prims : Forall prim_safe system_prims.
  Proof. unfold system_prims. prims. Qed.
  Lemma safe_bytearray_prims : Forall prim_safe bytearray_prims.
  Proof. unfold bytearray_prims. prims. Qed.
  Lemma safe_string_prims : Forall prim_safe string_prims.
  Proof. unfold string_prims. prims. Qed.
  Lemma safe_debug_prims : Forall prim_safe debug_prims.
  Proof. unfold debug_prims. prims. Qed.
  Lemma safe_frame_prims : Forall prim_safe frame_prims.
  Proof. unfold frame_prims. prims. Qed.
  Lemma safe_json_prims : Forall prim_safe json_prims.
  Proof. unfold json_prims. prims. Qed.
  Lemma safe_concurrency_prims : Forall prim_safe concurrency_prims.
  Proof. unfold concurrency_prims. prims. Qed.
  Lemma safe_environment_prims : Forall prim_safe environment_prims.
  Proof. unfold environment_prims. prims. Qed.
  Lemma safe_io_prims : Forall prim_safe io_prims.
  Proof. unfold io_prims. prims. Qed.
  Lemma safe_channel_prims : Forall prim_safe channel_prims.
  Proof. unfold channel_prims. prims. Qed.
  Lemma safe_all_prims : Forall prim_safe all_prims.
  Proof.
    unfold all_prims.
    apply Forall_app; split; [exact safe_type_prims|].
    apply Forall_app; split; [exact safe_math_prims|].
    apply Forall_app; split; [exact safe_binary_prims|].
    apply Forall_app; split; [exact safe_relative_prims|].
    apply Forall_app; split; [exact safe_special_prims|].
    apply Forall_app; split; [exact safe_mutator_prims|].
    apply Forall_app; split; [exact safe_list_manip_prims|].
    apply Forall_app; split; [exact safe_list_access_prims|].
    apply Forall_app; split; [exact safe_list_function_prims|].
    apply Forall_app; split; [exact safe_list_set_prims|].
    apply Forall_app; split; [exact safe_alist_prims|].
    apply Forall_app; split; [exact safe_system_prims|].
    apply Forall_app; split; [exact safe_bytearray_prims|].
    apply Forall_app; split; [exact safe_string_prims|].
    apply Forall_app; split; [exact safe_debug_prims|].
    apply Forall_app; split; [exact safe_frame_prims|].
    apply Forall_app; split; [exact safe_json_prims|].
    apply Forall_app; split; [exact safe_concurrency_prims|].
    apply Forall_app; split; [exact safe_environment_prims|].
    apply Forall_app; split; [exact safe_io_prims|].
    exact safe_channel_prims.
  Qed.
  Lemma find_prim_In n l p : find_prim n l = Some p -> In p l.
  Proof.
    induction l as [|q l IH]; cbn; [discriminate|]. destruct (str_eqb n (p_name q)); [intros [= <-]; left; reflexivity|].
    intros H. right. exact (IH H).
  Qed.

  Lemma safe_prim_apply p args env : In p all_prims -> fine args -> fine env -> safe P (prim_apply p args env) fine.
  Proof.
    intros Hp Ha He. unfold prim_apply. apply safe_bind.
    apply (safe_conseq _ _ _ (fun b => p_restricted p = true -> sandbox -> b = true)).
    { destruct (p_restricted p); [|cbn; discriminate].
      eapply safe_conseq; [apply safe_op; exact He|]. cbn. auto. }
    intros [] Hb; [unfold fail; sf|].
    assert (Hr : p_restricted p = true -> ~ sandbox) by (intros H1 H2; discriminate (Hb H1 H2)).
    clear Hb. apply safe_bind. eapply safe_conseq; [apply safe_length_of; exact Ha|]. intros n _.
    destruct (negb _).
    { apply safe_bind. eapply safe_conseq; [apply safe_length_of; exact Ha|]. intros; unfold fail; sf. }
    unfold bind_ok. apply safe_bind. eapply safe_conseq; [apply safe_collect_args; [exact Ha|exact He]|].
    intros [vs|m] Hvs; [|exact I]. change (fine vs) in Hvs.
    apply safe_bind. eapply safe_conseq; [apply safe_norm_args; exact Hvs|]. intros vs1 H1.
    split.
    - intros Hf. destruct (HF _ Hp Hf) as [Hf1 Hf2]. exact (Hr Hf1 Hf2).
    - intros [] Hx. exact (proj1 (List.Forall_forall _ _) safe_all_prims p Hp vs1 env H1 He Hx Hr).
  Qed.
  Lemma safe_prim_apply_noeval p args env :
    In p all_prims -> fine args -> fine env -> safe P (prim_apply_noeval p args env) fine.
  Proof.
    intros Hp Ha He. unfold prim_apply_noeval. destruct (p_special p); [apply safe_prim_apply; assumption|].
    apply safe_bind. eapply safe_conseq; [apply safe_quote_all; exact Ha|]. intros q Hq.
    apply safe_prim_apply; assumption.
  Qed.
  Lemma safe_apply_body ev f args env :
    fine f -> fine args -> fine env -> safe P (apply_body table ev f args env) fine.
  Proof.
    intros Hf Ha He. unfold apply_body. apply safe_bind.
    apply (safe_conseq _ _ _ (fun _ => True)); [destruct ev; [apply (safe_conseq _ _ _ fine); [apply safe_nilp, Hf|auto]|exact I]|].
    intros [] _; [exact I|]. destruct f; try (clear HF HMP; inv; sf; fail).
    match goal with |- context [table ?n] => destruct (table n) as [p|] eqn:E end; [|destruct HMP as [M|[St _]]; [exact M|destruct (Hf St) as [p Hp]; congruence]]. apply find_prim_In in E.
    destruct ev; [apply safe_prim_apply|apply safe_prim_apply_noeval]; assumption.
  Qed.
  Theorem safe_denote X (r : req X) :
    okreq strict R W r -> safe P (denote X r) (okres strict R r).
  Proof.
    intros H. destruct r; cbn [denote okreq okres] in H |- *.
    all: try (apply safe_apply_body; apply H).
    all: inv; try (eauto with safe; fail).
    all: eapply safe_conseq; [solve [eauto with safe]|]; intros x Hx; first [exact Hx|apply Hx].
  Qed.

  (** *** Whole executions *)
  Variable lim : loc -> Prop.
  Variable L0 : list event.
  Variable C0 : state.
  Hypothesis C0_wf :
    (forall l x, s_cells C0 !! l = Some x -> (l < s_next C0)%positive) /\
    (forall l x, s_strs C0 !! l = Some x -> (l < s_next C0)%positive) /\
    (forall l x, s_bytes C0 !! l = Some x -> (l < s_next C0)%positive) /\
    (forall l x, s_frames C0 !! l = Some x -> (l < s_next C0)%positive).
  Notation inv0 := (pinv strict R A PB NB W WF forb sandbox lim L0 C0).
  Notation live0 := (plive excl lim L0).
  Notation tsafe := (thread_safe P (fun _ => True) (okput strict R)).
  Lemma spawn_safe r : fine r -> tsafe (spawn_thread r).
  Proof.
    intros H. assert (Hp : R (spawn_process r)) by (destruct r; apply H).
    split; [|split; [exact Hp|exact I]]. eapply safe_conseq; [apply safe_spawn_work, H|].
    intros v Hv. split; [exact Hp|exact Hv].
  Qed.
  Lemma pinv_pending s : inv0 s -> inv0 (set_pending [] s) /\ Forall (fun r => tsafe (spawn_thread r)) (s_pending s).
  Proof.
    intros (H1 & H2 & H3 & H4). split.
    - split; [apply pending_heap; [exact H1|constructor]|]. split; [exact H2|]. split; [exact H3|exact H4].
    - eapply List.Forall_impl; [exact spawn_safe|]. exact (hf_pending _ _ _ _ _ _ H1).
  Qed.
  Lemma plive_pending s : live0 (set_pending [] s) -> live0 s.
  Proof. intros H. exact H. Qed.
  Lemma pinv_out w s : inv0 s -> inv0 (set_log (EOut w :: s_log s) s).
  Proof.
    intros (H1 & H2 & H3 & (new & H4 & H5) & H6). split; [apply log_heap; exact H1|]. split; [exact H2|]. split; [exact H3|].
    split; [|exact H6]. exists (EOut w :: new). split; [cbn; rewrite H4; reflexivity|].
    intros n e [E|Hin]; [discriminate|exact (H5 _ _ Hin)].
  Qed.
  Lemma plive_out w s : live0 (set_log (EOut w :: s_log s) s) -> live0 s.
  Proof.
    intros [H H2]. split; [|exact H2]. intros new Hn n e Hin. apply (H (EOut w :: new)) with (e := e); [cbn; rewrite Hn; reflexivity|].
    right. exact Hin.
  Qed.
  Theorem policy_pool ts s ts' s' :
    MP -> inv0 s -> Forall tsafe ts -> psteps (ts, s) (ts', s') -> live0 s' -> inv0 s'.
  Proof.
    intros M Hi Ht Hs Hl.
    refine (proj1 (psteps_safe P inv0 live0 _ _ _ (fun _ => True) (okput strict R) pinv_pending plive_pending (pinv_put strict R A PB NB W WF excl forb sandbox lim L0 C0) (plive_put excl lim L0) pinv_out plive_out
                     (ts, s) (ts', s') (conj Hi Ht) Hs Hl)).
    - intros; eapply plive_back; eauto.
    - intros; eapply pinv_step; eauto.
    - exact safe_denote.
  Qed.
  (** The same for executions all of whose states have proper frames; the goroutines stay safe too. *)
  Theorem policy_pool_within ts s ts' s' :
    inv0 s -> Forall tsafe ts -> psteps_within (fun s => live0 s /\ proper_frames s) (ts, s) (ts', s') ->
    inv0 s' /\ Forall tsafe ts'.
  Proof.
    intros Hi Ht Hs.
    refine (psteps_safe_within P inv0 (fun s => live0 s /\ proper_frames s) _ _ (fun _ => True) (okput strict R) pinv_pending _ _ pinv_out
                     (ts, s) (ts', s') (conj Hi Ht) Hs).
    - intros ? ? ? ? ? H1 [H2 H3] H4 H5. eapply pinv_step; eauto.
    - exact safe_denote.
    - intros ? H. exact H.
    - intros ? ? ? ? H1 [H2 _] H3 H4. eapply pinv_put; eauto.
  Qed.
  Theorem policy_runs T `{Fine T} (p : prog T) s o s' :
    MP -> safe P p fine -> inv0 s -> runs denote p s o s' -> live0 s' ->
    inv0 s' /\ match o with Done a => fine a | Panicked _ => True end.
  Proof.
    intros M Hp Hi Hr Hl.
    assert (G : inv0 s' /\ match o with Done a => fine a | Panicked _ => MP end).
    { refine (runs_safe P inv0 live0 _ _ _ T p s o s' fine Hp Hi Hr Hl).
      - intros; eapply plive_back; eauto.
      - intros; eapply pinv_step; eauto.
      - exact safe_denote. }
    destruct G as [G1 G2]. split; [exact G1|]. destruct o; [exact G2|exact I].
  Qed.
  Lemma eval_text_safe src env : R env -> tsafe (eval_text_thread src env).
  Proof using strict MP R A PB NB W WF excl forb sandbox RA. intros H. change (safe P (parse_and_eval_all src env) (fun _ => True)). eapply safe_conseq; [apply safe_parse_and_eval_all; exact H|]. auto. Qed.
  Lemma eval_thread_safe v env : fine v -> R env -> tsafe (eval_thread v env).
  Proof using Type. intros H He. cbn. split; [split; [exact H|exact He]|]. auto. Qed.
End Walk.
