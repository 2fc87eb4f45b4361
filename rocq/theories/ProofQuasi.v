(** Proofs of C20. *)
From Verif Require Import ProofEval ProofCall ProofForm ProofRead ProofPrint ProofList ProofData ProofApply ProofHigher.
From Verif Require Import SpecQuasi Data.
Local Open Scope string_scope.
Local Open Scope list_scope.
Local Open Scope Z_scope.

(** The values a pointer walk meets. *)
Inductive ptrs (s : state) : val -> list val -> Prop :=
| ptrs_end : ptrs s VNil []
| ptrs_more l a d vs : s_cells s !! (l : loc) = Some (a, d) -> ptrs s d vs -> ptrs s (VCell TCons l) (a :: vs).
Lemma ptrs_grows s s' v vs : grows s s' -> ptrs s v vs -> ptrs s' v vs.
Proof. intros G H. induction H; [constructor|]. econstructor; [apply (g_cells _ _ G); eassumption|assumption]. Qed.
Lemma linked_ptrs s v vs : nil_ended s v vs -> ptrs s v vs.
Proof. intros H. induction H; econstructor; eassumption. Qed.
Lemma walk_ptrs s v vs : ptrs s v vs -> forall acc, runs denote (for_ptrs (fun acc i => x <- car i ;; Ret (x :: acc)) v acc) s (Done (rev vs ++ acc)) s.
Proof.
  intros H. induction H as [|l a d vs E H IH]; intros acc.
  - apply runs_loop_stop. apply runs_ret.
  - eapply runs_loop_step; [cbn [is_nil]; rsteps|]. cbn [car_of cdr_of]. rewrite (cell_some _ _ _ E). cbn [fst snd]. cbn [rev]. rewrite <- app_assoc. apply IH.
Qed.
Definition ends_well (vs : list val) : Prop := List.last vs (VInt 0) <> VNil.
Lemma ptrs_list s v vs : ptrs s v vs -> ends_well vs -> is_list s v vs.
Proof.
  intros H. induction H as [|l a d vs E H IH]; intros L; [constructor|]. unfold ends_well in *. apply (il_cons s l a d); [exact E| |].
  - destruct H; [left; exact L|right; discriminate].
  - apply IH. destruct vs; [discriminate|exact L].
Qed.
(** Lists of lists are flattened. *)
Lemma flatten_cells s ps : forall vss v acc, is_list s v ps -> Forall2 (ptrs s) ps vss ->
  runs denote (for_cells (fun acc c => a <- car c ;; if listp a then acc' <- for_ptrs (fun acc i => x <- car i ;; Ret (x :: acc)) a acc ;; Ret (inl acc') else Ret (inl (a :: acc)))
         (fun acc => Ret acc) v acc) s (Done (rev (List.concat vss) ++ acc)) s.
Proof.
  induction ps as [|p ps IH]; intros vss v acc L F; inversion F as [|p' vs ps' vss' H F']; subst.
  - apply runs_loop_stop. rsteps. rewrite (is_list_nil_inv _ _ L). eapply runs_bind; apply runs_ret.
  - destruct (is_list_cons_inv _ _ _ _ L) as (E1 & E2 & E3 & l & ->). cbn [List.concat]. rewrite rev_app_distr, <- app_assoc.
    eapply runs_loop_step; [|apply (IH vss' (cdr_of s (VCell TCons l))); assumption]. rsteps. rewrite E1. rsteps. rewrite E2.
    assert (Lp : listp p = true) by (inversion H; reflexivity). rewrite Lp. eapply runs_bind; [eapply runs_bind; [apply walk_ptrs, H|apply runs_ret]|]. cbv beta iota. rsteps.
Qed.
Lemma flatten_run v ps vss s : wf_state s -> is_list s v ps -> v <> VNil -> Forall2 (ptrs s) ps vss -> exists r s',
  runs denote (flatten v) s (Done r) s' /\ grows s s' /\ list_of s' r (List.concat vss).
Proof.
  intros W L N F. destruct (runs_array_list_of (List.concat vss) s W) as (r & s' & R & G & Lr). exists r, s'. split; [|split; assumption].
  unfold flatten. destruct (is_nil v) eqn:En; [destruct v; discriminate || congruence|]. rewrite (is_list_listp _ _ _ L). cbn [negb].
  eapply runs_bind; [apply (flatten_cells s ps vss v [] L F)|]. rewrite app_nil_r, rev_involutive. exact R.
Qed.
Lemma elem_holds s x y d : elem_as s x y -> holds s x d -> holds s y d.
Proof. intros [[-> _]|[-> E]] H; [exact H|]. inversion H as [| | | | |v xs ds L F| |]; subst. inversion L; subst. inversion F; subst. econstructor; [exact E|constructor]. Qed.
Lemma list_of_holds s v xs ds : list_of s v xs -> Forall2 (holds s) xs ds -> holds s v (XList ds).
Proof.
  intros (ys & E & L) F. econstructor; [exact L|]. clear L. revert ds F. induction E as [|x y xs ys H E IH]; intros ds F; inversion F; subst; [constructor|]. constructor; [eapply elem_holds; eassumption|apply IH; assumption].
Qed.
Definition part (s : state) (p : val) (xs : list tree) : Prop := exists vs, ptrs s p vs /\ Forall2 (holds s) vs xs.
Lemma holds_all_grows s s' vs xs : grows s s' -> Forall2 (holds s) vs xs -> Forall2 (holds s') vs xs.
Proof. intros G F. apply (Forall2_impl _ _ _ _ F). intros v x. apply holds_grows, G. Qed.
Lemma part_grows s s' p xs : grows s s' -> part s p xs -> part s' p xs.
Proof. intros G (vs & P & F). exists vs. split; [eapply ptrs_grows; eassumption|eapply holds_all_grows; eassumption]. Qed.
Lemma part_one s v x : wf_state s -> holds s v x -> let s' := set_cells (<[s_next s := (v, VNil)]> (s_cells s)) (bump s) in
  runs denote (c <- cons v VNil ;; ok c) s (Done (Ok (VCell TCons (s_next s)))) s' /\ grows s s' /\ part s' (VCell TCons (s_next s)) [x].
Proof.
  intros W H s'. split; [eapply runs_bind; [apply (runs_cons TCons)|apply runs_ret]|]. pose proof (grows_new_cell s v VNil W) as G. split; [exact G|].
  exists [v]. split; [eapply ptrs_more; [apply cell_new|constructor]|]. constructor; [eapply holds_grows; [exact G|exact H]|constructor].
Qed.
Lemma last_holds s vs xs : Forall2 (holds s) vs xs -> List.last xs (XInt 0) <> XList [] -> ends_well vs.
Proof.
  unfold ends_well. intros F. induction F as [|v x vs xs H F IH]; intros N; [discriminate|]. destruct F as [|v2 x2 vs xs H2 F]; [|apply IH, N]. cbn in N |- *. intros ->. apply N. inversion H as [| | | | |v xs ds L F| |]; subst. inversion L; subst. inversion F; subst. reflexivity.
Qed.
Lemma wrap_run m sexpr e level env s p xs s1 : is_list s sexpr [VSym m; e] -> runs denote (call (RQuasi e level env)) s (Done (Ok p)) s1 -> wf_state s1 -> part s1 p xs -> List.last xs (XInt 0) <> XList [] ->
  exists q s2, runs denote (quasi_wrap m sexpr level env) s (Done (Ok q)) s2 /\ grows s1 s2 /\ part s2 q [XList (XSym m :: xs)].
Proof.
  intros L R W (vs & P & F) Ls. destruct (is_list_cons_inv _ _ _ _ L) as (_ & _ & L2 & l & ->). destruct (is_list_cons_inv _ _ _ _ L2) as (_ & E2 & _ & l2 & El).
  pose proof (grows_new_cell s1 (VSym m) p W) as G1. set (s2 := set_cells _ (bump s1)) in *. assert (R2 : runs denote (cons (VSym m) p) s1 (Done (VCell TCons (s_next s1))) s2) by apply (runs_cons TCons). pose proof (wf_runs _ _ _ _ _ W R2) as W2.
  destruct (part_one s2 (VCell TCons (s_next s1)) (XList (XSym m :: xs)) W2) as (R3 & G3 & P3).
  { econstructor; [apply ptrs_list|].
    - eapply ptrs_more; [apply cell_new|]. eapply ptrs_grows; eassumption.
    - pose proof (last_holds _ _ _ F Ls) as X. unfold ends_well in *. destruct vs; [discriminate|exact X].
    - constructor; [constructor|]. eapply holds_all_grows; eassumption. }
  eexists _, _. split; [|split; [exact (grows_trans _ _ _ G1 G3)|exact P3]].
  unfold quasi_wrap. eapply runs_bind; [apply cadr_run|]. change (head_of s (rest_of s (VCell TCons l))) with (car_of s (cdr_of s (VCell TCons l))). rewrite E2. eapply runs_bind_ok; [exact R|]. eapply runs_bind; [exact R2|exact R3].
Qed.

Section Ind.
  Variables (s : state) (env : loc) (P : Z -> val -> list tree -> Prop).
  Hypothesis Ha : forall n v x, holds s v x -> atomic x -> P n v [x].
  Hypothesis Hl : forall n v vs xss, is_list s v vs -> (forall m r, vs = VSym m :: r -> ~ In m markers) -> Forall2 (contributes s env n) vs xss -> Forall2 (P n) vs xss -> P n v [XList (List.concat xss)].
  Hypothesis Hd : forall n v e xs, is_list s v [VSym "quasiquote"; e] -> contributes s env (n + 1) e xs -> P (n + 1) e xs -> List.last xs (XInt 0) <> XList [] -> P n v [XList (XSym "quasiquote" :: xs)].
  Hypothesis Hs : forall n m v e xs, In m ["unquote"; "unquote-splicing"] -> n <> 1 -> is_list s v [VSym m; e] -> contributes s env (n - 1) e xs -> P (n - 1) e xs -> List.last xs (XInt 0) <> XList [] -> P n v [XList (XSym m :: xs)].
  Hypothesis Hu : forall v e y x, is_list s v [VSym "unquote"; e] -> contributes s env 1 e [y] -> P 1 e [y] -> yields s env y (fun s' r => holds s' r x) -> P 1 v [x].
  Hypothesis Hp : forall v e y xs, is_list s v [VSym "unquote-splicing"; e] -> contributes s env 1 e [y] -> P 1 e [y] -> yields s env y (fun s' r => exists vs, splices s' r vs /\ Forall2 (holds s') vs xs) -> P 1 v xs.
  Fixpoint contributes_ind2 n v xs (C : contributes s env n v xs) : P n v xs :=
    match C with
    | ct_atom _ _ n v x H A => Ha n v x H A
    | ct_list _ _ n v vs xss L M F => Hl n v vs xss L M F ((fix go vs xss (F : Forall2 (contributes s env n) vs xss) : Forall2 (P n) vs xss :=
        match F with List.Forall2_nil _ => List.Forall2_nil _ | @List.Forall2_cons _ _ _ a b l l' c r => @List.Forall2_cons _ _ (P n) a b l l' (contributes_ind2 n a b c) (go l l' r) end) vs xss F)
    | ct_deeper _ _ n v e xs L C N => Hd n v e xs L C (contributes_ind2 _ _ _ C) N
    | ct_shallower _ _ n m v e xs Im N1 L C N => Hs n m v e xs Im N1 L C (contributes_ind2 _ _ _ C) N
    | ct_unquote _ _ v e y x L C Y => Hu v e y x L C (contributes_ind2 _ _ _ C) Y
    | ct_splice _ _ v e y xs L C Y => Hp v e y xs L C (contributes_ind2 _ _ _ C) Y
    end.
End Ind.
Definition fillable (s : state) (env : loc) (n : Z) (v : val) (xs : list tree) : Prop := forall s1, wf_state s1 -> grows s s1 ->
  exists p s2, runs denote (call (RQuasi v n env)) s1 (Done (Ok p)) s2 /\ grows s1 s2 /\ part s2 p xs.
Lemma parts_run s env n vs xss : Forall2 (fillable s env n) vs xss -> forall s1, wf_state s1 -> grows s s1 -> exists ps vss s2,
  runs denote (quasi_parts vs n env) s1 (Done (Ok ps)) s2 /\ grows s1 s2 /\ wf_state s2 /\ Forall2 (ptrs s2) ps vss /\ no_nils ps /\ Forall2 (holds s2) (List.concat vss) (List.concat xss).
Proof.
  intros F. induction F as [|v xs vs xss H F IH]; intros s1 W G.
  - exists [], [], s1. split; [apply runs_ret|]. split; [apply grows_refl|]. split; [exact W|]. repeat split; constructor.
  - destruct (H s1 W G) as (p & s2 & R1 & G1 & ws & P1 & H1). pose proof (wf_runs _ _ _ _ _ W R1) as W2.
    destruct (IH s2 W2 (grows_trans _ _ _ G G1)) as (ps & vss & s3 & R2 & G2 & W3 & P2 & N2 & H2).
    assert (R : runs denote (quasi_parts (v :: vs) n env) s1 (Done (Ok (if is_nil p then ps else p :: ps))) s3). { cbn [quasi_parts]. eapply runs_bind_ok; [exact R1|]. eapply runs_bind_ok; [exact R2|apply runs_ret]. }
    cbn [List.concat]. pose proof (holds_all_grows _ _ _ _ G2 H1) as H1'. destruct (is_nil p) eqn:E.
    + destruct p; try discriminate E. inversion P1; subst. inversion H1; subst. cbn [app]. exists ps, vss, s3. split; [exact R|]. split; [exact (grows_trans _ _ _ G1 G2)|]. auto.
    + exists (p :: ps), (ws :: vss), s3. split; [exact R|]. split; [exact (grows_trans _ _ _ G1 G2)|]. split; [exact W3|].
      split; [constructor; [eapply ptrs_grows; eassumption|exact P2]|]. split; [constructor; [destruct p; discriminate E || discriminate|exact N2]|]. cbn [List.concat]. apply Forall2_app; assumption.
Qed.
Lemma atom_not_list s v x : holds s v x -> atomic x -> listp v = false.
Proof. intros H A. inversion H; subst; cbn in A; try contradiction; reflexivity. Qed.
Lemma not_marked (A : Type) (a b c d : A) m : ~ In m markers -> match m with "quasiquote" => a | "unquote" => b | "unquote-splicing" => c | _ => d end = d.
Proof.
  intros M. repeat (match goal with |- (match ?x with _ => _ end) = _ => is_var x; destruct x end; try reflexivity); destruct M; cbn; auto.
Qed.
Lemma fills_all s env n v xs : contributes s env n v xs -> fillable s env n v xs.
Proof.
  intros C. induction C as [n v x H A|n v vs xss L M F0 F|n v e xs L C IH Ls|n m v e xs I N L C IH Ls|v e y x L C IH Y|v e y xs L C IH Y] using contributes_ind2; intros s1 W G; try pose proof (is_list_grows _ _ _ _ G L) as L1.
  - destruct (part_one s1 v x W (holds_grows _ _ _ _ G H)) as (R & G1 & P). eexists _, _. split; [|split; [exact G1|exact P]].
    apply call_iff. cbn [denote]. unfold quasi_body. rewrite (atom_not_list _ _ _ H A). exact R.
  - destruct (parts_run s env n vs xss F s1 W G) as (ps & vss & s2 & R1 & G1 & W2 & P2 & N2 & H2).
    destruct (runs_array_to_list ps s2 W2) as (pl & ys & s3 & R3 & G3 & E3 & L3 & Np & _). pose proof (elems_no_nil _ _ _ E3 N2) as Ey. rewrite Ey in L3. pose proof (wf_runs _ _ _ _ _ W2 R3) as W3.
    destruct (flatten_run pl ps vss s3 W3 L3 Np) as (r & s4 & R4 & G4 & L4). { apply (Forall2_impl _ _ _ _ P2). intros a b. apply ptrs_grows, G3. }
    pose proof (wf_runs _ _ _ _ _ W3 R4) as W4.
    destruct (part_one s4 r (XList (List.concat xss)) W4) as (R5 & G5 & P5). { eapply list_of_holds; [exact L4|]. eapply holds_all_grows; [exact (grows_trans _ _ _ G3 G4)|exact H2]. }
    eexists _, _. split; [|split; [exact (grows_trans _ _ _ G1 (grows_trans _ _ _ G3 (grows_trans _ _ _ G4 G5)))|exact P5]].
    apply call_iff. cbn [denote]. unfold quasi_body. rewrite (is_list_listp _ _ _ L1). cbn [negb].
    match goal with |- runs _ (bind _ (fun h => match head_sym h with Some _ => _ | None => ?q end)) _ _ _ => assert (R : runs denote q s1 (Done (Ok (VCell TCons (s_next s4)))) (set_cells (<[s_next s4:=(r, VNil)]> (s_cells s4)) (bump s4))) end.
    { eapply runs_bind; [apply runs_to_array, L1|]. eapply runs_bind_ok; [exact R1|]. eapply runs_bind; [exact R3|]. eapply runs_bind; [exact R4|exact R5]. }
    apply car_iff. change (head_of s1 v) with (car_of s1 v). destruct vs as [|h vs].
    + assert (E : car_of s1 v = VNil) by (inversion L1; subst; try reflexivity; cbn; rewrite (cell_some _ _ _ H); reflexivity). rewrite E. exact R.
    + destruct (is_list_cons_inv _ _ _ _ L1) as (_ & -> & _). destruct h eqn:Eh; try exact R. cbn [head_sym]. specialize (M _ vs eq_refl). 
      rewrite not_marked by exact M. exact R.
  - destruct (IH s1 W G) as (p & s2 & R & G1 & P). pose proof (wf_runs _ _ _ _ _ W R) as W2. destruct (wrap_run "quasiquote" v e (n + 1) env s1 p xs s2 L1 R W2 P Ls) as (q & s3 & R2 & G2 & P2).
    exists q, s3. split; [|split; [exact (grows_trans _ _ _ G1 G2)|exact P2]]. apply call_iff. cbn [denote]. unfold quasi_body. rewrite (is_list_listp _ _ _ L1). cbn [negb]. apply car_iff. change (head_of s1 v) with (car_of s1 v).
    destruct (is_list_cons_inv _ _ _ _ L1) as (_ & -> & _). exact R2.
  - destruct (IH s1 W G) as (p & s2 & R & G1 & P). pose proof (wf_runs _ _ _ _ _ W R) as W2. destruct (wrap_run m v e (n - 1) env s1 p xs s2 L1 R W2 P Ls) as (q & s3 & R2 & G2 & P2).
    exists q, s3. split; [|split; [exact (grows_trans _ _ _ G1 G2)|exact P2]]. apply call_iff. cbn [denote]. unfold quasi_body. rewrite (is_list_listp _ _ _ L1). cbn [negb]. apply car_iff. change (head_of s1 v) with (car_of s1 v).
    destruct (is_list_cons_inv _ _ _ _ L1) as (_ & -> & _). destruct I as [<-|[<-|[]]]; cbn [head_sym]; rewrite (proj2 (Z.eqb_neq n 1) N); exact R2.
  - destruct (IH s1 W G) as (p & s2 & R & G1 & vs & P & F). pose proof (wf_runs _ _ _ _ _ W R) as W2. inversion F as [|e' y' vs' ys He F']; subst. inversion F'; subst. inversion P as [|l a d vs'' Ec Pd]; subst.
    destruct (Y e' s2 (grows_trans _ _ _ G G1) He) as (r & s3 & Ev & G3 & H3). pose proof (wf_runs _ _ _ _ _ W2 Ev) as W3. destruct (part_one s3 r x W3 H3) as (R4 & G4 & P4).
    eexists _, _. split; [|split; [exact (grows_trans _ _ _ G1 (grows_trans _ _ _ G3 G4))|exact P4]]. apply call_iff. cbn [denote]. unfold quasi_body. rewrite (is_list_listp _ _ _ L1). cbn [negb]. apply car_iff. change (head_of s1 v) with (car_of s1 v).
    destruct (is_list_cons_inv _ _ _ _ L1) as (_ & -> & L2 & _). destruct (is_list_cons_inv _ _ _ _ L2) as (_ & E2 & _). cbn [head_sym Z.eqb Pos.eqb]. eapply runs_bind; [apply cadr_run|]. change (head_of s1 (rest_of s1 v)) with (car_of s1 (cdr_of s1 v)). rewrite E2.
    eapply runs_bind_ok; [exact R|]. apply car_iff. cbn [head_of]. rewrite (cell_some _ _ _ Ec). cbn [fst]. eapply runs_bind_ok; [exact Ev|exact R4].
  - destruct (IH s1 W G) as (p & s2 & R & G1 & vs & P & F). pose proof (wf_runs _ _ _ _ _ W R) as W2. inversion F as [|e' y' vs' ys He F']; subst. inversion F'; subst. inversion P as [|l a d vs'' Ec Pd]; subst.
    destruct (Y e' s2 (grows_trans _ _ _ G G1) He) as (r & s3 & Ev & G3 & vs & Sp & H3).
    assert (Q : exists p, runs denote (n <- nilp r ;; if n : bool then ok VNil else ok r) s3 (Done (Ok p)) s3 /\ part s3 p xs).
    { destruct Sp as [Lk|[Em ->]].
      - exists r. split; [|exists vs; split; [apply linked_ptrs, Lk|exact H3]]. eapply runs_bind; [apply runs_nilp|]. inversion Lk as [|l' a' d' vs2 E' Ne Lk']; subst; [apply runs_ret|]. cbn [nilb]. rewrite (cell_some _ _ _ E'). destruct a'; destruct d'; try apply runs_ret. destruct Ne; congruence.
      - exists VNil. split; [eapply runs_bind; [apply runs_nilp|]; rewrite (is_list_nil_inv _ _ Em); apply runs_ret|]. exists []. split; [constructor|exact H3]. }
    destruct Q as (q & R4 & P4). eexists _, _. split; [|split; [exact (grows_trans _ _ _ G1 G3)|exact P4]]. apply call_iff. cbn [denote]. unfold quasi_body. rewrite (is_list_listp _ _ _ L1). cbn [negb]. apply car_iff. change (head_of s1 v) with (car_of s1 v).
    destruct (is_list_cons_inv _ _ _ _ L1) as (_ & -> & L2 & _). destruct (is_list_cons_inv _ _ _ _ L2) as (_ & E2 & _). cbn [head_sym Z.eqb Pos.eqb]. eapply runs_bind; [apply cadr_run|]. change (head_of s1 (rest_of s1 v)) with (car_of s1 (cdr_of s1 v)). rewrite E2.
    eapply runs_bind_ok; [exact R|]. apply car_iff. cbn [head_of]. rewrite (cell_some _ _ _ Ec). cbn [fst]. eapply runs_bind_ok; [exact Ev|exact R4].
Qed.

Lemma quasi_fills v x env s : wf_state s -> contributes s env 1 v [x] -> exists r s', applies "quasiquote" [v] env s (Done (Ok r)) s' /\ grows s s' /\ holds s' r x.
Proof.
  intros W C. destruct (fills_all _ _ _ _ _ C (entering "quasiquote" env s) (wf_entering _ _ _ W) (grows_entering _ _ _)) as (p & s2 & R & G & vs & P & F).
  inversion F as [|r x' vs' xs' H F']; subst. inversion F'; subst. inversion P as [|l a d vs'' E Pd]; subst. exists r, s2. split; [|split; [exact (grows_trans _ _ _ (grows_entering _ _ _) G)|exact H]].
  applies. unfold quasiquote_impl. cbn [arg nth]. eapply runs_bind_ok; [exact R|]. rsteps. cbn [car_of]. rewrite (cell_some _ _ _ E). apply runs_ret.
Qed.
Lemma unmarked_contributes x : forall s env n v, unmarked x -> holds s v x -> contributes s env n v [x].
Proof.
  induction x as [z|b|t|t|bs|ds IH|ds y IH IHy] using tree_ind2; intros s env n v U H; try (apply ct_atom; [exact H|exact Logic.I]).
  - inversion U as [|? Fu M]; subst; [contradiction|]. inversion H as [| | | | |? vs ? L Fh| |]; subst.
    assert (E : List.concat (map (fun x => [x]) ds) = ds) by (clear; induction ds; cbn; congruence). rewrite <- E. apply (ct_list _ _ _ _ vs); [exact L| |].
    + intros m r ->. inversion Fh as [|? d ? ? Hm Fh']; subst. inversion Hm; subst; [exact (M m _ eq_refl)|]. match goal with H : is_list _ (VSym _) _ |- _ => inversion H end.
    + clear E L M U H. revert vs Fh. induction ds as [|d ds IHd]; intros vs Fh; inversion Fh; subst; [constructor|]. apply Forall_cons_1 in IH as [I1 I2]. apply Forall_cons_1 in Fu as [U1 U2]. constructor; [apply I1; assumption|apply IHd; assumption].
  - inversion U; subst. contradiction.
Qed.
Lemma copy_fills v x env s : wf_state s -> holds s v x -> unmarked x -> exists r s', applies "quasiquote" [v] env s (Done (Ok r)) s' /\ grows s s' /\ holds s' r x.
Proof. intros W H U. apply quasi_fills; [exact W|]. apply unmarked_contributes; assumption. Qed.
Lemma name_yields s n env b (P : state -> val -> Prop) : visible s n env (Some b) -> e_frame (env_at s env) = None -> has_suffix ":" n = false -> s_binds s !! b <> None ->
  (forall l, value_in s b <> VFun l) -> (forall s', grows s s' -> P s' (value_in s b)) -> yields s env (XSym n) P.
Proof.
  intros V Fr Sf B NF HP e s1 G He. assert (e = VSym n) by (inversion He; subst; try reflexivity). subst e. exists (value_in s b), s1. split; [|split; [apply grows_refl|apply HP, G]].
  apply symbol_iff. rewrite Sf. cbn [negb]. destruct (s_binds s !! b) as [x|] eqn:Eb; [|congruence].
  assert (Ev : value_in s1 b = value_in s b). { unfold value_in, bind_at. rewrite Eb, (g_binds _ _ G _ _ Eb). reflexivity. }
  assert (Nn : forall f, noted f (value_in s1 b) s1 = s1). { intros f. rewrite Ev. destruct (value_in s b) eqn:Ex; try reflexivity. destruct (NF _ eq_refl). }
  pose proof (visible_grows _ _ _ _ _ G V) as V1. assert (E : exists e, s_envs s !! env = Some e). { inversion V as [? ? L|? p ? L Pa|]; subst; [eapply env_here, L|]. unfold env_at in Pa. destruct (s_envs s !! env); [eauto|discriminate]. }
  destruct E as [e E]. pose proof (env_kept _ _ _ _ G E) as K. unfold finds. rewrite K, Fr. destruct (local_binding s1 env n) as [b'|] eqn:L.
  - inversion V1; subst; [|congruence]. replace b' with b by congruence. rewrite Nn, Ev. split; reflexivity.
  - exists (Some b). split; [exact V1|]. rewrite Nn, Ev. split; reflexivity.
Qed.

Lemma xlist_inv s v ds : holds s v (XList ds) -> exists vs, is_list s v vs /\ Forall2 (holds s) vs ds.
Proof. intros H. inversion H; subst; eauto. Qed.
Lemma xsym_inv s v n : holds s v (XSym n) -> v = VSym n.
Proof. intros H. inversion H; reflexivity. Qed.
Ltac items := repeat match goal with
  | H : Forall2 (holds _) _ (_ :: _) |- _ => let v := fresh "v" in let Hv := fresh "Hv" in let Hr := fresh "Hr" in inversion H as [|v ? ? ? Hv Hr]; subst; clear H
  | H : Forall2 (holds _) _ [] |- _ => inversion H; subst; clear H
  | H : holds _ _ (XSym _) |- _ => apply xsym_inv in H; subst
  | H : holds _ _ (XList _) |- _ => apply xlist_inv in H as (? & ? & ?) end.
Lemma quasi_sample s env e : wf_state s -> s_envs s !! (env : loc) = Some e -> e_frame e = None -> alookup "xs" (e_binds e) = None ->
  exists s' v, wf_state s' /\ holds s' v (XList [XSym "a"; XList [XSym "unquote"; XInt 7]; XList [XSym "unquote-splicing"; XSym "xs"]; XList [XSym "b"]]) /\
    contributes s' env 1 v [XList [XSym "a"; XInt 7; XInt 1; XInt 2; XList [XSym "b"]]].
Proof.
  intros W E F A.
  assert (B : forall d, builds d -> forall s0, wf_state s0 -> exists v s', grows s0 s' /\ wf_state s' /\ holds s' v d). { intros d B s0 W0. destruct (B s0 W0) as (v & s' & _ & G & W' & H & _). eauto. }
  destruct (new_list_grows [VInt 1; VInt 2] s W) as [G W1]. pose proof (new_tail_nil_ended [VInt 1; VInt 2] VNil [] s W ltac:(repeat constructor; discriminate) (ne_nil _)) as L. cbn [app] in L.
  change (new_tail [VInt 1; VInt 2] VNil s) with (new_list [VInt 1; VInt 2] s) in L. destruct (new_list [VInt 1; VInt 2] s) as [xl s1]. cbn [fst snd] in *.
  pose proof (g_envs _ _ G _ _ E) as E1. assert (A1 : local_binding s1 env "xs" = None) by (unfold local_binding, env_at; rewrite E1; exact A).
  destruct (add_only env "xs" xl s1 W1 ltac:(congruence) A1) as (X1 & X2 & X3 & X4 & X5). set (s2 := add_binding env (VSym "xs") xl s1) in *.
  assert (W2 : wf_state s2). { pose proof (bind_sym_run env "xs" xl s1) as R. unfold bind_here in R. cbn [name_of] in R. rewrite A1 in R. exact (wf_runs _ _ _ _ _ W1 R). }
  assert (U : forall t, In t ["a"; "b"; "xs"; "unquote"; "unquote-splicing"] -> builds (XSym t)). { intros t _ s0 W0. cbn. eexists _, _. split; [apply runs_ret|]. split; [apply grows_refl|]. split; [exact W0|]. split; [constructor|discriminate]. }
  set (d := XList _). assert (Bd : builds d).
  { assert (BL : forall ds, Forall builds ds -> ds <> [] -> builds (XList ds)).
    { intros ds Fd Nd s0 W0. destruct (build_tail ds Fd s0 W0) as (v & s' & R & G0 & W' & (vs & Lv & Fv) & Nv). exists v, s'. split; [|split; [exact G0|split; [exact W'|split; [econstructor; eassumption|apply Nv, Nd]]]]. destruct ds; [congruence|exact R]. }
    assert (B7 : builds (XInt 7)). { intros s0 W0. cbn. eexists _, _. split; [apply runs_ret|]. split; [apply grows_refl|]. split; [exact W0|]. split; [constructor|discriminate]. }
    apply BL; [|discriminate]. repeat (apply List.Forall_cons || apply List.Forall_nil || apply U || apply BL || exact B7 || discriminate || (cbn; tauto)). }
  destruct (B d Bd s2 W2) as (v & s3 & G3 & W3 & H3). exists s3, v. split; [exact W3|]. split; [exact H3|]. unfold d in H3. clear B U Bd d X2. items.
  match goal with |- contributes _ _ _ _ [XList ?l] => change l with (List.concat [[XSym "a"]; [XInt 7]; [XInt 1; XInt 2]; [XList [XSym "b"]]]) end.
  eapply ct_list; [eassumption| |].
  - intros m r Q. injection Q as <- <-. cbn. intuition discriminate.
  - apply List.Forall2_cons; [apply ct_atom; [constructor|exact Logic.I]|]. apply List.Forall2_cons; [|apply List.Forall2_cons; [|apply List.Forall2_cons; [|constructor]]].
    + eapply ct_unquote; [eassumption|apply ct_atom; [eassumption|exact Logic.I]|]. intros e0 s4 G4 He. replace e0 with (VInt 7) by (inversion He; reflexivity). exists (VInt 7), s4. split; [apply eval_self; [exact Logic.I|split; reflexivity]|]. split; [apply grows_refl|constructor].
    + eapply ct_splice; [eassumption|apply ct_atom; [constructor|exact Logic.I]|]. eapply (name_yields s3 "xs" env (s_next s1)).
      * apply (visible_grows s2); [exact G3|apply visible_here, X1].
      * assert (E2 : s_envs s2 !! env <> None) by (intros Q; unfold local_binding, env_at in X1; rewrite Q in X1; discriminate X1). destruct (s_envs s2 !! env) as [e2|] eqn:E2'; [|congruence]. rewrite (env_kept _ _ _ _ G3 E2'). rewrite (proj2 (X5 env)). unfold env_at. rewrite E1. exact F.
      * reflexivity.
      * assert (Q : s_binds s2 !! s_next s1 = Some (Binding (VSym "xs") xl false)) by (unfold s2, add_binding; cbn; apply lookup_insert). rewrite (g_binds _ _ G3 _ _ Q). discriminate.
      * assert (Q : s_binds s2 !! s_next s1 = Some (Binding (VSym "xs") xl false)) by (unfold s2, add_binding; cbn; apply lookup_insert). unfold value_in, bind_at. rewrite (g_binds _ _ G3 _ _ Q). cbn. inversion L; discriminate.
      * assert (Q : s_binds s2 !! s_next s1 = Some (Binding (VSym "xs") xl false)) by (unfold s2, add_binding; cbn; apply lookup_insert). unfold value_in, bind_at. rewrite (g_binds _ _ G3 _ _ Q). cbn. intros s4 G4. exists [VInt 1; VInt 2]. split; [|repeat constructor]. left.
        apply (nil_ended_kept s3); [apply g_cells, G4|]. apply (nil_ended_kept s2); [apply g_cells, G3|]. exact (nil_ended_kept s1 s2 _ _ (kept_refl _) L).
    + apply unmarked_contributes; [apply um_list; [repeat constructor|]|econstructor; [eassumption|repeat constructor]]. intros m r Q. injection Q as <- <-. cbn. intuition discriminate.
Qed.
