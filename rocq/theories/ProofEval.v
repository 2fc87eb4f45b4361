(** Proofs of C16-C22, C45-C47, C51. *)
From Verif Require Export SpecEval ProofTree.
From stdpp Require Import list.
From Verif Require Import Data.
Local Open Scope string_scope.
Local Open Scope list_scope.
Local Open Scope Z_scope.

(** *** Equivalences for the parts of a program *)
Lemma ret_iff {A} (a : A) s o s' : runs denote (Ret a) s o s' <-> o = Done a /\ s' = s.
Proof. split; [intros H; exact (runs_det _ _ _ _ _ _ _ _ H (runs_ret _ _ a s))|intros [-> ->]; apply runs_ret]. Qed.
Lemma ok_iff v s o s' : runs denote (ok v) s o s' <-> gives v s o s'.
Proof. apply ret_iff. Qed.
Lemma fail_iff m s o s' : runs denote (fail m) s o s' <-> fails m s o s'.
Proof. apply ret_iff. Qed.
(** A first part that is known to finish. *)
Lemma then_iff {A B} (p : prog A) (k : A -> prog B) s x s1 o s' : runs denote p s (Done x) s1 ->
  (runs denote (bind p k) s o s' <-> runs denote (k x) s1 o s').
Proof.
  intros R. split; [|intros H; eapply runs_bind; eassumption].
  intros H. apply runs_bind_inv in H. destruct H as [(y & s2 & R2 & H)|(w & -> & R2)]; destruct (runs_det _ _ _ _ _ _ _ _ R R2) as [E ->]; [|discriminate].
  injection E as ->. exact H.
Qed.
Lemma bind_iff {A B} (p : prog A) (k : A -> prog B) s o s' :
  runs denote (bind p k) s o s' <->
  exists o1 s1, runs denote p s o1 s1 /\ match o1 with Done x => runs denote (k x) s1 o s' | Panicked w => o = Panicked w /\ s' = s1 end.
Proof.
  split.
  - intros H. apply runs_bind_inv in H. destruct H as [(y & s2 & R2 & H)|(w & -> & R2)].
    + exists (Done y), s2. auto.
    + exists (Panicked w), s'. auto.
  - intros ([y|w] & s1 & R & H); [eapply runs_bind; eassumption|]. destruct H as [-> ->]. apply runs_bind_panic, R.
Qed.
Lemma assoc_iff {A B C} (p : prog A) (f : A -> prog B) (g : B -> prog C) s o s' :
  runs denote (bind (bind p f) g) s o s' <-> runs denote (bind p (fun x => bind (f x) g)) s o s'.
Proof.
  split; [|apply bind_assoc]. intros [n H]. exists n. rewrite run_bind in *. rewrite run_bind in H.
  destruct (run denote n p s) as [[[x|w] s1]|]; [|exact H|exact H]. rewrite run_bind. exact H.
Qed.
Lemma eval_iff e env (k : val -> prog (res val)) s o s' :
  runs denote (bind_ok (call (REval e env false)) k) s o s' <-> after (evals e env s) (fun v s1 => runs denote (k v) s1) o s'.
Proof.
  unfold bind_ok. rewrite bind_iff. unfold after, evals. split.
  - intros (o1 & s1 & R & H). exists o1, s1. split; [exact R|]. destruct o1 as [[v|m]|w]; [exact H|apply ret_iff, H|exact H].
  - intros (o1 & s1 & R & H). exists o1, s1. split; [exact R|]. destruct o1 as [[v|m]|w]; [exact H|apply ret_iff, H|exact H].
Qed.
Lemma after_iff b k1 k2 o s' : (forall v s1 o s', k1 v s1 o s' <-> k2 v s1 o s') -> after b k1 o s' <-> after b k2 o s'.
Proof.
  intros E. unfold after. split; intros (o1 & s1 & R & H); exists o1, s1; (split; [exact R|]); destruct o1 as [[v|m]|w]; auto; apply E, H.
Qed.
Lemma applies_iff name p vs env s o s' : table name = Some p ->
  applies name vs env s o s' <-> runs denote (p_body p vs env) (entering name env s) o s'.
Proof. intros T. split; [apply applies_inv, T|apply applies_of, T]. Qed.
Ltac body_of := etransitivity; [apply applies_iff; reflexivity|cbn [p_body func special rfunc rspecial]].

Lemma truthy_value v s : runs denote (boolean_value v) s (Done (truthy s v)) s.
Proof.
  unfold boolean_value. eapply runs_bind; [apply runs_nilp|]. destruct v; cbn [nilb truthy]; try apply runs_ret.
  destruct (cell_at s l) as [a d]. cbn [fst snd]. destruct a, d; apply runs_ret.
Qed.
Lemma truth_iff {B} v (k : bool -> prog B) s o s' :
  runs denote (bind (boolean_value v) k) s o s' <-> runs denote (k (truthy s v)) s o s'.
Proof. apply then_iff, truthy_value. Qed.
Lemma eval_seq_iff es env : forall last s o s', runs denote (eval_seq es env last) s o s' <-> eval_each es env last s o s'.
Proof.
  induction es as [|e es IH]; intros last s o s'; cbn [eval_seq eval_each]; [apply ok_iff|].
  unfold eval. rewrite eval_iff. apply after_iff. intros v s1 o1 s1'. apply IH.
Qed.
Lemma at_end_nilb s c : at_end s c <-> nilb s c = true.
Proof.
  destruct c; cbn; try (split; [discriminate|]; intros []); try (split; auto; discriminate); try (split; intros []; discriminate).
  destruct (cell_at s l) as [a d]. cbn. split; [intros [= -> ->]; reflexivity|]. destruct a, d; try discriminate. reflexivity.
Qed.
Lemma not_at_end s c : ~ at_end s c <-> nilb s c = false.
Proof. rewrite at_end_nilb. destruct (nilb s c); split; congruence. Qed.

(** *** Loops *)
Lemma loop_ind {S R} (body : S -> prog (S + R)) (P : S -> state -> outcome R -> state -> Prop) :
  (forall st s r s1, runs denote (body st) s (Done (inr r)) s1 -> P st s (Done r) s1) ->
  (forall st s w s1, runs denote (body st) s (Panicked w) s1 -> P st s (Panicked w) s1) ->
  (forall st s st1 s1 o s2, runs denote (body st) s (Done (inl st1)) s1 -> runs denote (loop body st1) s1 o s2 -> P st1 s1 o s2 -> P st s o s2) ->
  forall st s o s', runs denote (loop body st) s o s' -> P st s o s'.
Proof.
  intros H1 H2 H3 st s o s' [n H]. revert st s o s' H. induction n as [|n IH]; intros st s o s' H; [discriminate|].
  unfold loop in H. rewrite run_iter in H. destruct (run denote n (body st) s) as [[[[st1|r]|w] s1]|] eqn:E; [| | |discriminate].
  - destruct (run denote n (Iter body st1 Ret) s1) as [[o2 s2]|] eqn:E2; [|discriminate].
    assert (E3 : Some (o2, s2) = Some (o, s')) by (destruct o2; [rewrite run_ret in H|]; exact H). injection E3 as -> ->.
    eapply H3; [exists n; exact E|exists n; exact E2|apply IH; exact E2].
  - rewrite run_ret in H. injection H as <- <-. apply H1. exists n. exact E.
  - injection H as <- <-. apply H2. exists n. exact E.
Qed.
Lemma loop_iff {S R} (body : S -> prog (S + R)) st s o s' :
  runs denote (loop body st) s o s' <->
  exists o1 s1, runs denote (body st) s o1 s1 /\
    match o1 with Done (inl st1) => runs denote (loop body st1) s1 o s' | Done (inr r) => o = Done r /\ s' = s1 | Panicked w => o = Panicked w /\ s' = s1 end.
Proof.
  split.
  - apply (loop_ind body (fun st s o s' => exists o1 s1, runs denote (body st) s o1 s1 /\
    match o1 with Done (inl st1) => runs denote (loop body st1) s1 o s' | Done (inr r) => o = Done r /\ s' = s1 | Panicked w => o = Panicked w /\ s' = s1 end)).
    + intros. exists (Done (inr r)), s1. auto.
    + intros. exists (Panicked w), s1. auto.
    + intros. exists (Done (inl st1)), s1. auto.
  - intros ([[st1|r]|w] & s1 & R1 & H).
    + eapply runs_loop_step; eassumption.
    + destruct H as [-> ->]. apply runs_loop_stop, R1.
    + destruct H as [-> ->]. apply runs_loop_panic, R1.
Qed.
Definition map_err (W : string -> string) (o : outcome (res val)) : outcome (res val) :=
  match o with Done (Err m) => Done (Err (W m)) | _ => o end.
Lemma cells_iff W env : forall c last s o s',
  runs denote (for_cells (fun _ c => x <- car c ;; r <- call (REval x env false) ;;
    match r with Ok v => Ret (inl v) | Err m => Ret (inr (Err (W m))) end) (fun v => ok v) c last) s o s' <->
  exists o0, eval_cells env c last s o0 s' /\ o = map_err W o0.
Proof.
  set (body := fun (_ : val) c => x <- car c ;; r <- call (REval x env false) ;;
    match r with Ok v => Ret (inl v) | Err m => Ret (inr (Err (W m))) end).
  assert (Step : forall c last s v s1, nilb s c = false -> evals (head_of s c) env s (Done (Ok v)) s1 ->
    forall o s2, runs denote (for_cells body (fun v => ok v) c last) s o s2 <-> runs denote (for_cells body (fun v => ok v) (rest_of s1 c) v) s1 o s2).
  { intros c last s v s1 N E o s2. unfold for_cells. rewrite loop_iff. split.
    - intros (o1 & s1' & R & H).
      assert (R' : runs denote (b <- nilp c ;; if b then r <- ok last ;; Ret (inr r) else x <- body last c ;; match x with inl s' => c' <- cdr c ;; Ret (inl (c', s')) | inr r => Ret (inr r) end) s (Done (inl (rest_of s1 c, v))) s1).
      { rsteps. rewrite N. unfold body. rsteps. eapply runs_bind; [exact E|]. rsteps. }
      destruct (runs_det _ _ _ _ _ _ _ _ R R') as [-> ->]. exact H.
    - intros H. exists (Done (inl (rest_of s1 c, v))), s1. split; [|exact H]. rsteps. rewrite N. unfold body. rsteps. eapply runs_bind; [exact E|]. rsteps. }
  intros c last s o s'. split.
  - intros H. unfold for_cells in H.
    remember (c, last) as st eqn:Est. revert c last Est.
    refine (loop_ind _ (fun st s o s' => forall c last, st = (c, last) -> exists o0, eval_cells env c last s o0 s' /\ o = map_err W o0) _ _ _ st s o s' H); clear st s o s' H.
    + intros st s r s1 R c last ->. rewrite bind_iff in R. destruct R as (ob & sb & Rb & R).
      destruct (runs_det _ _ _ _ _ _ _ _ Rb (runs_nilp c s)) as [-> ->]. destruct (nilb s c) eqn:N.
      * cbn in R. apply ret_iff in R. destruct R as [[= ->] ->]. exists (Done (Ok last)). split; [|reflexivity]. apply cells_end, at_end_nilb, N.
      * apply not_at_end in N. unfold body in R. apply assoc_iff in R. apply (then_iff _ _ _ _ _ _ _ (runs_car _ _)) in R.
        apply assoc_iff in R. apply bind_iff in R. destruct R as (oe & se & Re & R). destruct oe as [[v|m]|w].
        -- cbn [bind] in R. apply bind_iff in R. destruct R as (oc & sc & Rc & R). destruct (runs_det _ _ _ _ _ _ _ _ Rc (runs_cdr c se)) as [-> ->].
           apply ret_iff in R. destruct R as [R _]. discriminate.
        -- apply ret_iff in R. destruct R as [[= ->] ->]. exists (Done (Err m)). split; [|reflexivity]. eapply cells_err; eassumption.
        -- destruct R as [R _]. discriminate.
    + intros st s w s1 R c last ->. rewrite bind_iff in R. destruct R as (ob & sb & Rb & R).
      destruct (runs_det _ _ _ _ _ _ _ _ Rb (runs_nilp c s)) as [-> ->]. destruct (nilb s c) eqn:N.
      * cbn in R. apply ret_iff in R. destruct R; discriminate.
      * apply not_at_end in N. unfold body in R. apply assoc_iff in R. apply (then_iff _ _ _ _ _ _ _ (runs_car _ _)) in R.
        apply assoc_iff in R. apply bind_iff in R. destruct R as (oe & se & Re & R). destruct oe as [[v|m]|w'].
        -- cbn [bind] in R. apply bind_iff in R. destruct R as (oc & sc & Rc & R). destruct (runs_det _ _ _ _ _ _ _ _ Rc (runs_cdr c se)) as [-> ->].
           apply ret_iff in R. destruct R as [R _]. discriminate.
        -- apply ret_iff in R. destruct R as [R _]. discriminate.
        -- destruct R as [[= ->] ->]. exists (Panicked w'). split; [|reflexivity]. eapply cells_crash; eassumption.
    + intros st s st1 s1 o s2 R _ IH c last ->. rewrite bind_iff in R. destruct R as (ob & sb & Rb & R).
      destruct (runs_det _ _ _ _ _ _ _ _ Rb (runs_nilp c s)) as [-> ->]. destruct (nilb s c) eqn:N.
      * cbn in R. apply ret_iff in R. destruct R; discriminate.
      * apply not_at_end in N. unfold body in R. apply assoc_iff in R. apply (then_iff _ _ _ _ _ _ _ (runs_car _ _)) in R.
        apply assoc_iff in R. apply bind_iff in R. destruct R as (oe & se & Re & R). destruct oe as [[v|m]|w'].
        -- cbn [bind] in R. apply bind_iff in R. destruct R as (oc & sc & Rc & R). destruct (runs_det _ _ _ _ _ _ _ _ Rc (runs_cdr c se)) as [-> ->].
           apply ret_iff in R. destruct R as [[= ->] ->]. destruct (IH _ _ eq_refl) as (o0 & H0 & ->). exists o0. split; [|reflexivity]. eapply cells_next; eassumption.
        -- apply ret_iff in R. destruct R as [R _]. discriminate.
        -- destruct R as [R _]. discriminate.
  - intros (o0 & H & ->). induction H as [c last s H|c last s m s1 N H|c last s w s1 N H|c last s v s1 o s2 N H H2 IH].
    + apply at_end_nilb in H. apply runs_loop_stop. rsteps. rewrite H. rsteps.
    + apply not_at_end in N. apply runs_loop_stop. rsteps. rewrite N. unfold body. rsteps. eapply runs_bind; [exact H|]. rsteps.
    + apply not_at_end in N. apply runs_loop_panic. rsteps. rewrite N. unfold body. rsteps. apply runs_bind_panic. exact H.
    + apply not_at_end in N. apply (Step _ last _ _ _ N H). exact IH.
Qed.
Lemma map_err_id o : map_err (fun m => m) o = o.
Proof. destruct o as [[v|m]|w]; reflexivity. Qed.
Lemma evaluate_body_iff c env s o s' : runs denote (evaluate_body c env) s o s' <-> eval_cells env c VNil s o s'.
Proof.
  unfold evaluate_body, eval. rewrite (cells_iff (fun m => m)). split.
  - intros (o0 & H & ->). rewrite map_err_id. exact H.
  - intros H. exists o. rewrite map_err_id. auto.
Qed.

(** *** C17 *)
Lemma run_equal_sym h n s : runs denote (call (REqual h (VSym n))) s (Done (is_symbol n h)) s.
Proof.
  apply (runs_do_call denote _ (REqual h (VSym n))). cbn [denote]. unfold equal_body. unfold type_tag.
  destruct h as [|t l| | | | | | | | | | | | | | | |].
  2: { destruct (nilb s (VCell t l)) eqn:E; destruct t; cbn [ptr_eqb andb]; rsteps; rewrite ?E; rsteps; cbn; rsteps. }
  all: cbn [ptr_eqb floatp negb andb is_symbol]; try (cbn; rsteps; cbn; rsteps; fail).
Qed.
Lemma if_iff c t e env s o s' : applies "if" [c; t; e] env s o s' <->
  after (evals c env (entering "if" env s)) (fun v s1 => evals (if truthy s1 v then t else e) env s1) o s'.
Proof.
  body_of. unfold if_impl, eval. cbn [arg nth]. rewrite eval_iff. apply after_iff. intros v s1 o1 s1'. rewrite truth_iff.
  destruct (truthy s1 v); reflexivity.
Qed.
Lemma eval_self v env s : match v with VNil | VBool _ | VInt _ | VFloat _ | VStr _ | VFun _ | VMacro _ | VPrim _ | VBytes _ | VChan _ | VProc _ | VAtomic _ | VFrame _ | VEnv _ | VPort _ => True | _ => False end ->
  forall o s', evals v env s o s' <-> gives v s o s'.
Proof.
  intros H o s'. unfold evals. rewrite <- runs_do_call_gen. destruct v; try destruct H; cbn [denote eval_body]; apply ok_iff.
Qed.
Lemma if2_iff c t env s o s' : applies "if" [c; t] env s o s' <->
  after (evals c env (entering "if" env s)) (fun v s1 => if truthy s1 v then evals t env s1 else gives VNil s1) o s'.
Proof.
  body_of. unfold if_impl, eval. cbn [arg nth]. rewrite eval_iff. apply after_iff. intros v s1 o1 s1'. rewrite truth_iff.
  destruct (truthy s1 v); [reflexivity|]. apply (eval_self VNil); exact I.
Qed.
Lemma when_iff c body env s o s' : applies "when" (c :: body) env s o s' <->
  after (evals c env (entering "when" env s)) (fun v s1 => if truthy s1 v then eval_each body env VNil s1 else gives VNil s1) o s'.
Proof.
  body_of. unfold when_impl, eval. cbn [arg nth tl]. rewrite eval_iff. apply after_iff. intros v s1 o1 s1'. rewrite truth_iff.
  destruct (truthy s1 v); [apply eval_seq_iff|apply ok_iff].
Qed.
Lemma unless_iff c body env s o s' : applies "unless" (c :: body) env s o s' <->
  after (evals c env (entering "unless" env s)) (fun v s1 => if truthy s1 v then gives VNil s1 else eval_each body env VNil s1) o s'.
Proof.
  body_of. unfold unless_impl, eval. cbn [arg nth tl]. rewrite eval_iff. apply after_iff. intros v s1 o1 s1'. rewrite truth_iff.
  destruct (truthy s1 v); [apply ok_iff|apply eval_seq_iff].
Qed.
Lemma logic_and es env : forall last s o s', runs denote (logic_go false es env last) s o s' <-> and_of es env last s o s'.
Proof.
  induction es as [|e es IH]; intros last s o s'; cbn [logic_go and_of]; [apply ok_iff|].
  unfold eval. rewrite eval_iff. apply after_iff. intros v s1 o1 s1'. rewrite truth_iff.
  destruct (truthy s1 v); cbn [Bool.eqb]; [apply IH|apply ok_iff].
Qed.
Lemma logic_or es env : forall last s o s', runs denote (logic_go true es env last) s o s' <-> or_of es env last s o s'.
Proof.
  induction es as [|e es IH]; intros last s o s'; cbn [logic_go or_of]; [apply ok_iff|].
  unfold eval. rewrite eval_iff. apply after_iff. intros v s1 o1 s1'. rewrite truth_iff.
  destruct (truthy s1 v); cbn [Bool.eqb]; [apply ok_iff|apply IH].
Qed.
Lemma and_iff es env s o s' : applies "and" es env s o s' <-> and_of es env VNil (entering "and" env s) o s'.
Proof. body_of. apply logic_and. Qed.
Lemma or_iff es env s o s' : applies "or" es env s o s' <-> or_of es env VNil (entering "or" env s) o s'.
Proof. body_of. apply logic_or. Qed.
Lemma car_iff {B} v (k : val -> prog B) s o s' : runs denote (bind (car v) k) s o s' <-> runs denote (k (head_of s v)) s o s'.
Proof. apply then_iff. exact (runs_car v s). Qed.
Lemma cdr_iff {B} v (k : val -> prog B) s o s' : runs denote (bind (cdr v) k) s o s' <-> runs denote (k (rest_of s v)) s o s'.
Proof. apply then_iff. exact (runs_cdr v s). Qed.
Lemma is_pair_pairp v : is_pair v = pairp v.
Proof. destruct v as [|[]| | | | | | | | | | | | | | | |]; reflexivity. Qed.
Lemma cond_clauses_iff l env : forall s o s', runs denote (cond_clauses l env) s o s' <-> cond_of l env s o s'.
Proof.
  induction l as [|c l IH]; intros s o s'; cbn [cond_clauses cond_of]; [apply ok_iff|].
  change (is_pair c) with (pairp c). destruct (pairp c); cbn [negb]; [|apply fail_iff].
  rewrite car_iff. rewrite (then_iff _ _ _ _ _ _ _ (run_equal_sym _ _ _)). destruct (is_symbol "else" (head_of s c)).
  - rewrite cdr_iff. apply evaluate_body_iff.
  - unfold eval. rewrite eval_iff. apply after_iff. intros v s1 o1 s1'. rewrite truth_iff.
    destruct (truthy s1 v); [rewrite cdr_iff; apply evaluate_body_iff|apply IH].
Qed.
Lemma cond_iff l env s o s' : applies "cond" l env s o s' <-> cond_of l env (entering "cond" env s) o s'.
Proof. body_of. apply cond_clauses_iff. Qed.
Lemma case_member_run s kv k : rep s kv k -> frameless k -> forall xs h ds, is_list s h xs -> Forall2 (rep s) xs ds -> Forall frameless ds ->
  exists b, runs denote (case_member h kv) s (Done b) s /\ agrees b (In k ds).
Proof.
  intros Rk Fk. induction xs as [|x xs IH]; intros h ds L F Fl.
  - inversion F; subst. exists false. split; [|apply agrees_false; intros []].
    apply runs_loop_stop. rsteps. rewrite (is_list_nil_inv _ _ L). rsteps.
  - inversion F as [|? d ? ds' R F']; subst. destruct (is_list_cons_inv _ _ _ _ L) as (E1 & E2 & E3 & _).
    destruct (run_equal s d (Forall_inv Fl) x kv k R Rk Fk) as (b & Rb & Hb). destruct b.
    + exists true. split; [|apply agrees_true; left; apply Hb; reflexivity].
      apply runs_loop_stop. rsteps. rewrite E1. rsteps. rewrite E2. eapply runs_bind; [exact Rb|]. rsteps.
    + destruct (IH (cdr_of s h) ds' E3 F' (Forall_inv_tail Fl)) as (b & Rr & Hr). exists b. split.
      * eapply runs_loop_step; [|exact Rr]. rsteps. rewrite E1. rsteps. rewrite E2. eapply runs_bind; [exact Rb|]. rsteps.
      * unfold agrees in *. rewrite Hr. split; [intros; right; assumption|intros [->|H]; [|exact H]].
        assert (false = true) by (apply Hb; reflexivity). discriminate.
Qed.
Lemma case_clauses_iff s kv k env : rep s kv k -> frameless k -> forall l r, picks s k l r -> forall o s',
  runs denote (case_clauses kv l env) s o s' <-> match r with None => gives VNil s o s' | Some body => eval_cells env body VNil s o s' end.
Proof.
  intros Rk Fk l r P. induction P as [|c l Pc H|c l xs ds Pc L F Fl I|c l xs ds x Pc L F Fl I P IH]; intros o s'; cbn [case_clauses].
  - apply ok_iff.
  - change (pairp c = true) in Pc. rewrite Pc. cbn [negb]. rewrite car_iff, (then_iff _ _ _ _ _ _ _ (run_equal_sym _ _ _)), H. change (is_symbol "else" (VSym "else")) with true.
    rewrite cdr_iff. apply evaluate_body_iff.
  - change (pairp c = true) in Pc. rewrite Pc. cbn [negb]. rewrite car_iff, (then_iff _ _ _ _ _ _ _ (run_equal_sym _ _ _)).
    replace (is_symbol "else" (head_of s c)) with false by (inversion L; reflexivity).
    rewrite (is_list_listp _ _ _ L). destruct (case_member_run s kv k Rk Fk xs _ ds L F Fl) as (b & Rb & Hb).
    rewrite (then_iff _ _ _ _ _ _ _ Rb). apply Hb in I. subst b. rewrite cdr_iff. apply evaluate_body_iff.
  - change (pairp c = true) in Pc. rewrite Pc. cbn [negb]. rewrite car_iff, (then_iff _ _ _ _ _ _ _ (run_equal_sym _ _ _)).
    replace (is_symbol "else" (head_of s c)) with false by (inversion L; reflexivity).
    rewrite (is_list_listp _ _ _ L). destruct (case_member_run s kv k Rk Fk xs _ ds L F Fl) as (b & Rb & Hb).
    rewrite (then_iff _ _ _ _ _ _ _ Rb). destruct b; [destruct I; apply Hb; reflexivity|]. apply IH.
Qed.
Lemma case_iff e clauses env s kv s1 k r : evals e env (entering "case" env s) (Done (Ok kv)) s1 -> rep s1 kv k -> frameless k -> picks s1 k clauses r ->
  forall o s', applies "case" (e :: clauses) env s o s' <-> match r with None => gives VNil s1 o s' | Some body => eval_cells env body VNil s1 o s' end.
Proof.
  intros E Rk Fk P o s'. body_of. unfold case_impl, eval. cbn [arg nth tl]. unfold bind_ok. rewrite (then_iff _ _ _ _ _ _ _ E). cbv iota.
  eapply case_clauses_iff; eassumption.
Qed.
Lemma case_err e clauses env s : forall o s', (forall v s1, ~ evals e env (entering "case" env s) (Done (Ok v)) s1) ->
  applies "case" (e :: clauses) env s o s' <-> evals e env (entering "case" env s) o s'.
Proof.
  intros o s' N. body_of. unfold case_impl, eval. cbn [arg nth]. rewrite eval_iff. unfold after. split.
  - intros ([[v|m]|w] & s1 & R & H); [destruct (N _ _ R)| |]; destruct H as [-> ->]; exact R.
  - intros H. exists o, s'. split; [exact H|]. destruct o as [[v|m]|w]; [destruct (N _ _ H)|split; reflexivity|split; reflexivity].
Qed.
(** *** C47 begin, C22 on-error *)
Lemma begin_iff es env s o s' : applies "begin" es env s o s' <-> eval_each es env VNil (entering "begin" env s) o s'.
Proof. body_of. apply eval_seq_iff. Qed.

(** *** Operations *)
Lemma op_iff {X B} (op : op X) (k : X -> prog B) s x s1 o s' : step_op op s = Some (x, s1) ->
  runs denote (bind (do_op op) k) s o s' <-> runs denote (k x) s1 o s'.
Proof. intros E. apply then_iff. eapply runs_op. exact E. Qed.
Ltac op1 := match goal with
  | |- runs denote (bind (do_op ?op) ?k) ?s ?o ?s' => refine (proj2 (op_iff op k s _ _ o s' eq_refl) _)
  | |- runs denote (bind (do_op ?op) ?k) ?s ?o ?s' <-> _ => refine (iff_trans (op_iff op k s _ _ o s' eq_refl) _)
  end; cbv beta iota.
Lemma bind_ret {A B} (a : A) (k : A -> prog B) : bind (Ret a) k = k a.
Proof. reflexivity. Qed.
Lemma string_value_run v s : runs denote (string_value v) s (Done (name_of s v)) s.
Proof. destruct v; cbn [string_value name_of]; try apply runs_ret. eapply runs_op. reflexivity. Qed.
Lemma name_iff {B} v (k : string -> prog B) s o s' : runs denote (bind (string_value v) k) s o s' <-> runs denote (k (name_of s v)) s o s'.
Proof. apply then_iff, string_value_run. Qed.
Lemma bind_locally_run env sym v s : runs denote (bind_locally env sym v) s
  (Done (match bind_here env sym v s with Some _ => Ok v | None => Err (is_protected (name_of s sym)) end))
  (match bind_here env sym v s with Some s1 => s1 | None => s end).
Proof.
  unfold bind_locally, bind_here, local_binding. apply name_iff. op1.
  destruct (alookup (name_of s sym) (e_binds (env_at s env))) as [b|].
  - op1. destruct (b_prot (bind_at s b)); [apply runs_ret|]. op1. apply runs_ret.
  - op1. op1. apply runs_ret.
Qed.
Lemma then_bind_iff env sym v (k : val -> prog (res val)) s o s' :
  runs denote (bind_ok (bind_locally env sym v) k) s o s' <-> then_bind env sym v s (fun s1 => runs denote (k v) s1) o s'.
Proof.
  unfold bind_ok. rewrite (then_iff _ _ _ _ _ _ _ (bind_locally_run env sym v s)). unfold then_bind.
  destruct (bind_here env sym v s); [reflexivity|apply fail_iff].
Qed.
Lemma then_bind_ext env sym v s k1 k2 o s' : (forall s1 o s', k1 s1 o s' <-> k2 s1 o s') ->
  then_bind env sym v s k1 o s' <-> then_bind env sym v s k2 o s'.
Proof. intros H. unfold then_bind. destruct (bind_here env sym v s); [apply H|reflexivity]. Qed.
Lemma new_env_run p f name s : runs denote (new_env_below_with_frame p f name) s (Done (s_next s))
  (open_env name p (match f with Some x => Some x | None => e_frame (env_at s p) end) s).
Proof.
  unfold new_env_below_with_frame, open_env, register_top.
  assert (R : runs denote (match f with Some f => Ret (Some f) | None => do_op (OEnvFrame p) end) s
    (Done (match f with Some x => Some x | None => e_frame (env_at s p) end)) s).
  { destruct f; [apply runs_ret|]. eapply runs_op. reflexivity. }
  apply (then_iff _ _ _ _ _ _ _ R).
  op1. rewrite assoc_iff. op1. cbn [s_global set_envs]. change (s_global (bump s)) with (s_global s). destruct (Pos.eqb p (s_global s)); [op1|]; apply runs_ret.
Qed.
Lemma new_env_below_run p name s : runs denote (new_env_below (Some p) name) s (Done (s_next s)) (open_env name p (e_frame (env_at s p)) s).
Proof.
  unfold new_env_below, open_env, register_top. op1. op1. rewrite assoc_iff. op1.
  cbn [s_global set_envs]. change (s_global (bump s)) with (s_global s). destruct (Pos.eqb p (s_global s)); [op1|]; apply runs_ret.
Qed.
Lemma new_tail_run vs tl : forall s, runs denote (mk_tail vs tl) s (Done (fst (new_tail vs tl s))) (snd (new_tail vs tl s)).
Proof.
  induction vs as [|v vs IH]; intros s; cbn [mk_tail new_tail]; [apply runs_ret|].
  apply (then_iff _ _ _ _ _ _ _ (IH s)). destruct (new_tail vs tl s) as [t s1]. cbn [fst snd].
  assert (R : runs denote (if is_nil v then empty_cons else Ret v) s1 (Done (fst (stored v s1))) (snd (stored v s1))).
  { destruct v; try apply runs_ret. apply runs_cons. }
  apply (then_iff _ _ _ _ _ _ _ R). destruct (stored v s1) as [v' s2]. apply runs_cons.
Qed.
Lemma new_list_run vs s : runs denote (array_to_list vs) s (Done (fst (new_list vs s))) (snd (new_list vs s)).
Proof. destruct vs as [|v vs]; [apply runs_cons|]. apply new_tail_run. Qed.

(** *** Loops over live cells *)
Lemma for_cells_ind {S R} (body : S -> val -> prog (S + R)) fin (P : val -> S -> state -> outcome R -> state -> Prop) :
  (forall c st s o s', nilb s c = true -> runs denote (fin st) s o s' -> P c st s o s') ->
  (forall c st s r s1, nilb s c = false -> runs denote (body st c) s (Done (inr r)) s1 -> P c st s (Done r) s1) ->
  (forall c st s w s1, nilb s c = false -> runs denote (body st c) s (Panicked w) s1 -> P c st s (Panicked w) s1) ->
  (forall c st s st1 s1 o s2, nilb s c = false -> runs denote (body st c) s (Done (inl st1)) s1 -> P (rest_of s1 c) st1 s1 o s2 -> P c st s o s2) ->
  forall c st s o s', runs denote (for_cells body fin c st) s o s' -> P c st s o s'.
Proof.
  intros H1 H2 H3 H4 c st s o s' H. unfold for_cells in H. remember (c, st) as x eqn:Ex. revert c st Ex.
  refine (loop_ind _ (fun x s o s' => forall c st, x = (c, st) -> P c st s o s') _ _ _ x s o s' H); clear x s o s' H.
  - intros x s r s1 R0 c st ->. apply (then_iff _ _ _ _ _ _ _ (runs_nilp c s)) in R0. destruct (nilb s c) eqn:N.
    + apply bind_iff in R0. destruct R0 as ([y|w] & s2 & Ry & R0); [|destruct R0; discriminate].
      apply ret_iff in R0. destruct R0 as [[= ->] ->]. apply H1; assumption.
    + apply bind_iff in R0. destruct R0 as ([[y|y]|w] & s2 & Ry & R0).
      * apply (then_iff _ _ _ _ _ _ _ (runs_cdr c s2)) in R0. apply ret_iff in R0. destruct R0; discriminate.
      * apply ret_iff in R0. destruct R0 as [[= ->] ->]. apply H2; assumption.
      * destruct R0; discriminate.
  - intros x s w s1 R0 c st ->. apply (then_iff _ _ _ _ _ _ _ (runs_nilp c s)) in R0. destruct (nilb s c) eqn:N.
    + apply bind_iff in R0. destruct R0 as ([y|w'] & s2 & Ry & R0); [apply ret_iff in R0; destruct R0; discriminate|].
      destruct R0 as [[= ->] ->]. apply H1; assumption.
    + apply bind_iff in R0. destruct R0 as ([[y|y]|w'] & s2 & Ry & R0).
      * apply (then_iff _ _ _ _ _ _ _ (runs_cdr c s2)) in R0. apply ret_iff in R0. destruct R0; discriminate.
      * apply ret_iff in R0. destruct R0; discriminate.
      * destruct R0 as [[= ->] ->]. apply H3; assumption.
  - intros x s x1 s1 o s2 R0 _ IH c st ->. apply (then_iff _ _ _ _ _ _ _ (runs_nilp c s)) in R0. destruct (nilb s c) eqn:N.
    + apply bind_iff in R0. destruct R0 as ([y|w'] & s3 & Ry & R0); [apply ret_iff in R0; destruct R0; discriminate|]. destruct R0; discriminate.
    + apply bind_iff in R0. destruct R0 as ([[y|y]|w'] & s3 & Ry & R0).
      * apply (then_iff _ _ _ _ _ _ _ (runs_cdr c s3)) in R0. apply ret_iff in R0. destruct R0 as [[= ->] ->].
        eapply H4; [exact N|exact Ry|]. apply IH. reflexivity.
      * apply ret_iff in R0. destruct R0; discriminate.
      * destruct R0; discriminate.
Qed.
Section ForCells.
  Context {S R : Type} (body : S -> val -> prog (S + R)) (fin : S -> prog R).
  Lemma for_cells_end c st s o s' : nilb s c = true -> runs denote (fin st) s o s' -> runs denote (for_cells body fin c st) s o s'.
  Proof.
    intros N H. unfold for_cells. apply loop_iff. destruct o as [r|w].
    - exists (Done (inr r)), s'. split; [|auto]. apply (then_iff _ _ _ _ _ _ _ (runs_nilp c s)). rewrite N. eapply runs_bind; [exact H|apply runs_ret].
    - exists (Panicked w), s'. split; [|auto]. apply (then_iff _ _ _ _ _ _ _ (runs_nilp c s)). rewrite N. apply runs_bind_panic, H.
  Qed.
  Lemma for_cells_stop c st s r s' : nilb s c = false -> runs denote (body st c) s (Done (inr r)) s' -> runs denote (for_cells body fin c st) s (Done r) s'.
  Proof.
    intros N H. unfold for_cells. apply runs_loop_stop. apply (then_iff _ _ _ _ _ _ _ (runs_nilp c s)). rewrite N. eapply runs_bind; [exact H|apply runs_ret].
  Qed.
  Lemma for_cells_crash c st s w s' : nilb s c = false -> runs denote (body st c) s (Panicked w) s' -> runs denote (for_cells body fin c st) s (Panicked w) s'.
  Proof.
    intros N H. unfold for_cells. apply runs_loop_panic. apply (then_iff _ _ _ _ _ _ _ (runs_nilp c s)). rewrite N. apply runs_bind_panic, H.
  Qed.
  Lemma for_cells_next c st s st1 s1 o s' : nilb s c = false -> runs denote (body st c) s (Done (inl st1)) s1 ->
    runs denote (for_cells body fin (rest_of s1 c) st1) s1 o s' -> runs denote (for_cells body fin c st) s o s'.
  Proof.
    intros N H H2. unfold for_cells. eapply runs_loop_step; [|exact H2]. apply (then_iff _ _ _ _ _ _ _ (runs_nilp c s)). rewrite N. eapply runs_bind; [exact H|].
    apply (then_iff _ _ _ _ _ _ _ (runs_cdr c s1)). apply runs_ret.
  Qed.
End ForCells.

(** *** Passing arguments *)
Definition argument_run (argument : val -> state -> behaviour) (ar : val -> prog (res val)) : Prop :=
  forall x s o s', runs denote (ar x) s o s' <-> argument x s o s'.
Lemma evaluated_run env : argument_run (evaluated env) (fun x => call (REval x env false)).
Proof. intros x s o s'. reflexivity. Qed.
Lemma as_it_is_run : argument_run as_it_is (fun x => ok x).
Proof. intros x s o s'. apply ok_iff. Qed.
Lemma rev_snoc {A} (x : A) l : rev (x :: l) = rev l ++ [x].
Proof. reflexivity. Qed.
Lemma collect_iff argument ar (k : list val -> prog (res val)) : argument_run argument ar ->
  forall args acc s o s',
  runs denote (bind_ok (for_cells (fun acc a => x <- car a ;; r <- ar x ;; match r with Err m => Ret (inr (Err m)) | Ok v => Ret (inl (v :: acc)) end)
      (fun acc => ok (rev acc)) args acc) k) s o s' <->
  collects argument (fun vs s1 => runs denote (k vs) s1) (rev acc) args s o s'.
Proof.
  intros A args acc s o s'. unfold bind_ok. split.
  - rewrite bind_iff. intros (o1 & s1 & R & H). revert o s' H. 
    refine (for_cells_ind _ _ (fun args acc s o1 s1 => forall o s', match o1 with Done x => runs denote (match x with Ok x => k x | Err m => Ret (Err m) end) s1 o s' | Panicked w => o = Panicked w /\ s' = s1 end -> collects argument (fun vs s1 => runs denote (k vs) s1) (rev acc) args s o s') _ _ _ _ args acc s o1 s1 R); clear args acc s o1 s1 R.
    + intros c st s o s' N R o2 s2 H. apply ret_iff in R. destruct R as [-> ->]. apply collect_end; [apply at_end_nilb, N|exact H].
    + intros c st s r s1 N R o2 s2 H. apply not_at_end in N. rewrite car_iff in R. apply bind_iff in R.
      destruct R as (oe & se & Re & R). apply A in Re. destruct oe as [[v|m]|w].
      * apply ret_iff in R. destruct R; discriminate.
      * apply ret_iff in R. destruct R as [[= ->] ->]. apply ret_iff in H. destruct H as [-> ->]. apply collect_err; assumption.
      * destruct R; discriminate.
    + intros c st s w s1 N R o2 s2 H. apply not_at_end in N. rewrite car_iff in R. apply bind_iff in R.
      destruct R as (oe & se & Re & R). apply A in Re. destruct oe as [[v|m]|w'].
      * apply ret_iff in R. destruct R; discriminate.
      * apply ret_iff in R. destruct R; discriminate.
      * destruct R as [[= ->] ->], H as [-> ->]. apply collect_crash; assumption.
    + intros c st s st1 s1 o s2 N R IH o2 s3 H. apply not_at_end in N. rewrite car_iff in R. apply bind_iff in R.
      destruct R as (oe & se & Re & R). apply A in Re. destruct oe as [[v|m]|w'].
      * apply ret_iff in R. destruct R as [[= ->] ->]. eapply collect_next; [exact N|exact Re|]. apply (IH _ _ H).
      * apply ret_iff in R. destruct R; discriminate.
      * destruct R; discriminate.
  - intros H. remember (rev acc) as vs eqn:E. assert (E2 : acc = rev vs) by (rewrite E, rev_involutive; reflexivity). clear E. subst acc.
    apply bind_iff. induction H as [vs c s o s' N H|vs c s m s1 N H|vs c s w s1 N H|vs c s v s1 o s' N H H2 IH].
    + exists (Done (Ok vs)), s. split; [|exact H]. apply for_cells_end; [apply at_end_nilb, N|]. rewrite rev_involutive. apply runs_ret.
    + exists (Done (Err m)), s1. split; [|apply runs_ret]. apply not_at_end in N. apply for_cells_stop; [exact N|]. apply car_iff.
      eapply runs_bind; [apply A, H|apply runs_ret].
    + exists (Panicked w), s1. split; [|auto]. apply not_at_end in N. apply for_cells_crash; [exact N|]. apply car_iff.
      apply runs_bind_panic, A, H.
    + destruct IH as (o1 & s2 & R & K). exists o1, s2. split; [|exact K]. apply not_at_end in N. eapply for_cells_next; [exact N| |].
      * apply car_iff. eapply runs_bind; [apply A, H|apply runs_ret].
      * rewrite rev_app_distr in R. exact R.
Qed.
