(** Proofs of C18, C19, C45: environments. *)
From Verif Require Export ProofCall.
From stdpp Require Import list.
From Verif Require Import Data.
Local Open Scope string_scope.
Local Open Scope list_scope.
Local Open Scope Z_scope.

Ltac op_in H := match type of H with
  runs denote (bind (do_op ?op) ?k) ?s ?o ?s' => pose proof (proj1 (op_iff op k s _ _ o s' eq_refl) H) as op_next; clear H; rename op_next into H; cbv beta iota in H end.
Lemma find_binding_iff env n s o s' : runs denote (find_binding env (VSym n)) s o s' <-> exists r, visible s n env r /\ o = Done r /\ s' = s.
Proof.
  unfold find_binding. cbn [string_value bind]. split.
  - revert env s o s'. refine (loop_ind _ (fun env s o s' => exists r, visible s n env r /\ o = Done r /\ s' = s) _ _ _).
    + intros env s r s1 R. op_in R. fold (local_binding s env n) in R. destruct (local_binding s env n) as [b|] eqn:E.
      * apply ret_iff in R. destruct R as [[= ->] ->]. exists (Some b). split; [apply visible_here, E|auto].
      * op_in R. destruct (e_parent (env_at s env)) as [p|] eqn:P; apply ret_iff in R; destruct R as [R ->]; [discriminate|].
        injection R as ->. exists None. split; [apply visible_nowhere; assumption|auto].
    + intros env s w s1 R. op_in R. destruct (alookup n (e_binds (env_at s env))); [apply ret_iff in R; destruct R; discriminate|].
      op_in R. destruct (e_parent (env_at s env)); apply ret_iff in R; destruct R; discriminate.
    + intros env s p s1 o s2 R _ IH. op_in R. fold (local_binding s env n) in R. destruct (local_binding s env n) as [b|] eqn:E.
      * apply ret_iff in R. destruct R; discriminate.
      * op_in R. destruct (e_parent (env_at s env)) as [q|] eqn:P; apply ret_iff in R; destruct R as [R ->]; [|discriminate].
        injection R as ->. destruct IH as (r & V & -> & ->). exists r. split; [eapply visible_above; eassumption|auto].
  - intros (r & V & -> & ->). induction V as [env b E|env p r E P _ IH|env E P].
    + apply runs_loop_stop. op1. fold (local_binding s env n). rewrite E. apply runs_ret.
    + eapply runs_loop_step; [|exact IH]. op1. fold (local_binding s env n). rewrite E. op1. rewrite P. apply runs_ret.
    + apply runs_loop_stop. op1. fold (local_binding s env n). rewrite E. op1. rewrite P. apply runs_ret.
Qed.
Lemma binding_iff {B} env n (k : option loc -> prog B) s o s' :
  runs denote (bind (find_binding env (VSym n)) k) s o s' <-> exists r, visible s n env r /\ runs denote (k r) s o s'.
Proof.
  rewrite bind_iff. split.
  - intros (o1 & s1 & R & H). apply find_binding_iff in R. destruct R as (r & V & -> & ->). eauto.
  - intros (r & V & H). exists (Done r), s. split; [apply find_binding_iff; eauto|exact H].
Qed.
Lemma mark_run v b s : runs denote (mark_slot v b) s (Done tt) (noted b v s).
Proof.
  destruct v; try apply runs_ret. cbn [mark_slot noted]. eapply runs_op. cbn [step_op]. unfold put, fun_at.
  destruct (s_funs s !! l) as [f|]; [reflexivity|]. destruct s; reflexivity.
Qed.
Lemma chain_iff env n (k : val -> prog (res val)) s o s' :
  runs denote (bind (lookup_chain env (VSym n)) k) s o s' <->
  exists r, visible s n env r /\ match r with
    | Some b => runs denote (k (value_in s b)) (noted false (value_in s b) s) o s'
    | None => runs denote (k (VCell TCons (s_next s))) (set_cells (<[s_next s := (VNil, VNil)]> (s_cells s)) (bump s)) o s'
    end.
Proof.
  unfold lookup_chain. rewrite assoc_iff, binding_iff.
  assert (E : forall r, runs denote (bind (match r with Some b => v <- do_op (OBindVal b) ;; mark_slot v false ;;; Ret v | None => empty_cons end) k) s o s' <->
    match r with
    | Some b => runs denote (k (value_in s b)) (noted false (value_in s b) s) o s'
    | None => runs denote (k (VCell TCons (s_next s))) (set_cells (<[s_next s := (VNil, VNil)]> (s_cells s)) (bump s)) o s'
    end).
  { intros [b|].
    - rewrite assoc_iff. op1. rewrite assoc_iff. rewrite (then_iff _ _ _ _ _ _ _ (mark_run _ _ _)). reflexivity.
    - apply then_iff. apply runs_cons. }
  split; intros (r & V & H); exists r; (split; [exact V|apply E, H]).
Qed.
Lemma finds_above_iff env n s o s' : runs denote (v <- lookup_chain env (VSym n) ;; ok v) s o s' <-> finds_above env n s o s'.
Proof.
  rewrite chain_iff. unfold finds_above. split; intros (r & V & H); exists r; (split; [exact V|]); destruct r; apply ok_iff, H.
Qed.
Lemma value_of_iff env n needfn s o s' : runs denote (v <- value_of env (VSym n) needfn ;; ok v) s o s' <-> finds needfn env n s o s'.
Proof.
  unfold value_of, finds. rewrite assoc_iff. unfold find_local. cbn [string_value bind]. op1. fold (local_binding s env n).
  destruct (local_binding s env n) as [b|].
  - rewrite assoc_iff. op1. rewrite assoc_iff, (then_iff _ _ _ _ _ _ _ (mark_run _ _ _)). apply ok_iff.
  - rewrite assoc_iff. op1. destruct (e_frame (env_at s env)) as [f|]; [|apply finds_above_iff].
    cbn [bind]. rewrite assoc_iff, bind_iff. unfold asks_slot. split; intros (o1 & s1 & R & H); exists o1, s1; (split; [exact R|]);
      (destruct o1 as [[|]|w]; [| |exact H]).
    + rewrite assoc_iff in H. apply bind_iff in H. destruct H as (o2 & s2 & R2 & H). exists o2, s2. split; [exact R2|]. destruct o2 as [v|w]; [|exact H].
      change (functionp v) with (is_function v) in H. destruct (is_function v).
      * rewrite assoc_iff, (then_iff _ _ _ _ _ _ _ (mark_run _ _ _)) in H. apply ok_iff, H.
      * destruct needfn; [apply finds_above_iff, H|apply ok_iff, H].
    + apply finds_above_iff, H.
    + rewrite assoc_iff. apply bind_iff. destruct H as (o2 & s2 & R2 & H). exists o2, s2. split; [exact R2|]. destruct o2 as [v|w]; [|exact H].
      change (functionp v) with (is_function v). destruct (is_function v).
      * rewrite assoc_iff, (then_iff _ _ _ _ _ _ _ (mark_run _ _ _)). apply ok_iff, H.
      * destruct needfn; [apply finds_above_iff, H|apply ok_iff, H].
    + apply finds_above_iff, H.
Qed.
Lemma symbol_iff n env needfn s o s' : runs denote (call (REval (VSym n) env needfn)) s o s' <->
  (if has_suffix ":" n then gives (VSym n) s else finds needfn env n s) o s'.
Proof.
  rewrite call_iff. cbn [denote eval_body]. unfold naked_name. destruct (has_suffix ":" n); [apply ok_iff|apply value_of_iff].
Qed.
Lemma operator_iff h env s o s' : runs denote (call (REval h env true)) s o s' <-> operator h env s o s'.
Proof.
  destruct h; try (unfold operator, evals; rewrite !call_iff; reflexivity). apply symbol_iff.
Qed.
(** *** C19 *)
Lemma write_iff b n v s o s' : runs denote (p <- do_op (OBindProt b) ;; if p : bool then fail (protected_err n) else do_op (OBindSet b v) ;;; ok v) s o s' <-> writes_to b n v s o s'.
Proof. op1. unfold writes_to. destruct (b_prot (bind_at s b)); [apply fail_iff|]. op1. apply ok_iff. Qed.
Lemma set_to_iff env n v s o s' : runs denote (set_to env (VSym n) v) s o s' <-> sets env n v s o s'.
Proof.
  unfold set_to, sets, find_local. cbn [string_value bind]. op1. fold (local_binding s env n). destruct (local_binding s env n) as [b|]; [apply write_iff|].
  cbv zeta. op1.
  assert (C : forall s o s', runs denote (b <- find_binding env (VSym n) ;;
          match b with
          | Some b =>
              p <- do_op (OBindProt b) ;;
              if p : bool then fail (protected_err n) else do_op (OBindSet b v) ;;; ok v
          | None => fail (n +++ " is undefined")
          end) s o s' <-> sets_above env n v s o s').
  { intros s1 o1 s1'. rewrite binding_iff. unfold sets_above. split; intros (r & V & H); exists r; (split; [exact V|]); destruct r; solve [apply write_iff, H|apply fail_iff, H]. }
  destruct (e_frame (env_at s env)) as [f|]; [|cbn [bind]; apply C].
  rewrite bind_iff. unfold asks_slot. split; intros (o1 & s1 & R & H); exists o1, s1; (split; [exact R|]); (destruct o1 as [[|]|w]; [| |exact H]).
  - op_in H. apply ok_iff, H.
  - apply C, H.
  - op1. apply ok_iff, H.
  - apply C, H.
Qed.
Lemma set_iff n e env s o s' : applies "set!" [VSym n; e] env s o s' <->
  after (evals e env (entering "set!" env s)) (fun v s1 => sets env n v s1) o s'.
Proof.
  body_of. unfold set_var_impl, eval. cbn [arg nth]. rewrite eval_iff. apply after_iff. intros v s1 o1 s1'. apply set_to_iff.
Qed.
Lemma define_iff n e env s o s' : applies "define" [VSym n; e] env s o s' <->
  after (evals e env (entering "define" env s)) (fun v s1 => then_bind env (VSym n) v s1 (gives v)) o s'.
Proof.
  body_of. unfold define_impl, eval. cbn [arg nth]. rewrite eval_iff. apply after_iff. intros v s1 o1 s1'. rewrite then_bind_iff.
  apply then_bind_ext. intros. apply ok_iff.
Qed.
