(** Proofs of C16, C18, C22, C47: functions, let forms, loops, error handling. *)
From Verif Require Export ProofEnv.
From stdpp Require Import list.
From Verif Require SpecList ProofList.
From Verif Require Import Data.
Local Open Scope string_scope.
Local Open Scope list_scope.
Local Open Scope Z_scope.

Lemma nilb_not s (l : loc) t a d : s_cells s !! l = Some (a, d) -> a <> VNil \/ d <> VNil -> nilb s (VCell t l) = false.
Proof.
  intros E N. cbn [nilb]. rewrite (cell_some _ _ _ E). cbn [fst snd]. destruct a; try reflexivity. destruct d; try reflexivity. destruct N; congruence.
Qed.
Lemma params_run s ps n r : parameters s ps n r -> forall k, runs denote
  (for_cells (fun n a => if symbolp a then Ret (inr (n, true)) else Ret (inl (n + 1))) (fun n => Ret (n, false)) ps k) s (Done (k + Z.of_nat n, r)) s.
Proof.
  induction 1 as [| |l E|x|l a d n r E N _ IH]; intros k.
  - apply for_cells_end; [reflexivity|]. rewrite Z.add_0_r. apply runs_ret.
  - apply for_cells_end; [reflexivity|]. rewrite Z.add_0_r. apply runs_ret.
  - apply for_cells_end; [cbn [nilb]; rewrite (cell_some _ _ _ E); reflexivity|]. rewrite Z.add_0_r. apply runs_ret.
  - apply for_cells_stop; [reflexivity|]. cbn [symbolp]. rewrite Z.add_0_r. apply runs_ret.
  - eapply for_cells_next; [eapply nilb_not; eassumption|cbn [symbolp]; apply runs_ret|].
    cbn [rest_of]. rewrite (cell_some _ _ _ E). cbn [snd]. replace (k + Z.of_nat (S n)) with (k + 1 + Z.of_nat n) by lia. apply IH.
Qed.
Lemma make_function_run name ps n r body env s : parameters s ps n r ->
  let '(f, s1) := fresh_function (Fn name ps r (Z.of_nat n) body env) s in runs denote (make_function name ps body env) s (Done (VFun f)) s1.
Proof.
  intros P. unfold make_function, required_args, fresh_function. apply (then_iff _ _ _ _ _ _ _ (params_run _ _ _ _ P 0)). cbn [Z.add]. op1. apply runs_ret.
Qed.
Lemma parameters_grows s s' ps n r : grows s s' -> parameters s ps n r -> parameters s' ps n r.
Proof.
  intros G. induction 1 as [| |l E|x|l a d n r E N _ IH]; [constructor|constructor|apply params_empty, (g_cells _ _ G), E|constructor|].
  eapply params_next; [apply (g_cells _ _ G), E|exact N|exact IH].
Qed.
Lemma new_tail_grows vs tl : forall s, wf_state s -> grows s (snd (new_tail vs tl s)) /\ wf_state (snd (new_tail vs tl s)).
Proof.
  induction vs as [|v vs IH]; intros s W; cbn [new_tail]; [split; [apply grows_refl|exact W]|].
  destruct (IH s W) as [G1 W1]. destruct (new_tail vs tl s) as [t s1]. cbn [snd] in *.
  assert (S : grows s1 (snd (stored v s1)) /\ wf_state (snd (stored v s1))).
  { destruct v; cbn [stored snd fresh_cell]; try (split; [apply grows_refl|exact W1]). split; [apply grows_new_cell, W1|apply wf_new_cell, W1]. }
  destruct (stored v s1) as [v' s2]. cbn [snd fresh_cell] in *. destruct S as [G2 W2]. split; [|apply wf_new_cell, W2].
  eapply grows_trans; [exact G1|]. eapply grows_trans; [exact G2|]. apply grows_new_cell, W2.
Qed.
Lemma new_list_grows vs s : wf_state s -> grows s (snd (new_list vs s)) /\ wf_state (snd (new_list vs s)).
Proof. intros W. destruct vs; [split; [apply grows_new_cell, W|apply wf_new_cell, W]|apply new_tail_grows, W]. Qed.
(** [new_list] really is a list of its elements. *)
Lemma new_list_is vs s : wf_state s -> no_nils vs -> is_list (snd (new_list vs s)) (fst (new_list vs s)) vs.
Proof.
  intros W N. destruct (runs_array_to_list_exact vs s W N) as (v & s' & R & _ & L).
  destruct (runs_det _ _ _ _ _ _ _ _ R (new_list_run vs s)) as [E ->]. injection E as ->. exact L.
Qed.
Lemma new_tail_is vs s : wf_state s -> no_nils vs -> is_list (snd (new_tail vs VNil s)) (fst (new_tail vs VNil s)) vs.
Proof. intros W N. destruct vs as [|v vs]; [constructor|]. exact (new_list_is (v :: vs) s W N). Qed.
(** *** C16: making functions *)
Lemma lambda_run ps body env n r s : wf_state s -> is_pair ps = true -> parameters s ps n r ->
  let '(b, s1) := new_tail body VNil (entering "lambda" env s) in
  let '(f, s2) := fresh_function (Fn "unnamed" ps r (Z.of_nat n) b env) s1 in
  applies "lambda" (ps :: body) env s (Done (Ok (VFun f))) s2.
Proof.
  intros W P Q. assert (W0 : wf_state (entering "lambda" env s)) by apply wf_entering, W.
  pose proof (new_tail_run body VNil (entering "lambda" env s)) as R.
  destruct (new_tail_grows body VNil _ W0) as [G _]. destruct (new_tail body VNil (entering "lambda" env s)) as [b s1]. cbn [fst snd] in *.
  pose proof (make_function_run "unnamed" ps n r b env s1 (parameters_grows _ _ _ _ _ (grows_trans _ _ _ (grows_entering _ _ _) G) Q)) as R2.
  destruct (fresh_function _ s1) as [f s2]. applies. unfold lambda_impl. cbn [arg nth]. change (pairp ps) with (is_pair ps). rewrite P. cbn [negb].
  unfold tail_list. cbn [skipn]. apply (then_iff _ _ _ _ _ _ _ R). apply (then_iff _ _ _ _ _ _ _ R2). apply runs_ret.
Qed.
(** (define (name parameter ...) body ...) *)
Lemma visible_det s n env r1 : visible s n env r1 -> forall r2, visible s n env r2 -> r1 = r2.
Proof.
  induction 1 as [env b E|env p r E P _ IH|env E P]; intros r2 H2; inversion H2; subst; try congruence.
  apply IH. match goal with H : e_parent _ = Some ?q, H2 : visible _ _ ?q _ |- _ => rewrite P in H; injection H as <-; exact H2 end.
Qed.
Lemma visible_same s s1 n env r : s_envs s1 = s_envs s -> visible s n env r -> visible s1 n env r.
Proof.
  intros Q V. assert (L : forall e, env_at s1 e = env_at s e) by (intros e; unfold env_at; rewrite Q; reflexivity).
  induction V as [env b E|env p r E P _ IH|env E P].
  - apply visible_here. unfold local_binding. rewrite L. exact E.
  - eapply visible_above; [unfold local_binding; rewrite L; exact E|rewrite L; exact P|exact IH].
  - apply visible_nowhere; [unfold local_binding; rewrite L; exact E|rewrite L; exact P].
Qed.
Lemma value_of_plain env n r s : e_frame (env_at s env) = None -> visible s n env r ->
  runs denote (value_of env (VSym n) false) s (Done (match r with Some b => value_in s b | None => fst (fresh_cell VNil VNil s) end)) (after_lookup s env n r).
Proof.
  intros F V. assert (H : finds false env n s (Done (Ok (match r with Some b => value_in s b | None => fst (fresh_cell VNil VNil s) end))) (after_lookup s env n r)).
  { unfold finds, after_lookup. destruct (local_binding s env n) as [b|] eqn:E.
    - rewrite (visible_det _ _ _ _ V _ (visible_here _ _ _ _ E)). split; reflexivity.
    - rewrite F. exists r. split; [exact V|]. destruct r; split; reflexivity. }
  apply value_of_iff in H. apply bind_iff in H. destruct H as ([v|w] & s1 & R & H); [|destruct H; discriminate].
  apply ret_iff in H. destruct H as [[= <-] ->]. exact R.
Qed.
Lemma noted_cells b v s : s_cells (noted b v s) = s_cells s.
Proof. destruct v; try reflexivity. cbn [noted]. destruct (s_funs s !! l); reflexivity. Qed.
Lemma parameters_kept s s' ps n r : kept (s_cells s) (s_cells s') -> parameters s ps n r -> parameters s' ps n r.
Proof.
  intros G. induction 1 as [| |l E|x|l a d n r E N _ IH]; [constructor|constructor|apply params_empty, G, E|constructor|].
  eapply params_next; [apply G, E|exact N|exact IH].
Qed.
Lemma after_lookup_cells s env n r : wf_state s -> kept (s_cells s) (s_cells (after_lookup s env n r)).
Proof.
  intros W. destruct r as [b|]; cbn [after_lookup].
  - rewrite noted_cells. apply kept_refl.
  - apply (g_cells _ _ (grows_new_cell s VNil VNil W)).
Qed.
Lemma new_tail_cells vs tl : forall s, wf_state s -> kept (s_cells s) (s_cells (snd (new_tail vs tl s))).
Proof. intros s W. apply g_cells, new_tail_grows, W. Qed.
Lemma define_fun_iff hd n ps body env r s k va o s' : wf_state s -> e_frame (env_at s env) = None ->
  is_pair hd = true -> head_of s hd = VSym n -> rest_of s hd = ps -> parameters s ps k va -> visible s n env r ->
  applies "define" (hd :: body) env s o s' <->
  (let s0 := after_lookup (entering "define" env s) env n r in
   if is_builtin s r then fails ("Primitive function " +++ n +++ " can not be redefined.") s0
   else
     let '(b, s1) := new_tail body VNil s0 in
     let '(f, s2) := fresh_function (Fn n ps va (Z.of_nat k) b env) s1 in
     then_bind env (VSym n) (VFun f) s2 (gives (VFun f))) o s'.
Proof.
  intros W F P H T Q V. set (s1 := entering "define" env s).
  assert (F1 : e_frame (env_at s1 env) = None) by exact F.
  assert (V1 : visible s1 n env r).
  { apply (visible_same s); [reflexivity|exact V]. }
  body_of. unfold define_impl. cbn [arg nth]. 
  replace (match hd with VSym _ => _ | _ => _ end) with
    (name <- car hd ;; params <- cdr hd ;;
        match name with
        | VSym n =>
            ex <- value_of env name false ;;
            if primitivep ex then fail ("Primitive function " +++ n +++ " can not be redefined.")
            else
              body <- tail_list 1 (hd :: body) ;;
              f <- make_function n params body env ;;
              _ <-? bind_locally env name f ;; ok f
        | _ => fail "Function name has to be a symbol"
        end) by (destruct hd as [|[]| | | | | | | | | | | | | | | |]; try discriminate P; reflexivity).
  fold s1. rewrite car_iff, cdr_iff. change (head_of s1 hd) with (head_of s hd). change (rest_of s1 hd) with (rest_of s hd). rewrite H, T.
  rewrite (then_iff _ _ _ _ _ _ _ (value_of_plain _ _ _ _ F1 V1)). cbv zeta. set (s2 := after_lookup s1 env n r).
  assert (B : primitivep (match r with Some b => value_in s1 b | None => fst (fresh_cell VNil VNil s1) end) = is_builtin s r).
  { destruct r as [b|]; [|reflexivity]. cbn [is_builtin]. change (value_in s1 b) with (value_in s b). destruct (value_in s b); reflexivity. }
  rewrite B. destruct (is_builtin s r); [apply fail_iff|].
  assert (W2 : wf_state s2) by exact (wf_runs _ _ _ _ _ (wf_entering _ _ _ W) (value_of_plain env n r s1 F1 V1)).
  unfold tail_list. change (skipn 1 (hd :: body)) with body. rewrite (then_iff _ _ _ _ _ _ _ (new_tail_run _ _ _)).
  pose proof (new_tail_cells body VNil s2 W2) as C. destruct (new_tail body VNil s2) as [b s3]. cbn [fst snd] in *.
  assert (Q3 : parameters s3 ps k va).
  { eapply parameters_kept; [|exact Q]. eapply kept_trans; [|exact C]. exact (after_lookup_cells s1 env n r (wf_entering _ _ _ W)). }
  pose proof (make_function_run n ps k va b env s3 Q3) as R. destruct (fresh_function _ s3) as [f s4].
    rewrite (then_iff _ _ _ _ _ _ _ R). rewrite then_bind_iff. apply then_bind_ext. intros. apply ok_iff.
Qed.

(** *** C18 *)
Lemma let_check_run (rec : bool) le forms bs ns : forall s, is_list s forms bs ->
  Forall2 (fun b n => is_pair b = true /\ head_of s b = VSym n) bs ns ->
  forall (k : prog (res val)) o s',
  runs denote (bind_ok (bind_let_check rec le forms) (fun _ => k)) s o s' <->
  (if rec then declares le ns s (fun s1 => runs denote k s1) o s' else runs denote k s o s').
Proof.
  intros s L F k o s'. destruct rec.
  - revert forms ns s L F. induction bs as [|b bs IH]; intros forms ns s L F.
    + inversion F; subst. cbn [declares]. rewrite (then_ok_iff _ _ s tt s); [reflexivity|].
      apply for_cells_end; [apply is_list_nil_inv, L|apply runs_ret].
    + inversion F as [|? n ? ns' [P H] F']; subst. destruct (is_list_cons_inv _ _ _ _ L) as (E1 & E2 & E3 & _).
      cbn [declares]. unfold then_bind.
      set (body := fun (_ : unit) c =>
               pair <- car c ;;
               if negb (pairp pair) then
                 Ret (inr (@Err unit "Let requires a list of bindings (with are pairs) as it's first argument"))
               else
                 name <- car pair ;;
                 if negb (symbolp name) then
                   Ret (inr (@Err unit "First part of a let binding pair must be a symbol"))
                 else if true then
                   r <- bind_locally le name VNil ;;
                   match r with Ok _ => Ret (inl tt) | Err m => Ret (inr (Err m)) end
                 else Ret (inl tt)).
      assert (B : runs denote (body tt forms) s (Done (match bind_here le (VSym n) VNil s with Some _ => inl tt | None => inr (Err (is_protected n)) end))
         (match bind_here le (VSym n) VNil s with Some s1 => s1 | None => s end)).
      { unfold body. apply car_iff. change (head_of s forms) with (car_of s forms). rewrite E2. change (pairp b) with (is_pair b). rewrite P. cbn [negb].
        apply car_iff. rewrite H. cbn [symbolp negb]. apply (then_iff _ _ _ _ _ _ _ (bind_sym_run _ _ _ _)). destruct (bind_here le (VSym n) VNil s); apply runs_ret. }
      destruct (bind_here le (VSym n) VNil s) as [s1|] eqn:BH.
      * pose proof (bind_here_cells _ _ _ _ _ BH) as C.
        rewrite <- (IH (rest_of s1 forms) ns' s1).
        -- unfold bind_let_check. fold body. unfold bind_ok. rewrite !bind_iff.
           split; intros (o1 & s2 & R & K); exists o1, s2; (split; [|exact K]).
           ++ unfold for_cells in R |- *. apply loop_iff in R. destruct R as (o3 & s3 & R & K3).
              assert (R' : runs denote (b <- nilp forms ;; if b then r <- ok tt ;; Ret (inr r) else x <- body tt forms ;; match x with inl s' => c' <- cdr forms ;; Ret (inl (c', s')) | inr r => Ret (inr r) end) s (Done (inl (rest_of s1 forms, tt))) s1).
              { apply (then_iff _ _ _ _ _ _ _ (runs_nilp _ _)). rewrite E1. apply (then_iff _ _ _ _ _ _ _ B). apply (then_iff _ _ _ _ _ _ _ (runs_cdr _ _)). apply runs_ret. }
              destruct (runs_det _ _ _ _ _ _ _ _ R R') as [-> ->]. exact K3.
           ++ eapply for_cells_next; [exact E1|exact B|exact R].
        -- eapply is_list_cells; [exact C|]. replace (rest_of s1 forms) with (cdr_of s forms); [exact E3|].
           unfold cdr_of, rest_of, cell_at. rewrite C. reflexivity.
        -- eapply Forall2_impl; [exact F'|]. intros x y [Q1 Q2]. split; [exact Q1|]. unfold head_of, cell_at in *. rewrite C. exact Q2.
      * rewrite (then_fail_iff _ _ s (is_protected n) s); [reflexivity|]. apply for_cells_stop; [exact E1|exact B].
  - rewrite (then_ok_iff _ _ s tt s); [reflexivity|]. revert forms ns L F. induction bs as [|b bs IH]; intros forms ns L F.
    + apply for_cells_end; [apply is_list_nil_inv, L|apply runs_ret].
    + inversion F as [|? n ? ns' [P H] F']; subst. destruct (is_list_cons_inv _ _ _ _ L) as (E1 & E2 & E3 & _).
      eapply for_cells_next; [exact E1| |exact (IH _ _ E3 F')].
      apply car_iff. change (head_of s forms) with (car_of s forms). rewrite E2. change (pairp b) with (is_pair b). rewrite P. cbn [negb].
      apply car_iff. rewrite H. apply runs_ret.
Qed.
Lemma cadr_run v s : runs denote (cadr v) s (Done (head_of s (rest_of s v))) s.
Proof.
  assert (H := ProofList.runs_walk_list s "ad" v ltac:(repeat (constructor; [auto|]); constructor)).
  replace (head_of s (rest_of s v)) with (SpecList.follow s (list_ascii_of_string "ad") v); [exact H|].
  cbn [SpecList.follow list_ascii_of_string fold_right]. 
  assert (F : forall x y, SpecList.field s x y = match y with VCell _ l => if Ascii.eqb x "a" then fst (cell_at s l) else snd (cell_at s l) | _ => VNil end).
  { intros x []; try reflexivity. cbn [SpecList.field]. unfold cell_at. destruct (s_cells s !! l) as [[? ?]|]; destruct (Ascii.eqb x "a"); reflexivity. }
  unfold SpecList.follow. cbn [fold_right]. rewrite !F. change (Ascii.eqb "d" "a") with false. change (Ascii.eqb "a" "a") with true. cbn iota.
  destruct v; reflexivity.
Qed.
Lemma initialises_iff env le (k : prog (res val)) : forall c s o s',
  runs denote (bind_ok (bind_let_eval le env c) (fun _ => k)) s o s' <-> initialises env le (fun s1 => runs denote k s1) c s o s'.
Proof.
  set (body := fun (_ : unit) c =>
               pair <- car c ;; name <- car pair ;; x <- cadr pair ;;
               r <- eval x env ;;
               match r with
               | Err m => Ret (inr (@Err unit m))
               | Ok v =>
                   b <- bind_locally le name v ;;
                   match b with Ok _ => Ret (inl tt) | Err m => Ret (inr (Err m)) end
               end).
  assert (B : forall c s o s', runs denote (body tt c) s o s' <->
    exists oe s1, evals (head_of s (rest_of s (head_of s c))) env s oe s1 /\
      match oe with
      | Done (Ok v) => o = Done (match bind_here le (head_of s (head_of s c)) v s1 with Some _ => inl tt | None => inr (Err (is_protected (name_of s1 (head_of s (head_of s c))))) end) /\
                       s' = match bind_here le (head_of s (head_of s c)) v s1 with Some s2 => s2 | None => s1 end
      | Done (Err m) => o = Done (inr (Err m)) /\ s' = s1
      | Panicked w => o = Panicked w /\ s' = s1
      end).
  { intros c s o s'. unfold body. rewrite car_iff, car_iff. rewrite (then_iff _ _ _ _ _ _ _ (cadr_run _ _)). rewrite bind_iff. unfold eval, evals.
    split; intros (oe & s1 & R & H); exists oe, s1; (split; [exact R|]); destruct oe as [[v|m]|w]; try (apply ret_iff in H; exact H); try exact H; try (apply ret_iff; exact H).
    - rewrite (then_iff _ _ _ _ _ _ _ (bind_locally_run _ _ _ _)) in H. destruct (bind_here le (head_of s (head_of s c)) v s1); apply ret_iff in H; exact H.
    - rewrite (then_iff _ _ _ _ _ _ _ (bind_locally_run _ _ _ _)). destruct (bind_here le (head_of s (head_of s c)) v s1); apply ret_iff; exact H. }
  intros c s o s'. unfold bind_let_eval. fold body. unfold bind_ok. rewrite bind_iff. split.
  - intros (o1 & s1 & R & H). revert o s' H.
    refine (for_cells_ind _ _ (fun c u s o1 s1 => forall o s', match o1 with Done x => runs denote (match x with Ok _ => k | Err m => Ret (Err m) end) s1 o s' | Panicked w => o = Panicked w /\ s' = s1 end -> initialises env le (fun s1 => runs denote k s1) c s o s') _ _ _ _ c tt s o1 s1 R); clear c s o1 s1 R.
    + intros c u s o s' N R o2 s2 H. apply ret_iff in R. destruct R as [-> ->]. apply init_end; [apply at_end_nilb, N|exact H].
    + intros c [] s r s1 N R o2 s2 H. apply not_at_end in N. apply B in R. destruct R as (oe & s3 & Re & R). destruct oe as [[v|m]|w].
      * destruct (bind_here le (head_of s (head_of s c)) v s3) eqn:BH; destruct R as [R ->]; [discriminate|]. injection R as ->. apply ret_iff in H. destruct H as [-> ->].
        eapply init_refused; eassumption.
      * destruct R as [[= ->] ->]. apply ret_iff in H. destruct H as [-> ->]. apply init_err; assumption.
      * destruct R; discriminate.
    + intros c [] s w s1 N R o2 s2 H. apply not_at_end in N. apply B in R. destruct R as (oe & s3 & Re & R). destruct oe as [[v|m]|w'].
      * destruct R; discriminate.
      * destruct R; discriminate.
      * destruct R as [[= ->] ->], H as [-> ->]. apply init_crash; assumption.
    + intros c [] s u s1 o s2 N R IH o2 s3 H. apply not_at_end in N. apply B in R. destruct R as (oe & s4 & Re & R). destruct oe as [[v|m]|w'].
      * destruct (bind_here le (head_of s (head_of s c)) v s4) eqn:BH; destruct R as [R ->]; [|discriminate]. eapply init_next; [exact N|exact Re|exact BH|]. exact (IH _ _ H).
      * destruct R; discriminate.
      * destruct R; discriminate.
  - intros H. induction H as [c s o s' N H|c s m s1 N H|c s w s1 N H|c s v s1 N H BH|c s v s1 s2 o s' N H BH H2 IH].
    + exists (Done (Ok tt)), s. split; [apply for_cells_end; [apply at_end_nilb, N|apply runs_ret]|exact H].
    + apply not_at_end in N. exists (Done (Err m)), s1. split; [|apply runs_ret]. apply for_cells_stop; [exact N|]. apply B. exists (Done (Err m)), s1. auto.
    + apply not_at_end in N. exists (Panicked w), s1. split; [|auto]. apply for_cells_crash; [exact N|]. apply B. exists (Panicked w), s1. auto.
    + apply not_at_end in N. eexists (Done (Err _)), s1. split; [|apply runs_ret]. apply for_cells_stop; [exact N|]. apply B. exists (Done (Ok v)), s1. split; [exact H|]. rewrite BH. auto.
    + apply not_at_end in N. destruct IH as (o1 & s3 & R & K). exists o1, s3. split; [|exact K]. eapply for_cells_next; [exact N| |exact R]. apply B. exists (Done (Ok v)), s1. split; [exact H|]. rewrite BH. auto.
Qed.
Lemma initialises_mono env le (k1 k2 : state -> behaviour) : (forall s o s', k1 s o s' -> k2 s o s') ->
  forall c s o s', initialises env le k1 c s o s' -> initialises env le k2 c s o s'.
Proof. intros H c s o s' C. induction C; [apply init_end|apply init_err|apply init_crash|eapply init_refused|eapply init_next]; eauto. Qed.
Lemma declares_ext le ns k1 k2 : (forall s o s', k1 s o s' <-> k2 s o s') -> forall s o s', declares le ns s k1 o s' <-> declares le ns s k2 o s'.
Proof. intros H. induction ns as [|n ns IH]; intros s o s'; cbn [declares]; [apply H|]. apply then_bind_ext. exact IH. Qed.
Lemma let_common_iff star rec bv ns body env s o s' : bindings s bv ns ->
  runs denote (let_common star rec (bv :: body) env) s o s' <->
  (let le := s_next s in
   let s1 := open_env "let" env (e_frame (env_at s env)) s in
   let rest := initialises (if star || rec then le else env) le (eval_each body le VNil) bv in
   if rec then declares le ns s1 rest o s' else rest s1 o s').
Proof.
  intros (bs & L & F). unfold let_common. cbn [arg nth tl]. rewrite (is_list_pairp _ _ _ L). cbn [negb].
  rewrite (then_iff _ _ _ _ _ _ _ (new_env_below_run _ _ _)). cbv zeta. set (s1 := open_env "let" env (e_frame (env_at s env)) s). set (le := s_next s).
  unfold bind_let_locals. rewrite bind_ok_assoc.
  assert (C : s_cells s1 = s_cells s) by apply open_env_cells.
  etransitivity; [apply (let_check_run rec le bv bs ns s1)|].
  - exact (is_list_cells _ _ _ _ C L).
  - eapply Forall2_impl; [exact F|]. intros x y [Q1 Q2]. split; [exact Q1|]. unfold head_of, cell_at in *. rewrite C. exact Q2.
  - assert (K : forall s o s', runs denote (bind_ok (bind_let_eval le (if star || rec then le else env) bv) (fun _ => eval_seq body le VNil)) s o s' <->
      initialises (if star || rec then le else env) le (eval_each body le VNil) bv s o s').
    { intros s2 o2 s2'. rewrite initialises_iff. split; apply initialises_mono; intros; apply eval_seq_iff; assumption. }
    destruct rec; [apply declares_ext; exact K|apply K].
Qed.
Lemma let_iff bv ns body env s o s' : bindings s bv ns ->
  applies "let" (bv :: body) env s o s' <->
  (let s0 := entering "let" env s in let le := s_next s in
   initialises env le (eval_each body le VNil) bv (open_env "let" env (e_frame (env_at s env)) s0)) o s'.
Proof.
  intros B. body_of. unfold let_impl. cbn [arg nth]. replace (symbolp bv) with false by (destruct B as (bs & L & _); inversion L; reflexivity).
  apply (let_common_iff false false bv ns body env (entering "let" env s)). destruct B as (bs & L & F). exists bs. split; [eapply is_list_cells; [|exact L]; reflexivity|exact F].
Qed.
Lemma let_star_iff bv ns body env s o s' : bindings s bv ns ->
  applies "let*" (bv :: body) env s o s' <->
  (let s0 := entering "let*" env s in let le := s_next s in
   initialises le le (eval_each body le VNil) bv (open_env "let" env (e_frame (env_at s env)) s0)) o s'.
Proof.
  intros B. body_of. apply (let_common_iff true false bv ns body env (entering "let*" env s)).
  destruct B as (bs & L & F). exists bs. split; [eapply is_list_cells; [|exact L]; reflexivity|exact F].
Qed.
Lemma letrec_iff bv ns body env s o s' : bindings s bv ns ->
  applies "letrec" (bv :: body) env s o s' <->
  (let s0 := entering "letrec" env s in let le := s_next s in
   declares le ns (open_env "let" env (e_frame (env_at s env)) s0) (initialises le le (eval_each body le VNil) bv)) o s'.
Proof.
  intros B. body_of. apply (let_common_iff false true bv ns body env (entering "letrec" env s)).
  destruct B as (bs & L & F). exists bs. split; [eapply is_list_cells; [|exact L]; reflexivity|exact F].
Qed.
Lemma is_list_parameters s v xs : is_list s v xs -> parameters s v (length xs) false.
Proof.
  induction 1; cbn [length]; [constructor|constructor|apply params_empty; assumption|]. eapply params_next; eassumption.
Qed.
Lemma named_bindings_run s v bs ns es : is_list s v bs -> Forall2 (fun b n => head_of s b = VSym n) bs ns ->
    Forall2 (fun b e => head_of s (rest_of s b) = e /\ e <> VNil) bs es ->
  forall vars inits, runs denote (for_cells (fun acc c =>
                   let '(vars, inits) := acc in
                   b <- car c ;; v <- car b ;;
                   if symbolp v then x <- cadr b ;; Ret (inl (v :: vars, x :: inits))
                   else Ret (inr (Err "The first element of a binding must be a symbol")))
                 (fun acc => ok acc) v (vars, inits)) s (Done (Ok (rev (map VSym ns) ++ vars, rev es ++ inits))) s.
Proof.
  intros L. revert ns es. remember bs as bs' eqn:Eb. revert v L. clear Eb. induction bs' as [|b bs' IH]; intros v L ns es F1 F2 vars inits.
  - inversion F1; inversion F2; subst. apply for_cells_end; [apply is_list_nil_inv, L|apply runs_ret].
  - inversion F1 as [|? n ? ns' H1 F1']; inversion F2 as [|? e ? es' [He _] F2']; subst. destruct (is_list_cons_inv _ _ _ _ L) as (E1 & E2 & E3 & _).
    eapply for_cells_next; [exact E1| |].
    + apply car_iff. change (head_of s v) with (car_of s v). rewrite E2. apply car_iff. rewrite H1. cbn [symbolp].
      apply (then_iff _ _ _ _ _ _ _ (cadr_run _ _)). apply runs_ret.
    + cbn [map rev]. rewrite <- !app_assoc. cbn [app]. apply (IH _ E3 ns' es' F1' F2').
Qed.
Lemma is_list_kept s s' v xs : kept (s_cells s) (s_cells s') -> is_list s v xs -> is_list s' v xs.
Proof. intros K. induction 1; econstructor; eauto. Qed.
Lemma named_let_iff n bv body env ns es s o s' : wf_state s -> named_bindings s bv ns es ->
  applies "let" (VSym n :: bv :: body) env s o s' <->
  (let s0 := entering "let" env s in
   let '(vl, s1) := new_list (map VSym ns) s0 in
   let '(il, s2) := new_list es s1 in
   let le := s_next s2 in
   let s3 := open_env n env (e_frame (env_at s2 env)) s2 in
   then_bind le (VSym n) VNil s3 (fun s4 =>
     let '(b, s5) := new_tail body VNil s4 in
     let '(f, s6) := fresh_function (Fn n vl false (Z.of_nat (length ns)) b le) s5 in
     then_bind le (VSym n) (VFun f) s6 (fun s7 =>
       calls_function f None (evaluated env) il (length es) env s7))) o s'.
Proof.
  intros W (bs & L & F1 & F2). body_of. unfold let_impl. cbn [arg nth symbolp]. unfold named_let_impl. cbn [arg nth].
  rewrite (is_list_pairp _ _ _ L). cbn [negb].
  set (s0 := entering "let" env s). assert (W0 : wf_state s0) by apply wf_entering, W.
  rewrite (then_ok_iff _ _ s0 _ s0 _ _ (named_bindings_run s0 bv bs ns es (is_list_cells s s0 _ _ eq_refl L) F1 F2 [] [])).
  rewrite !app_nil_r, !rev_involutive. cbv zeta.
  rewrite (then_iff _ _ _ _ _ _ _ (new_list_run _ _)).
  assert (N1 : no_nils (map VSym ns)) by (apply List.Forall_forall; intros x I; apply in_map_iff in I; destruct I as (y & <- & _); discriminate).
  assert (N2 : no_nils es) by (clear -F2; induction F2 as [|? ? ? ? [_ ?]]; constructor; assumption).
  pose proof (new_list_is _ s0 W0 N1) as L1. destruct (new_list_grows (map VSym ns) s0 W0) as [_ W1].
  destruct (new_list (map VSym ns) s0) as [vl s1]. cbn [fst snd] in *.
  rewrite (then_iff _ _ _ _ _ _ _ (new_list_run _ _)).
  pose proof (new_list_is _ s1 W1 N2) as L2. destruct (new_list_grows es s1 W1) as [G2 W2].
  destruct (new_list es s1) as [il s2]. cbn [fst snd] in *.
  rewrite (then_iff _ _ _ _ _ _ _ (new_env_below_run _ _ _)). set (le := s_next s2).
  assert (W3 := wf_runs _ _ _ _ _ W2 (new_env_below_run env n s2)).
  set (s3 := open_env n env (e_frame (env_at s2 env)) s2) in *.
  etransitivity; [apply then_bind_iff|]. unfold then_bind at 1 2.
  destruct (bind_here le (VSym n) VNil s3) as [s4|] eqn:B4; [|reflexivity].
  assert (C4 : s_cells s4 = s_cells s2) by (rewrite (bind_here_cells _ _ _ _ _ B4); apply open_env_cells).
  assert (W4 : wf_state s4). { pose proof (bind_locally_run le (VSym n) VNil s3) as R. rewrite B4 in R. exact (wf_runs _ _ _ _ _ W3 R). }
  unfold tail_list. change (skipn 2 (VSym n :: bv :: body)) with body. rewrite (then_iff _ _ _ _ _ _ _ (new_tail_run _ _ _)).
  pose proof (new_tail_cells body VNil s4 W4) as C. destruct (new_tail body VNil s4) as [b s5]. cbn [fst snd] in *. rewrite C4 in C.
  assert (P5 : parameters s5 vl (length ns) false).
  { rewrite <- (map_length VSym ns). apply is_list_parameters. eapply is_list_kept; [exact C|]. eapply is_list_grows; [exact G2|exact L1]. }
  pose proof (make_function_run n vl _ _ b le s5 P5) as R. destruct (fresh_function _ s5) as [f s6] eqn:Ef.
  rewrite (then_iff _ _ _ _ _ _ _ R). etransitivity; [apply then_bind_iff|]. unfold then_bind.
  destruct (bind_here le (VSym n) (VFun f) s6) as [s7|] eqn:B7; [|reflexivity].
  apply fun_apply_iff.
  - eapply is_list_kept; [|exact L2]. rewrite (bind_here_cells _ _ _ _ _ B7). unfold fresh_function in Ef. injection Ef as _ <-. exact C.
  - unfold fun_at. rewrite (bind_here_funs _ _ _ _ _ B7). unfold fresh_function in Ef. injection Ef as <- <-. cbn. rewrite lookup_insert. cbn.
    clear -L1. inversion L1; reflexivity.
Qed.

(** *** C22 *)
Lemma handler_iff fl m env s o s' : wf_state s -> symbolp (f_params (fn_code (fun_at s fl))) = false ->
  runs denote (s <- new_str m ;; l <- array_to_list [s] ;; fun_apply fl l env None true) s o s' <->
  (let '(x, s2) := fresh_string m s in let '(l, s3) := new_list [x] s2 in calls_function fl None (evaluated env) l 1 env s3) o s'.
Proof.
  intros W S. unfold fresh_string. 
  assert (R : runs denote (new_str m) s (Done (VStr (s_next s))) (snd (fresh_string m s))) by (unfold new_str; rsteps).
  rewrite (then_iff _ _ _ _ _ _ _ R). pose proof (wf_runs _ _ _ _ _ W R) as W2. unfold fresh_string in *. cbn [snd] in *.
  match type of W2 with wf_state ?x => set (s2 := x) in * end.
  rewrite (then_iff _ _ _ _ _ _ _ (new_list_run _ _)).
  pose proof (new_list_is [VStr (s_next s)] s2 W2 ltac:(constructor; [discriminate|constructor])) as L.
  destruct (new_list_grows [VStr (s_next s)] s2 W2) as [G _].
  assert (E : fun_at (snd (new_list [VStr (s_next s)] s2)) fl = fun_at s fl) by reflexivity.
  destruct (new_list [VStr (s_next s)] s2) as [l s3]. cbn [fst snd] in *. apply (fun_apply_iff fl l [VStr (s_next s)]); [exact L|]. rewrite E. exact S.
Qed.
Lemma on_error_ok e h env s v s1 : evals e env (entering "on-error" env s) (Done (Ok v)) s1 ->
  applies "on-error" [e; h] env s (Done (Ok v)) s1.
Proof. intros H. applies. unfold on_error_impl. cbn [arg nth]. unfold eval. apply (then_iff _ _ _ _ _ _ _ H). apply runs_ret. Qed.
Lemma on_error_crash e hs env s w s1 : (1 <= length hs <= 2)%nat -> evals e env (entering "on-error" env s) (Panicked w) s1 ->
  applies "on-error" (e :: hs) env s (Panicked w) s1.
Proof. intros _ H. applies. unfold on_error_impl. cbn [arg nth]. unfold eval. apply runs_bind_panic, H. Qed.
Lemma on_error_handled e h hs env s m s1 fl s2 o s' : wf_state s ->
  evals e env (entering "on-error" env s) (Done (Err m)) s1 -> evals h env s1 (Done (Ok (VFun fl))) s2 ->
  symbolp (f_params (fn_code (fun_at s2 fl))) = false ->
  applies "on-error" (e :: h :: hs) env s o s' <->
  (let '(x, s3) := fresh_string m s2 in let '(l, s4) := new_list [x] s3 in calls_function fl None (evaluated env) l 1 env s4) o s'.
Proof.
  intros W H1 H2 S. body_of. unfold on_error_impl. cbn [arg nth]. unfold eval. rewrite (then_iff _ _ _ _ _ _ _ H1). rewrite (then_ok_iff _ _ _ _ _ _ _ H2).
  apply handler_iff; [|exact S]. eapply wf_runs; [|exact H2]. eapply wf_runs; [|exact H1]. apply wf_entering, W.
Qed.
Lemma on_error_no_handler e h hs env s m s1 v s2 : 
  evals e env (entering "on-error" env s) (Done (Err m)) s1 -> evals h env s1 (Done (Ok v)) s2 -> (forall fl, v <> VFun fl) ->
  applies "on-error" (e :: h :: hs) env s (Done (Err "on-error requires a function as it's second argument")) s2.
Proof.
  intros H1 H2 S. applies. unfold on_error_impl. cbn [arg nth]. unfold eval. apply (then_iff _ _ _ _ _ _ _ H1). apply (then_ok_iff _ _ _ _ _ _ _ H2).
  destruct v; try apply runs_ret. exfalso. eapply S. reflexivity.
Qed.
Lemma on_error_success e h h2 env s v s1 fl s2 o s' : 
  evals e env (entering "on-error" env s) (Done (Ok v)) s1 -> evals h2 env s1 (Done (Ok (VFun fl))) s2 ->
  symbolp (f_params (fn_code (fun_at s2 fl))) = false ->
  applies "on-error" [e; h; h2] env s o s' <-> calls_function fl None (evaluated env) VNil 0 env s2 o s'.
Proof.
  intros H1 H2 S. body_of. unfold on_error_impl. cbn [arg nth]. unfold eval. rewrite (then_iff _ _ _ _ _ _ _ H1). rewrite (then_ok_iff _ _ _ _ _ _ _ H2).
  apply (fun_apply_iff fl VNil []); [constructor|exact S].
Qed.

(** *** C47: do *)
Lemma rebind_all_run le nvs : forall s s4, rebinds le nvs s (gives VNil) (Done (Ok VNil)) s4 -> runs denote (rebind_all nvs le) s (Done (Ok tt)) s4.
Proof.
  induction nvs as [|[n v] nvs IH]; intros s s4 H; cbn [rebinds rebind_all] in *.
  - destruct H as [_ ->]. apply runs_ret.
  - unfold then_bind in H. destruct (bind_here le n v s) as [s1|] eqn:B; [|destruct H; discriminate].
    pose proof (bind_locally_run le n v s) as R. rewrite B in R. apply (then_ok_iff _ _ _ _ _ _ _ R). apply IH, H.
Qed.
Definition step_body (env : loc) : list (val * val) -> val -> prog (list (val * val) + res (list (val * val))) :=
  fun acc c =>
             tuple <- car c ;; name <- nth_of tuple 1 ;;
             t <- nth_of tuple 3 ;; n <- nilp t ;;
             r <- (if negb n then (t <- nth_of tuple 3 ;; eval t env)
                   else (v <- value_of env name false ;; ok v)) ;;
             match r with Ok v => Ret (inl ((name, v) :: acc)) | Err m => Ret (inr (Err m)) end.
Lemma step_body_some env acc c name init step rest s o s1 : is_list s (head_of s c) (name :: init :: step :: rest) -> ~ at_end s step ->
  evals step env s o s1 ->
  runs denote (step_body env acc c) s (match o with Done (Ok v) => Done (inl ((name, v) :: acc)) | Done (Err m) => Done (inr (Err m)) | Panicked w => Panicked w end) s1.
Proof.
  intros L N H. unfold step_body. apply car_iff. apply (then_iff _ _ _ _ _ _ _ (ProofList.runs_nth _ _ 1 _ L)).
  change (SpecList.element (name :: init :: step :: rest) 1) with name.
  apply (then_iff _ _ _ _ _ _ _ (ProofList.runs_nth _ _ 3 _ L)). change (SpecList.element (name :: init :: step :: rest) 3) with step.
  apply not_at_end in N. apply (then_iff _ _ _ _ _ _ _ (runs_nilp step s)). rewrite N. cbn [negb].
  apply assoc_iff. apply (then_iff _ _ _ _ _ _ _ (ProofList.runs_nth _ _ 3 _ L)). change (SpecList.element (name :: init :: step :: rest) 3) with step.
  apply bind_iff. exists o, s1. split; [exact H|]. destruct o as [[v|m]|w]; [apply runs_ret|apply runs_ret|auto].
Qed.
Lemma step_body_same env acc c name init s v s1 : is_list s (head_of s c) [name; init] -> reads name env s (Done (Ok v)) s1 ->
  runs denote (step_body env acc c) s (Done (inl ((name, v) :: acc))) s1.
Proof.
  intros L H. unfold step_body. apply car_iff. apply (then_iff _ _ _ _ _ _ _ (ProofList.runs_nth _ _ 1 _ L)).
  change (SpecList.element [name; init] 1) with name.
  apply (then_iff _ _ _ _ _ _ _ (ProofList.runs_nth _ _ 3 _ L)). change (SpecList.element [name; init] 3) with VNil.
  apply (then_iff _ _ _ _ _ _ _ (runs_nilp VNil s)). cbn [negb nilb].
  apply (then_iff _ _ _ _ _ _ _ H). apply runs_ret.
Qed.
Lemma steps_run le nvs c s o s' : steps le nvs c s o s' ->
  runs denote (for_cells (step_body le) (fun acc => ok (rev acc)) c (rev nvs)) s o s'.
Proof.
  induction 1 as [nvs c s N|nvs c s m s1 name init step rest N L Ns E|nvs c s w s1 name init step rest N L Ns E|nvs c s v s1 o s' name init step rest N L Ns E _ IH|nvs c s v s1 o s' name init N L R _ IH].
  - apply for_cells_end; [apply at_end_nilb, N|]. rewrite rev_involutive. apply runs_ret.
  - apply not_at_end in N. apply for_cells_stop; [exact N|]. exact (step_body_some _ _ _ _ _ _ _ _ _ _ L Ns E).
  - apply not_at_end in N. apply for_cells_crash; [exact N|]. exact (step_body_some _ _ _ _ _ _ _ _ _ _ L Ns E).
  - apply not_at_end in N. eapply for_cells_next; [exact N|exact (step_body_some _ _ _ _ _ _ _ _ _ _ L Ns E)|]. rewrite rev_app_distr in IH. exact IH.
  - apply not_at_end in N. eapply for_cells_next; [exact N|exact (step_body_same _ _ _ _ _ _ _ _ L R)|]. rewrite rev_app_distr in IH. exact IH.
Qed.
Lemma loops_run le test body vars last s o s' : loops le test body vars last s o s' ->
  runs denote (loop (do_turn test body vars le) last) s o s'.
Proof.
  assert (Done_ : forall last s v s1 o s', evals (head_of s test) le s (Done (Ok v)) s1 -> truthy s1 v = true -> eval_cells le (rest_of s1 test) last s1 o s' ->
    runs denote (do_turn test body vars le last) s (match o with Done r => Done (inr r) | Panicked w => Panicked w end) s').
  { intros last0 s0 v s1 o0 s0' H T C. unfold do_turn. apply car_iff. apply (then_iff _ _ _ _ _ _ _ H). apply truth_iff. rewrite T. apply cdr_iff.
    apply bind_iff. exists o0, s0'. split; [|destruct o0; [apply runs_ret|auto]].
    apply (cells_iff (fun m => m)). exists o0. split; [exact C|]. destruct o0 as [[|]|]; reflexivity. }
  assert (Body : forall last s v s1 o s2, evals (head_of s test) le s (Done (Ok v)) s1 -> truthy s1 v = false -> eval_each body le last s1 o s2 ->
    forall o3 s3, match o with Done (Ok v) => 
        runs denote (b <- rebind_do_locals vars le ;;
            match b with
            | Ok _ => Ret (inl v)
            | Err _ => Ret (inr (Ok v))
            end) s2 o3 s3 | Done (Err m) => o3 = Done (inr (Err m)) /\ s3 = s2 | Panicked w => o3 = Panicked w /\ s3 = s2 end ->
    runs denote (do_turn test body vars le last) s o3 s3).
  { intros last0 s0 v s1 o0 s2 H T C o3 s3 K. unfold do_turn. apply car_iff. apply (then_iff _ _ _ _ _ _ _ H). apply truth_iff. rewrite T.
    apply bind_iff. exists o0, s2. split; [apply eval_seq_iff, C|]. destruct o0 as [[|]|]; [exact K|apply ret_iff, K|exact K]. }
  induction 1 as [last s m s1 H|last s w s1 H|last s v s1 o s' H T C|last s v s1 m s2 H T C|last s v s1 w s2 H T C
                 |last s v s1 x s2 w s3 H T C St|last s v s1 x s2 m s3 H T C St|last s v s1 x s2 nvs s3 s4 o s' H T C St Rb _ IH].
  - apply runs_loop_stop. unfold do_turn. apply car_iff. apply (then_iff _ _ _ _ _ _ _ H). apply runs_ret.
  - apply runs_loop_panic. unfold do_turn. apply car_iff. apply runs_bind_panic, H.
  - pose proof (Done_ _ _ _ _ _ _ H T C) as R. destruct o; [apply runs_loop_stop|apply runs_loop_panic]; exact R.
  - apply runs_loop_stop. apply (Body _ _ _ _ _ _ H T C). auto.
  - apply runs_loop_panic. apply (Body _ _ _ _ _ _ H T C). auto.
  - apply runs_loop_panic. apply (Body _ _ _ _ _ _ H T C). apply runs_bind_panic. apply runs_bind_panic. exact (steps_run _ _ _ _ _ _ St).
  - apply runs_loop_stop. apply (Body _ _ _ _ _ _ H T C). 
    assert (R : runs denote (rebind_do_locals vars le) s2 (Done (Err m)) s3) by (eapply runs_bind; [exact (steps_run _ _ _ _ _ _ St)|apply runs_ret]).
    apply (then_iff _ _ _ _ _ _ _ R). apply runs_ret.
  - eapply runs_loop_step; [|exact IH]. apply (Body _ _ _ _ _ _ H T C). 
    assert (R : runs denote (rebind_do_locals vars le) s2 (Done (Ok tt)) s4) by (eapply runs_bind; [exact (steps_run _ _ _ _ _ _ St)|apply rebind_all_run, Rb]).
    apply (then_iff _ _ _ _ _ _ _ R). apply runs_ret.
Qed.
Lemma do_run vars test body env ns s o s' : bindings s vars ns -> is_pair test = true ->
  (let s0 := entering "do" env s in let le := s_next s in
   initialises env le (loops le test body vars VNil) vars (open_env "do" env (e_frame (env_at s env)) s0)) o s' ->
  applies "do" (vars :: test :: body) env s o s'.
Proof.
  intros (bs & L & F) P H. applies. unfold do_impl. cbn [arg nth]. change (skipn 2 (vars :: test :: body)) with body.
  rewrite (is_list_pairp _ _ _ L). change (pairp test) with (is_pair test). rewrite P. cbn [negb].
  apply (then_iff _ _ _ _ _ _ _ (new_env_below_run _ _ _)). cbv zeta in H.
  change (e_frame (env_at (entering "do" env s) env)) with (e_frame (env_at s env)). change (s_next (entering "do" env s)) with (s_next s).
  set (s1 := open_env "do" env (e_frame (env_at s env)) (entering "do" env s)) in *. set (le := s_next s) in *.
  unfold bind_let_locals. apply bind_ok_assoc.
  assert (C : s_cells s1 = s_cells s) by exact (open_env_cells "do" env (e_frame (env_at s env)) (entering "do" env s)).
  apply (let_check_run false le vars bs ns s1).
  - exact (is_list_cells _ _ _ _ C L).
  - eapply Forall2_impl; [exact F|]. intros x y [Q1 Q2]. split; [exact Q1|]. unfold head_of, cell_at in *. rewrite C. exact Q2.
  - apply initialises_iff. eapply initialises_mono; [|exact H]. intros. apply loops_run. assumption.
Qed.
