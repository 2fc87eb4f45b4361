(** Proofs for C59. *)
From Verif Require Export SpecThread ProofForm.
From Verif Require Import Data.
Local Open Scope string_scope.
Local Open Scope list_scope.
Local Open Scope Z_scope.

Lemma thread_run x v s : runs denote (thread_expr x v) s (Done (fst (threaded x v s))) (snd (threaded x v s)).
Proof.
  unfold thread_expr, threaded. replace (listp x) with (list_like x) by (destruct x as [|[]| | | | | | | | | | | | | | | |]; reflexivity).
  destruct (list_like x).
  - apply car_iff, cdr_iff. apply (then_iff _ _ _ _ _ _ _ (runs_cons TCons _ _ _)). apply runs_cons.
  - apply (then_iff _ _ _ _ _ _ _ (runs_cons TCons _ _ _)). apply runs_cons.
Qed.
Lemma chain_go_iff steps env : forall v s o s', runs denote (chain_go steps v env) s o s' <-> chain_of steps v env s o s'.
Proof.
  induction steps as [|x r IH]; intros v s o s'; cbn [chain_go chain_of]; [apply ok_iff|].
  rewrite (then_iff _ _ _ _ _ _ _ (thread_run x v s)). destruct (threaded x v s) as [c s1]. cbn [fst snd].
  unfold eval. rewrite eval_iff. apply after_iff. intros. apply IH.
Qed.
Lemma tap_go_iff steps env v : forall s o s', runs denote (tap_go steps v env) s o s' <-> tap_of steps v env s o s'.
Proof.
  induction steps as [|x r IH]; intros s o s'; cbn [tap_go tap_of]; [apply ok_iff|].
  rewrite (then_iff _ _ _ _ _ _ _ (thread_run x v s)). destruct (threaded x v s) as [c s1]. cbn [fst snd].
  unfold eval. rewrite eval_iff. apply after_iff. intros. apply IH.
Qed.
Lemma chain_iff e steps env s o s' : applies "->" (e :: steps) env s o s' <->
  after (evals e env (entering "->" env s)) (fun v s1 => chain_of steps v env s1) o s'.
Proof. body_of. unfold chain_impl, eval. cbn [arg nth tl]. rewrite eval_iff. apply after_iff. intros. apply chain_go_iff. Qed.
Lemma tap_iff e steps env s o s' : applies "=>" (e :: steps) env s o s' <->
  after (evals e env (entering "=>" env s)) (fun v s1 => tap_of steps v env s1) o s'.
Proof. body_of. unfold tap_impl, eval. cbn [arg nth tl]. rewrite eval_iff. apply after_iff. intros. apply tap_go_iff. Qed.

(** *** eval *)
Lemma eval1_iff x env s o s' : applies "eval" [x] env s o s' <-> evals x env (entering "eval" env s) o s'.
Proof. body_of. reflexivity. Qed.
Lemma eval2_iff x e env s o s' : applies "eval" [x; VEnv e] env s o s' <-> evals x e (entering "eval" env s) o s'.
Proof. body_of. reflexivity. Qed.
Lemma eval2_not x v env s r s' : (forall e, v <> VEnv e) -> ~ applies "eval" [x; v] env s (Done (Ok r)) s'.
Proof.
  intros N H. eapply applies_iff in H; [|reflexivity]. cbn [p_body func] in H. unfold eval_impl in H.
  assert (E : runs denote (fail_got "eval expects an environment as it's second argument, but recieved " v) (entering "eval" env s) (Done (Ok r)) s').
  { destruct v; try exact H. destruct (N _ eq_refl). }
  unfold fail_got in E. apply bind_iff in E. destruct E as (o1 & s1 & _ & E). destruct o1 as [t|w]; [apply ret_iff in E|]; destruct E as [E _]; discriminate E.
Qed.
Lemma global_eval_iff x env s o s' : applies "global-eval" [x] env s o s' <-> evals x (s_global s) (entering "global-eval" env s) o s'.
Proof. body_of. unfold global_eval_impl. etransitivity; [apply (op_iff OGlobal _ _ _ _ _ _ eq_refl)|]. reflexivity. Qed.
Lemma error_run v t env s : prints v (entering "error" env s) t -> applies "error" [v] env s (Done (Err t)) (entering "error" env s).
Proof. intros P. applies. unfold error_impl. cbn [arg nth]. eapply runs_bind; [exact P|]. apply runs_ret. Qed.

(** *** Making functions and macros *)
Lemma named_lambda_run hd n ps body env k va s : wf_state s -> is_pair hd = true -> head_of s hd = VSym n -> rest_of s hd = ps ->
  parameters s ps k va ->
  let '(b, s1) := new_tail body VNil (entering "named-lambda" env s) in
  let '(f, s2) := fresh_function (Fn n ps va (Z.of_nat k) b env) s1 in
  applies "named-lambda" (hd :: body) env s (Done (Ok (VFun f))) s2.
Proof.
  intros W P H T Q. assert (W0 : wf_state (entering "named-lambda" env s)) by apply wf_entering, W.
  pose proof (new_tail_run body VNil (entering "named-lambda" env s)) as R.
  destruct (new_tail_grows body VNil _ W0) as [G _]. destruct (new_tail body VNil (entering "named-lambda" env s)) as [b s1]. cbn [fst snd] in *.
  pose proof (make_function_run n ps k va b env s1 (parameters_grows _ _ _ _ _ (grows_trans _ _ _ (grows_entering _ _ _) G) Q)) as R2.
  destruct (fresh_function _ s1) as [f s2]. applies. unfold named_lambda_impl. cbn [arg nth]. change (pairp hd) with (is_pair hd). rewrite P. cbn [negb].
  apply car_iff. change (head_of (entering "named-lambda" env s) hd) with (head_of s hd). rewrite H.
  apply cdr_iff. change (rest_of (entering "named-lambda" env s) hd) with (rest_of s hd). rewrite T.
  unfold tail_list. cbn [skipn]. apply (then_iff _ _ _ _ _ _ _ R). apply (then_iff _ _ _ _ _ _ _ R2). apply runs_ret.
Qed.
Lemma make_macro_run name ps n r body env s : parameters s ps n r ->
  let '(f, s1) := fresh_macro (Mac name ps r (Z.of_nat n) body env) s in runs denote (make_macro name ps body env) s (Done (VMacro f)) s1.
Proof.
  intros P. unfold make_macro, required_args, fresh_macro. apply (then_iff _ _ _ _ _ _ _ (params_run _ _ _ _ P 0)). cbn [Z.add]. op1. apply runs_ret.
Qed.
Lemma defmacro_iff hd n ps body more env k va s o s' : is_pair hd = true -> head_of s hd = VSym n -> rest_of s hd = ps ->
  parameters s ps k va ->
  applies "defmacro" (hd :: body :: more) env s o s' <->
  (let '(m, s1) := fresh_macro (Mac n ps va (Z.of_nat k) body env) (entering "defmacro" env s) in
   then_bind env (VSym n) (VMacro m) s1 (gives (VMacro m))) o s'.
Proof.
  intros P H T Q. assert (Q0 : parameters (entering "defmacro" env s) ps k va) by (eapply parameters_grows; [apply grows_entering|exact Q]).
  body_of. unfold defmacro_impl. cbn [arg nth]. change (pairp hd) with (is_pair hd). rewrite P.
  rewrite car_iff, cdr_iff. change (head_of (entering "defmacro" env s) hd) with (head_of s hd). change (rest_of (entering "defmacro" env s) hd) with (rest_of s hd).
  rewrite H, T. pose proof (make_macro_run n ps k va body env _ Q0) as R. destruct (fresh_macro _ _) as [m s1].
  rewrite (then_iff _ _ _ _ _ _ _ R). rewrite then_bind_iff. apply then_bind_ext. intros. apply ok_iff.
Qed.

(** *** Looking at functions and macros *)
Lemma expand_macro_iff ml args es env s o s' : is_list s args es -> symbolp (m_params (mac_at s ml)) = false ->
  runs denote (macro_expand ml args env) s o s' <-> expands ml args (length es) s o s'.
Proof.
  intros L S. unfold macro_expand, expands.
  etransitivity; [apply (op_iff (OMacGet ml) _ _ _ _ _ _ eq_refl)|]. rewrite (then_iff _ _ _ _ _ _ _ (new_env_below_run _ _ _)). cbv zeta.
  set (m := mac_at s ml) in *. set (s1 := open_env (m_name m) (m_env m) (e_frame (env_at s (m_env m))) s).
  assert (L1 : is_list s1 args es) by (eapply is_list_cells; [apply open_env_cells|exact L]).
  etransitivity; [apply (local_bindings_iff _ _ _ _ _ es _ _ _ (call (REval (m_body m) (s_next s) false))); [exact L1|exact S]|].
  destruct (enough _ _ _); [|reflexivity]. split; apply passes_mono; intros s2 o2 s2' H; exact H.
Qed.
Lemma expand_iff_ok e ops env s ml s1 : evals e env (entering "expand" env s) (Done (Ok (VMacro ml))) s1 ->
  symbolp (m_params (mac_at s1 ml)) = false -> wf_state s -> no_nils ops -> forall o s',
  applies "expand" (e :: ops) env s o s' <->
  (let '(args, s2) := new_tail ops VNil s1 in expands ml args (length ops) s2) o s'.
Proof.
  intros E S W N o s'. body_of. unfold expand_impl, eval. cbn [arg nth]. rewrite eval_iff.
  assert (W1 : wf_state s1) by (eapply wf_runs; [apply wf_entering, W|exact E]).
  etransitivity.
  { split; [intros (o1 & s2 & R & H)|intros H; exists (Done (Ok (VMacro ml))), s1; split; [exact E|exact H]].
    destruct (runs_det _ _ _ _ _ _ _ _ R E) as [-> ->]. exact H. }
  cbv beta iota. unfold tail_list. change (skipn 1 (e :: ops)) with ops. rewrite (then_iff _ _ _ _ _ _ _ (new_tail_run _ _ _)).
  pose proof (new_tail_is ops s1 W1 N) as L. pose proof (proj1 (new_tail_grows ops VNil s1 W1)) as G.
  assert (M : mac_at (snd (new_tail ops VNil s1)) ml = mac_at s1 ml).
  { clear. generalize VNil. revert s1. induction ops as [|v r IH]; intros s1 tl; cbn [new_tail]; [reflexivity|].
    specialize (IH s1 tl). destruct (new_tail r tl s1) as [t s2]. cbn [snd] in IH. rewrite <- IH. destruct v; reflexivity. }
  destruct (new_tail ops VNil s1) as [args s2]. cbn [fst snd] in *. apply expand_macro_iff; [exact L|rewrite M; exact S].
Qed.
Lemma expand_not e ops env s v s1 r s' : evals e env (entering "expand" env s) (Done (Ok v)) s1 -> (forall m, v <> VMacro m) ->
  ~ applies "expand" (e :: ops) env s (Done (Ok r)) s'.
Proof.
  intros E N H. eapply applies_iff in H; [|reflexivity]. cbn [p_body special] in H. unfold expand_impl, eval in H. cbn [arg nth] in H.
  apply eval_iff in H. destruct H as (o1 & s2 & R & H). destruct (runs_det _ _ _ _ _ _ _ _ R E) as [-> ->].
  destruct v; try (apply ret_iff in H; destruct H as [H _]; discriminate H). destruct (N _ eq_refl).
Qed.
Lemma definition_run' e env s l s1 : evals e env (entering "definition-of" env s) (Done (Ok (VFun l))) s1 ->
  applies "definition-of" [e] env s (Done (Ok (fst (code_for (fn_code (fun_at s1 l)) (called_name e) s1)))) (snd (code_for (fn_code (fun_at s1 l)) (called_name e) s1)).
Proof.
  intros E. applies. unfold definition_of_impl, eval. cbn [arg nth].
  apply eval_iff. exists (Done (Ok (VFun l))), s1. split; [exact E|]. cbv beta iota. op1.
  unfold code_for. destruct (str_eqb (f_name (fn_code (fun_at s1 l))) "unnamed").
  - replace (if symbolp e then e else VSym "anonymous") with (VSym (called_name e)) by (destruct e; reflexivity).
    do 5 apply (then_iff _ _ _ _ _ _ _ (runs_cons TCons _ _ _)). unfold fresh_cell. cbn [fst snd]. apply runs_ret.
  - do 3 apply (then_iff _ _ _ _ _ _ _ (runs_cons TCons _ _ _)). unfold fresh_cell. cbn [fst snd]. apply runs_ret.
Qed.
Lemma definition_run e env s l s1 : evals e env (entering "definition-of" env s) (Done (Ok (VFun l))) s1 ->
  let '(d, s2) := code_for (fn_code (fun_at s1 l)) (called_name e) s1 in
  applies "definition-of" [e] env s (Done (Ok d)) s2.
Proof. intros E. pose proof (definition_run' e env s l s1 E) as H. destruct (code_for _ _ s1) as [d s2]. exact H. Qed.
Lemma definition_not e env s v s1 r s' : evals e env (entering "definition-of" env s) (Done (Ok v)) s1 -> (forall l, v <> VFun l) ->
  ~ applies "definition-of" [e] env s (Done (Ok r)) s'.
Proof.
  intros E N H. eapply applies_iff in H; [|reflexivity]. cbn [p_body special] in H. unfold definition_of_impl, eval in H. cbn [arg nth] in H.
  apply eval_iff in H. destruct H as (o1 & s2 & R & H). destruct (runs_det _ _ _ _ _ _ _ _ R E) as [-> ->].
  destruct v; try (apply ret_iff in H; destruct H as [H _]; discriminate H). destruct (N _ eq_refl).
Qed.
Lemma time_run e env s v s1 : evals e env (entering "time" env s) (Done (Ok v)) s1 -> exists z s', int64 z /\ grows s1 s' /\
  applies "time" [e] env s (Done (Ok (VInt z))) s'.
Proof.
  intros E. destruct (next_choice s1) as [z s2] eqn:C. exists (wrap64 z), s2. split; [|split].
  - unfold int64, wrap64. pose proof (Z.mod_pos_bound (z + two63) two64 eq_refl). unfold two63, two64 in *. lia.
  - unfold next_choice in C. destruct (s_oracle s1); injection C as <- <-; [apply grows_refl|]. constructor; cbn; try apply kept_refl; try reflexivity. exists []. split; [reflexivity|constructor].
  - applies. unfold time_impl, eval. cbn [arg nth]. apply eval_iff. exists (Done (Ok v)), s1. split; [exact E|]. cbv beta iota.
    apply (op_iff OChoose _ _ z s2); [cbn [step_op]; rewrite C; reflexivity|]. apply runs_ret.
Qed.
Lemma time_err e env s m s1 : evals e env (entering "time" env s) (Done (Err m)) s1 -> applies "time" [e] env s (Done (Err m)) s1.
Proof. intros E. applies. unfold time_impl, eval. cbn [arg nth]. apply eval_iff. exists (Done (Err m)), s1. split; [exact E|]. split; reflexivity. Qed.
