(** Proofs for C60. *)
From Verif Require Export SpecReflect ProofEnv ProofForm ProofFrame ProofData ProofJson.
From Verif Require Import Data.
Local Open Scope string_scope.
Local Open Scope list_scope.
Local Open Scope Z_scope.

Lemma lookup_iff e n (k : option loc -> prog (res val)) (b : option val -> behaviour) s o s' :
  (forall r o s', runs denote (k r) s o s' <-> b (option_map (value_in s) r) o s') ->
  runs denote (bind (find_binding e (VSym n)) k) s o s' <-> with_lookup e n s b o s'.
Proof. intros H. rewrite binding_iff. unfold with_lookup. split; intros (r & V & K); exists r; (split; [exact V|apply H, K]). Qed.
Lemma bound_iff name e n env s o s' : name = "environment-bound?" \/ name = "environment-assignable?" ->
  applies name [VEnv e; VSym n] env s o s' <->
  with_lookup e n (entering name env s) (fun r => gives (VBool (bound r)) (entering name env s)) o s'.
Proof.
  intros [->| ->]; (body_of; unfold environment_bound_impl, with_env2; cbn [arg nth]; apply lookup_iff; intros r o1 s1; destruct r; apply ok_iff).
Qed.
Lemma reference_type_iff e n env s o s' : applies "environment-reference-type" [VEnv e; VSym n] env s o s' <->
  with_lookup e n (entering "environment-reference-type" env s) (fun r => gives (VSym (reference_type r)) (entering "environment-reference-type" env s)) o s'.
Proof.
  body_of. unfold environment_reference_type_impl, with_env2. cbn [arg nth]. apply lookup_iff. intros [b|] o1 s1; [|apply ok_iff].
  rewrite (op_iff (OBindVal b) _ _ _ _ _ _ eq_refl). cbn [option_map]. unfold value_in. cbv beta iota. destruct (b_val (bind_at (entering "environment-reference-type" env s) b)); apply ok_iff.
Qed.
Lemma assigned_iff e n env s o s' : applies "environment-assigned?" [VEnv e; VSym n] env s o s' <->
  with_lookup e n (entering "environment-assigned?" env s) (says_assigned (entering "environment-assigned?" env s)) o s'.
Proof.
  body_of. unfold environment_assigned_impl, with_env2. cbn [arg nth]. apply lookup_iff. intros [b|] o1 s1; [|apply fail_iff].
  rewrite (op_iff (OBindVal b) _ _ _ _ _ _ eq_refl). cbn [option_map]. unfold value_in. cbv beta iota. destruct (b_val (bind_at (entering "environment-assigned?" env s) b)); first [apply ok_iff|apply fail_iff].
Qed.
Lemma env_lookup_iff e n env s o s' : applies "environment-lookup" [VEnv e; VSym n] env s o s' <->
  with_lookup e n (entering "environment-lookup" env s) (says_value (entering "environment-lookup" env s)) o s'.
Proof.
  body_of. unfold environment_lookup_impl, with_env2. cbn [arg nth]. apply lookup_iff. intros [b|] o1 s1; [|apply fail_iff].
  rewrite (op_iff (OBindVal b) _ _ _ _ _ _ eq_refl). cbn [option_map]. unfold value_in. cbv beta iota. destruct (b_val (bind_at (entering "environment-lookup" env s) b)); first [apply ok_iff|apply fail_iff].
Qed.
Lemma lookup_macro_iff e n env s o s' : applies "environment-lookup-macro" [VEnv e; VSym n] env s o s' <->
  with_lookup e n (entering "environment-lookup-macro" env s) (fun r => gives (macro_or_false r) (entering "environment-lookup-macro" env s)) o s'.
Proof.
  body_of. unfold environment_lookup_macro_impl, with_env2. cbn [arg nth]. apply lookup_iff. intros [b|] o1 s1; [|apply ok_iff].
  rewrite (op_iff (OBindVal b) _ _ _ _ _ _ eq_refl). cbn [option_map]. unfold value_in. cbv beta iota. destruct (b_val (bind_at (entering "environment-lookup-macro" env s) b)); apply ok_iff.
Qed.
Lemma assign_iff e n v env s o s' : applies "environment-assign!" [VEnv e; VSym n; v] env s o s' <->
  exists r, visible (entering "environment-assign!" env s) n e r /\
    match r with
    | Some b => gives v (assign b v (entering "environment-assign!" env s)) o s'
    | None => gives VNil (entering "environment-assign!" env s) o s'
    end.
Proof.
  body_of. unfold environment_assign_impl, with_env2. cbn [arg nth]. rewrite binding_iff.
  split; intros (r & V & K); exists r; (split; [exact V|]); destruct r as [b|].
  - apply (op_iff (OBindSet b v) _ _ _ _ _ _ eq_refl) in K. apply ok_iff in K. exact K.
  - apply ok_iff, K.
  - apply (op_iff (OBindSet b v) _ _ _ _ _ _ eq_refl). apply ok_iff. exact K.
  - apply ok_iff, K.
Qed.
Lemma env_define_iff e n v env s o s' : applies "environment-define" [VEnv e; VSym n; v] env s o s' <->
  then_bind e (VSym n) v (entering "environment-define" env s) (gives v) o s'.
Proof.
  body_of. unfold environment_define_impl, with_env2. cbn [arg nth]. rewrite then_bind_iff. apply then_bind_ext. intros. apply ok_iff.
Qed.
Lemma definable_run e n env s : applies "environment-definable?" [VEnv e; VSym n] env s (Done (Ok (VBool true))) (entering "environment-definable?" env s).
Proof. applies. apply runs_ret. Qed.
Lemma env_only2 name vs v w env s r s' : In name ["environment-bound?"; "environment-assignable?"; "environment-reference-type"; "environment-assigned?";
    "environment-lookup"; "environment-lookup-macro"; "environment-assign!"; "environment-definable?"; "environment-define"] ->
  (forall e n, ~ (v = VEnv e /\ w = VSym n)) -> ~ applies name (v :: w :: vs) env s (Done (Ok r)) s'.
Proof.
  intros I N H.
  assert (F : forall n1 n2 k s0, runs denote (with_env2 n1 n2 (v :: w :: vs) k) s0 (Done (Ok r)) s' -> False).
  { intros n1 n2 k s0. unfold with_env2. cbn [arg nth]. intros K. destruct v; try (apply ret_iff in K; destruct K as [K _]; discriminate K).
    destruct w; try (apply ret_iff in K; destruct K as [K _]; discriminate K). exact (N _ _ (conj eq_refl eq_refl)). }
  cbn [In] in I. repeat (destruct I as [<-|I]; [eapply applies_iff in H; [|reflexivity]; cbn [p_body func] in H; apply F in H; exact H|]). destruct I.
Qed.

(** *** Environments and their parents *)
Lemma has_parent_run e env s : applies "environment-has-parent?" [VEnv e] env s
  (Done (Ok (VBool (match e_parent (env_at s e) with Some _ => true | None => false end)))) (entering "environment-has-parent?" env s).
Proof. applies. unfold environment_has_parent_impl, with_env1. cbn [arg nth]. op1. apply runs_ret. Qed.
Lemma parent_run e env s : applies "environment-parent" [VEnv e] env s
  (Done (Ok (match e_parent (env_at s e) with Some p => VEnv p | None => VNil end))) (entering "environment-parent" env s).
Proof.
  applies. unfold environment_parent_impl, with_env1. cbn [arg nth]. op1. change (env_at (entering "environment-parent" env s) e) with (env_at s e).
  destruct (e_parent (env_at s e)); apply runs_ret.
Qed.
Lemma global_run env s : applies "system-global-environment" [] env s (Done (Ok (VEnv (s_global s)))) (entering "system-global-environment" env s).
Proof. applies. unfold system_global_impl. op1. apply runs_ret. Qed.
Lemma the_env_run env s : env = s_global s \/ e_parent (env_at s env) = Some (s_global s) ->
  applies "the-environment" [] env s (Done (Ok (VEnv env))) (entering "the-environment" env s).
Proof.
  intros H. applies. unfold the_environment_impl. op1. op1. change (env_at (entering "the-environment" env s) env) with (env_at s env).
  change (s_global (entering "the-environment" env s)) with (s_global s).
  assert (E : Pos.eqb env (s_global s) || (match e_parent (env_at s env) with Some p => Pos.eqb p (s_global s) | None => false end) = true).
  { destruct H as [->|H]; [rewrite Pos.eqb_refl; reflexivity|]. rewrite H, Pos.eqb_refl. apply orb_true_r. }
  rewrite E. apply runs_ret.
Qed.
Lemma the_env_not env s r s' : applies "the-environment" [] env s (Done (Ok r)) s' -> env = s_global s \/ e_parent (env_at s env) = Some (s_global s).
Proof.
  intros H. eapply applies_iff in H; [|reflexivity]. cbn [p_body func] in H. unfold the_environment_impl in H. op_in H. op_in H.
  change (env_at (entering "the-environment" env s) env) with (env_at s env) in H. change (s_global (entering "the-environment" env s)) with (s_global s) in H.
  destruct (Pos.eqb env (s_global s)) eqn:E; [left; apply Pos.eqb_eq, E|]. cbn [orb] in H.
  destruct (e_parent (env_at s env)) as [p|]; [|apply ret_iff in H; destruct H as [H _]; discriminate H].
  destruct (Pos.eqb p (s_global s)) eqn:E2; [right; f_equal; apply Pos.eqb_eq, E2|]. apply ret_iff in H; destruct H as [H _]; discriminate H.
Qed.
Lemma procedure_run l env s : applies "procedure-environment" [VFun l] env s (Done (Ok (VEnv (f_env (fn_code (fun_at s l)))))) (entering "procedure-environment" env s).
Proof. applies. unfold procedure_environment_impl. cbn [arg nth]. op1. apply runs_ret. Qed.
Lemma restrict_run env s : let '(v, s1) := fresh_string "OK" (restricted_now env (entering "restrict-environment" env s)) in
  applies "restrict-environment" [] env s (Done (Ok v)) s1.
Proof. unfold fresh_string. applies. unfold restrict_environment_impl. op1. apply (then_iff _ _ _ _ _ _ _ (runs_new_str _ _)). apply runs_ret. Qed.
Lemma find_top_run v t env s : v = VSym t \/ is_str s v t -> applies "find-top-level-environment" [v] env s
  (Done (Ok (match alookup t (s_tops s) with Some e => VEnv e | None => VNil end))) (entering "find-top-level-environment" env s).
Proof.
  intros H. applies. unfold find_top_level_impl. cbn [arg nth].
  assert (E : stringp v || symbolp v = true /\ name_of (entering "find-top-level-environment" env s) v = t).
  { destruct H as [->|(l & -> & H)]; [split; reflexivity|]. split; [reflexivity|]. cbn [name_of]. unfold str_at. cbn [s_strs]. 
    change (s_strs (entering "find-top-level-environment" env s)) with (s_strs s). rewrite H. reflexivity. }
  destruct E as [-> E]. apply name_iff. rewrite E. op1. change (s_tops (entering "find-top-level-environment" env s)) with (s_tops s).
  destruct (alookup t (s_tops s)); apply runs_ret.
Qed.

(** *** The bindings of an environment *)
Lemma own_same e name env s : own_bindings (entering name env s) e = own_bindings s e.
Proof. reflexivity. Qed.
Lemma syms_run (mo : bool) bs : forall s, Forall (fun p => b_sym (bind_at s (snd p)) = VSym (fst p)) bs ->
  runs denote (binding_syms mo bs) s (Done (map VSym (map fst (List.filter (fun p => negb mo || is_macro (value_in s (snd p))) bs)))) s.
Proof.
  induction bs as [|[n b] bs IH]; intros s F; cbn [binding_syms List.filter]; [apply runs_ret|]. inversion F as [|? ? F1 F2]; subst. cbn [fst snd] in *.
  op1. op1. eapply runs_bind; [apply IH, F2|]. rewrite F1. change (macrop (b_val (bind_at s b))) with (is_macro (value_in s b)).
  destruct mo, (is_macro (value_in s b)); apply runs_ret.
Qed.
Lemma Forall_perm {A} (P : A -> Prop) l l' : Permutation l l' -> Forall P l -> Forall P l'.
Proof. intros H F. apply List.Forall_forall. intros x I. exact (proj1 (List.Forall_forall _ _) F x (Permutation_in _ (Permutation_sym H) I)). Qed.
Lemma no_nil_syms ns : no_nils (map VSym ns).
Proof. apply List.Forall_forall. intros x I. apply in_map_iff in I. destruct I as (n & <- & _). discriminate. Qed.
Lemma perm_filter {A} (f : A -> bool) l l' : Permutation l l' -> Permutation (List.filter f l) (List.filter f l').
Proof.
  induction 1 as [|x l l' H IH|x y l|l1 l2 l3 H1 IH1 H2 IH2]; cbn [List.filter]; [constructor|destruct (f x); [constructor|]; exact IH|destruct (f x), (f y); try reflexivity; constructor|eapply perm_trans; eassumption].
Qed.
Lemma oc_bind s s' b : only_choices s s' -> bind_at s' b = bind_at s b.
Proof. intros ->. reflexivity. Qed.
Lemma names_run (mo : bool) name impl : table name = Some (func name "1" impl) ->
  (forall e env, impl [VEnv e] env = (bs <- do_op (OEnvNames e) ;; bs <- range_map bs ;; l <- binding_syms mo bs ;; r <- array_to_list l ;; ok r)) ->
  forall e env s, wf_state s -> made_with_symbols s e -> exists v ns s', applies name [VEnv e] env s (Done (Ok v)) s' /\ grows s s' /\
  is_list s' v (map VSym ns) /\ Permutation ns (map fst (List.filter (fun p => negb mo || is_macro (value_in s (snd p))) (own_bindings s e))).
Proof.
  intros T I e env s W M. set (s0 := entering name env s). destruct (range_oc (own_bindings s e) s0) as (bs & s1 & R & O & P).
  assert (W1 : wf_state s1) by (eapply wf_runs; [apply wf_entering, W|exact R]).
  pose proof (syms_run mo bs s1) as R2.
  assert (F : Forall (fun p => b_sym (bind_at s1 (snd p)) = VSym (fst p)) bs).
  { eapply Forall_perm; [exact P|]. eapply List.Forall_impl; [|exact M]. intros p E. rewrite (oc_bind _ _ _ O). exact E. }
  specialize (R2 F). assert (E : forall p : string * loc, value_in s1 (snd p) = value_in s (snd p)) by (intros p; unfold value_in; rewrite (oc_bind _ _ _ O); reflexivity).
  rewrite (List.filter_ext _ (fun p => negb mo || is_macro (value_in s (snd p)))) in R2 by (intros p; rewrite E; reflexivity).
  destruct (runs_array_to_list_exact _ s1 W1 (no_nil_syms (map fst (List.filter (fun p => negb mo || is_macro (value_in s (snd p))) bs)))) as (v & s2 & R3 & G & L).
  exists v, (map fst (List.filter (fun p => negb mo || is_macro (value_in s (snd p))) bs)), s2. split; [|split; [|split; [exact L|]]].
  - apply (applies_iff _ _ _ _ _ _ _ T). cbn [p_body func]. rewrite I. fold s0.
    refine (proj2 (op_iff (OEnvNames e) _ s0 _ _ _ _ eq_refl) _). eapply runs_bind; [exact R|]. eapply runs_bind; [exact R2|]. eapply runs_bind; [exact R3|apply runs_ret].
  - eapply grows_trans; [apply grows_entering|]. eapply grows_trans; [apply oc_grows, O|exact G].
  - apply Permutation_map, perm_filter, Permutation_sym, P.
Qed.
Lemma filter_all {A} (l : list A) : List.filter (fun _ => true) l = l.
Proof. induction l as [|x l IH]; [reflexivity|]. cbn [List.filter]. rewrite IH. reflexivity. Qed.
Lemma bound_names_run e env s : wf_state s -> made_with_symbols s e -> exists v ns s', applies "environment-bound-names" [VEnv e] env s (Done (Ok v)) s' /\ grows s s' /\
  is_list s' v (map VSym ns) /\ Permutation ns (map fst (own_bindings s e)).
Proof.
  intros W M. destruct (names_run false "environment-bound-names" environment_bound_names_impl eq_refl (fun _ _ => eq_refl) e env s W M) as (v & ns & s' & A & G & L & P).
  exists v, ns, s'. cbn [negb orb] in P. rewrite filter_all in P. auto.
Qed.
Lemma macro_names_run e env s : wf_state s -> made_with_symbols s e -> exists v ns s', applies "environment-macro-names" [VEnv e] env s (Done (Ok v)) s' /\ grows s s' /\
  is_list s' v (map VSym ns) /\ Permutation ns (map fst (List.filter (fun p => is_macro (value_in s (snd p))) (own_bindings s e))).
Proof. exact (names_run true "environment-macro-names" environment_macro_names_impl eq_refl (fun _ _ => eq_refl) e env s). Qed.
Lemma nothing_nil s v : nilb s v = nothing s v.
Proof. destruct v; try reflexivity. cbn [nilb nothing]. destruct (cell_at s l) as [a d]. destruct a, d; reflexivity. Qed.
Lemma nothing_grows s s' v : grows s s' -> (forall t (l : loc), v = VCell t l -> s_cells s !! l <> None) -> nothing s' v = nothing s v.
Proof.
  intros G C. destruct v; try reflexivity. cbn [nothing]. specialize (C _ _ eq_refl). unfold cell_at.
  destruct (s_cells s !! l) as [c|] eqn:E; [|congruence]. rewrite (g_cells _ _ G _ _ E). reflexivity.
Qed.
Lemma bind_kept s0 s b n : grows s0 s -> b_sym (bind_at s0 b) = VSym n -> bind_at s b = bind_at s0 b.
Proof.
  intros G. unfold bind_at. destruct (s_binds s0 !! b) as [x|] eqn:E; [|discriminate]. intros _. rewrite (g_binds _ _ G _ _ E). reflexivity.
Qed.
Lemma lists_binding_grows s0 s s' v p : grows s s' -> lists_binding s0 s v p -> lists_binding s0 s' v p.
Proof. intros G. apply is_list_grows, G. Qed.
Lemma lists_run s0 : forall bs, Forall (fun p => b_sym (bind_at s0 (snd p)) = VSym (fst p)) bs ->
  Forall (fun p => forall t (l : loc), value_in s0 (snd p) = VCell t l -> s_cells s0 !! l <> None) bs ->
  forall s, wf_state s -> grows s0 s -> exists xs s', runs denote (binding_lists bs) s (Done xs) s' /\ grows s s' /\ wf_state s' /\ Forall2 (lists_binding s0 s') xs bs /\ no_nils xs.
Proof.
  induction bs as [|[n b] bs IH]; intros F C s W G; cbn [binding_lists].
  { exists [], s. split; [apply runs_ret|]. split; [apply grows_refl|]. split; [exact W|]. split; constructor. }
  inversion F as [|? ? F1 F2]; subst. inversion C as [|? ? C1 C2]; subst. cbn [fst snd] in *.
  assert (N : nilb s (value_in s0 b) = nothing s0 (value_in s0 b)) by (rewrite nothing_nil; apply nothing_grows; assumption).
  set (items := if nothing s0 (value_in s0 b) then [VSym n] else [VSym n; value_in s0 b]).
  assert (NN : no_nils items).
  { unfold items. destruct (value_in s0 b) eqn:V; cbn [nothing]; repeat constructor; try discriminate. destruct (cell_at s0 l) as [[] []]; repeat constructor; discriminate. }
  destruct (runs_array_to_list items s W) as (v & ys & s1 & R & G1 & E1 & L & NV & _). rewrite (elems_no_nil _ _ _ E1 NN) in L.
  assert (W1 : wf_state s1) by exact (wf_runs _ _ _ _ _ W R).
  destruct (IH F2 C2 s1 W1 (grows_trans _ _ _ G G1)) as (xs & s2 & R2 & G2 & W2 & A & NX).
  exists (v :: xs), s2. split; [|split; [exact (grows_trans _ _ _ G1 G2)|split; [exact W2|split; [constructor; [|exact A]|constructor; assumption]]]].
  - op1. op1. rewrite (bind_kept _ _ _ _ G F1), F1. fold (value_in s0 b). apply (then_iff _ _ _ _ _ _ _ (runs_nilp _ _)). rewrite N. fold items.
    eapply runs_bind; [exact R|]. eapply runs_bind; [exact R2|apply runs_ret].
  - unfold lists_binding. cbn [fst snd]. eapply is_list_grows; [exact G2|]. unfold items in L. destruct (nothing s0 (value_in s0 b)); exact L.
Qed.
Lemma bindings_run e env s : wf_state s -> made_with_symbols s e -> values_exist s e -> exists v xs ps s',
  applies "environment-bindings" [VEnv e] env s (Done (Ok v)) s' /\ grows s s' /\
  is_list s' v xs /\ Forall2 (lists_binding s s') xs ps /\ Permutation ps (own_bindings s e).
Proof.
  intros W M V. set (s0 := entering "environment-bindings" env s). destruct (range_oc (own_bindings s e) s0) as (bs & s1 & R & O & P).
  assert (W1 : wf_state s1) by (eapply wf_runs; [apply wf_entering, W|exact R]).
  assert (G1 : grows s s1) by (eapply grows_trans; [apply grows_entering|apply oc_grows, O]).
  destruct (lists_run s bs (Forall_perm _ _ _ P M) (Forall_perm _ _ _ P V) s1 W1 G1) as (xs & s2 & R2 & G2 & W2 & A & N).
  destruct (runs_array_to_list_exact xs s2 W2 N) as (v & s3 & R3 & G3 & L).
  exists v, xs, bs, s3. split; [|split; [|split; [exact L|split; [|apply Permutation_sym, P]]]].
  - applies. unfold environment_bindings_impl, with_env1. cbn [arg nth]. fold s0.
    refine (proj2 (op_iff (OEnvNames e) _ s0 _ _ _ _ eq_refl) _). eapply runs_bind; [exact R|]. eapply runs_bind; [exact R2|]. eapply runs_bind; [exact R3|apply runs_ret].
  - eapply grows_trans; [exact G1|]. eapply grows_trans; eassumption.
  - eapply Forall2_impl; [exact A|]. intros x p. apply lists_binding_grows, G3.
Qed.

(** *** Top-level environments *)
Lemma bind_each_total le l v : forall s, exists o s', bind_each le l s (gives v) o s'.
Proof.
  induction l as [|[n x] l IH]; intros s; cbn [bind_each]; [unfold gives; eauto|].
  unfold then_bind. destruct (bind_here le (VSym n) x s) as [s1|]; [apply IH|]. unfold fails. eauto.
Qed.
Lemma bind_names_run le wv v : forall ns vs names values s o s', is_list s names (map VSym ns) ->
  (if wv : bool then is_list s values vs /\ length vs = length ns else values = VNil /\ vs = map (fun _ => VNil) ns) ->
  bind_each le (combine ns vs) s (gives v) o s' -> runs denote (bind_ok (bind_names le names values wv) (fun _ => ok v)) s o s'.
Proof.
  induction ns as [|n ns IH]; intros vs names values s o s' L V H.
  - cbn [combine map bind_each] in *. unfold bind_ok. eapply runs_bind; [apply for_cells_end; [apply is_list_nil_inv, L|apply runs_ret]|]. apply ok_iff, H.
  - cbn [map] in L. destruct (is_list_cons_inv _ _ _ _ L) as (E1 & E2 & E3 & _).
    assert (X : exists x xs, vs = x :: xs /\ x = (if wv then head_of s values else VNil) /\
       (if wv then is_list s (rest_of s values) xs /\ length xs = length ns else rest_of s values = VNil /\ xs = map (fun _ => VNil) ns)).
    { destruct wv.
      - destruct V as [V1 V2]. destruct vs as [|x xs]; [discriminate|]. destruct (is_list_cons_inv _ _ _ _ V1) as (_ & A & B & _).
        exists x, xs. split; [reflexivity|]. split; [symmetry; exact A|]. split; [exact B|]. injection V2 as ->. reflexivity.
      - destruct V as [-> ->]. exists VNil, (map (fun _ => VNil) ns). repeat split. }
    destruct X as (x & xs & -> & EX & V'). cbn [combine bind_each] in H. unfold then_bind in H.
    assert (B : runs denote ((fun vc c => s <- car c ;; if negb (symbolp s) then Ret (inr (@Err unit mtl_name_err)) else
                 v <- (if wv then car vc else Ret VNil) ;; r <- bind_locally le s v ;;
                 match r with Err m => Ret (inr (Err m)) | Ok _ => vc' <- cdr vc ;; Ret (inl vc') end) values names) s
       (Done (match bind_here le (VSym n) x s with Some s1 => inl (rest_of s1 values) | None => inr (Err (is_protected n)) end))
       (match bind_here le (VSym n) x s with Some s1 => s1 | None => s end)).
    { cbv beta. apply car_iff. change (head_of s names) with (car_of s names). rewrite E2. cbn [symbolp negb].
      assert (RV : runs denote (if wv then car values else Ret VNil) s (Done x) s) by (rewrite EX; destruct wv; [apply runs_car|apply runs_ret]).
      apply (then_iff _ _ _ _ _ _ _ RV). apply (then_iff _ _ _ _ _ _ _ (bind_sym_run _ _ _ _)).
      destruct (bind_here le (VSym n) x s) as [s1|]; [apply (then_iff _ _ _ _ _ _ _ (runs_cdr _ _))|]; apply runs_ret. }
    destruct (bind_here le (VSym n) x s) as [s1|] eqn:BH.
    + pose proof (bind_here_cells _ _ _ _ _ BH) as C.
      assert (K : runs denote (bind_ok (bind_names le (rest_of s1 names) (rest_of s1 values) wv) (fun _ => ok v)) s1 o s').
      { apply (IH xs); [| |exact H].
        - eapply is_list_cells; [exact C|]. replace (rest_of s1 names) with (cdr_of s names); [exact E3|]. unfold cdr_of, rest_of, cell_at. rewrite C. reflexivity.
        - assert (Q : rest_of s1 values = rest_of s values) by (unfold rest_of, cell_at; rewrite C; reflexivity). rewrite Q. destruct wv; [|exact V'].
          destruct V' as [V1 V2]. split; [eapply is_list_cells; eassumption|exact V2]. }
      unfold bind_ok in K |- *. apply bind_iff in K. destruct K as (o1 & s2 & R & K). apply bind_iff. exists o1, s2. split; [|exact K].
      unfold bind_names in *. eapply for_cells_next; [exact E1|exact B|exact R].
    + unfold bind_ok. eapply runs_bind; [unfold bind_names; apply for_cells_stop; [exact E1|exact B]|]. cbv beta iota. apply fail_iff. exact H.
Qed.
Lemma iff_of_total (b : behaviour) name args env s : (exists o s', b o s') -> (forall o s', b o s' -> applies name args env s o s') ->
  forall o s', applies name args env s o s' <-> b o s'.
Proof.
  intros (o1 & s1 & T) F o s'. split; [|apply F]. intros A. destruct (applies_det _ _ _ _ _ _ _ _ (F _ _ T) A) as [-> ->]. exact T.
Qed.
Lemma is_list_listp s v xs : is_list s v xs -> listp v = true.
Proof. destruct 1; reflexivity. Qed.
Lemma top_run v t names ns rest vs env s : is_str s v t ->
  is_list s names (map VSym ns) ->
  (rest = [] /\ vs = map (fun _ => VNil) ns \/ exists values, rest = [values] /\ is_list s values vs /\ length vs = length ns) -> forall o s',
  let s0 := entering "make-top-level-environment" env s in
  applies "make-top-level-environment" (v :: names :: rest) env s o s' <->
  bind_each (s_next s0) (combine ns vs) (open_top t s0) (gives (VEnv (s_next s0))) o s'.
Proof.
  intros (l & -> & E) L V o s' s0. apply iff_of_total; [apply bind_each_total|]. clear o s'. intros o s' H.
  applies. unfold make_top_level_impl. cbn [arg nth stringp tl]. fold s0.
  assert (S : str_at s0 l = t) by (unfold str_at; change (s_strs s0) with (s_strs s); rewrite E; reflexivity).
  refine (proj2 (op_iff (OStrGet l) _ s0 _ _ _ _ eq_refl) _). rewrite S. refine (proj2 (op_iff OGlobal _ s0 _ _ _ _ eq_refl) _).
  apply (then_iff _ _ _ _ _ _ _ (new_env_below_run _ _ _)). fold (open_top t s0).
  assert (C : s_cells (open_top t s0) = s_cells s) by (unfold open_top; rewrite open_env_cells; reflexivity).
  pose proof (is_list_cells _ (open_top t s0) _ _ C L) as L1. rewrite (is_list_listp _ _ _ L).
  destruct V as [[-> ->]|(values & -> & V & N)]; cbn [negb].
  - apply bind_names_run with (ns := ns) (vs := map (fun _ => VNil) ns); [exact L1|auto|exact H].
  - rewrite (is_list_listp _ _ _ V). cbn [negb]. pose proof (is_list_cells _ (open_top t s0) _ _ C V) as V1.
    apply (then_iff _ _ _ _ _ _ _ (runs_length _ _ _ L1)). apply (then_iff _ _ _ _ _ _ _ (runs_length _ _ _ V1)).
    rewrite map_length, N, Z.eqb_refl. cbn [negb]. apply bind_names_run with (ns := ns) (vs := vs); [exact L1|auto|exact H].
Qed.
(** The conditions of C60, decided. *)
Definition made_with_symbolsb (s : state) (e : loc) : bool :=
  forallb (fun p => match b_sym (bind_at s (snd p)) with VSym n => str_eqb n (fst p) | _ => false end) (own_bindings s e).
Lemma made_with_symbolsb_spec s e : made_with_symbolsb s e = true -> made_with_symbols s e.
Proof.
  unfold made_with_symbolsb, made_with_symbols. rewrite forallb_forall, List.Forall_forall. intros H p I. specialize (H p I).
  destruct (b_sym (bind_at s (snd p))); try discriminate H. apply str_eqb_eq in H. congruence.
Qed.
Definition values_existb (s : state) (e : loc) : bool :=
  forallb (fun p => match value_in s (snd p) with VCell _ l => match s_cells s !! l with Some _ => true | None => false end | _ => true end) (own_bindings s e).
Lemma values_existb_spec s e : values_existb s e = true -> values_exist s e.
Proof.
  unfold values_existb, values_exist. rewrite forallb_forall, List.Forall_forall. intros H p I t l E. specialize (H p I). rewrite E in H.
  destruct (s_cells s !! l); [discriminate|discriminate H].
Qed.
