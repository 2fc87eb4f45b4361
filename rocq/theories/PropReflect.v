(** C60: environments as values. *)
From Verif Require Import ProofReflect ProofList.
From stdpp Require Import list.
From Verif Require Import Data SpecReflect.
Local Open Scope string_scope.
Local Open Scope list_scope.
Local Open Scope Z_scope.

(** * C60 *)
(** Questions about a name are answered for the innermost binding visible from the environment; nothing changes. *)
Theorem C60_bound : forall name e n env s o s', name = "environment-bound?" \/ name = "environment-assignable?" ->
  applies name [VEnv e; VSym n] env s o s' <->
  with_lookup e n (entering name env s) (fun r => gives (VBool (bound r)) (entering name env s)) o s'.
Proof. exact bound_iff. Qed.
Theorem C60_reference_type : forall e n env s o s', applies "environment-reference-type" [VEnv e; VSym n] env s o s' <->
  with_lookup e n (entering "environment-reference-type" env s) (fun r => gives (VSym (reference_type r)) (entering "environment-reference-type" env s)) o s'.
Proof. exact reference_type_iff. Qed.
Theorem C60_assigned : forall e n env s o s', applies "environment-assigned?" [VEnv e; VSym n] env s o s' <->
  with_lookup e n (entering "environment-assigned?" env s) (says_assigned (entering "environment-assigned?" env s)) o s'.
Proof. exact assigned_iff. Qed.
Theorem C60_lookup : forall e n env s o s', applies "environment-lookup" [VEnv e; VSym n] env s o s' <->
  with_lookup e n (entering "environment-lookup" env s) (says_value (entering "environment-lookup" env s)) o s'.
Proof. exact env_lookup_iff. Qed.
Theorem C60_lookup_macro : forall e n env s o s', applies "environment-lookup-macro" [VEnv e; VSym n] env s o s' <->
  with_lookup e n (entering "environment-lookup-macro" env s) (fun r => gives (macro_or_false r) (entering "environment-lookup-macro" env s)) o s'.
Proof. exact lookup_macro_iff. Qed.
(** environment-assign! changes the innermost visible binding (protected or not, see C01) and does nothing if there is none;
    environment-define binds in the environment itself. *)
Theorem C60_assign : forall e n v env s o s', applies "environment-assign!" [VEnv e; VSym n; v] env s o s' <->
  exists r, visible (entering "environment-assign!" env s) n e r /\
    match r with
    | Some b => gives v (assign b v (entering "environment-assign!" env s)) o s'
    | None => gives VNil (entering "environment-assign!" env s) o s'
    end.
Proof. exact assign_iff. Qed.
Theorem C60_define : forall e n v env s o s', applies "environment-define" [VEnv e; VSym n; v] env s o s' <->
  then_bind e (VSym n) v (entering "environment-define" env s) (gives v) o s'.
Proof. exact env_define_iff. Qed.
Theorem C60_definable : forall e n env s, applies "environment-definable?" [VEnv e; VSym n] env s (Done (Ok (VBool true))) (entering "environment-definable?" env s).
Proof. exact definable_run. Qed.
Theorem C60_only_environments_and_symbols : forall name vs v w env s r s',
  In name ["environment-bound?"; "environment-assignable?"; "environment-reference-type"; "environment-assigned?";
    "environment-lookup"; "environment-lookup-macro"; "environment-assign!"; "environment-definable?"; "environment-define"] ->
  (forall e n, ~ (v = VEnv e /\ w = VSym n)) -> ~ applies name (v :: w :: vs) env s (Done (Ok r)) s'.
Proof. exact env_only2. Qed.
(** Parents, the global environment, the current one (only at top level), that of a function. *)
Theorem C60_has_parent : forall e env s, applies "environment-has-parent?" [VEnv e] env s
  (Done (Ok (VBool (match e_parent (env_at s e) with Some _ => true | None => false end)))) (entering "environment-has-parent?" env s).
Proof. exact has_parent_run. Qed.
Theorem C60_parent : forall e env s, applies "environment-parent" [VEnv e] env s
  (Done (Ok (match e_parent (env_at s e) with Some p => VEnv p | None => VNil end))) (entering "environment-parent" env s).
Proof. exact parent_run. Qed.
Theorem C60_global : forall env s, applies "system-global-environment" [] env s (Done (Ok (VEnv (s_global s)))) (entering "system-global-environment" env s).
Proof. exact global_run. Qed.
Theorem C60_the_environment : forall env s, env = s_global s \/ e_parent (env_at s env) = Some (s_global s) ->
  applies "the-environment" [] env s (Done (Ok (VEnv env))) (entering "the-environment" env s).
Proof. exact the_env_run. Qed.
Theorem C60_the_environment_only_at_top : forall env s r s', applies "the-environment" [] env s (Done (Ok r)) s' ->
  env = s_global s \/ e_parent (env_at s env) = Some (s_global s).
Proof. exact the_env_not. Qed.
Theorem C60_procedure_environment : forall l env s, applies "procedure-environment" [VFun l] env s
  (Done (Ok (VEnv (f_env (fn_code (fun_at s l)))))) (entering "procedure-environment" env s).
Proof. exact procedure_run. Qed.
Theorem C60_restrict : forall env s, let '(v, s1) := fresh_string "OK" (restricted_now env (entering "restrict-environment" env s)) in
  applies "restrict-environment" [] env s (Done (Ok v)) s1.
Proof. exact restrict_run. Qed.
(** The bindings of an environment, in any order. *)
Theorem C60_bound_names : forall e env s, wf_state s -> made_with_symbols s e -> exists v ns s',
  applies "environment-bound-names" [VEnv e] env s (Done (Ok v)) s' /\ grows s s' /\
  is_list s' v (map VSym ns) /\ Permutation ns (map fst (own_bindings s e)).
Proof. exact bound_names_run. Qed.
Theorem C60_macro_names : forall e env s, wf_state s -> made_with_symbols s e -> exists v ns s',
  applies "environment-macro-names" [VEnv e] env s (Done (Ok v)) s' /\ grows s s' /\
  is_list s' v (map VSym ns) /\ Permutation ns (map fst (List.filter (fun p => is_macro (value_in s (snd p))) (own_bindings s e))).
Proof. exact macro_names_run. Qed.
Theorem C60_bindings : forall e env s, wf_state s -> made_with_symbols s e -> values_exist s e -> exists v xs ps s',
  applies "environment-bindings" [VEnv e] env s (Done (Ok v)) s' /\ grows s s' /\
  is_list s' v xs /\ Forall2 (lists_binding s s') xs ps /\ Permutation ps (own_bindings s e).
Proof. exact bindings_run. Qed.
(** A named environment below the global one, with names bound to values (or to nothing), and finding it again. *)
Theorem C60_make_top_level : forall v t names ns rest vs env s, is_str s v t ->
  is_list s names (map VSym ns) ->
  (rest = [] /\ vs = map (fun _ => VNil) ns \/ exists values, rest = [values] /\ is_list s values vs /\ length vs = length ns) -> forall o s',
  let s0 := entering "make-top-level-environment" env s in
  applies "make-top-level-environment" (v :: names :: rest) env s o s' <->
  bind_each (s_next s0) (combine ns vs) (open_top t s0) (gives (VEnv (s_next s0))) o s'.
Proof. exact top_run. Qed.
Theorem C60_find_top_level : forall v t env s, v = VSym t \/ is_str s v t -> applies "find-top-level-environment" [v] env s
  (Done (Ok (match alookup t (s_tops s) with Some e => VEnv e | None => VNil end))) (entering "find-top-level-environment" env s).
Proof. exact find_top_run. Qed.
Print Assumptions C60_bound. Print Assumptions C60_reference_type. Print Assumptions C60_assigned. Print Assumptions C60_lookup.
Print Assumptions C60_lookup_macro. Print Assumptions C60_assign. Print Assumptions C60_define. Print Assumptions C60_definable.
Print Assumptions C60_only_environments_and_symbols. Print Assumptions C60_has_parent. Print Assumptions C60_parent. Print Assumptions C60_global.
Print Assumptions C60_the_environment. Print Assumptions C60_the_environment_only_at_top. Print Assumptions C60_procedure_environment. Print Assumptions C60_restrict.
Print Assumptions C60_bound_names. Print Assumptions C60_macro_names. Print Assumptions C60_bindings. Print Assumptions C60_make_top_level.
Print Assumptions C60_find_top_level.
Example C60_cases :
  show 100 "(define en (make-top-level-environment ""mine"" '(a b) '(1 2))) (environment-define en 'c 3) (environment-assign! en 'a 10) (eval '(defmacro (m) 1) en)
    (list (eval '(list a b c) en) (environment-bound? en 'zzz) (environment-reference-type en 'm) (environment-reference-type en 'car) (environment-has-parent? en)
      (eqv? en (find-top-level-environment ""mine"")) (environment-macro-names en) (environment-lookup en 'b) (environment-assigned? (make-top-level-environment ""n"" '(q)) 'q)
      (on-error (environment-lookup en 'm) (lambda (x) 'macro)) (environment-bindings (make-top-level-environment ""p"" '(q) '(5))))" start
    = Some (Done (Ok "((10 2 3) #f macro normal #t #t (m) 2 #f macro ((q 5)))")) /\
  show 100 "(define en (make-top-level-environment ""n"" '(q))) (list (environment-bindings en) (environment-bound-names en) (environment-parent (environment-parent en))
      (on-error (let ((x 1)) (let ((y 2)) (the-environment))) (lambda (e) 'refused)))" start
    = Some (Done (Ok "(((q)) (q) () refused)")) /\
  (wf_state start /\ made_with_symbols start (s_global start) /\ values_exist start (s_global start)).
Proof.
  split; [vm_compute; reflexivity|]. split; [vm_compute; reflexivity|]. split; [exact wf_start|].
  split; [apply made_with_symbolsb_spec|apply values_existb_spec]; vm_compute; reflexivity.
Qed.
