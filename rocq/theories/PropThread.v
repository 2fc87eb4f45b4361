(** C59: threading, evaluation and code as data. *)
From Verif Require Import ProofThread ProofList.
Local Open Scope string_scope.
Local Open Scope list_scope.
Local Open Scope Z_scope.

(** * C59 *)
(** (-> e step ...) hands the value of e through the steps; (=> e step ...) hands the value of e to every step and
    gives it back.  A step that fails stops everything. *)
Theorem C59_chain : forall e steps env s o s', applies "->" (e :: steps) env s o s' <->
  after (evals e env (entering "->" env s)) (fun v s1 => chain_of steps v env s1) o s'.
Proof. exact chain_iff. Qed.
Theorem C59_tap : forall e steps env s o s', applies "=>" (e :: steps) env s o s' <->
  after (evals e env (entering "=>" env s)) (fun v s1 => tap_of steps v env s1) o s'.
Proof. exact tap_iff. Qed.
(** eval in the current, a given and the global environment. *)
Theorem C59_eval : forall x env s o s', applies "eval" [x] env s o s' <-> evals x env (entering "eval" env s) o s'.
Proof. exact eval1_iff. Qed.
Theorem C59_eval_in : forall x e env s o s', applies "eval" [x; VEnv e] env s o s' <-> evals x e (entering "eval" env s) o s'.
Proof. exact eval2_iff. Qed.
Theorem C59_eval_only_in_environments : forall x v env s r s', (forall e, v <> VEnv e) -> ~ applies "eval" [x; v] env s (Done (Ok r)) s'.
Proof. exact eval2_not. Qed.
Theorem C59_global_eval : forall x env s o s', applies "global-eval" [x] env s o s' <-> evals x (s_global s) (entering "global-eval" env s) o s'.
Proof. exact global_eval_iff. Qed.
(** error fails with the printed form of its argument. *)
Theorem C59_error : forall v t env s, prints v (entering "error" env s) t ->
  applies "error" [v] env s (Done (Err t)) (entering "error" env s).
Proof. exact error_run. Qed.
(** time evaluates once and gives an integer instead of the value. *)
Theorem C59_time : forall e env s v s1, evals e env (entering "time" env s) (Done (Ok v)) s1 -> exists z s', int64 z /\ grows s1 s' /\
  applies "time" [e] env s (Done (Ok (VInt z))) s'.
Proof. exact time_run. Qed.
Theorem C59_time_error : forall e env s m s1, evals e env (entering "time" env s) (Done (Err m)) s1 ->
  applies "time" [e] env s (Done (Err m)) s1.
Proof. exact time_err. Qed.
(** named-lambda and defmacro make closures of the current environment; nothing is evaluated. *)
Theorem C59_named_lambda : forall hd n ps body env k va s, wf_state s -> is_pair hd = true -> head_of s hd = VSym n -> rest_of s hd = ps ->
  parameters s ps k va ->
  let '(b, s1) := new_tail body VNil (entering "named-lambda" env s) in
  let '(f, s2) := fresh_function (Fn n ps va (Z.of_nat k) b env) s1 in
  applies "named-lambda" (hd :: body) env s (Done (Ok (VFun f))) s2.
Proof. exact named_lambda_run. Qed.
Theorem C59_defmacro : forall hd n ps body more env k va s o s', is_pair hd = true -> head_of s hd = VSym n -> rest_of s hd = ps ->
  parameters s ps k va ->
  applies "defmacro" (hd :: body :: more) env s o s' <->
  (let '(m, s1) := fresh_macro (Mac n ps va (Z.of_nat k) body env) (entering "defmacro" env s) in
   then_bind env (VSym n) (VMacro m) s1 (gives (VMacro m))) o s'.
Proof. exact defmacro_iff. Qed.
(** (expand m operand ...) gives the code that calling the macro m with these operands would evaluate. *)
Theorem C59_expand : forall e ops env s ml s1, evals e env (entering "expand" env s) (Done (Ok (VMacro ml))) s1 ->
  symbolp (m_params (mac_at s1 ml)) = false -> wf_state s -> no_nils ops -> forall o s',
  applies "expand" (e :: ops) env s o s' <->
  (let '(args, s2) := new_tail ops VNil s1 in expands ml args (length ops) s2) o s'.
Proof. exact expand_iff_ok. Qed.
Theorem C59_expand_only_macros : forall e ops env s v s1 r s', evals e env (entering "expand" env s) (Done (Ok v)) s1 -> (forall m, v <> VMacro m) ->
  ~ applies "expand" (e :: ops) env s (Done (Ok r)) s'.
Proof. exact expand_not. Qed.
(** definition-of gives code with the function's own parameters and body. *)
Theorem C59_definition_of : forall e env s l s1, evals e env (entering "definition-of" env s) (Done (Ok (VFun l))) s1 ->
  let '(d, s2) := code_for (fn_code (fun_at s1 l)) (called_name e) s1 in
  applies "definition-of" [e] env s (Done (Ok d)) s2.
Proof. exact definition_run. Qed.
Theorem C59_definition_only_functions : forall e env s v s1 r s', evals e env (entering "definition-of" env s) (Done (Ok v)) s1 -> (forall l, v <> VFun l) ->
  ~ applies "definition-of" [e] env s (Done (Ok r)) s'.
Proof. exact definition_not. Qed.
(** The steps of -> get the value as code: a symbol or a list is evaluated once more (finding). *)
Theorem C59_evaluated_again_refuted :
  show 60 "(define x 5) (-> 'x list)" start = Some (Done (Ok "(5)")) /\
  show 60 "(define x 5) (list 'x)" start = Some (Done (Ok "(x)")) /\
  show 60 "(-> '(+ 1 2) list)" start = Some (Done (Ok "(3)")).
Proof. repeat apply conj; vm_compute; reflexivity. Qed.
Print Assumptions C59_chain. Print Assumptions C59_tap. Print Assumptions C59_eval. Print Assumptions C59_eval_in.
Print Assumptions C59_eval_only_in_environments. Print Assumptions C59_global_eval. Print Assumptions C59_error. Print Assumptions C59_time.
Print Assumptions C59_time_error. Print Assumptions C59_named_lambda. Print Assumptions C59_defmacro. Print Assumptions C59_expand.
Print Assumptions C59_expand_only_macros. Print Assumptions C59_definition_of. Print Assumptions C59_definition_only_functions.
Print Assumptions C59_evaluated_again_refuted.
Example C59_cases :
  show 80 "(define n 0) (list (-> 5 (- 2) (* 10) list) (=> 5 (- 2) ((lambda (v) (set! n v)))) n (eval '(+ 1 2)) (let ((x 7)) (eval 'x (the-environment))))" start
    = Some (Done (Ok "((30) 5 5 3 7)")) /\
  show 80 "(define x 1) (list (let ((x 2)) (global-eval 'x)) (on-error (error 'no) (lambda (e) e)) (integer? (time (+ 1 2))) (on-error (eval 1 2) (lambda (e) 'bad)))" start
    = Some (Done (Ok "(1 ""no"" #t bad)")) /\
  show 80 "(defmacro (twice e) `(begin ,e ,e)) (define n 0) (define (f a . b) (list a b)) (define g (lambda (x) x)) (twice (set! n (+ n 1)))
    (list n (expand twice (+ 1 2)) (definition-of f) (definition-of g) ((named-lambda (h x) (* x 2)) 4))" start
    = Some (Done (Ok "(2 (begin (+ 1 2) (+ 1 2)) (define (f a . b) (list a b)) (define g (lambda (x) x)) 8)")).
Proof. repeat apply conj; vm_compute; reflexivity. Qed.
