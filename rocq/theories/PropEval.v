(** C16-C19, C21, C22, C36, C45-C47, C51: evaluation.
    A [behaviour] says how an evaluation may finish, and all theorems of the form `... <-> ...` say that an expression
    finishes in a way if and only if its parts, evaluated as described on the right, do: if a part never finishes,
    neither does the whole.  [after b k]: do b; a value goes on to k, an error or crash ends everything there. *)
From Verif Require Import ProofApply ProofList.
From stdpp Require Import list.
From Verif Require Import Data SpecEval.
Local Open Scope string_scope.
Local Open Scope list_scope.
Local Open Scope Z_scope.

(** * C16 *)
(** A plain call: the number of operands is checked first; then operands are evaluated left to right in the caller's
    environment, each bound in the new environment [le] as soon as it is done; then the body, in [le]. *)
Theorem C16_call : forall fl args es env s o s', is_list s args es -> symbolp (f_params (fn_code (fun_at s fl))) = false ->
  plain_call s fl env -> env <> s_next s ->
  let f := fn_code (fun_at s fl) in
  let le := s_next s in
  let s1 := open_env (f_name f) (f_env f) (e_frame (env_at s (f_env f))) s in
  applied (VFun fl) args env s o s' <->
  (if enough (f_varargs f) (f_req f) (length es) then passes (evaluated env) le (runs_body f le) (f_params f) args s1
   else fails (arity_msg (f_name f) (f_varargs f) (f_req f) (Z.of_nat (length es))) s1) o s'.
Proof. exact function_called. Qed.
(** Calls in general, including methods of a frame and functions started by fork. *)
Theorem C16_call_any : forall fl args es env s o s', is_list s args es -> symbolp (f_params (fn_code (fun_at s fl))) = false ->
  applied (VFun fl) args env s o s' <->
  calls_function fl (if fn_slot (fun_at s fl) then e_frame (env_at s env) else None) (evaluated env) args (length es) env s o s'.
Proof. exact function_called_any. Qed.
(** lambda and (define (f ...) ...) make a function of the current environment; no part of the body is evaluated. *)
Theorem C16_lambda : forall ps body env n r s, wf_state s -> is_pair ps = true -> parameters s ps n r ->
  let '(b, s1) := new_tail body VNil (entering "lambda" env s) in
  let '(f, s2) := fresh_function (Fn "unnamed" ps r (Z.of_nat n) b env) s1 in
  applies "lambda" (ps :: body) env s (Done (Ok (VFun f))) s2.
Proof. exact lambda_run. Qed.
Theorem C16_define_function : forall hd n ps body env r s k va o s', wf_state s -> e_frame (env_at s env) = None ->
  is_pair hd = true -> head_of s hd = VSym n -> rest_of s hd = ps -> parameters s ps k va -> visible s n env r ->
  applies "define" (hd :: body) env s o s' <->
  (let s0 := after_lookup (entering "define" env s) env n r in
   if is_builtin s r then fails ("Primitive function " +++ n +++ " can not be redefined.") s0
   else
     let '(b, s1) := new_tail body VNil s0 in
     let '(f, s2) := fresh_function (Fn n ps va (Z.of_nat k) b env) s1 in
     then_bind env (VSym n) (VFun f) s2 (gives (VFun f))) o s'.
Proof. exact define_fun_iff. Qed.
(** Names that are not bound by the call itself mean what they mean where the function was made, whatever the
    caller binds. *)
Theorem C16_free_names : forall s le p n r, e_parent (env_at s le) = Some p -> local_binding s le n = None ->
  visible s n le r <-> visible s n p r.
Proof. exact free_names. Qed.
(** The parent of an environment never changes, in any execution, sequential or concurrent. *)
Theorem C16_parents : forall c c', wf_state (snd c) -> psteps c c' -> parents_fixed (snd c) (snd c').
Proof. exact parents_psteps. Qed.
(** A function whose parameter list is just a rest parameter does not get its arguments (finding). *)
Theorem C16_rest_only_refuted :
  show 60 "(define (f . all) all) (f 1 2)" start = Some (Done (Ok "()")) /\
  show 60 "(define (g a . more) more) (list (g 1) (g 1 2) (g 1 2 3))" start = Some (Done (Ok "(() (2) (2 3))")).
Proof. split; vm_compute; reflexivity. Qed.
Print Assumptions C16_call. Print Assumptions C16_call_any. Print Assumptions C16_lambda. Print Assumptions C16_define_function.
Print Assumptions C16_free_names. Print Assumptions C16_parents. Print Assumptions C16_rest_only_refuted.
Example C16_cases :
  show 80 "(define x 1) (define (f y) (+ x y)) (define (g x) (f 10)) (list (g 5) (f 2) ((lambda (a . b) (list a b)) 1 2 3))" start
    = Some (Done (Ok "(11 3 (1 (2 3)))")) /\
  show 80 "(define (f a b) (+ a b)) (define n 0) (list (on-error (f (set! n 1)) (lambda (e) n)) (on-error (f (set! n 1) (error ""x"") (set! n 2)) (lambda (e) n)))" start
    = Some (Done (Ok "(0 0)")) /\
  show 80 "(define n 0) (define (f a b) n) (on-error (f (begin (set! n (+ n 1)) n) (error ""x"")) (lambda (e) n))" start = Some (Done (Ok "1")).
Proof. repeat apply conj; vm_compute; reflexivity. Qed.

(** * C17 *)
Theorem C17_if : forall c t e env s o s', applies "if" [c; t; e] env s o s' <->
  after (evals c env (entering "if" env s)) (fun v s1 => evals (if truthy s1 v then t else e) env s1) o s'.
Proof. exact if_iff. Qed.
Theorem C17_if_without_else : forall c t env s o s', applies "if" [c; t] env s o s' <->
  after (evals c env (entering "if" env s)) (fun v s1 => if truthy s1 v then evals t env s1 else gives VNil s1) o s'.
Proof. exact if2_iff. Qed.
Theorem C17_when : forall c body env s o s', applies "when" (c :: body) env s o s' <->
  after (evals c env (entering "when" env s)) (fun v s1 => if truthy s1 v then eval_each body env VNil s1 else gives VNil s1) o s'.
Proof. exact when_iff. Qed.
Theorem C17_unless : forall c body env s o s', applies "unless" (c :: body) env s o s' <->
  after (evals c env (entering "unless" env s)) (fun v s1 => if truthy s1 v then gives VNil s1 else eval_each body env VNil s1) o s'.
Proof. exact unless_iff. Qed.
Theorem C17_and : forall es env s o s', applies "and" es env s o s' <-> and_of es env VNil (entering "and" env s) o s'.
Proof. exact and_iff. Qed.
Theorem C17_or : forall es env s o s', applies "or" es env s o s' <-> or_of es env VNil (entering "or" env s) o s'.
Proof. exact or_iff. Qed.
Theorem C17_cond : forall clauses env s o s', applies "cond" clauses env s o s' <-> cond_of clauses env (entering "cond" env s) o s'.
Proof. exact cond_iff. Qed.
Theorem C17_case : forall e clauses env s kv s1 k r, evals e env (entering "case" env s) (Done (Ok kv)) s1 -> rep s1 kv k -> frameless k -> picks s1 k clauses r ->
  forall o s', applies "case" (e :: clauses) env s o s' <-> match r with None => gives VNil s1 o s' | Some body => eval_cells env body VNil s1 o s' end.
Proof. exact case_iff. Qed.
Theorem C17_case_key_fails : forall e clauses env s o s', (forall v s1, ~ evals e env (entering "case" env s) (Done (Ok v)) s1) ->
  applies "case" (e :: clauses) env s o s' <-> evals e env (entering "case" env s) o s'.
Proof. exact case_err. Qed.
Print Assumptions C17_if. Print Assumptions C17_if_without_else. Print Assumptions C17_when. Print Assumptions C17_unless. Print Assumptions C17_and.
Print Assumptions C17_or. Print Assumptions C17_cond. Print Assumptions C17_case. Print Assumptions C17_case_key_fails.
Example C17_cases :
  show 80 "(list (if #f (error ""no"") 1) (if '() 1) (when 0 2 3) (unless #t (error ""no"")) (and 1 #f (error ""no"")) (or #f 7 (error ""no"")))" start
    = Some (Done (Ok "(1 () 3 () #f 7)")) /\
  show 80 "(list (cond (#f (error ""no"")) ((eq? 1 1) 4 5) (else (error ""no""))) (cond (#f 1)) (case (+ 1 2) ((1 2) (error ""no"")) ((3 ""x"") 8 9) (else 0)) (case '(a) (((b)) 1) (((a)) 2)))" start
    = Some (Done (Ok "(5 () 9 2)")) /\
  (exists clause s, wf_state s /\ picks s (DInt 3) [clause] (Some (rest_of s clause))).
Proof.
  split; [vm_compute; reflexivity|]. split; [vm_compute; reflexivity|].
  destruct (lists_exist [VSym "else"; VInt 1]) as (v & s & _ & W & L); [repeat constructor; discriminate|]. exists v, s. split; [exact W|].
  inversion L as [| | |l a d xs E N T]; subst. apply picks_else; [reflexivity|]. cbn [head_of]. unfold cell_at. rewrite E. reflexivity.
Qed.

(** * C18.  [le] is the new environment. *)
Theorem C18_let : forall bv ns body env s o s', bindings s bv ns ->
  applies "let" (bv :: body) env s o s' <->
  (let s0 := entering "let" env s in let le := s_next s in
   initialises env le (eval_each body le VNil) bv (open_env "let" env (e_frame (env_at s env)) s0)) o s'.
Proof. exact let_iff. Qed.
Theorem C18_let_star : forall bv ns body env s o s', bindings s bv ns ->
  applies "let*" (bv :: body) env s o s' <->
  (let s0 := entering "let*" env s in let le := s_next s in
   initialises le le (eval_each body le VNil) bv (open_env "let" env (e_frame (env_at s env)) s0)) o s'.
Proof. exact let_star_iff. Qed.
Theorem C18_letrec : forall bv ns body env s o s', bindings s bv ns ->
  applies "letrec" (bv :: body) env s o s' <->
  (let s0 := entering "letrec" env s in let le := s_next s in
   declares le ns (open_env "let" env (e_frame (env_at s env)) s0) (initialises le le (eval_each body le VNil) bv)) o s'.
Proof. exact letrec_iff. Qed.
Theorem C18_named_let : forall n bv body env ns es s o s', wf_state s -> named_bindings s bv ns es ->
  applies "let" (VSym n :: bv :: body) env s o s' <->
  (let s0 := entering "let" env s in
   let '(vl, s1) := new_list (map VSym ns) s0 in
   let '(il, s2) := new_list es s1 in
   let le := s_next s2 in
   let s3 := open_env n env (e_frame (env_at s2 env)) s2 in
   then_bind le (VSym n) VNil s3 (fun s4 =>
     let '(b, s5) := new_tail body VNil s4 in
     let '(f, s6) := fresh_function (Fn n vl false (Z.of_nat (length ns)) b le) s5 in
     then_bind le (VSym n) (VFun f) s6 (fun s7 =>
       calls_function f None (evaluated env) il (length es) env s7))) o s'.
Proof. exact named_let_iff. Qed.
(** Binding in [le] changes nothing that is visible elsewhere. *)
Theorem C18_fresh : forall env n v s, wf_state s -> s_envs s !! env <> None -> local_binding s env n = None ->
  let s' := add_binding env (VSym n) v s in
  local_binding s' env n = Some (s_next s) /\ value_in s' (s_next s) = v /\
  (forall e k, (e, k) <> (env, n) -> local_binding s' e k = local_binding s e k) /\
  (forall b : loc, s_binds s !! b <> None -> bind_at s' b = bind_at s b) /\
  (forall e, e_parent (env_at s' e) = e_parent (env_at s e) /\ e_frame (env_at s' e) = e_frame (env_at s e)).
Proof. exact add_only. Qed.
(** All bindings of a let* live in one environment, so a closure made by an initialiser sees the bindings made after it
    (finding): the inner expression is not equivalent to the nest of lets below it. *)
Theorem C18_let_star_scope_refuted :
  show 80 "(let ((y 1)) (let* ((f (lambda () y)) (y 2)) (f)))" start = Some (Done (Ok "2")) /\
  show 80 "(let ((y 1)) (let ((f (lambda () y))) (let ((y 2)) (f))))" start = Some (Done (Ok "1")).
Proof. split; vm_compute; reflexivity. Qed.
Print Assumptions C18_let_star_scope_refuted.
Print Assumptions C18_let. Print Assumptions C18_let_star. Print Assumptions C18_letrec. Print Assumptions C18_named_let. Print Assumptions C18_fresh.
Example C18_cases :
  show 80 "(define x 1) (list (let ((x 2) (y x)) (list x y)) (let* ((x 2) (y x)) (list x y)) (letrec ((f (lambda (n) (if (eq? n 0) 'done (f (- n 1)))))) (f 3)) x)" start
    = Some (Done (Ok "((2 1) (2 2) done 1)")) /\
  show 80 "(let loop ((i 0) (acc '())) (if (eq? i 3) acc (loop (+ i 1) (cons i acc))))" start = Some (Done (Ok "(2 1 0)")) /\
  (exists bv s, wf_state s /\ bindings s bv []).
Proof.
  split; [vm_compute; reflexivity|]. split; [vm_compute; reflexivity|].
  exists VNil, start. split; [exact wf_start|]. exists []. split; constructor.
Qed.

(** * C19 *)
Theorem C19_define : forall n e env s o s', applies "define" [VSym n; e] env s o s' <->
  after (evals e env (entering "define" env s)) (fun v s1 => then_bind env (VSym n) v s1 (gives v)) o s'.
Proof. exact define_iff. Qed.
Theorem C19_set : forall n e env s o s', applies "set!" [VSym n; e] env s o s' <->
  after (evals e env (entering "set!" env s)) (fun v s1 => sets env n v s1) o s'.
Proof. exact set_iff. Qed.
Theorem C19_assign : forall b v s, handed_out s b -> s_binds s !! b <> None -> only_binding b s (assign b v s) /\ value_in (assign b v s) b = v.
Proof. exact assign_only. Qed.
Theorem C19_add : forall env n v s, wf_state s -> s_envs s !! env <> None -> local_binding s env n = None ->
  let s' := add_binding env (VSym n) v s in
  local_binding s' env n = Some (s_next s) /\ value_in s' (s_next s) = v /\
  (forall e k, (e, k) <> (env, n) -> local_binding s' e k = local_binding s e k) /\
  (forall b : loc, s_binds s !! b <> None -> bind_at s' b = bind_at s b) /\
  (forall e, e_parent (env_at s' e) = e_parent (env_at s e) /\ e_frame (env_at s' e) = e_frame (env_at s e)).
Proof. exact add_only. Qed.
Print Assumptions C19_define. Print Assumptions C19_set. Print Assumptions C19_assign. Print Assumptions C19_add.
Example C19_cases :
  show 80 "(define x 1) (define (f) (define x 2) (set! x 3) x) (define (g) (set! x 4)) (list (f) x (g) x)" start = Some (Done (Ok "(3 1 4 4)")) /\
  show 80 "(define x 1) (list (on-error (set! undefined-name 2) (lambda (e) e)) (on-error (set! x (error ""e"")) (lambda (e) x)))" start
    = Some (Done (Ok "(""undefined-name is undefined"" 1)")) /\
  show 80 "(on-error (set! nil 2) (lambda (e) (list e nil)))" start = Some (Done (Ok "(""nil is a protected binding"" ())")).
Proof. repeat apply conj; vm_compute; reflexivity. Qed.

(** * C21 *)
Theorem C21_macro : forall ml args es env s o s', is_list s args es -> symbolp (m_params (mac_at s ml)) = false ->
  applied (VMacro ml) args env s o s' <-> calls_macro ml args (length es) env s o s'.
Proof. exact macro_called. Qed.
Print Assumptions C21_macro.
Example C21_cases :
  show 90 "(define x 1) (defmacro (twice e) `(begin ,e ,e)) (define (f x) (twice (set! x (+ x 1))) x) (list (f 5) x)" start
    = Some (Done (Ok "(7 1)")) /\
  show 90 "(defmacro (swap a b) (list b a)) (swap 5 list)" start = Some (Done (Ok "(5)")).
Proof. repeat apply conj; vm_compute; reflexivity. Qed.

(** * C22.  That every other form stops at the first error is part of its theorem above ([after], [passes], [collects],
      [initialises] and [eval_cells] end with the error). *)
Theorem C22_no_error : forall e h env s v s1, evals e env (entering "on-error" env s) (Done (Ok v)) s1 ->
  applies "on-error" [e; h] env s (Done (Ok v)) s1.
Proof. exact on_error_ok. Qed.
Theorem C22_handled : forall e h hs env s m s1 fl s2 o s', wf_state s ->
  evals e env (entering "on-error" env s) (Done (Err m)) s1 -> evals h env s1 (Done (Ok (VFun fl))) s2 ->
  symbolp (f_params (fn_code (fun_at s2 fl))) = false ->
  applies "on-error" (e :: h :: hs) env s o s' <->
  (let '(x, s3) := fresh_string m s2 in let '(l, s4) := new_list [x] s3 in calls_function fl None (evaluated env) l 1 env s4) o s'.
Proof. exact on_error_handled. Qed.
Theorem C22_not_a_handler : forall e h hs env s m s1 v s2,
  evals e env (entering "on-error" env s) (Done (Err m)) s1 -> evals h env s1 (Done (Ok v)) s2 -> (forall fl, v <> VFun fl) ->
  applies "on-error" (e :: h :: hs) env s (Done (Err "on-error requires a function as it's second argument")) s2.
Proof. exact on_error_no_handler. Qed.
Theorem C22_success_handler : forall e h h2 env s v s1 fl s2 o s',
  evals e env (entering "on-error" env s) (Done (Ok v)) s1 -> evals h2 env s1 (Done (Ok (VFun fl))) s2 ->
  symbolp (f_params (fn_code (fun_at s2 fl))) = false ->
  applies "on-error" [e; h; h2] env s o s' <-> calls_function fl None (evaluated env) VNil 0 env s2 o s'.
Proof. exact on_error_success. Qed.
(** A crash (a Go panic) is not an error and passes through. *)
Theorem C22_crash : forall e hs env s w s1, (1 <= length hs <= 2)%nat -> evals e env (entering "on-error" env s) (Panicked w) s1 ->
  applies "on-error" (e :: hs) env s (Panicked w) s1.
Proof. exact on_error_crash. Qed.
(** An error in a step of do is swallowed: the loop ends without reaching its test (finding). *)
Theorem C22_do_step_refuted :
  show 80 "(on-error (do ((i 0 (error ""lost""))) ((eq? i 3) 'end) 'body) (lambda (e) e))" start = Some (Done (Ok "body")).
Proof. vm_compute. reflexivity. Qed.
Print Assumptions C22_no_error. Print Assumptions C22_handled. Print Assumptions C22_not_a_handler. Print Assumptions C22_success_handler.
Print Assumptions C22_crash. Print Assumptions C22_do_step_refuted.
Example C22_cases :
  show 80 "(define n 0) (list (on-error (+ 1 (error 'deep)) (lambda (e) (set! n (+ n 1)) e)) (on-error (+ 1 2) (error ""not evaluated"")) n)" start
    = Some (Done (Ok "(""deep"" 3 1)")) /\
  show 80 "(on-error (on-error (error 'inner) (lambda (e) (error 'outer))) (lambda (e) e))" start = Some (Done (Ok """In 'unnamed': outer""")) /\
  show 80 "(on-error 1 (lambda (e) 2) (lambda () 3))" start = Some (Done (Ok "3")).
Proof. repeat apply conj; vm_compute; reflexivity. Qed.

(** * C36 *)
(** Every built-in has a specification in the grammar. *)
Theorem C36_grammar : forall p, In p all_prims -> exists ts, declared p ts.
Proof. exact all_declared. Qed.
Theorem C36_accepted : forall p ts args es env s o s', In p all_prims -> declared p ts -> is_list s args es ->
  (p_restricted p = false \/ e_restricted (env_at s env) = false) -> accepts ts (length es) ->
  applied (VPrim (p_name p)) args env s o s' <->
  collects (if p_special p then as_it_is else evaluated env) (enters (p_name p) env) [] args s o s'.
Proof. exact builtin_called. Qed.
Theorem C36_refused : forall p ts args es env s o s', In p all_prims -> declared p ts -> is_list s args es ->
  (p_restricted p = false \/ e_restricted (env_at s env) = false) -> ~ accepts ts (length es) ->
  applied (VPrim (p_name p)) args env s o s' <-> fails (wrong_args_msg p (Z.of_nat (length es))) s o s'.
Proof. exact builtin_refused. Qed.
(** The grammar itself: for every specification whose numbers are ints, not only those in use. *)
Theorem C36_counts : forall ts n, Forall sane ts ->
  check_count (parse_num_args (counts_text ts)) (Z.of_nat n) = true <-> accepts ts n.
Proof. exact (fun ts n H => counts_iff ts n H). Qed.
Print Assumptions C36_grammar. Print Assumptions C36_accepted. Print Assumptions C36_refused. Print Assumptions C36_counts.
Example C36_cases :
  show 80 "(define n 0) (list (on-error (car (set! n 1) 2) (lambda (e) e)) (on-error (cons (set! n 2)) (lambda (e) e)) n (if #t 5) (list))" start
    = Some (Done (Ok "(""Wrong number of args to car, expected 1 but got 2."" ""Wrong number of args to cons, expected 2 but got 1."" 0 5 ())")) /\
  counts_text [Exactly 1; Between 3 4; AtLeast 7] = "1|(3,4)|>=7" /\ accepts [Exactly 1; Between 3 4; AtLeast 7] 4 /\ ~ accepts [Exactly 1; Between 3 4; AtLeast 7] 5.
Proof.
  repeat apply conj; [vm_compute; reflexivity|vm_compute; reflexivity| |].
  - exists (Between 3 4). split; [right; left; reflexivity|cbn; lia].
  - intros (t & [<-|[<-|[<-|[]]]] & H); cbn in H; lia.
Qed.

(** * C45 *)
Theorem C45_literal : forall v env s, match v with VNil | VBool _ | VInt _ | VFloat _ | VStr _ | VFun _ | VMacro _ | VPrim _ | VBytes _ | VChan _ | VProc _ | VAtomic _ | VFrame _ | VEnv _ | VPort _ => True | _ => False end ->
  forall o s', evals v env s o s' <-> gives v s o s'.
Proof. exact eval_self. Qed.
(** A symbol ending in a colon is itself; any other is looked up. *)
Theorem C45_symbol : forall n env s o s', evals (VSym n) env s o s' <-> (if has_suffix ":" n then gives (VSym n) s else finds false env n s) o s'.
Proof. exact (fun n env => symbol_iff n env false). Qed.
(** In an environment that belongs to no frame: the innermost binding, or a new (). *)
Theorem C45_lookup : forall env n r s, e_frame (env_at s env) = None -> visible s n env r ->
  runs denote (value_of env (VSym n) false) s (Done (match r with Some b => value_in s b | None => fst (fresh_cell VNil VNil s) end)) (after_lookup s env n r).
Proof. exact value_of_plain. Qed.
Print Assumptions C45_literal. Print Assumptions C45_symbol. Print Assumptions C45_lookup.
Example C45_cases :
  show 80 "(define x 1) (list 5 ""s"" #t slot: x ((lambda (x) x) 2) nothing-here (let ((x 3)) (let ((y 4)) x)))" start
    = Some (Done (Ok "(5 ""s"" #t slot: 1 2 () 3)")).
Proof. vm_compute. reflexivity. Qed.

(** * C46 *)
Theorem C46_function : forall fl vs lst xs env s, wf_state s -> no_nils vs -> is_list s lst xs -> symbolp (f_params (fn_code (fun_at s fl))) = false ->
  exists al s1, grows s s1 /\ is_list s1 al (vs ++ xs) /\ forall o s',
    applies "apply" (VFun fl :: vs ++ [lst]) env s o s' <->
    calls_function fl (if fn_slot (fun_at s fl) then e_frame (env_at s env) else None) as_it_is al (length (vs ++ xs)) env s1 o s'.
Proof. exact apply_user. Qed.
(** Built-ins: for a nil-terminated list, at least one argument, and where quote means the built-in. *)
Theorem C46_builtin : forall p ts vs lst xs env s, In p all_prims -> declared p ts -> p_special p = false -> wf_state s -> no_nils vs ->
  nil_ended s lst xs -> no_nils xs -> vs ++ xs <> [] -> means_builtin env "quote" s ->
  (p_restricted p = false \/ e_restricted (env_at s env) = false) ->
  exists s1, grows s s1 /\
    (accepts ts (length (vs ++ xs)) -> forall o s', applies "apply" (VPrim (p_name p) :: vs ++ [lst]) env s o s' <-> applies (p_name p) (vs ++ xs) env s1 o s') /\
    (~ accepts ts (length (vs ++ xs)) -> exists s2, grows s s2 /\
       applies "apply" (VPrim (p_name p) :: vs ++ [lst]) env s (Done (Err (wrong_args_msg p (Z.of_nat (length (vs ++ xs)))))) s2).
Proof. exact apply_builtin. Qed.
(** Without these conditions (findings): an empty list gives a built-in one argument (), a list ending in an empty cell
    one too many, a local quote breaks the call, and a missing list crashes. *)
Theorem C46_builtin_refuted :
  show 60 "(apply list '())" start = Some (Done (Ok "(())")) /\
  show 60 "(apply list (cons 1 '()))" start = Some (Done (Ok "(1 ())")) /\
  show 60 "(let ((quote (lambda (x) 7))) (apply list (list 1 2)))" start = Some (Done (Ok "(7 7)")) /\
  show 60 "(apply list)" start = Some (Panicked index_panic).
Proof. repeat apply conj; vm_compute; reflexivity. Qed.
Print Assumptions C46_function. Print Assumptions C46_builtin. Print Assumptions C46_builtin_refuted.
Example C46_cases :
  show 80 "(list (apply + 1 2 '(3 4)) (apply (lambda (a b) (- a b)) 10 '(4)) (apply (lambda () 5) '()) (apply list 'a '((b c) 3)))" start
    = Some (Done (Ok "(10 6 5 (a (b c) 3))")) /\
  means_builtin (s_global start) "quote" start.
Proof. split; [vm_compute; reflexivity|]. exact (start_quote start (grows_refl _) eq_refl eq_refl). Qed.

(** * C47 *)
Theorem C47_begin : forall es env s o s', applies "begin" es env s o s' <-> eval_each es env VNil (entering "begin" env s) o s'.
Proof. exact begin_iff. Qed.
(** Initial values outside, then [loops]. *)
Theorem C47_do : forall vars test body env ns s o s', bindings s vars ns -> is_pair test = true ->
  (let s0 := entering "do" env s in let le := s_next s in
   initialises env le (loops le test body vars VNil) vars (open_env "do" env (e_frame (env_at s env)) s0)) o s' ->
  applies "do" (vars :: test :: body) env s o s'.
Proof. exact do_run. Qed.
Print Assumptions C47_begin. Print Assumptions C47_do.
Example C47_cases :
  show 90 "(list (begin) (begin 1 2 3) (do ((i 0 (+ i 1)) (j 10 i) (acc '() (cons (list i j) acc))) ((eq? i 3) 'unused acc)))" start
    = Some (Done (Ok "(() 3 ((2 1) (1 0) (0 10)))")).
Proof. vm_compute. reflexivity. Qed.

(** * C51 *)
(** A call expression evaluates its operator first; then, for a built-in that is not a special form, the operands
    from left to right, once each, in the current environment; then the built-in is entered with the values. *)
Theorem C51_call : forall l env s o s', ~ at_end s (VCell TCons l) -> plain_head (head_of s (VCell TCons l)) ->
  evals (VCell TCons l) env s o s' <->
  after (operator (head_of s (VCell TCons l)) env s)
    (fun f s1 => if nilb s1 f then fails "Nil when function or macro expected." s1 else applied f (rest_of s1 (VCell TCons l)) env s1) o s'.
Proof. exact call_expression. Qed.
Theorem C51_builtin : forall p ts args es env s o s', In p all_prims -> declared p ts -> is_list s args es ->
  (p_restricted p = false \/ e_restricted (env_at s env) = false) -> accepts ts (length es) ->
  applied (VPrim (p_name p)) args env s o s' <->
  collects (if p_special p then as_it_is else evaluated env) (enters (p_name p) env) [] args s o s'.
Proof. exact builtin_called. Qed.
Theorem C51_restricted : forall p args env s o s', In p all_prims -> p_restricted p = true -> e_restricted (env_at s env) = true ->
  applied (VPrim (p_name p)) args env s o s' <-> fails (restricted_msg (p_name p)) s o s'.
Proof. exact builtin_restricted. Qed.
Print Assumptions C51_call. Print Assumptions C51_builtin. Print Assumptions C51_restricted.
Example C51_cases :
  show 90 "(define n 0) (define (tick) (set! n (+ n 1)) n) (list (list (tick) (tick) (tick)) ((begin (tick) list) (tick)) n)" start
    = Some (Done (Ok "((1 2 3) (5) 5)")).
Proof. vm_compute. reflexivity. Qed.
