(** Model of prim_special_forms.go and prim_macros.go. *)
From Verif Require Export Apply.
Local Open Scope string_scope.
Local Open Scope list_scope.
Local Open Scope Z_scope.

(** Car(args), Cadr(args), First/Second/Third(args) of a built-in's argument list. *)
Definition arg (n : nat) (args : list val) : val := nth n args VNil.
Definition eval (d : val) (env : loc) : prog (res val) := call (REval d env false).
(** Cdr^n(args), kept by the callee. *)
Definition tail_list (n : nat) (args : list val) : prog val := mk_tail (skipn n args) VNil.

(** Evaluate forms of the (private) argument list in order; the value is that of the last one. *)
Fixpoint eval_seq (l : list val) (env : loc) (last : val) : prog (res val) :=
  match l with
  | [] => ok last
  | x :: r => v <-? eval x env ;; eval_seq r env v
  end.

(** prim_special_forms.go:35 evaluateBody *)
Definition evaluate_body (sexprs : val) (env : loc) : prog (res val) :=
  for_cells (fun _ c =>
               x <- car c ;; r <- eval x env ;;
               match r with Ok v => Ret (inl v) | Err m => Ret (inr (Err m)) end)
            (fun v => ok v) sexprs VNil.

(** prim_special_forms.go:45 CondImpl *)
Fixpoint cond_clauses (l : list val) (env : loc) : prog (res val) :=
  match l with
  | [] => ok VNil
  | clause :: r =>
      if negb (pairp clause) then fail "Cond expect a sequence of clauses that are lists"
      else
        h <- car clause ;; e <- call (REqual h (VSym "else")) ;;
        if e : bool then (b <- cdr clause ;; evaluate_body b env)
        else
          c <-? eval h env ;;
          t <- boolean_value c ;;
          if t : bool then (b <- cdr clause ;; evaluate_body b env) else cond_clauses r env
  end.
Definition cond_impl (args : list val) (env : loc) : prog (res val) := cond_clauses args env.

(** prim_special_forms.go:68 CaseImpl.  [case_member]: the loop of line 85 found a match. *)
Definition case_member (l key : val) : prog bool :=
  for_cells (fun (_ : unit) c => a <- car c ;; e <- call (REqual a key) ;;
                                 if e : bool then Ret (inr true) else Ret (inl tt))
            (fun _ => Ret false) l tt.
Fixpoint case_clauses (key : val) (l : list val) (env : loc) : prog (res val) :=
  match l with
  | [] => ok VNil
  | clause :: r =>
      if negb (pairp clause) then fail "Case expectes a sequence of clauses that are lists"
      else
        h <- car clause ;; e <- call (REqual h (VSym "else")) ;;
        if e : bool then (b <- cdr clause ;; evaluate_body b env)
        else if listp h then
          m <- case_member h key ;;
          if m : bool then (b <- cdr clause ;; evaluate_body b env) else case_clauses key r env
        else fail "Case the condition part of clauses to be lists of 'else"
  end.
Definition case_impl (args : list val) (env : loc) : prog (res val) :=
  k <-? eval (arg 0 args) env ;; case_clauses k (tl args) env.

(** prim_special_forms.go:99 IfImpl *)
Definition if_impl (args : list val) (env : loc) : prog (res val) :=
  c <-? eval (arg 0 args) env ;;
  t <- boolean_value c ;;
  if t : bool then eval (arg 1 args) env else eval (arg 2 args) env.
(** prim_special_forms.go:112 WhenImpl, 130 UnlessImpl *)
Definition when_impl (args : list val) (env : loc) : prog (res val) :=
  c <-? eval (arg 0 args) env ;;
  t <- boolean_value c ;;
  if t : bool then eval_seq (tl args) env VNil else ok VNil.
Definition unless_impl (args : list val) (env : loc) : prog (res val) :=
  c <-? eval (arg 0 args) env ;;
  t <- boolean_value c ;;
  if negb t then eval_seq (tl args) env VNil else ok VNil.

(** prim_special_forms.go:148 LambdaImpl *)
Definition lambda_impl (args : list val) (env : loc) : prog (res val) :=
  if negb (pairp (arg 0 args)) then fail "A lambda requires a parameter list"
  else body <- tail_list 1 args ;; f <- make_function "unnamed" (arg 0 args) body env ;; ok f.
(** prim_special_forms.go:158 NamedLambdaImpl *)
Definition named_lambda_impl (args : list val) (env : loc) : prog (res val) :=
  if negb (pairp (arg 0 args)) then fail "A lambda requires a name/parameter list"
  else
    name <- car (arg 0 args) ;;
    match name with
    | VSym n =>
        params <- cdr (arg 0 args) ;; body <- tail_list 1 args ;;
        f <- make_function n params body env ;; ok f
    | _ => fail "A named lambda requires a name that is a symbol"
    end.

(** prim_special_forms.go:173 DefineImpl.  On a protected name the function object is returned
    together with the error; here just the error. *)
Definition define_impl (args : list val) (env : loc) : prog (res val) :=
  let thing := arg 0 args in
  match thing with
  | VSym _ =>
      v <-? eval (arg 1 args) env ;;
      _ <-? bind_locally env thing v ;; ok v
  | _ =>
      if pairp thing then
        name <- car thing ;; params <- cdr thing ;;
        match name with
        | VSym n =>
            ex <- value_of env name false ;;
            if primitivep ex then fail ("Primitive function " +++ n +++ " can not be redefined.")
            else
              body <- tail_list 1 args ;;
              f <- make_function n params body env ;;
              _ <-? bind_locally env name f ;; ok f
        | _ => fail "Function name has to be a symbol"
        end
      else fail "Invalid definition"
  end.
(** prim_special_forms.go:204 DefmacroImpl *)
Definition defmacro_impl (args : list val) (env : loc) : prog (res val) :=
  let thing := arg 0 args in
  if pairp thing then
    name <- car thing ;; params <- cdr thing ;;
    match name with
    | VSym n =>
        m <- make_macro n params (arg 1 args) env ;;
        _ <-? bind_locally env name m ;; ok m
    | _ => fail "Macro name has to be a symbol"
    end
  else fail "Invalid macro definition".

(** prim_special_forms.go:225 bindLetLocals *)
Definition bind_let_check (rec : bool) (localEnv : loc) (forms : val) : prog (res unit) :=
  for_cells (fun (_ : unit) c =>
               pair <- car c ;;
               if negb (pairp pair) then
                 Ret (inr (Err "Let requires a list of bindings (with are pairs) as it's first argument"))
               else
                 name <- car pair ;;
                 if negb (symbolp name) then
                   Ret (inr (Err "First part of a let binding pair must be a symbol"))
                 else if rec then
                   r <- bind_locally localEnv name VNil ;;
                   match r with Ok _ => Ret (inl tt) | Err m => Ret (inr (Err m)) end
                 else Ret (inl tt))
            (fun _ => ok tt) forms tt.
Definition bind_let_eval (localEnv evalEnv : loc) (forms : val) : prog (res unit) :=
  for_cells (fun (_ : unit) c =>
               pair <- car c ;; name <- car pair ;; x <- cadr pair ;;
               r <- eval x evalEnv ;;
               match r with
               | Err m => Ret (inr (Err m))
               | Ok v =>
                   b <- bind_locally localEnv name v ;;
                   match b with Ok _ => Ret (inl tt) | Err m => Ret (inr (Err m)) end
               end)
            (fun _ => ok tt) forms tt.
Definition bind_let_locals (forms : val) (rec : bool) (localEnv evalEnv : loc) : prog (res unit) :=
  _ <-? bind_let_check rec localEnv forms ;; bind_let_eval localEnv evalEnv forms.

(** prim_special_forms.go:264 LetCommon *)
Definition let_common (star rec : bool) (args : list val) (env : loc) : prog (res val) :=
  if negb (pairp (arg 0 args)) then fail "Let requires a list of bindings as it's first argument"
  else
    le <- new_env_below (Some env) "let" ;;
    _ <-? bind_let_locals (arg 0 args) rec le (if star || rec then le else env) ;;
    eval_seq (tl args) le VNil.

(** prim_special_forms.go:294 namedLetImpl *)
Definition named_let_impl (args : list val) (env : loc) : prog (res val) :=
  match arg 0 args with
  | VSym n =>
      let bindings := arg 1 args in
      if negb (pairp bindings) then fail "A named let requires a list of bindings as it's second argument"
      else
        vis <-? for_cells (fun acc c =>
                   let '(vars, inits) := acc in
                   b <- car c ;; v <- car b ;;
                   if symbolp v then x <- cadr b ;; Ret (inl (v :: vars, x :: inits))
                   else Ret (inr (Err "The first element of a binding must be a symbol")))
                 (fun acc => ok acc) bindings ([], []) ;;
        let '(vars, inits) := vis in
        vl <- array_to_list (rev vars) ;; il <- array_to_list (rev inits) ;;
        le <- new_env_below (Some env) n ;;
        _ <-? bind_locally le (VSym n) VNil ;;
        body <- tail_list 2 args ;;
        f <- make_function n vl body le ;;
        _ <-? bind_locally le (VSym n) f ;;
        match f with VFun fl => fun_apply fl il env None true | _ => Panic nil_deref end
  | _ => fail "A named let requires a symbol name as its first argument"
  end.
(** prim_special_forms.go:334-348 *)
Definition let_impl (args : list val) (env : loc) : prog (res val) :=
  if symbolp (arg 0 args) then named_let_impl args env else let_common false false args env.
Definition let_star_impl := let_common true false.
Definition letrec_impl := let_common false true.

(** prim_special_forms.go:350 BeginImpl *)
Definition begin_impl (args : list val) (env : loc) : prog (res val) := eval_seq args env VNil.

(** prim_special_forms.go:361 rebindDoLocals *)
Fixpoint rebind_all (l : list (val * val)) (env : loc) : prog (res unit) :=
  match l with
  | [] => ok tt
  | (n, v) :: r => _ <-? bind_locally env n v ;; rebind_all r env
  end.
Definition rebind_do_locals (forms : val) (env : loc) : prog (res unit) :=
  nvs <-? for_cells (fun acc c =>
             tuple <- car c ;; name <- nth_of tuple 1 ;;
             t <- nth_of tuple 3 ;; n <- nilp t ;;
             r <- (if negb n then (t <- nth_of tuple 3 ;; eval t env)
                   else (v <- value_of env name false ;; ok v)) ;;
             match r with Ok v => Ret (inl ((name, v) :: acc)) | Err m => Ret (inr (Err m)) end)
           (fun acc => ok (rev acc)) forms [] ;;
  rebind_all nvs env.

(** prim_special_forms.go:391 DoImpl.  The loop state is the `result` variable. *)
Definition do_turn (test : val) (body : list val) (bindings : val) (env : loc) (result : val)
  : prog (val + res val) :=
  h <- car test ;;
  r <- eval h env ;;
  match r with
  | Err m => Ret (inr (Err m))
  | Ok c =>
      t <- boolean_value c ;;
      if t : bool then
        b <- cdr test ;;
        r <- for_cells (fun _ c => x <- car c ;; r <- eval x env ;;
                                   match r with Ok v => Ret (inl v) | Err m => Ret (inr (Err m)) end)
                       (fun v => ok v) b result ;;
        Ret (inr r)
      else
        r <- eval_seq body env result ;;
        match r with
        | Err m => Ret (inr (Err m))
        | Ok v =>
            b <- rebind_do_locals bindings env ;;
            match b with
            | Ok _ => Ret (inl v)
            | Err _ => Ret (inr (Ok v))        (* line 440: the error is dropped *)
            end
        end
  end.
Definition do_impl (args : list val) (env : loc) : prog (res val) :=
  let bindings := arg 0 args in
  let test := arg 1 args in
  if negb (pairp bindings) then fail "Do requires a list of bindings as it's first argument"
  else if negb (pairp test) then fail "Do requires a list as it's second argument"
  else
    le <- new_env_below (Some env) "do" ;;
    _ <-? bind_let_locals bindings false le env ;;
    loop (do_turn test (skipn 2 args) bindings le) VNil.

(** prim_special_forms.go:447 ApplyImpl: `ary[len(ary)-1]` on no further argument panics. *)
Definition index_panic : string := "runtime error: index out of range".
Definition apply_impl (args : list val) (env : loc) : prog (res val) :=
  let f := arg 0 args in
  if negb (function_or_primp f) then fail "apply requires a function as it's first argument"
  else
    match rev (tl args) with
    | [] => Panic index_panic
    | last :: before =>
        if listp last then
          al <- (match before with [] => Ret last | _ => array_to_list_with_tail (rev before) last end) ;;
          call (RApply false f al env)
        else fail "The last argument to apply must be a list"
    end.

(** prim_special_forms.go:481-486 *)
Definition thread_expr (sexpr value : val) : prog val :=
  if listp sexpr then
    h <- car sexpr ;; t <- cdr sexpr ;; c <- cons value t ;; cons h c
  else c <- cons value VNil ;; cons sexpr c.
(** prim_special_forms.go:471 ChainImpl *)
Fixpoint chain_go (l : list val) (value : val) (env : loc) : prog (res val) :=
  match l with
  | [] => ok value
  | s :: r => e <- thread_expr s value ;; v <-? eval e env ;; chain_go r v env
  end.
Definition chain_impl (args : list val) (env : loc) : prog (res val) :=
  v <-? eval (arg 0 args) env ;; chain_go (tl args) v env.
(** prim_special_forms.go:496 TapImpl *)
Fixpoint tap_go (l : list val) (value : val) (env : loc) : prog (res val) :=
  match l with
  | [] => ok value
  | s :: r => e <- thread_expr s value ;; _ <-? eval e env ;; tap_go r value env
  end.
Definition tap_impl (args : list val) (env : loc) : prog (res val) :=
  v <-? eval (arg 0 args) env ;; tap_go (tl args) v env.

(** prim_special_forms.go:521 DefinitionOfImpl *)
Definition definition_of_impl (args : list val) (env : loc) : prog (res val) :=
  let name := if symbolp (arg 0 args) then arg 0 args else VSym "anonymous" in
  f <-? eval (arg 0 args) env ;;
  match f with
  | VFun l =>
      fn <- do_op (OFunGet l) ;;
      if str_eqb (f_name fn) "unnamed" then
        a <- cons (f_params fn) (f_body fn) ;; b <- cons (VSym "lambda") a ;;
        c <- cons b VNil ;; d <- cons name c ;; e <- cons (VSym "define") d ;; ok e
      else
        a <- cons (VSym (f_name fn)) (f_params fn) ;; b <- cons a (f_body fn) ;;
        c <- cons (VSym "define") b ;; ok c
  | _ => fail ("code requires a function argument, but received a " +++ type_name f +++ ".")
  end.

(** ** prim_macros.go *)

(** prim_macros.go:22 QuoteImpl (a nil argument was already turned into an empty cons) *)
Definition quote_impl (args : list val) (env : loc) : prog (res val) :=
  match arg 0 args with VNil => e <- empty_cons ;; ok e | v => ok v end.

Fixpoint quasi_parts (l : list val) (level : Z) (env : loc) : prog (res (list val)) :=
  match l with
  | [] => ok []
  | x :: r =>
      p <-? call (RQuasi x level env) ;;
      ps <-? quasi_parts r level env ;;
      ok (if is_nil p then ps else p :: ps)
  end.
Definition head_sym (v : val) : option string := match v with VSym s => Some s | _ => None end.
(** prim_macros.go:30 processQuasiquoted *)
Definition quasi_wrap (name : string) (sexpr : val) (level : Z) (env : loc) : prog (res val) :=
  x <- cadr sexpr ;;
  p <-? call (RQuasi x level env) ;;
  c <- cons (VSym name) p ;; d <- cons c VNil ;; ok d.
Definition quasi_body (sexpr : val) (level : Z) (env : loc) : prog (res val) :=
  if negb (listp sexpr) then c <- cons sexpr VNil ;; ok c
  else
    h <- car sexpr ;;
    match head_sym h with
    | Some "quasiquote" => quasi_wrap "quasiquote" sexpr (level + 1) env
    | Some "unquote" =>
        if level =? 1 then
          x <- cadr sexpr ;;
          p <-? call (RQuasi x level env) ;;
          y <- car p ;; r <-? eval y env ;;
          c <- cons r VNil ;; ok c
        else quasi_wrap "unquote" sexpr (level - 1) env
    | Some "unquote-splicing" =>
        if level =? 1 then
          x <- cadr sexpr ;;
          p <-? call (RQuasi x level env) ;;
          y <- car p ;; r <-? eval y env ;;
          n <- nilp r ;; if n : bool then ok VNil else ok r
        else quasi_wrap "unquote-splicing" sexpr (level - 1) env
    | _ =>
        xs <- to_array sexpr ;;
        parts <-? quasi_parts xs level env ;;
        pl <- array_to_list parts ;;
        flat <- flatten pl ;;
        c <- cons flat VNil ;; ok c
    end.
(** prim_macros.go:98 QuasiquoteImpl *)
Definition quasiquote_impl (args : list val) (env : loc) : prog (res val) :=
  r <-? call (RQuasi (arg 0 args) 1 env) ;; x <- car r ;; ok x.
(** prim_macros.go:106, 111 *)
Definition unquote_impl (args : list val) (env : loc) : prog (res val) :=
  fail "unquote should not be used outside of a quasiquoted expression.".
Definition unquote_splicing_impl (args : list val) (env : loc) : prog (res val) :=
  fail "unquote-splicing should not be used outside of a quasiquoted expression.".
(** prim_macros.go:116 ExpandImpl *)
Definition expand_impl (args : list val) (env : loc) : prog (res val) :=
  n <-? eval (arg 0 args) env ;;
  match n with
  | VMacro m => rest <- tail_list 1 args ;; macro_expand m rest env
  | _ => fail "expand expected a macro"
  end.

Definition special (n spec : string) f := Prim n true spec false f.
Definition func (n spec : string) f := Prim n false spec false f.
Definition rfunc (n spec : string) f := Prim n false spec true f.
Definition rspecial (n spec : string) f := Prim n true spec true f.

(** prim_special_forms.go:14-33, prim_macros.go:14-20 *)
Definition special_prims : list prim :=
  [ special "cond" "*" cond_impl; special "case" ">=1" case_impl; special "if" "2|3" if_impl;
    special "when" ">=2" when_impl; special "unless" ">=2" unless_impl;
    special "lambda" ">=1" lambda_impl; special "named-lambda" ">=1" named_lambda_impl;
    special "define" ">=1" define_impl; special "defmacro" ">=1" defmacro_impl;
    special "let" ">=1" let_impl; special "let*" ">=1" let_star_impl;
    special "letrec" ">=1" letrec_impl; special "begin" "*" begin_impl;
    special "do" ">=2" do_impl; func "apply" ">=1" apply_impl;
    special "->" ">=1" chain_impl; special "=>" ">=1" tap_impl;
    special "definition-of" "1" definition_of_impl;
    special "quote" "1" quote_impl; special "quasiquote" "1" quasiquote_impl;
    special "unquote" "1" unquote_impl; special "unquote-splicing" "1" unquote_splicing_impl;
    special "expand" ">=1" expand_impl ].
