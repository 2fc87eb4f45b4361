(** Model of function.go, macro.go, primitive_function.go (application) and evalHelper (data.go). *)
From Verif Require Export ArgSpec SymTab.
Local Open Scope string_scope.
Local Open Scope list_scope.
Local Open Scope Z_scope.

(** function.go:29 computeRequiredArgumentCount *)
Definition required_args (params : val) : prog (Z * bool) :=
  for_cells (fun n a => if symbolp a then Ret (inr (n, true)) else Ret (inl (n + 1)))
            (fun n => Ret (n, false)) params 0.
(** function.go:43 MakeFunction, data.go:388 *)
Definition make_function (name : string) (params body : val) (env : loc) : prog val :=
  '(n, va) <- required_args params ;;
  l <- do_op (OFunNew (Fn name params va n body env)) ;; Ret (VFun l).
(** macro.go:24 MakeMacro, data.go:392 *)
Definition make_macro (name : string) (params body : val) (env : loc) : prog val :=
  '(n, va) <- required_args params ;;
  l <- do_op (OMacNew (Mac name params va n body env)) ;; Ret (VMacro l).

Definition arity_msg (name : string) (va : bool) (n got : Z) : string :=
  name +++ (if va then " expected at least " else " expected ") +++ string_of_Z n
       +++ " parameters, received " +++ string_of_Z got +++ ".".

(** State of the loop in makeLocalBindings: the parameter pointer, the rest parameter once reached,
    and the extra arguments collected so far (latest first). *)
Definition mlb_state : Type := val * option val * list val.

Definition mlb_step (ev : bool) (argEnv localEnv : loc) (st : mlb_state) (a : val)
  : prog (mlb_state + res mlb_state) :=
  let '(p, accp, acc) := st in
  x <- car a ;;
  r <- (if ev then call (REval x argEnv false) else ok x) ;;
  match r with
  | Err m => Ret (inr (Err m))
  | Ok v =>
      match accp with
      | Some _ => Ret (inl (p, (if symbolp p then Some p else accp), v :: acc))
      | None =>
          s <- car p ;;
          b <- bind_locally localEnv s v ;;
          match b with
          | Err m => Ret (inr (Err m))
          | Ok _ =>
              p' <- cdr p ;;
              Ret (inl (p', (if symbolp p' then Some p' else None), acc))
          end
      end
  end.

(** function.go:52 and macro.go:33 makeLocalBindings (identical text) *)
Definition make_local_bindings (name : string) (params : val) (va : bool) (n : Z)
  (args : val) (argEnv localEnv : loc) (ev : bool) : prog (res unit) :=
  got <- length_of args ;;
  if (if va then got <? n else negb (got =? n)) then fail (arity_msg name va n got)
  else
    st <-? for_cells (mlb_step ev argEnv localEnv) (fun st => ok st) args (params, None, []) ;;
    let '(_, accp, acc) := st in
    match accp with
    | None => ok tt
    | Some p =>
        l <- array_to_list (rev acc) ;;
        _ <-? bind_locally localEnv p l ;; ok tt
    end.

Definition in_wrap (name msg : string) : string := "In '" +++ name +++ "': " +++ msg.

(** function.go:137-143: evaluate the body forms in order. *)
Definition eval_body_forms (name : string) (body : val) (env : loc) : prog (res val) :=
  for_cells (fun _ c =>
               x <- car c ;; r <- call (REval x env false) ;;
               match r with
               | Ok v => Ret (inl v)
               | Err m => Ret (inr (Err (in_wrap name m)))
               end)
            (fun v => ok v) body VNil.

(** function.go:100 internalApply (profiling omitted) *)
Definition fun_apply (fl : loc) (args : val) (argEnv : loc) (frame : option loc) (ev : bool)
  : prog (res val) :=
  f <- do_op (OFunGet fl) ;;
  le <- new_env_below_with_frame (f_env f) frame (f_name f) ;;
  _ <-? (match frame with
         | Some fr => bind_locally le (VSym "self") (VFrame fr)
         | None =>
             sl <- do_op (OFunSlot fl) ;;
             if sl : bool then
               b <- find_local argEnv (VSym "self") ;;
               match b with
               | Some b => v <- do_op (OBindVal b) ;; bind_locally le (VSym "self") v
               | None => ok VNil
               end
             else ok VNil
         end) ;;
  pp <- do_op (OFunProc fl) ;;
  _ <-? (match pp with
         | Some p => bind_locally le (VSym "parentProcess") (VProc p)
         | None => ok VNil
         end) ;;
  _ <-? make_local_bindings (f_name f) (f_params f) (f_varargs f) (f_req f) args argEnv le ev ;;
  eval_body_forms (f_name f) (f_body f) le.

(** function.go:166 ApplyOveriddingEnvironment *)
Definition fun_apply_overriding (fl : loc) (args : val) (argEnv : loc) : prog (res val) :=
  f <- do_op (OFunGet fl) ;;
  le <- new_env_below (Some argEnv) (f_name f) ;;
  _ <-? make_local_bindings (f_name f) (f_params f) (f_varargs f) (f_req f) args argEnv le true ;;
  eval_body_forms (f_name f) (f_body f) le.

(** macro.go:81 Expand *)
Definition macro_expand (ml : loc) (args : val) (argEnv : loc) : prog (res val) :=
  m <- do_op (OMacGet ml) ;;
  le <- new_env_below (Some (m_env m)) (m_name m) ;;
  _ <-? make_local_bindings (m_name m) (m_params m) (m_varargs m) (m_req m) args argEnv le false ;;
  call (REval (m_body m) le false).
(** macro.go:91 internalApply *)
Definition macro_apply (ml : loc) (args : val) (argEnv : loc) : prog (res val) :=
  x <-? macro_expand ml args argEnv ;; call (REval x argEnv false).

(** ** Built-ins *)

(** primitive_function.go:33-40 PrimitiveFunction.  The argument list a body receives is
    ArrayToList(argArray): a fresh list of non-nil values.  Bodies take it as a Gallina list;
    where Go code keeps a tail of that list, the model allocates the tail. *)
Record prim := Prim {
  p_name : string;
  p_special : bool;
  p_spec : string;
  p_restricted : bool;
  p_body : list val -> loc -> prog (res val) }.

(** util.go:14-16: nil elements become empty cons cells. *)
Fixpoint norm_args (l : list val) : prog (list val) :=
  match l with
  | [] => Ret []
  | x :: r =>
      x' <- (if is_nil x then empty_cons else Ret x) ;;
      r' <- norm_args r ;; Ret (x' :: r')
  end.

Definition wrong_args_msg (p : prim) (got : Z) : string :=
  "Wrong number of args to " +++ p_name p +++ ", expected " +++ args_string (parse_num_args (p_spec p))
    +++ " but got " +++ string_of_Z got +++ ".".

(** primitive_function.go:239-250: collect the arguments, evaluated unless a special form. *)
Definition collect_args (special : bool) (args : val) (env : loc) : prog (res (list val)) :=
  for_cells (fun acc a =>
               x <- car a ;;
               r <- (if special then ok x else call (REval x env false)) ;;
               match r with
               | Err m => Ret (inr (Err m))
               | Ok v => Ret (inl (v :: acc))
               end)
            (fun acc => ok (rev acc)) args [].

(** primitive_function.go:226 Apply *)
Definition restricted_msg (name : string) : string :=
  "The " +++ name +++ " primitive is restricted from execution in this environment".
Definition prim_apply (p : prim) (args : val) (env : loc) : prog (res val) :=
  bad <- (if p_restricted p then do_op (OEnvRestricted env) else Ret false) ;;
  if bad : bool then fail (restricted_msg (p_name p))
  else
    n <- length_of args ;;
    if negb (check_count (parse_num_args (p_spec p)) n) then
      got <- length_of args ;; fail (wrong_args_msg p got)
    else
      vs <-? collect_args (p_special p) args env ;;
      vs <- norm_args vs ;;
      do_op (OEvent (EPrim (p_name p) env)) ;;;
      p_body p vs env.
(** primitive_function.go:268 ApplyWithoutEval *)
Definition prim_apply_noeval (p : prim) (args : val) (env : loc) : prog (res val) :=
  if p_special p then prim_apply p args env
  else q <- quote_all args ;; prim_apply p q env.

Section WithTable.
  (** The table of built-ins, by name (Prims.v). *)
  Variable table : string -> option prim.

  (** data.go:1223 Apply, 1247 ApplyWithoutEval *)
  Definition apply_body (ev : bool) (f args : val) (env : loc) : prog (res val) :=
    n <- (if ev then nilp f else Ret (is_nil f)) ;;
    if n : bool then fail (if ev then "Nil when function expected." else "Nil when function or macro expected.")
    else
      match f with
      | VFun l =>
          sl <- do_op (OFunSlot l) ;;
          fr <- (if sl : bool then do_op (OEnvFrame env) else Ret None) ;;
          fun_apply l args env fr ev
      | VMacro l => macro_apply l args env
      | VPrim n =>
          match table n with
          | Some p => if ev then prim_apply p args env else prim_apply_noeval p args env
          | None => Panic nil_deref
          end
      | _ => fail (type_name f +++ " when function or macro expected.")
      end.

  (** data.go:1128 evalHelper.  Omitted: tracing, single-stepping, the debugger, and the
      "Evaling <form>." prefix added to error messages on the way out (line 1175). *)
  Definition eval_body (d : val) (env : loc) (needfn : bool) : prog (res val) :=
    match d with
    | VNil => ok VNil
    | VNoCell | VCell TCons _ =>
        d <- post_process_shortcuts d ;;
        n <- nilp d ;;
        if n : bool then (e <- empty_cons ;; ok e)
        else
          h <- car d ;;
          f <-? call (REval h env true) ;;
          nf <- nilp f ;;
          if nf : bool then fail "Nil when function or macro expected."
          else
            args <- cdr d ;;
            call (RApply true f args env)
    | VSym s => if naked_name s then ok d else v <- value_of env d needfn ;; ok v
    | _ => ok d
    end.
End WithTable.
