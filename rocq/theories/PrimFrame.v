(** Model of prim_frame.go and prim_environment.go. *)
From Verif Require Export PrimMath.
Local Open Scope string_scope.
Local Open Scope list_scope.
Local Open Scope Z_scope.

(** ** prim_frame.go *)

Definition need_frame {A} (who : string) (v : val) (k : loc -> prog (res A)) : prog (res A) :=
  match v with VFrame l => k l | _ => fail_got who v end.
Definition need_naked {A} (who : string) (v : val) (k : string -> prog (res A)) : prog (res A) :=
  match v with VSym s => if naked_name s then k s else fail_got who v | _ => fail_got who v end.

(** prim_frame.go:32 MakeFrameImpl *)
Fixpoint frame_slots (l : list val) (acc : list (string * val)) : prog (res (list (string * val))) :=
  match l with
  | k :: v :: r =>
      need_naked "Frame keys must be naked symbols, but was given " k (fun s =>
        frame_slots r (aset s v acc))
  | _ => ok acc
  end.
Definition make_frame_impl (args : list val) (env : loc) : prog (res val) :=
  if Nat.odd (length args) then fail "Frames must be initialized with an even number of arguments."
  else m <-? frame_slots args [] ;; f <- do_op (OFrameNew m) ;; ok (VFrame f).

(** prim_frame.go:51 HasSlotImpl *)
Definition has_slot_impl (args : list val) (env : loc) : prog (res val) :=
  need_frame "has-slot? requires a frame as it's first argument, but was given " (arg 0 args) (fun f =>
  need_naked "has-slot? requires a naked symbol as it's second argument, but was given " (arg 1 args) (fun k =>
  b <- has_slot f k ;; ok (VBool b))).
(** prim_frame.go:67 GetSlotImpl *)
Definition get_slot_impl (args : list val) (env : loc) : prog (res val) :=
  need_frame "get-slot requires a frame as it's first argument, but was given " (arg 0 args) (fun f =>
  need_naked "get-slot requires a naked symbol as it's second argument, but was given " (arg 1 args) (fun k =>
  b <- has_slot f k ;;
  if negb b then fail_got "get-slot requires an existing slot, but was given " (arg 1 args)
  else v <- get_slot f k ;; ok v)).
(** prim_frame.go:93 GetSlotOrNilImpl *)
Definition get_slot_or_nil_impl (args : list val) (env : loc) : prog (res val) :=
  need_frame "get-slot-or-nil requires a frame as it's first argument, but was given " (arg 0 args) (fun f =>
  need_naked "get-slot-or-nil requires a naked symbol as it's second argument, but was given " (arg 1 args) (fun k =>
  v <- get_slot f k ;; ok v)).
(** prim_frame.go:109 RemoveSlotImpl *)
Definition remove_slot_impl (args : list val) (env : loc) : prog (res val) :=
  n <- nilp (arg 0 args) ;;
  if n : bool then ok (VBool false)
  else
    need_frame "remove-slot! requires a frame as it's first argument, but was given " (arg 0 args) (fun f =>
    need_naked "remove-slot! requires a naked symbol as it's second argument, but was given " (arg 1 args) (fun k =>
    b <- do_op (OFrameDel f k) ;; ok (VBool b))).
(** prim_frame.go:130 SetSlotImpl *)
Definition set_slot_impl (args : list val) (env : loc) : prog (res val) :=
  need_frame "set-slot! requires a frame as it's first argument, but was given " (arg 0 args) (fun f =>
  need_naked "set-slot! requires a naked symbol as it's second argument, but was given " (arg 1 args) (fun k =>
  do_op (OFrameSet f k (arg 2 args)) ;;; ok (arg 2 args))).

Definition not_function_slot {A} (who : string) (v : val) : prog (res A) :=
  fail (who +++ " requires a function slot, but was given a slot containing a " +++ type_name v +++ ".").
(** prim_frame.go:148 SendImpl *)
Definition send_impl (args : list val) (env : loc) : prog (res val) :=
  need_frame "send requires a frame as it's first argument, but was given " (arg 0 args) (fun f =>
  need_naked "send requires a naked symbol as it's second argument, but was given " (arg 1 args) (fun k =>
  b <- has_slot f k ;;
  if negb b then fail_got "send requires an existing slot, but was given " (arg 1 args)
  else
    v <- get_slot f k ;;
    match v with
    | VFun fl => params <- tail_list 2 args ;; fun_apply fl params env (Some f) false
    | _ => not_function_slot "send" v
    end)).

(** prim_frame.go:176 getSuperFunction.  A parent slot holding a non-frame panics when Get locks it. *)
Fixpoint super_parents (sel : string) (ps : list val) : prog val :=
  match ps with
  | [] => Ret VNil
  | VFrame p :: r => v <- get_slot p sel ;; if is_nil v then super_parents sel r else Ret v
  | _ :: _ => Panic nil_deref
  end.
Definition super_function (sel : string) (env : loc) : prog val :=
  f <- do_op (OEnvFrame env) ;;
  match f with
  | None => Ret VNil
  | Some f => ps <- parents_of f ;; super_parents sel ps
  end.
(** prim_frame.go:213-218, 321-326 *)
Definition super_apply (fl : loc) (params : val) (env fr : loc) : prog (res val) :=
  n <- do_op (OEnvName env) ;;
  fe <- new_env_below_with_frame env (Some fr) (n +++ "'") ;;
  _ <-? bind_locally fe (VSym "self") (VFrame fr) ;;
  fun_apply fl params fe None false.
Definition super_select (sel : val) (env : loc) (k : loc -> prog (res val)) : prog (res val) :=
  match sel with
  | VSym s =>
      if naked_name s then
        v <- super_function s env ;;
        match v with
        | VFun fl => k fl
        | _ => fail ("Message sent must select a function slot but was " +++ type_name v +++ ".")
        end
      else fail ("Selector must be a naked symbol but was " +++ type_name sel +++ ".")
  | _ => fail ("Selector must be a naked symbol but was " +++ type_name sel +++ ".")
  end.
(** prim_frame.go:194 SendSuperImpl *)
Definition send_super_impl (args : list val) (env : loc) : prog (res val) :=
  f <- do_op (OEnvFrame env) ;;
  match f with
  | None => fail "send-super can only be used within the context of a frame."
  | Some fr =>
      super_select (arg 0 args) env (fun fl =>
        params <- tail_list 1 args ;; super_apply fl params env fr)
  end.

(** prim_frame.go:251-272, 298-319: the evaluated trailing arguments, the last of which is a list. *)
Fixpoint eval_all (l : list val) (env : loc) : prog (res (list val)) :=
  match l with
  | [] => ok []
  | x :: r => v <-? eval x env ;; vs <-? eval_all r env ;; ok (v :: vs)
  end.
Definition spread_args (vs : list val) : prog (res val) :=
  match rev vs with
  | [] => Panic index_panic
  | lst :: before =>
      if listp lst then
        match before with
        | [] => ok lst
        | _ => l <- array_to_list_with_tail (rev before) lst ;; ok l
        end
      else fail "The last argument to apply must be a list"
  end.
(** prim_frame.go:221 ApplySlotImpl *)
Definition apply_slot_impl (args : list val) (env : loc) : prog (res val) :=
  f <-? eval (arg 0 args) env ;;
  need_frame "apply-slot requires a frame as it's first argument, but was given " f (fun fr =>
  kv <-? eval (arg 1 args) env ;;
  need_naked "apply-slot requires a naked symbol as it's second argument, but was given " kv (fun k =>
  b <- has_slot fr k ;;
  if negb b then fail_got "apply-slot requires an existing slot, but was given " kv
  else
    v <- get_slot fr k ;;
    match v with
    | VFun fl =>
        vs <-? eval_all (skipn 2 args) env ;;
        l <-? spread_args vs ;;
        fun_apply fl l env (Some fr) false
    | _ => not_function_slot "apply-slot" v
    end)).
(** prim_frame.go:277 ApplySlotSuperImpl *)
Definition apply_slot_super_impl (args : list val) (env : loc) : prog (res val) :=
  f <- do_op (OEnvFrame env) ;;
  match f with
  | None => fail "apply-slot-super can only be used within the context of a frame."
  | Some fr =>
      sel <-? eval (arg 0 args) env ;;
      super_select sel env (fun fl =>
        vs <-? eval_all (tl args) env ;;
        l <-? spread_args vs ;;
        super_apply fl l env fr)
  end.
(** prim_frame.go:329 CloneImpl, frame.go:156 Clone *)
Definition clone_impl (args : list val) (env : loc) : prog (res val) :=
  need_frame "clone requires a frame as it's argument, but was given " (arg 0 args) (fun f =>
  sl <- do_op (OFrameAll f) ;; g <- do_op (OFrameNew sl) ;; ok (VFrame g)).
(** prim_frame.go:355, 365 FrameKeysImpl, FrameValuesImpl; frame.go:167, 177 *)
Definition frame_keys_impl (args : list val) (env : loc) : prog (res val) :=
  need_frame "frame-keys requires a frame as it's argument, but was given " (arg 0 args) (fun f =>
  sl <- do_op (OFrameAll f) ;; sl <- range_map sl ;;
  r <- array_to_list (map (fun kv => VSym (fst kv)) sl) ;; ok r).
Definition frame_values_impl (args : list val) (env : loc) : prog (res val) :=
  need_frame "frame-values requires a frame as it's argument, but was given " (arg 0 args) (fun f =>
  sl <- do_op (OFrameAll f) ;; sl <- range_map sl ;;
  r <- array_to_list (map snd sl) ;; ok r).

(** prim_frame.go:14-30 (json->lisp and lisp->json are in Json.v) *)
Definition frame_prims : list prim :=
  [ func "make-frame" "*" make_frame_impl;
    func "has-slot?" "2" has_slot_impl;
    func "get-slot" "2" get_slot_impl;
    func "get-slot-or-nil" "2" get_slot_or_nil_impl;
    func "remove-slot!" "2" remove_slot_impl;
    func "set-slot!" "3" set_slot_impl;
    func "send" ">=2" send_impl;
    func "send-super" ">=1" send_super_impl;
    special "apply-slot" ">=3" apply_slot_impl;
    special "apply-slot-super" ">=2" apply_slot_super_impl;
    func "clone" "1" clone_impl;
    func "frame-keys" "1" frame_keys_impl;
    func "frame-values" "1" frame_values_impl ].

(** ** prim_environment.go *)

Definition with_env1 (name : string) (args : list val) (k : loc -> prog (res val)) : prog (res val) :=
  match arg 0 args with
  | VEnv e => k e
  | _ => fail (name +++ " requires an environment as it's argument")
  end.
Definition with_env2 (name1 name2 : string) (args : list val) (k : loc -> val -> prog (res val))
  : prog (res val) :=
  match arg 0 args with
  | VEnv e =>
      match arg 1 args with
      | VSym s => k e (VSym s)
      | _ => fail (name2 +++ " requires a symbol as it's second argument")
      end
  | _ => fail (name1 +++ " requires an environment as it's first argument")
  end.

(** prim_environment.go:35, 39, 48 *)
Definition environmentp_impl (args : list val) (env : loc) : prog (res val) :=
  ok (VBool (environmentp (arg 0 args))).
Definition environment_has_parent_impl (args : list val) (env : loc) : prog (res val) :=
  with_env1 "environment-has-parent?" args (fun e =>
    p <- do_op (OEnvParent e) ;; ok (VBool (match p with Some _ => true | None => false end))).
Definition environment_parent_impl (args : list val) (env : loc) : prog (res val) :=
  with_env1 "environment-parent" args (fun e =>
    p <- do_op (OEnvParent e) ;;
    match p with Some p => ok (VEnv p) | None => ok VNil end).
(** prim_environment.go:61, 74, 89: the bindings in map order. *)
Fixpoint binding_syms (macros_only : bool) (bs : list (string * loc)) : prog (list val) :=
  match bs with
  | [] => Ret []
  | (_, b) :: r =>
      s <- do_op (OBindSym b) ;; v <- do_op (OBindVal b) ;;
      t <- binding_syms macros_only r ;;
      Ret (if macros_only && negb (macrop v) then t else s :: t)
  end.
Fixpoint binding_lists (bs : list (string * loc)) : prog (list val) :=
  match bs with
  | [] => Ret []
  | (_, b) :: r =>
      s <- do_op (OBindSym b) ;; v <- do_op (OBindVal b) ;;
      n <- nilp v ;;
      x <- array_to_list (if n : bool then [s] else [s; v]) ;;
      t <- binding_lists r ;; Ret (x :: t)
  end.
Definition environment_bound_names_impl (args : list val) (env : loc) : prog (res val) :=
  with_env1 "environment-bound-names" args (fun e =>
    bs <- do_op (OEnvNames e) ;; bs <- range_map bs ;;
    l <- binding_syms false bs ;; r <- array_to_list l ;; ok r).
Definition environment_macro_names_impl (args : list val) (env : loc) : prog (res val) :=
  with_env1 "environment-macro-names" args (fun e =>
    bs <- do_op (OEnvNames e) ;; bs <- range_map bs ;;
    l <- binding_syms true bs ;; r <- array_to_list l ;; ok r).
Definition environment_bindings_impl (args : list val) (env : loc) : prog (res val) :=
  with_env1 "environment-bindings" args (fun e =>
    bs <- do_op (OEnvNames e) ;; bs <- range_map bs ;;
    l <- binding_lists bs ;; r <- array_to_list l ;; ok r).
(** prim_environment.go:106 *)
Definition environment_reference_type_impl (args : list val) (env : loc) : prog (res val) :=
  with_env2 "environment-reference-type?" "environment-reference-type?" args (fun e s =>
    b <- find_binding e s ;;
    match b with
    | None => ok (VSym "unbound")
    | Some b =>
        v <- do_op (OBindVal b) ;;
        ok (VSym (if is_nil v then "unassigned" else if macrop v then "macro" else "normal"))
    end).
(** prim_environment.go:130, 221 *)
Definition environment_bound_impl (name : string) (args : list val) (env : loc) : prog (res val) :=
  with_env2 name name args (fun e s =>
    b <- find_binding e s ;; ok (VBool (match b with Some _ => true | None => false end))).
(** prim_environment.go:145 *)
Definition environment_assigned_impl (args : list val) (env : loc) : prog (res val) :=
  with_env2 "environment-asigned?" "environment-assigned?" args (fun e s =>
    b <- find_binding e s ;;
    match b with
    | None => fail "environment-assigned?: name is unbound"
    | Some b =>
        v <- do_op (OBindVal b) ;;
        if is_nil v then ok (VBool false)
        else if macrop v then fail "environment-assigned?: name is bound to a macro"
        else ok (VBool true)
    end).
(** prim_environment.go:173 *)
Definition environment_lookup_impl (args : list val) (env : loc) : prog (res val) :=
  with_env2 "environment-lookup" "environment-lookup" args (fun e s =>
    b <- find_binding e s ;;
    match b with
    | None => fail "environment-lookup: name is unbound"
    | Some b =>
        v <- do_op (OBindVal b) ;;
        if is_nil v then fail "environment-lookup: name is unassigned"
        else if macrop v then fail "environment-lookup: name is bound to a macro"
        else ok v
    end).
(** prim_environment.go:201 *)
Definition environment_lookup_macro_impl (args : list val) (env : loc) : prog (res val) :=
  with_env2 "environment-lookup-macro" "environment-lookup-macro" args (fun e s =>
    b <- find_binding e s ;;
    match b with
    | None => ok (VBool false)
    | Some b => v <- do_op (OBindVal b) ;; ok (if macrop v then v else VBool false)
    end).
(** prim_environment.go:236: no check of the Protected flag. *)
Definition environment_assign_impl (args : list val) (env : loc) : prog (res val) :=
  with_env2 "environment-assign!" "environment-assign!" args (fun e s =>
    b <- find_binding e s ;;
    match b with
    | None => ok VNil
    | Some b => do_op (OBindSet b (arg 2 args)) ;;; ok (arg 2 args)
    end).
(** prim_environment.go:255, 268 *)
Definition environment_definable_impl (args : list val) (env : loc) : prog (res val) :=
  with_env2 "environment-definable?" "environment-definable?" args (fun e s => ok (VBool true)).
Definition environment_define_impl (args : list val) (env : loc) : prog (res val) :=
  with_env2 "environment-define" "environment-define" args (fun e s =>
    _ <-? bind_locally e s (arg 2 args) ;; ok (arg 2 args)).
(** prim_environment.go:281, 285 *)
Definition system_global_impl (args : list val) (env : loc) : prog (res val) :=
  g <- do_op OGlobal ;; ok (VEnv g).
Definition the_environment_impl (args : list val) (env : loc) : prog (res val) :=
  g <- do_op OGlobal ;; p <- do_op (OEnvParent env) ;;
  if Pos.eqb env g || (match p with Some p => Pos.eqb p g | None => false end) then ok (VEnv env)
  else fail "the-environment can only be called from a top-level environment".
(** prim_environment.go:294 *)
Definition mtl_name_err : string := "make-top-level-environment expects binding names to be symbols".
Definition bind_names (e : loc) (names values : val) (with_values : bool) : prog (res unit) :=
  for_cells (fun vc c =>
               s <- car c ;;
               if negb (symbolp s) then Ret (inr (Err mtl_name_err))
               else
                 v <- (if with_values then car vc else Ret VNil) ;;
                 r <- bind_locally e s v ;;
                 match r with
                 | Err m => Ret (inr (Err m))
                 | Ok _ => vc' <- cdr vc ;; Ret (inl vc')
                 end)
            (fun _ => ok tt) names values.
Definition make_top_level_impl (args : list val) (env : loc) : prog (res val) :=
  name <- (match arg 0 args with VStr l => do_op (OStrGet l) | _ => Ret "anonymous top level" end) ;;
  let rest := if stringp (arg 0 args) then tl args else args in
  g <- do_op OGlobal ;;
  e <- new_env_below (Some g) name ;;
  match rest with
  | [ns] =>
      if negb (listp ns) then fail "make-top-level-environment expects binding names to be a list"
      else _ <-? bind_names e ns VNil false ;; ok (VEnv e)
  | [ns; vs] =>
      if negb (listp ns) then fail "make-top-level-environment expects binding names to be a list"
      else if negb (listp vs) then fail "make-top-level-environment expects binding values to be a list"
      else
        ln <- length_of ns ;; lv <- length_of vs ;;
        if negb (ln =? lv) then
          fail "make-top-level-environment expects binding names and values lists to be the same length"
        else _ <-? bind_names e ns vs true ;; ok (VEnv e)
  | _ => ok (VEnv e)
  end.
(** prim_environment.go:347 *)
Definition find_top_level_impl (args : list val) (env : loc) : prog (res val) :=
  if stringp (arg 0 args) || symbolp (arg 0 args) then
    n <- string_value (arg 0 args) ;; e <- do_op (OTopFind n) ;;
    match e with Some e => ok (VEnv e) | None => ok VNil end
  else fail "find-top-level-environment expects a symbol or string environment name".
(** prim_environment.go:362 *)
Definition procedure_environment_impl (args : list val) (env : loc) : prog (res val) :=
  match arg 0 args with
  | VFun l => f <- do_op (OFunGet l) ;; ok (VEnv (f_env f))
  | _ => fail "procedure-environment requires a user written function as it's argument"
  end.
(** prim_environment.go:371 *)
Definition restrict_environment_impl (args : list val) (env : loc) : prog (res val) :=
  do_op (OEnvRestrict env) ;;; s <- new_str "OK" ;; ok s.

(** prim_environment.go:10-33 *)
Definition environment_prims : list prim :=
  [ func "environment?" "1" environmentp_impl;
    func "environment-has-parent?" "1" environment_has_parent_impl;
    func "environment-bound-names" "1" environment_bound_names_impl;
    func "environment-macro-names" "1" environment_macro_names_impl;
    func "environment-bindings" "1" environment_bindings_impl;
    func "environment-reference-type" "2" environment_reference_type_impl;
    func "environment-bound?" "2" (environment_bound_impl "environment-bound?");
    func "environment-assigned?" "2" environment_assigned_impl;
    func "environment-lookup" "2" environment_lookup_impl;
    func "environment-lookup-macro" "2" environment_lookup_macro_impl;
    func "environment-assignable?" "2" (environment_bound_impl "environment-assignable?");
    func "environment-assign!" "3" environment_assign_impl;
    func "environment-definable?" "2" environment_definable_impl;
    func "environment-define" "3" environment_define_impl;
    func "the-environment" "0" the_environment_impl;
    func "procedure-environment" "1" procedure_environment_impl;
    func "restrict-environment" "0" restrict_environment_impl;
    rfunc "environment-parent" "1" environment_parent_impl;
    rfunc "system-global-environment" "0" system_global_impl;
    rfunc "make-top-level-environment" "1|2|3" make_top_level_impl;
    rfunc "find-top-level-environment" "1" find_top_level_impl ].
