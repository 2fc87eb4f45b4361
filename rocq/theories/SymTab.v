(** Model of symbol_table_frame.go and frame.go. *)
From Verif Require Export Data.
Local Open Scope string_scope.
Local Open Scope list_scope.
Local Open Scope Z_scope.

(** ** Frames (frame.go).  Locks: every operation on a frame's map is atomic here; the lock protocol
    itself (and its recursive read-locking) is modelled separately in Locks.v. *)

(** frame.go:37 isParentKey *)
Definition is_parent_key (k : string) : bool := has_suffix "*:" k.
Fixpoint ploc_mem (l : loc) (ls : list loc) : bool :=
  match ls with [] => false | x :: t => Pos.eqb l x || ploc_mem l t end.

(** frame.go:51 Parents: values of parent slots that are not nil, in map order. *)
Definition parents_of (f : loc) : prog (list val) :=
  sl <- do_op (OFrameAll f) ;; sl <- range_map sl ;;
  Ret (map snd (List.filter (fun kv => is_parent_key (fst kv) && negb (is_nil (snd kv))) sl)).

(** frame.go:78-85: FrameValue of a non-frame parent is nil, and locking it panics. *)
Fixpoint has_slot_parents (key : string) (ps : list val) (vis : list loc) : prog (bool * list loc) :=
  match ps with
  | [] => Ret (false, vis)
  | VFrame p :: r =>
      '(b, vis') <- call (RHasSlot key p vis) ;;
      if b : bool then Ret (true, vis') else has_slot_parents key r vis'
  | _ :: _ => Panic nil_deref
  end.
(** frame.go:63 hasSlotHelper *)
Definition has_slot_body (key : string) (f : loc) (vis : list loc) : prog (bool * list loc) :=
  if ploc_mem f vis then Ret (false, vis)
  else
    let vis := f :: vis in
    o <- do_op (OFrameFind f key) ;;
    match o with
    | Some _ => Ret (true, vis)
    | None =>
        sl <- do_op (OFrameAll f) ;;
        if existsb (fun kv => is_parent_key (fst kv)) sl then
          ps <- parents_of f ;; has_slot_parents key ps vis
        else Ret (false, vis)
    end.
(** frame.go:90 HasSlot *)
Definition has_slot (f : loc) (key : string) : prog bool :=
  '(b, _) <- call (RHasSlot key f []) ;; Ret b.

Fixpoint get_slot_parents (key : string) (ps : list val) (vis : list loc) : prog (val * list loc) :=
  match ps with
  | [] => Ret (VNil, vis)
  | VFrame p :: r =>
      '(v, vis') <- call (RGetSlot key p vis) ;;
      if is_nil v then get_slot_parents key r vis' else Ret (v, vis')
  | _ :: _ => Panic nil_deref
  end.
(** frame.go:100 getHelper *)
Definition get_slot_body (key : string) (f : loc) (vis : list loc) : prog (val * list loc) :=
  if ploc_mem f vis then Ret (VNil, vis)
  else
    let vis := f :: vis in
    o <- do_op (OFrameFind f key) ;;
    match o with
    | Some v => Ret (v, vis)
    | None => ps <- parents_of f ;; get_slot_parents key ps vis
    end.
(** frame.go:124 Get *)
Definition get_slot (f : loc) (key : string) : prog val :=
  '(v, _) <- call (RGetSlot key f []) ;; Ret v.

(** ** Environments (symbol_table_frame.go) *)

Definition register_top (p : option loc) (name : string) (e : loc) : prog unit :=
  g <- do_op OGlobal ;;
  match p with
  | None => do_op (OTopSet name e)
  | Some p => if Pos.eqb p g then do_op (OTopSet name e) else Ret tt
  end.
(** symbol_table_frame.go:132 NewSymbolTableFrameBelow *)
Definition new_env_below (p : option loc) (name : string) : prog loc :=
  f <- (match p with Some p => do_op (OEnvFrame p) | None => Ret None end) ;;
  e <- do_op (OEnvNew name p f) ;;
  register_top p name e ;;; Ret e.
(** symbol_table_frame.go:147 NewSymbolTableFrameBelowWithFrame (the parent is never nil) *)
Definition new_env_below_with_frame (p : loc) (f : option loc) (name : string) : prog loc :=
  f <- (match f with Some f => Ret (Some f) | None => do_op (OEnvFrame p) end) ;;
  e <- do_op (OEnvNew name (Some p) f) ;;
  register_top (Some p) name e ;;; Ret e.

(** symbol_table_frame.go:263 findBindingInLocalFrameFor *)
Definition find_local (env : loc) (sym : val) : prog (option loc) :=
  n <- string_value sym ;; do_op (OEnvFind env n).
(** symbol_table_frame.go:195 FindBindingFor: the tail recursion over parents is a loop. *)
Definition find_binding (env : loc) (sym : val) : prog (option loc) :=
  n <- string_value sym ;;
  loop (fun e => b <- do_op (OEnvFind e n) ;;
                 match b with
                 | Some b => Ret (inr (Some b))
                 | None =>
                     p <- do_op (OEnvParent e) ;;
                     match p with Some p => Ret (inl p) | None => Ret (inr None) end
                 end) env.

Definition protected_err (n : string) : string := n +++ " is a protected binding".
(** symbol_table_frame.go:207 BindTo *)
Definition bind_to (env : loc) (sym v : val) : prog (res val) :=
  b <- find_binding env sym ;;
  n <- string_value sym ;;
  match b with
  | Some b =>
      p <- do_op (OBindProt b) ;;
      if p : bool then fail (protected_err n) else do_op (OBindSet b v) ;;; ok v
  | None =>
      b <- do_op (OBindNew (Binding sym v false)) ;; do_op (OEnvPut env n b) ;;; ok v
  end.
(** symbol_table_frame.go:221 BindToProtected *)
Definition bind_to_protected (env : loc) (sym v : val) : prog val :=
  b <- find_binding env sym ;;
  n <- string_value sym ;;
  match b with
  | Some b => do_op (OBindSet b v) ;;; do_op (OBindSetProt b) ;;; Ret v
  | None => b <- do_op (OBindNew (Binding sym v true)) ;; do_op (OEnvPut env n b) ;;; Ret v
  end.
(** symbol_table_frame.go:267 BindLocallyTo *)
Definition bind_locally (env : loc) (sym v : val) : prog (res val) :=
  n <- string_value sym ;;
  b <- do_op (OEnvFind env n) ;;
  match b with
  | Some b =>
      p <- do_op (OBindProt b) ;;
      if p : bool then fail (protected_err n) else do_op (OBindSet b v) ;;; ok v
  | None =>
      b <- do_op (OBindNew (Binding sym v false)) ;; do_op (OEnvPut env n b) ;;; ok v
  end.
(** symbol_table_frame.go:233 SetTo *)
Definition set_to (env : loc) (sym v : val) : prog (res val) :=
  lb <- find_local env sym ;;
  n <- string_value sym ;;
  match lb with
  | Some b =>
      p <- do_op (OBindProt b) ;;
      if p : bool then fail (protected_err n) else do_op (OBindSet b v) ;;; ok v
  | None =>
      let naked := n +++ ":" in
      f <- do_op (OEnvFrame env) ;;
      h <- (match f with Some f => has_slot f naked | None => Ret false end) ;;
      match (if h : bool then f else None) with
      | Some f => do_op (OFrameSet f naked v) ;;; ok v
      | None =>
          b <- find_binding env sym ;;
          match b with
          | Some b =>
              p <- do_op (OBindProt b) ;;
              if p : bool then fail (protected_err n) else do_op (OBindSet b v) ;;; ok v
          | None => fail (n +++ " is undefined")
          end
      end
  end.

Definition mark_slot (v : val) (b : bool) : prog unit :=
  match v with VFun l => do_op (OFunSetSlot l b) | _ => Ret tt end.
(** symbol_table_frame.go:281 ValueOfWithFunctionSlotCheck *)
Definition lookup_chain (env : loc) (sym : val) : prog val :=
  b <- find_binding env sym ;;
  match b with
  | Some b => v <- do_op (OBindVal b) ;; mark_slot v false ;;; Ret v
  | None => empty_cons
  end.
Definition value_of (env : loc) (sym : val) (needfn : bool) : prog val :=
  lb <- find_local env sym ;;
  match lb with
  | Some b => v <- do_op (OBindVal b) ;; mark_slot v true ;;; Ret v
  | None =>
      f <- do_op (OEnvFrame env) ;;
      match f with
      | None => lookup_chain env sym
      | Some f =>
          n <- string_value sym ;;
          let naked := n +++ ":" in
          h <- has_slot f naked ;;
          if h : bool then
            v <- get_slot f naked ;;
            if functionp v then mark_slot v true ;;; Ret v
            else if needfn then lookup_chain env sym else Ret v
          else lookup_chain env sym
      end
  end.
