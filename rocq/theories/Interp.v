(** The interpreter: the table of built-ins, the meaning of every recursive request, and start-up. *)
From Verif Require Export Json.
Local Open Scope string_scope.
Local Open Scope list_scope.
Local Open Scope Z_scope.

(** prim_setup.go:28-50 InitBuiltins (the order matters only if a name is registered twice). *)
Definition all_prims : list prim :=
  type_prims ++ math_prims ++ binary_prims ++ relative_prims ++ special_prims ++ mutator_prims ++
  list_manip_prims ++ list_access_prims ++ list_function_prims ++ list_set_prims ++ alist_prims ++
  system_prims ++ bytearray_prims ++ string_prims ++ debug_prims ++ frame_prims ++ json_prims ++
  concurrency_prims ++ environment_prims ++ io_prims ++ channel_prims.

Fixpoint find_prim (n : string) (l : list prim) : option prim :=
  match l with [] => None | p :: r => if str_eqb n (p_name p) then Some p else find_prim n r end.
(** A built-in value carries its registered name; the record it stands for is found here. *)
Definition table (n : string) : option prim := find_prim n all_prims.

(** What each recursive Go function does. *)
Definition denote (X : Type) (r : req X) : prog X :=
  match r in req X return prog X with
  | REval d env needfn => eval_body d env needfn
  | RApply ev f args env => apply_body table ev f args env
  | REqual a b => equal_body a b
  | RCopy v => copy_body v
  | RString v => string_body v
  | RHasSlot key f vis => has_slot_body key f vis
  | RGetSlot key f vis => get_slot_body key f vis
  | RQuasi sexpr level env => quasi_body sexpr level env
  | RRecFlat v => rec_flatten_body v
  | RAlist v => alist_body v
  | RToJson v => to_json_body v
  | RToJsonF v => to_json_f_body v
  end.

(** ** Start-up *)

(** prim_setup.go:22-26 InitEnvironments; primitive_function.go:182-224 MakePrimitiveFunction etc.;
    prim_math.go (constants). *)
Fixpoint bind_all (g : loc) (l : list (string * val)) : prog unit :=
  match l with
  | [] => Ret tt
  | (n, v) :: r => bind_to_protected g (VSym n) v ;;; bind_all g r
  end.
Definition init_prog : prog unit :=
  g <- new_env_below None "SystemGlobal" ;;
  e <- empty_cons ;;
  bind_all g [("nil", e); ("system-global-environment", VEnv g)] ;;;
  bind_all g (map (fun '(n, b) => (n, VFloat (f32_of_bits b))) math_constants) ;;;
  bind_all g (map (fun p => (p_name p, VPrim (p_name p))) all_prims).
(** Nothing allocated yet; the global environment will be the first object, at address 2. *)
Definition blank (u : uni_table) (oracle : list Z) : state :=
  State 2%positive ∅ ∅ ∅ ∅ ∅ ∅ ∅ ∅ ∅ ∅ ∅ [] [] 2%positive oracle u [] [].
Definition initial (u : uni_table) (oracle : list Z) : state :=
  match run denote 3 init_prog (blank u oracle) with
  | Some (_, s) => s
  | None => blank u oracle
  end.

(** Running source text as the Go API does (parser.go:327 ParseAndEvalAll, 331 ParseAndEval). *)
Definition eval_text (n : nat) (src : string) (s : state) : option (outcome (res val) * state) :=
  run denote n (parse_and_eval_all src (s_global s)) s.
(** Run and print the result, for the worked examples. *)
Definition show (n : nat) (src : string) (s : state) : option (outcome (res string)) :=
  match run denote n (v <-? parse_and_eval_all src (s_global s) ;; t <- call (RString v) ;; ok t) s with
  | Some (o, _) => Some o
  | None => None
  end.
(** ASCII-only text: no non-ASCII rune has any property. *)
Definition ascii_uni : uni_table :=
  Uni (fun _ => false) (fun _ => false) (fun _ => false) (fun c => c) (fun c => c).
Definition start : state := initial ascii_uni [].
