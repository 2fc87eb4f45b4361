(** Vocabulary shared by the functional properties: calling a built-in, evaluating an expression, a value
    denoting a list, and a state that only grew. *)
From Verif Require Export SpecAccess.
Local Open Scope string_scope.
Local Open Scope list_scope.

(** Evaluating expression [e] in environment [env] (Eval of the Go API), alone, from [s]: it finishes with
    outcome [o] in state [s'].  [Done (Ok v)] is a value, [Done (Err m)] a Lisp error, [Panicked w] a Go panic. *)
Definition evals (e : val) (env : loc) (s : state) (o : outcome (res val)) (s' : state) : Prop :=
  runs denote (call (REval e env false)) s o s'.

(** The state after the log has recorded that built-in [name] was entered from [env]. *)
Definition entering (name : string) (env : loc) (s : state) : state := set_log (EPrim name env :: s_log s) s.

(** The built-in registered under [name], entered with the argument values [vs] (for a special form: the operand
    expressions).  How a call expression gets here is C51. *)
Definition applies (name : string) (vs : list val) (env : loc) (s : state) (o : outcome (res val)) (s' : state)
  : Prop :=
  exists p, In p all_prims /\ p_name p = name /\ runs denote (p_body p vs env) (entering name env s) o s'.

(** [s'] is [s] with possibly more objects: every object of [s] is still there, unchanged; no new goroutine,
    nothing printed, no outside effect (the log only gained entries of built-ins). *)
Definition kept {A} (m m' : Pmap A) : Prop := forall (l : loc) x, m !! l = Some x -> m' !! l = Some x.
Definition quiet (e : event) : Prop := exists n env, e = EPrim n env.
Record grows (s s' : state) : Prop := Grows {
  g_next : (s_next s <= s_next s')%positive;
  g_cells : kept (s_cells s) (s_cells s');
  g_strs : kept (s_strs s) (s_strs s');
  g_bytes : kept (s_bytes s) (s_bytes s');
  g_funs : kept (s_funs s) (s_funs s');
  g_macros : kept (s_macros s) (s_macros s');
  g_envs : kept (s_envs s) (s_envs s');
  g_binds : kept (s_binds s) (s_binds s');
  g_frames : kept (s_frames s) (s_frames s');
  g_chans : kept (s_chans s) (s_chans s');
  g_procs : kept (s_procs s) (s_procs s');
  g_atoms : kept (s_atoms s) (s_atoms s');
  g_gensyms : s_gensyms s' = s_gensyms s;
  g_tops : s_tops s' = s_tops s;
  g_global : s_global s' = s_global s;
  g_uni : s_uni s' = s_uni s;
  g_log : exists new, s_log s' = new ++ s_log s /\ Forall quiet new;
  g_pending : s_pending s' = s_pending s }.

(** [v] is a proper list with elements [xs].  The empty list is the Go nil pointer or a cell whose two fields are
    nil; a cell holding nothing (JSON) is empty too. *)
Inductive is_list (s : state) : val -> list val -> Prop :=
| il_nil : is_list s VNil []
| il_nocell : is_list s VNoCell []
| il_empty l : s_cells s !! (l : loc) = Some (VNil, VNil) -> is_list s (VCell TCons l) []
| il_cons l a d xs :
    s_cells s !! (l : loc) = Some (a, d) -> a <> VNil \/ d <> VNil -> is_list s d xs ->
    is_list s (VCell TCons l) (a :: xs).
(** [v] is the empty list. *)
Definition empty_list (s : state) (v : val) : Prop := is_list s v [].

(** Go code that builds a list stores an empty list in place of a Go nil element. *)
Definition elem_as (s : state) (x y : val) : Prop := (y = x /\ x <> VNil) \/ (x = VNil /\ empty_list s y).
(** [v] is a proper list holding [xs], with Go nils stored as empty lists. *)
Definition list_of (s : state) (v : val) (xs : list val) : Prop :=
  exists ys, Forall2 (elem_as s) xs ys /\ is_list s v ys.
(** No element is a Go nil (true of every list the reader, list, append, map, ... build). *)
Definition no_nils (xs : list val) : Prop := Forall (fun x => x <> VNil) xs.
