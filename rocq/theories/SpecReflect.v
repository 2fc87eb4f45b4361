(** Vocabulary of C60: environments as values. *)
From Verif Require Export SpecEval.
From Coq Require Import Permutation.
Local Open Scope string_scope.
Local Open Scope list_scope.

(** What [n] is bound to as seen from environment [e]: nothing, or a value (a Go nil for a name declared without one). *)
Definition with_lookup (e : loc) (n : string) (s : state) (k : option val -> behaviour) : behaviour := fun o s' =>
  exists r, visible s n e r /\ k (option_map (value_in s) r) o s'.
Definition bound (r : option val) : bool := match r with Some _ => true | None => false end.
Definition reference_type (r : option val) : string :=
  match r with None => "unbound" | Some VNil => "unassigned" | Some (VMacro _) => "macro" | Some _ => "normal" end.
Definition says_assigned (s : state) (r : option val) : behaviour :=
  match r with
  | None => fails "environment-assigned?: name is unbound" s
  | Some VNil => gives (VBool false) s
  | Some (VMacro _) => fails "environment-assigned?: name is bound to a macro" s
  | Some _ => gives (VBool true) s
  end.
Definition says_value (s : state) (r : option val) : behaviour :=
  match r with
  | None => fails "environment-lookup: name is unbound" s
  | Some VNil => fails "environment-lookup: name is unassigned" s
  | Some (VMacro _) => fails "environment-lookup: name is bound to a macro" s
  | Some v => gives v s
  end.
Definition macro_or_false (r : option val) : val := match r with Some (VMacro m) => VMacro m | _ => VBool false end.
(** The names bound in [e] itself, with their bindings; and that each binding was made under the symbol of that name
    (not so for parameters that are strings). *)
Definition own_bindings (s : state) (e : loc) : list (string * loc) := e_binds (env_at s e).
Definition made_with_symbols (s : state) (e : loc) : Prop :=
  Forall (fun p => b_sym (bind_at s (snd p)) = VSym (fst p)) (own_bindings s e).
(** No binding refers to a cell that does not exist (see C53). *)
Definition values_exist (s : state) (e : loc) : Prop :=
  Forall (fun p => forall t (l : loc), value_in s (snd p) = VCell t l -> s_cells s !! l <> None) (own_bindings s e).
Definition is_macro (v : val) : bool := match v with VMacro _ => true | _ => false end.
(** No value, or (). *)
Definition nothing (s : state) (v : val) : bool :=
  match v with VNil | VNoCell => true | VCell _ l => match cell_at s l with (VNil, VNil) => true | _ => false end | _ => false end.
(** [v] lists the binding [p]: (name value), or (name) if there is no value or it is (). *)
Definition lists_binding (s0 s : state) (v : val) (p : string * loc) : Prop :=
  is_list s v (VSym (fst p) :: if nothing s0 (value_in s0 (snd p)) then [] else [value_in s0 (snd p)]).
(** The state in which [e] is restricted. *)
Definition restricted_now (e : loc) (s : state) : state :=
  let x := env_at s e in set_envs (put e (Env (e_name x) (e_parent x) (e_frame x) (e_binds x) true) (s_envs s)) s.
(** Binding several names in [le], in order. *)
Fixpoint bind_each (le : loc) (l : list (string * val)) (s : state) (k : state -> behaviour) : behaviour :=
  match l with
  | [] => k s
  | (n, v) :: r => then_bind le (VSym n) v s (fun s1 => bind_each le r s1 k)
  end.
(** A new environment directly below the global one. *)
Definition open_top (name : string) (s : state) : state := open_env name (s_global s) (e_frame (env_at s (s_global s))) s.
