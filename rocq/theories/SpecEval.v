(** What C16-C22, C45-C47 and C51 mean: the effect of evaluating an expression, in terms of the effects of
    evaluating its parts. *)
From Verif Require Export SpecCall SpecTree.
Local Open Scope string_scope.
Local Open Scope list_scope.

(** A behaviour from a state: the possible outcome and final state (nothing if it never finishes). *)
Definition behaviour : Type := outcome (res val) -> state -> Prop.

(** Finishing at once, with a value or an error. *)
Definition gives (v : val) (s : state) : behaviour := fun o s' => o = Done (Ok v) /\ s' = s.
Definition fails (m : string) (s : state) : behaviour := fun o s' => o = Done (Err m) /\ s' = s.
(** Doing [b]; if it gives a value, going on with [k]; if it is an error or a crash, stopping right there. *)
Definition after (b : behaviour) (k : val -> state -> behaviour) : behaviour := fun o s' =>
  exists o1 s1, b o1 s1 /\
    match o1 with
    | Done (Ok v) => k v s1 o s'
    | Done (Err m) => fails m s1 o s'
    | Panicked w => o = Panicked w /\ s' = s1
    end.

(** #f, Go nil and the empty list count as false, everything else as true. *)
Definition truthy (s : state) (v : val) : bool :=
  match v with
  | VBool b => b
  | VNil | VNoCell => false
  | VCell _ l => match cell_at s l with (VNil, VNil) => false | _ => true end
  | _ => true
  end.

(** The fields of a pair, now. *)
Definition head_of (s : state) (v : val) : val := match v with VCell _ l => fst (cell_at s l) | _ => VNil end.
Definition rest_of (s : state) (v : val) : val := match v with VCell _ l => snd (cell_at s l) | _ => VNil end.
Definition at_end (s : state) (v : val) : Prop :=
  match v with VNil | VNoCell => True | VCell _ l => cell_at s l = (VNil, VNil) | _ => False end.

(** Evaluating expressions one after the other, the result being the last value ([last] if there is none). *)
Fixpoint eval_each (es : list val) (env : loc) (last : val) (s : state) : behaviour :=
  match es with
  | [] => gives last s
  | e :: r => after (evals e env s) (fun v s1 => eval_each r env v s1)
  end.
(** The same for expressions held in the cells of a list, which are read as the evaluation gets there. *)
Inductive eval_cells (env : loc) : val -> val -> state -> behaviour :=
| cells_end c last s : at_end s c -> eval_cells env c last s (Done (Ok last)) s
| cells_err c last s m s1 : ~ at_end s c ->
    evals (head_of s c) env s (Done (Err m)) s1 -> eval_cells env c last s (Done (Err m)) s1
| cells_crash c last s w s1 : ~ at_end s c ->
    evals (head_of s c) env s (Panicked w) s1 -> eval_cells env c last s (Panicked w) s1
| cells_next c last s v s1 o s2 : ~ at_end s c ->
    evals (head_of s c) env s (Done (Ok v)) s1 -> eval_cells env (rest_of s1 c) v s1 o s2 ->
    eval_cells env c last s o s2.

(** *** Environments *)
(** The binding of [n] in [env] itself. *)
Definition local_binding (s : state) (env : loc) (n : string) : option loc := alookup n (e_binds (env_at s env)).
(** The innermost binding of [n] visible from [env], if any. *)
Inductive visible (s : state) (n : string) : loc -> option loc -> Prop :=
| visible_here env b : local_binding s env n = Some b -> visible s n env (Some b)
| visible_above env p r : local_binding s env n = None -> e_parent (env_at s env) = Some p ->
    visible s n p r -> visible s n env r
| visible_nowhere env : local_binding s env n = None -> e_parent (env_at s env) = None -> visible s n env None.
Definition value_in (s : state) (b : loc) : val := b_val (bind_at s b).
(** Reading a function through a name records on the function object whether the name was found locally. *)
Definition noted (found_locally : bool) (v : val) (s : state) : state :=
  match v with
  | VFun l => match s_funs s !! l with
              | Some f => set_funs (<[l := FnState (fn_code f) found_locally (fn_proc f)]> (s_funs s)) s
              | None => s
              end
  | _ => s
  end.
(** Asking a frame whether it has a slot, and for its value (HasSlot and Get of the Go API; see C23). *)
Definition asks_slot (f : loc) (k : string) (s : state) (o : outcome bool) (s' : state) : Prop := runs denote (has_slot f k) s o s'.
Definition reads_slot (f : loc) (k : string) (s : state) (o : outcome val) (s' : state) : Prop := runs denote (get_slot f k) s o s'.
Definition slot_name (n : string) : string := n +++ ":".
Definition is_function (v : val) : bool := match v with VFun _ => true | _ => false end.
(** The value of [n] in the innermost environment, from [env] outwards, that binds it; a new () if none does. *)
Definition finds_above (env : loc) (n : string) (s : state) : behaviour := fun o s' =>
  exists r, visible s n env r /\
    match r with
    | Some b => gives (value_in s b) (noted false (value_in s b) s) o s'
    | None => gives (VCell TCons (s_next s)) (set_cells (<[s_next s := (VNil, VNil)]> (s_cells s)) (bump s)) o s'
    end.
(** The value of symbol [n] in [env]: bound in [env] itself, else a slot of the frame [env] belongs to (in operator
    position only a function), else from the environments around. *)
Definition finds (operator : bool) (env : loc) (n : string) (s : state) : behaviour :=
  match local_binding s env n with
  | Some b => gives (value_in s b) (noted true (value_in s b) s)
  | None =>
      match e_frame (env_at s env) with
      | None => finds_above env n s
      | Some f => fun o s' => exists o1 s1, asks_slot f (slot_name n) s o1 s1 /\
          match o1 with
          | Done true => exists o2 s2, reads_slot f (slot_name n) s1 o2 s2 /\
              match o2 with
              | Done v => (if is_function v then gives v (noted true v s2)
                           else if operator then finds_above env n s2 else gives v s2) o s'
              | Panicked w => o = Panicked w /\ s' = s2
              end
          | Done false => finds_above env n s1 o s'
          | Panicked w => o = Panicked w /\ s' = s1
          end
      end
  end.

(** A new environment below [parent], at address [s_next s].  Those directly below the global environment are
    also listed by name. *)
Definition open_env (name : string) (parent : loc) (frame : option loc) (s : state) : state :=
  let new := set_envs (<[s_next s := Env name (Some parent) frame [] (e_restricted (env_at s parent))]> (s_envs s)) (bump s) in
  if Pos.eqb parent (s_global s) then set_tops (aset name (s_next s) (s_tops s)) new else new.

(** Giving the binding at [b] a value. *)
Definition assign (b : loc) (v : val) (s : state) : state :=
  set_binds (put b (Binding (b_sym (bind_at s b)) v (b_prot (bind_at s b))) (s_binds s)) s.
(** The name a value stands for when used as one. *)
Definition name_of (s : state) (v : val) : string := match v with VSym n => n | VStr l => str_at s l | _ => "" end.
(** Adding a binding to [env]. *)
Definition add_binding (env : loc) (sym v : val) (s : state) : state :=
  let e := env_at s env in
  set_envs (put env (Env (e_name e) (e_parent e) (e_frame e) (aset (name_of s sym) (s_next s) (e_binds e)) (e_restricted e)) (s_envs s))
    (set_binds (<[s_next s := Binding sym v false]> (s_binds s)) (bump s)).
(** Binding a symbol in [env] itself: a protected binding refuses. *)
Definition bind_here (env : loc) (sym v : val) (s : state) : option state :=
  match local_binding s env (name_of s sym) with
  | Some b => if b_prot (bind_at s b) then None else Some (assign b v s)
  | None => Some (add_binding env sym v s)
  end.
Definition is_protected (n : string) : string := n +++ " is a protected binding".
Definition then_bind (env : loc) (sym v : val) (s : state) (k : state -> behaviour) : behaviour :=
  match bind_here env sym v s with Some s' => k s' | None => fails (is_protected (name_of s sym)) s end.
(** set!: the binding of [n] in [env] itself, else the slot of the frame [env] belongs to, else the innermost visible
    binding; a protected or missing binding is an error. *)
Definition put_slot (f : loc) (k : string) (v : val) (s : state) : state :=
  set_frames (put f (aset k v (frame_at s f)) (s_frames s)) s.
Definition writes_to (b : loc) (n : string) (v : val) (s : state) : behaviour :=
  if b_prot (bind_at s b) then fails (is_protected n) s else gives v (assign b v s).
Definition sets_above (env : loc) (n : string) (v : val) (s : state) : behaviour := fun o s' =>
  exists r, visible s n env r /\
    match r with Some b => writes_to b n v s o s' | None => fails (n +++ " is undefined") s o s' end.
Definition sets (env : loc) (n : string) (v : val) (s : state) : behaviour :=
  match local_binding s env n with
  | Some b => writes_to b n v s
  | None =>
      match e_frame (env_at s env) with
      | None => sets_above env n v s
      | Some f => fun o s' => exists o1 s1, asks_slot f (slot_name n) s o1 s1 /\
          match o1 with
          | Done true => gives v (put_slot f (slot_name n) v s1) o s'
          | Done false => sets_above env n v s1 o s'
          | Panicked w => o = Panicked w /\ s' = s1
          end
      end
  end.

(** *** Conditional forms *)
Fixpoint and_of (es : list val) (env : loc) (last : val) (s : state) : behaviour :=
  match es with
  | [] => gives last s
  | e :: r => after (evals e env s) (fun v s1 => if truthy s1 v then and_of r env v s1 else gives v s1)
  end.
Fixpoint or_of (es : list val) (env : loc) (last : val) (s : state) : behaviour :=
  match es with
  | [] => gives last s
  | e :: r => after (evals e env s) (fun v s1 => if truthy s1 v then gives v s1 else or_of r env v s1)
  end.
(** Clauses (test expression ...) in order; the test may be the symbol else. *)
Definition is_symbol (n : string) (v : val) : bool := match v with VSym t => str_eqb t n | _ => false end.
Definition is_pair (v : val) : bool := match v with VNil | VCell TCons _ | VNoCell => true | _ => false end.
Fixpoint cond_of (clauses : list val) (env : loc) (s : state) : behaviour :=
  match clauses with
  | [] => gives VNil s
  | c :: r =>
      if is_pair c then
        if is_symbol "else" (head_of s c) then eval_cells env (rest_of s c) VNil s
        else after (evals (head_of s c) env s)
               (fun v s1 => if truthy s1 v then eval_cells env (rest_of s1 c) VNil s1 else cond_of r env s1)
      else fails "Cond expect a sequence of clauses that are lists" s
  end.
(** The body case selects for a key representing the tree [k]: of the first clause that is an else clause or
    lists a value representing [k]. *)
Inductive picks (s : state) (k : datum) : list val -> option val -> Prop :=
| picks_none : picks s k [] None
| picks_else c r : is_pair c = true -> head_of s c = VSym "else" -> picks s k (c :: r) (Some (rest_of s c))
| picks_this c r xs ds : is_pair c = true -> is_list s (head_of s c) xs -> Forall2 (rep s) xs ds ->
    Forall frameless ds -> In k ds -> picks s k (c :: r) (Some (rest_of s c))
| picks_later c r xs ds x : is_pair c = true -> is_list s (head_of s c) xs -> Forall2 (rep s) xs ds ->
    Forall frameless ds -> ~ In k ds -> picks s k r x -> picks s k (c :: r) x.

(** *** New objects, at the next free address *)
Definition fresh_cell (a d : val) (s : state) : val * state :=
  (VCell TCons (s_next s), set_cells (<[s_next s := (a, d)]> (s_cells s)) (bump s)).
Definition fresh_string (x : string) (s : state) : val * state :=
  (VStr (s_next s), set_strs (<[s_next s := x]> (s_strs s)) (bump s)).
Definition fresh_function (f : fn) (s : state) : loc * state :=
  (s_next s, set_funs (<[s_next s := FnState f false None]> (s_funs s)) (bump s)).
(** A value to be stored in a new list: an empty list for a Go nil. *)
Definition stored (v : val) (s : state) : val * state :=
  match v with VNil => fresh_cell VNil VNil s | _ => (v, s) end.
(** A new list of [vs] in front of [tl]; and a new list of [vs]. *)
Fixpoint new_tail (vs : list val) (tl : val) (s : state) : val * state :=
  match vs with
  | [] => (tl, s)
  | v :: r => let '(t, s1) := new_tail r tl s in let '(v', s2) := stored v s1 in fresh_cell v' t s2
  end.
Definition new_list (vs : list val) (s : state) : val * state :=
  match vs with [] => fresh_cell VNil VNil s | _ => new_tail vs VNil s end.

(** *** Passing arguments.  [argument x s] is what happens to an operand [x]: it is evaluated, or passed as it is. *)
Definition evaluated (env : loc) (x : val) (s : state) : behaviour := evals x env s.
Definition as_it_is (x : val) (s : state) : behaviour := gives x s.
(** All operands in the cells of [args], from left to right; then [k] with the values. *)
Inductive collects (argument : val -> state -> behaviour) (k : list val -> state -> behaviour)
  : list val -> val -> state -> behaviour :=
| collect_end vs args s o s' : at_end s args -> k vs s o s' -> collects argument k vs args s o s'
| collect_err vs args s m s1 : ~ at_end s args -> argument (head_of s args) s (Done (Err m)) s1 ->
    collects argument k vs args s (Done (Err m)) s1
| collect_crash vs args s w s1 : ~ at_end s args -> argument (head_of s args) s (Panicked w) s1 ->
    collects argument k vs args s (Panicked w) s1
| collect_next vs args s v s1 o s' : ~ at_end s args -> argument (head_of s args) s (Done (Ok v)) s1 ->
    collects argument k (vs ++ [v]) (rest_of s1 args) s1 o s' -> collects argument k vs args s o s'.
(** Operands and parameters side by side, each parameter bound in [le] as soon as its operand is done; a rest
    parameter gets a new list of what remains; then [k]. *)
Inductive passes (argument : val -> state -> behaviour) (le : loc) (k : state -> behaviour)
  : val -> val -> state -> behaviour :=
| pass_end ps args s o s' : at_end s args -> symbolp ps = false -> k s o s' -> passes argument le k ps args s o s'
| pass_err ps args s m s1 : ~ at_end s args -> symbolp ps = false -> argument (head_of s args) s (Done (Err m)) s1 ->
    passes argument le k ps args s (Done (Err m)) s1
| pass_crash ps args s w s1 : ~ at_end s args -> symbolp ps = false -> argument (head_of s args) s (Panicked w) s1 ->
    passes argument le k ps args s (Panicked w) s1
| pass_refused ps args s v s1 : ~ at_end s args -> symbolp ps = false ->
    argument (head_of s args) s (Done (Ok v)) s1 -> bind_here le (head_of s1 ps) v s1 = None ->
    passes argument le k ps args s (Done (Err (is_protected (name_of s1 (head_of s1 ps))))) s1
| pass_next ps args s v s1 s2 o s' : ~ at_end s args -> symbolp ps = false ->
    argument (head_of s args) s (Done (Ok v)) s1 -> bind_here le (head_of s1 ps) v s1 = Some s2 ->
    passes argument le k (rest_of s2 ps) (rest_of s2 args) s2 o s' -> passes argument le k ps args s o s'
| pass_rest ps args s o s' : symbolp ps = true ->
    collects argument (fun vs s1 => let '(l, s2) := new_list vs s1 in then_bind le ps l s2 k) [] args s o s' ->
    passes argument le k ps args s o s'.

(** *** Calling a function *)
Definition enough (rest : bool) (n : Z) (got : nat) : bool :=
  if rest then Z.leb n (Z.of_nat got) else Z.eqb (Z.of_nat got) n.
Definition in_function (name m : string) : string := "In '" +++ name +++ "': " +++ m.
(** The expressions of a function body, in [le]; an error is reported with the function's name. *)
Definition runs_body (f : fn) (le : loc) (s : state) : behaviour := fun o s' =>
  exists o1, eval_cells le (f_body f) VNil s o1 s' /\
    o = match o1 with Done (Err m) => Done (Err (in_function (f_name f) m)) | _ => o1 end.
Definition bind_if_any (le : loc) (n : string) (v : option val) (s : state) (k : state -> behaviour) : behaviour :=
  match v with Some v => then_bind le (VSym n) v s k | None => k s end.
(** The function at [fl] called from [env] as a method of [receiver] (if any) with the operands in [args], of
    which there are [got]. *)
Definition calls_function (fl : loc) (receiver : option loc) (argument : val -> state -> behaviour) (args : val) (got : nat)
  (env : loc) (s : state) : behaviour :=
  let f := fn_code (fun_at s fl) in
  let le := s_next s in
  let s1 := open_env (f_name f) (f_env f) (match receiver with Some r => Some r | None => e_frame (env_at s (f_env f)) end) s in
  let self := match receiver with
              | Some r => Some (VFrame r)
              | None => if fn_slot (fun_at s fl) then option_map (value_in s1) (local_binding s1 env "self") else None
              end in
  bind_if_any le "self" self s1 (fun s2 =>
  bind_if_any le "parentProcess" (option_map VProc (fn_proc (fun_at s2 fl))) s2 (fun s3 =>
  if enough (f_varargs f) (f_req f) got
  then passes argument le (runs_body f le) (f_params f) args s3
  else fails (arity_msg (f_name f) (f_varargs f) (f_req f) (Z.of_nat got)) s3)).
(** Called as a plain function: no receiver, no self at hand, not started by fork. *)
Definition plain_call (s : state) (fl : loc) (env : loc) : Prop :=
  (fn_slot (fun_at s fl) = false \/ (e_frame (env_at s env) = None /\ local_binding s env "self" = None)) /\
  fn_proc (fun_at s fl) = None.
(** A macro called from [env]: operands bound as they are, the body evaluated below the macro's environment, and its
    value evaluated in [env]. *)
Definition calls_macro (ml : loc) (args : val) (got : nat) (env : loc) (s : state) : behaviour :=
  let m := mac_at s ml in
  let le := s_next s in
  let s1 := open_env (m_name m) (m_env m) (e_frame (env_at s (m_env m))) s in
  if enough (m_varargs m) (m_req m) got
  then passes as_it_is le (fun s2 => after (evals (m_body m) le s2) (fun x s3 => evals x env s3)) (m_params m) args s1
  else fails (arity_msg (m_name m) (m_varargs m) (m_req m) (Z.of_nat got)) s1.

(** [f] applied from [env] to the operand expressions in [args] (Apply of the Go API), or to the values in [args]
    (ApplyWithoutEval). *)
Definition applied (f args : val) (env : loc) (s : state) : behaviour := runs denote (call (RApply true f args env)) s.
Definition applied_values (f args : val) (env : loc) (s : state) : behaviour := runs denote (call (RApply false f args env)) s.
(** The value [sym] has in [env] (ValueOf of the Go API; see C45). *)
Definition reads (sym : val) (env : loc) (s : state) : behaviour := runs denote (v <- value_of env sym false ;; ok v) s.

(** The parameters of a parameter list: how many, and whether there is a rest parameter. *)
Inductive parameters (s : state) : val -> nat -> bool -> Prop :=
| params_nil : parameters s VNil 0 false
| params_none : parameters s VNoCell 0 false
| params_empty l : s_cells s !! (l : loc) = Some (VNil, VNil) -> parameters s (VCell TCons l) 0 false
| params_rest n : parameters s (VSym n) 0 true
| params_next l a d n r : s_cells s !! (l : loc) = Some (a, d) -> a <> VNil \/ d <> VNil -> parameters s d n r ->
    parameters s (VCell TCons l) (S n) r.

(** *** Local bindings *)
(** ((name expression) ...) *)
Definition bindings (s : state) (v : val) (names : list string) : Prop :=
  exists bs, is_list s v bs /\ Forall2 (fun b n => is_pair b = true /\ head_of s b = VSym n) bs names.
Fixpoint declares (le : loc) (ns : list string) (s : state) (k : state -> behaviour) : behaviour :=
  match ns with [] => k s | n :: r => then_bind le (VSym n) VNil s (fun s1 => declares le r s1 k) end.
(** The initial expressions are evaluated in [env] in order, each binding its name in [le]; then [k]. *)
Inductive initialises (env le : loc) (k : state -> behaviour) : val -> state -> behaviour :=
| init_end c s o s' : at_end s c -> k s o s' -> initialises env le k c s o s'
| init_err c s m s1 : ~ at_end s c -> evals (head_of s (rest_of s (head_of s c))) env s (Done (Err m)) s1 ->
    initialises env le k c s (Done (Err m)) s1
| init_crash c s w s1 : ~ at_end s c -> evals (head_of s (rest_of s (head_of s c))) env s (Panicked w) s1 ->
    initialises env le k c s (Panicked w) s1
| init_refused c s v s1 : ~ at_end s c -> evals (head_of s (rest_of s (head_of s c))) env s (Done (Ok v)) s1 ->
    bind_here le (head_of s (head_of s c)) v s1 = None ->
    initialises env le k c s (Done (Err (is_protected (name_of s1 (head_of s (head_of s c)))))) s1
| init_next c s v s1 s2 o s' : ~ at_end s c -> evals (head_of s (rest_of s (head_of s c))) env s (Done (Ok v)) s1 ->
    bind_here le (head_of s (head_of s c)) v s1 = Some s2 ->
    initialises env le k (rest_of s2 c) s2 o s' -> initialises env le k c s o s'.

(** *** Call expressions *)
(** A head that is not one of the shortcuts: <-c, c<-, slot:, slot:!, slot:?, slot:>, slot:^ *)
Definition plain_head (v : val) : Prop :=
  match v with
  | VSym n => has_prefix "<-" n = false /\ has_suffix "<-" n = false /\ has_suffix ":" n = false /\ has_suffix ":!" n = false /\
      has_suffix ":?" n = false /\ has_suffix ":>" n = false /\ has_suffix ":^" n = false
  | _ => True
  end.
(** The argument values given to a built-in: an empty list in place of a Go nil. *)
Fixpoint all_stored (vs : list val) (s : state) : list val * state :=
  match vs with
  | [] => ([], s)
  | v :: r => let '(v', s1) := stored v s in let '(r', s2) := all_stored r s1 in (v' :: r', s2)
  end.
(** Argument counts a built-in accepts, as written in its registration: * , n, >=n, (lo,hi), alternatives by |. *)
Inductive count_term := AnyCount | Exactly (n : Z) | AtLeast (n : Z) | Between (lo hi : Z).
Definition term_text (t : count_term) : string :=
  match t with
  | AnyCount => "*"
  | Exactly n => string_of_Z n
  | AtLeast n => ">=" +++ string_of_Z n
  | Between lo hi => "(" +++ string_of_Z lo +++ "," +++ string_of_Z hi +++ ")"
  end.
Definition counts_text (ts : list count_term) : string := str_join "|" (map term_text ts).
Definition admits (t : count_term) (n : nat) : Prop :=
  match t with
  | AnyCount => True
  | Exactly k => Z.of_nat n = k
  | AtLeast k => (k <= Z.of_nat n)%Z
  | Between lo hi => (lo <= Z.of_nat n <= hi)%Z
  end.
(** Numbers in terms are natural numbers that fit in an int. *)
Definition sane (t : count_term) : Prop :=
  match t with
  | AnyCount => True
  | Exactly k | AtLeast k => (0 <= k <= int64_max)%Z
  | Between lo hi => (0 <= lo <= int64_max)%Z /\ (0 <= hi <= int64_max)%Z
  end.
(** The specification of [p] is the text of [ts]. *)
Definition declared (p : prim) (ts : list count_term) : Prop := p_spec p = counts_text ts /\ Forall sane ts.
Definition accepts (ts : list count_term) (n : nat) : Prop := exists t, In t ts /\ admits t n.
(** What an operator evaluates to. *)
Definition operator (h : val) (env : loc) (s : state) : behaviour :=
  match h with
  | VSym n => if has_suffix ":" n then gives h s else finds true env n s
  | _ => evals h env s
  end.
(** A built-in entered with these argument values. *)
Definition enters (name : string) (env : loc) (vs : list val) (s : state) : behaviour :=
  let '(xs, s1) := all_stored vs s in applies name xs env s1.
(** *** do loops.  One variable is (name init) or (name init step). *)
(** The new values of all variables, computed one after the other without changing any. *)
Inductive steps (le : loc) : list (val * val) -> val -> state -> outcome (res (list (val * val))) -> state -> Prop :=
| steps_end nvs c s : at_end s c -> steps le nvs c s (Done (Ok nvs)) s
| steps_err nvs c s m s1 name init step rest : ~ at_end s c -> is_list s (head_of s c) (name :: init :: step :: rest) ->
    ~ at_end s step -> evals step le s (Done (Err m)) s1 -> steps le nvs c s (Done (Err m)) s1
| steps_crash nvs c s w s1 name init step rest : ~ at_end s c -> is_list s (head_of s c) (name :: init :: step :: rest) ->
    ~ at_end s step -> evals step le s (Panicked w) s1 -> steps le nvs c s (Panicked w) s1
| steps_next nvs c s v s1 o s' name init step rest : ~ at_end s c -> is_list s (head_of s c) (name :: init :: step :: rest) ->
    ~ at_end s step -> evals step le s (Done (Ok v)) s1 ->
    steps le (nvs ++ [(name, v)]) (rest_of s1 c) s1 o s' -> steps le nvs c s o s'
| steps_same nvs c s v s1 o s' name init : ~ at_end s c -> is_list s (head_of s c) [name; init] ->
    reads name le s (Done (Ok v)) s1 ->
    steps le (nvs ++ [(name, v)]) (rest_of s1 c) s1 o s' -> steps le nvs c s o s'.
Fixpoint rebinds (le : loc) (nvs : list (val * val)) (s : state) (k : state -> behaviour) : behaviour :=
  match nvs with [] => k s | (n, v) :: r => then_bind le n v s (fun s1 => rebinds le r s1 k) end.
(** The loop: [last] is the value of the body so far. *)
Inductive loops (le : loc) (test : val) (body : list val) (vars : val) : val -> state -> behaviour :=
| loop_test_err last s m s1 : evals (head_of s test) le s (Done (Err m)) s1 -> loops le test body vars last s (Done (Err m)) s1
| loop_test_crash last s w s1 : evals (head_of s test) le s (Panicked w) s1 -> loops le test body vars last s (Panicked w) s1
| loop_done last s v s1 o s' : evals (head_of s test) le s (Done (Ok v)) s1 -> truthy s1 v = true ->
    eval_cells le (rest_of s1 test) last s1 o s' -> loops le test body vars last s o s'
| loop_body_err last s v s1 m s2 : evals (head_of s test) le s (Done (Ok v)) s1 -> truthy s1 v = false ->
    eval_each body le last s1 (Done (Err m)) s2 -> loops le test body vars last s (Done (Err m)) s2
| loop_body_crash last s v s1 w s2 : evals (head_of s test) le s (Done (Ok v)) s1 -> truthy s1 v = false ->
    eval_each body le last s1 (Panicked w) s2 -> loops le test body vars last s (Panicked w) s2
| loop_step_crash last s v s1 x s2 w s3 : evals (head_of s test) le s (Done (Ok v)) s1 -> truthy s1 v = false ->
    eval_each body le last s1 (Done (Ok x)) s2 -> steps le [] vars s2 (Panicked w) s3 ->
    loops le test body vars last s (Panicked w) s3
| loop_step_err last s v s1 x s2 m s3 : evals (head_of s test) le s (Done (Ok v)) s1 -> truthy s1 v = false ->
    eval_each body le last s1 (Done (Ok x)) s2 -> steps le [] vars s2 (Done (Err m)) s3 ->
    (* sic: the error is dropped, the loop ends with the body's value *)
    loops le test body vars last s (Done (Ok x)) s3
| loop_again last s v s1 x s2 nvs s3 s4 o s' : evals (head_of s test) le s (Done (Ok v)) s1 -> truthy s1 v = false ->
    eval_each body le last s1 (Done (Ok x)) s2 -> steps le [] vars s2 (Done (Ok nvs)) s3 ->
    rebinds le nvs s3 (gives VNil) (Done (Ok VNil)) s4 ->
    loops le test body vars x s4 o s' -> loops le test body vars last s o s'.
(** *** on-error *)
Definition handles (h : val) (env : loc) (m : string) (s : state) : behaviour :=
  after (evals h env s) (fun f s1 =>
    match f with
    | VFun fl => let '(x, s2) := fresh_string m s1 in let '(l, s3) := new_list [x] s2 in calls_function fl None (evaluated env) l 1 env s3
    | _ => fails "on-error requires a function as it's second argument" s1
    end).
(** The state after looking up [n], found at [r]. *)
Definition after_lookup (s : state) (env : loc) (n : string) (r : option loc) : state :=
  match r with
  | Some b => noted (match local_binding s env n with Some _ => true | None => false end) (value_in s b) s
  | None => snd (fresh_cell VNil VNil s)
  end.
Definition is_builtin (s : state) (r : option loc) : bool :=
  match r with Some b => match value_in s b with VPrim _ => true | _ => false end | None => false end.
(** *** Named let *)
(** ((name expression) ...) with these names and expressions *)
Definition named_bindings (s : state) (v : val) (names : list string) (es : list val) : Prop :=
  exists bs, is_list s v bs /\ Forall2 (fun b n => head_of s b = VSym n) bs names /\
    Forall2 (fun b e => head_of s (rest_of s b) = e /\ e <> VNil) bs es.
(** *** apply *)
(** A list that ends with a nil pointer (as lists built by the reader and by list do), not with an empty cell. *)
Inductive nil_ended (s : state) : val -> list val -> Prop :=
| ne_nil : nil_ended s VNil []
| ne_cons l a d xs : s_cells s !! (l : loc) = Some (a, d) -> a <> VNil \/ d <> VNil -> nil_ended s d xs ->
    nil_ended s (VCell TCons l) (a :: xs).
(** [n] is the built-in of that name in [env]. *)
Definition means_builtin (env : loc) (n : string) (s : state) : Prop :=
  exists b, visible s n env (Some b) /\ value_in s b = VPrim n /\ (e_frame (env_at s env) = None \/ local_binding s env n = Some b).
(** *** What may change *)
(** The only difference is the value of the binding at [b]. *)
Definition only_binding (b : loc) (s s' : state) : Prop :=
  s' = set_binds (s_binds s') s /\ forall k, k <> b -> bind_at s' k = bind_at s k.
(** Every environment keeps its parent. *)
Definition parents_fixed (s s' : state) : Prop :=
  forall (l : loc) e, s_envs s !! l = Some e -> exists e', s_envs s' !! l = Some e' /\ e_parent e' = e_parent e.
