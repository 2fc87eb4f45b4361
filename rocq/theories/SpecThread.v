(** Vocabulary of C59: forms that build code or evaluate it. *)
From Verif Require Export SpecEval SpecRead.
Local Open Scope string_scope.
Local Open Scope list_scope.

Definition list_like (v : val) : bool := match v with VNil | VNoCell | VCell TCons _ | VCell TAlist _ => true | _ => false end.
(** A step of -> and => with the value put in: (f x y) becomes (f value x y), and f alone becomes (f value). *)
Definition threaded (step value : val) (s : state) : val * state :=
  if list_like step
  then let '(rest, s1) := fresh_cell value (rest_of s step) s in fresh_cell (head_of s step) rest s1
  else let '(rest, s1) := fresh_cell value VNil s in fresh_cell step rest s1.
(** The steps in order: each gets the value of the one before, and the last value is the result; *)
Fixpoint chain_of (steps : list val) (value : val) (env : loc) (s : state) : behaviour :=
  match steps with
  | [] => gives value s
  | x :: r => let '(code, s1) := threaded x value s in after (evals code env s1) (fun v s2 => chain_of r v env s2)
  end.
(** or each gets the same value, which is the result. *)
Fixpoint tap_of (steps : list val) (value : val) (env : loc) (s : state) : behaviour :=
  match steps with
  | [] => gives value s
  | x :: r => let '(code, s1) := threaded x value s in after (evals code env s1) (fun _ s2 => tap_of r value env s2)
  end.
Definition fresh_macro (m : mac) (s : state) : loc * state :=
  (s_next s, set_macros (<[s_next s := m]> (s_macros s)) (bump s)).
(** The expansion of a macro call: the operands are bound as they are and the body is evaluated below the macro's
    environment; the code it gives is the result. *)
Definition expands (ml : loc) (args : val) (got : nat) (s : state) : behaviour :=
  let m := mac_at s ml in
  let le := s_next s in
  let s1 := open_env (m_name m) (m_env m) (e_frame (env_at s (m_env m))) s in
  if enough (m_varargs m) (m_req m) got
  then passes as_it_is le (evals (m_body m) le) (m_params m) args s1
  else fails (arity_msg (m_name m) (m_varargs m) (m_req m) (Z.of_nat got)) s1.
(** The name by which a function without one is defined again: that of the operand, if it is a symbol. *)
Definition called_name (e : val) : string := match e with VSym n => n | _ => "anonymous" end.
(** New code that defines a function again: (define (name . parameters) . body), or
    (define called (lambda parameters . body)) for a function without a name of its own. *)
Definition code_for (f : fn) (called : string) (s : state) : val * state :=
  if str_eqb (f_name f) "unnamed" then
    let '(a, s1) := fresh_cell (f_params f) (f_body f) s in
    let '(b, s2) := fresh_cell (VSym "lambda") a s1 in
    let '(c, s3) := fresh_cell b VNil s2 in
    let '(d, s4) := fresh_cell (VSym called) c s3 in fresh_cell (VSym "define") d s4
  else
    let '(a, s1) := fresh_cell (VSym (f_name f)) (f_params f) s in
    let '(b, s2) := fresh_cell a (f_body f) s1 in fresh_cell (VSym "define") b s2.
