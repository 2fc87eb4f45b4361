(** What C07, C08 and C09 mean: the functions that take a function, in terms of the calls they make. *)
From Verif Require Export SpecEval.
From Coq Require Import Permutation.
Local Open Scope string_scope.
Local Open Scope list_scope.

(** The value [f] applied from [env] to a new list of the values [xs] (C46 says what that does for functions and
    built-ins).  Nothing is assumed about it: it may fail, crash, print, change any object, or never return. *)
Definition call_on (f : val) (xs : list val) (env : loc) (s : state) : behaviour :=
  let '(l, s1) := new_list xs s in applied_values f l env s1.
(** Answering a new list. *)
Definition gives_list (xs : list val) (s : state) : behaviour := let '(l, s1) := new_list xs s in gives l s1.

(** *** Several lists side by side, up to the shortest *)
Fixpoint least_length (xss : list (list val)) : nat :=
  match xss with [] => 0 | [xs] => length xs | xs :: r => Nat.min (length xs) (least_length r) end.
Definition row (k : nat) (xss : list (list val)) : list val := map (fun xs => nth k xs VNil) xss.
Definition rows (xss : list (list val)) : list (list val) := map (fun k => row k xss) (seq 0 (least_length xss)).

(** *** The calls.  In each, the remaining argument tuples (or elements) are given. *)
Fixpoint map_over (f : val) (env : loc) (todo : list (list val)) (results : list val) (s : state) : behaviour :=
  match todo with
  | [] => gives_list results s
  | t :: r => after (call_on f t env s) (fun v s1 => map_over f env r (results ++ [v]) s1)
  end.
Fixpoint each_over (f : val) (env : loc) (todo : list (list val)) (s : state) : behaviour :=
  match todo with
  | [] => gives VNil s
  | t :: r => after (call_on f t env s) (fun _ s1 => each_over f env r s1)
  end.
(** [any_over]: until one is true.  [every_over]: until one is not. *)
Fixpoint any_over (f : val) (env : loc) (todo : list (list val)) (s : state) : behaviour :=
  match todo with
  | [] => gives (VBool false) s
  | t :: r => after (call_on f t env s) (fun v s1 => if truthy s1 v then gives (VBool true) s1 else any_over f env r s1)
  end.
Fixpoint every_over (f : val) (env : loc) (todo : list (list val)) (s : state) : behaviour :=
  match todo with
  | [] => gives (VBool true) s
  | t :: r => after (call_on f t env s) (fun v s1 => if truthy s1 v then every_over f env r s1 else gives (VBool false) s1)
  end.
(** The elements whose test gives [wanted]; a test that is not a boolean is an error. *)
Fixpoint select_over (who : string) (wanted : bool) (f : val) (env : loc) (xs found : list val) (s : state) : behaviour :=
  match xs with
  | [] => gives_list found s
  | x :: r => after (call_on f [x] env s) (fun v s1 =>
      match v with
      | VBool b => select_over who wanted f env r (if Bool.eqb b wanted then found ++ [x] else found) s1
      | _ => fails (who +++ " needs a predicate function as its first argument.") s1
      end)
  end.
(** The first element (with [answer x]: the element, or the list from there on) whose test is #t; #f if there is none.
    Every other answer, an error included, is reported as the test not being a predicate. *)
Fixpoint find_over (who : string) (f : val) (env : loc) (xs : list (val * val)) (s : state) : behaviour :=
  match xs with
  | [] => gives (VBool false) s
  | (x, answer) :: r => fun o s' => exists o1 s1, call_on f [x] env s o1 s1 /\
      match o1 with
      | Done (Ok (VBool true)) => gives answer s1 o s'
      | Done (Ok (VBool false)) => find_over who f env r s1 o s'
      | Done _ => fails (who +++ " needs a predicate function as its first argument.") s1 o s'
      | Panicked w => o = Panicked w /\ s' = s1
      end
  end.
(** The elements whose test is true, and the others. *)
Fixpoint split_over (f : val) (env : loc) (xs yes no : list val) (s : state) : behaviour :=
  match xs with
  | [] => let '(l1, s1) := new_list yes s in let '(l2, s2) := new_list no s1 in gives_list [l1; l2] s2
  | x :: r => after (call_on f [x] env s) (fun v s1 =>
      if truthy s1 v then split_over f env r (yes ++ [x]) no s1 else split_over f env r yes (no ++ [x]) s1)
  end.
(** (f ... (f (f acc x1) x2) ... xn) *)
Fixpoint left_nested (f : val) (env : loc) (acc : val) (xs : list val) (s : state) : behaviour :=
  match xs with
  | [] => gives acc s
  | x :: r => after (call_on f [acc; x] env s) (fun v s1 => left_nested f env v r s1)
  end.
(** (f x1 (f x2 ... (f xn acc))) *)
Fixpoint right_nested (f : val) (env : loc) (xs : list val) (acc : val) (s : state) : behaviour :=
  match xs with
  | [] => gives acc s
  | x :: r => after (right_nested f env r acc s) (fun v s1 => call_on f [x; v] env s1)
  end.

(** *** Lists that are being walked.  No cell of the list [v], as it was in [s0], has changed. *)
Inductive in_spine (s : state) : val -> loc -> Prop :=
| spine_here t l : in_spine s (VCell t l) l
| spine_next t l k : in_spine s (rest_of s (VCell t l)) k -> in_spine s (VCell t l) k.
Definition same_list (s0 s : state) (v : val) : Prop :=
  forall l : loc, in_spine s0 v l -> s_cells s !! l = s_cells s0 !! l.
(** While [f] is called on one argument tuple after the other, as long as the calls succeed, the lists [vs] stay as
    they were in [s0]. *)
Fixpoint undisturbed (f : val) (env : loc) (s0 : state) (vs : list val) (todo : list (list val)) (s : state) : Prop :=
  Forall (same_list s0 s) vs /\
  match todo with
  | [] => True
  | t :: r => forall v s1, call_on f t env s (Done (Ok v)) s1 -> undisturbed f env s0 vs r s1
  end.
(** The list from its k-th cell on. *)
Definition tail_at (s : state) (v : val) (k : nat) : val := Nat.iter k (rest_of s) v.

(** *** sort *)
(** What sort's comparison of [a] with [b] does: [less] called on them (a function through
    ApplyWithoutEval, hence never as a method). *)
Definition compares (less : val) (env : loc) (a b : val) (s : state) : behaviour :=
  let '(l, s1) := new_list [a; b] s in
  match less with
  | VFun fl => runs denote (fun_apply fl l env None false) s1
  | _ => applied_values less l env s1
  end.
(** While [I] holds, comparing any two of [xs] finishes with the answer [lt], and [I] still holds.  ([wf_state] holds in
    every state of every execution, see SpecAccess.) *)
Definition decides (less : val) (env : loc) (xs : list val) (I : state -> Prop) (lt : val -> val -> bool) : Prop :=
  forall a b s, In a xs -> In b xs -> wf_state s -> I s ->
    exists v s1, compares less env a b s (Done (Ok v)) s1 /\ truthy s1 v = lt a b /\ I s1.
(** [lt] is a strict weak order on [xs]. *)
Record strict_weak (lt : val -> val -> bool) (xs : list val) : Prop := {
  sw_irr : forall a, In a xs -> lt a a = false;
  sw_trans : forall a b c, In a xs -> In b xs -> In c xs -> lt a b = true -> lt b c = true -> lt a c = true;
  sw_incomp : forall a b c, In a xs -> In b xs -> In c xs ->
    lt a b = false -> lt b a = false -> lt b c = false -> lt c b = false -> lt a c = false }.
(** No element is less than an earlier one. *)
Definition ordered (lt : val -> val -> bool) (ys : list val) : Prop :=
  forall i j x y, (i < j)%nat -> nth_error ys i = Some x -> nth_error ys j = Some y -> lt y x = false.
(** [I] survives the creation of objects. *)
Definition stable (I : state -> Prop) : Prop := forall s s', I s -> wf_state s' -> grows s s' -> I s'.
(** [I] survives every comparison of elements of [xs] that succeeds. *)
Definition respects (less : val) (env : loc) (xs : list val) (I : state -> Prop) : Prop :=
  forall a b s v s1, In a xs -> In b xs -> I s -> compares less env a b s (Done (Ok v)) s1 -> I s1.
