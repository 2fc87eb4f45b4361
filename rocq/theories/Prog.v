(** Programs: the code of the interpreter as trees of state operations, calls and loops.

    Every Go function modelled here becomes a value of type [prog].  Straight-line code is sequencing;
    `for` loops over heap structures are [Iter]; Go-level recursion goes through [Call] with a
    first-order request naming the recursive function and its arguments. *)
From Verif Require Export Values.
From stdpp Require Import list.
Local Open Scope Z_scope.

(** A decoded JSON document (encoding/json's interface{} tree).  Floats are IEEE binary64
    (SpecFloat with precision 53, emax 1024); [JInt] is what marshalling an int64 produces. *)
Inductive json :=
| JNull
| JBool (b : bool)
| JInt (z : Z)
| JNum (f : spec_float)
| JStr (s : string)
| JArr (l : list json)
| JObj (l : list (string * json)).

(** The recursive functions of the interpreter. *)
Inductive req : Type -> Type :=
| REval (d : val) (env : loc) (needfn : bool) : req (res val)         (* data.go:1128 evalHelper *)
| RApply (ev : bool) (f args : val) (env : loc) : req (res val)       (* data.go:1223/1247 Apply[WithoutEval] *)
| REqual (a b : val) : req bool                                       (* data.go:818 IsEqual *)
| RCopy (v : val) : req val                                           (* data.go:771 Copy *)
| RString (v : val) : req string                                      (* data.go:944 String *)
| RHasSlot (key : string) (f : loc) (vis : list loc) : req (bool * list loc)  (* frame.go:63 *)
| RGetSlot (key : string) (f : loc) (vis : list loc) : req (val * list loc)   (* frame.go:100 *)
| RQuasi (sexpr : val) (level : Z) (env : loc) : req (res val)        (* prim_macros.go:30 *)
| RRecFlat (v : val) : req (res val)                                  (* data.go:693 *)
| RAlist (v : val) : req val                                          (* data.go:322 *)
| RToJson (v : val) : req json                                        (* json_support.go:70 *)
| RToJsonF (v : val) : req json.                                      (* json_frame_support.go:199 *)

Inductive prog : Type -> Type :=
| Ret {A} (a : A) : prog A
| Panic {A} (why : string) : prog A            (* a Go run-time panic *)
| Vis {A X} (o : op X) (k : X -> prog A) : prog A
| Call {A X} (r : req X) (k : X -> prog A) : prog A
| Iter {A S R} (body : S -> prog (S + R)) (s : S) (k : R -> prog A) : prog A.

Fixpoint bind {A B} (p : prog A) : (A -> prog B) -> prog B :=
  match p in prog A return (A -> prog B) -> prog B with
  | Ret a => fun f => f a
  | Panic w => fun _ => Panic w
  | Vis o k => fun f => Vis o (fun x => bind (k x) f)
  | Call r k => fun f => Call r (fun x => bind (k x) f)
  | Iter body s k => fun f => Iter body s (fun x => bind (k x) f)
  end.

Declare Scope prog_scope.
Delimit Scope prog_scope with prog.
Open Scope prog_scope.
Notation "x <- p ;; q" := (bind p (fun x => q))
  (at level 80, p at next level, right associativity) : prog_scope.
Notation "' pat <- p ;; q" := (bind p (fun x => match x with pat => q end))
  (at level 80, pat pattern, p at next level, right associativity) : prog_scope.
Notation "p ;;; q" := (bind p (fun _ => q)) (at level 80, right associativity) : prog_scope.

Definition do_op {X} (o : op X) : prog X := Vis o Ret.
Definition call {X} (r : req X) : prog X := Call r Ret.
Definition loop {S R} (body : S -> prog (S + R)) (s : S) : prog R := Iter body s Ret.

(** Propagating Go errors: `if err != nil { return }`. *)
Definition bind_ok {A B} (p : prog (res A)) (f : A -> prog (res B)) : prog (res B) :=
  bind p (fun r => match r with Ok a => f a | Err m => Ret (Err m) end).
Notation "x <-? p ;; q" := (bind_ok p (fun x => q))
  (at level 80, p at next level, right associativity) : prog_scope.
Definition ok {A} (a : A) : prog (res A) := Ret (Ok a).
Definition fail {A} (m : string) : prog (res A) := Ret (Err m).

(** How a program can end. *)
Inductive outcome (A : Type) := Done (a : A) | Panicked (why : string).
Arguments Done {A} _. Arguments Panicked {A} _.

Section Run.
  Variable denote : forall X, req X -> prog X.

  (** Sequential execution by one goroutine.  The fuel [n] bounds the nesting of calls plus the
      number of loop turns; None means the fuel ran out or the goroutine is blocked. *)
  Fixpoint run (n : nat) : forall A, prog A -> state -> option (outcome A * state) :=
    fix go A (p : prog A) {struct p} : state -> option (outcome A * state) :=
      match p in prog A return state -> option (outcome A * state) with
      | Ret a => fun s => Some (Done a, s)
      | Panic w => fun s => Some (Panicked w, s)
      | Vis o k => fun s =>
          match step_op o s with
          | Some (x, s') => go _ (k x) s'
          | None => None
          end
      | Call r k => fun s =>
          match n with
          | O => None
          | S n' =>
              match run n' _ (denote _ r) s with
              | Some (Done x, s') => go _ (k x) s'
              | Some (Panicked w, s') => Some (Panicked w, s')
              | None => None
              end
          end
      | Iter body s0 k => fun s =>
          match n with
          | O => None
          | S n' =>
              match run n' _ (body s0) s with
              | Some (Done (inl s1), s') =>
                  match run n' _ (Iter body s1 Ret) s' with
                  | Some (Done x, s'') => go _ (k x) s''
                  | Some (Panicked w, s'') => Some (Panicked w, s'')
                  | None => None
                  end
              | Some (Done (inr x), s') => go _ (k x) s'
              | Some (Panicked w, s') => Some (Panicked w, s')
              | None => None
              end
          end
      end.
  Arguments run n {A} p s.

  Lemma run_ret n A (a : A) s : run n (Ret a) s = Some (Done a, s).
  Proof. destruct n; reflexivity. Qed.
  Lemma run_panic n A w s : run n (@Panic A w) s = Some (Panicked w, s).
  Proof. destruct n; reflexivity. Qed.
  Lemma run_vis n A X (o : op X) (k : X -> prog A) s :
    run n (Vis o k) s =
    match step_op o s with Some (x, s') => run n (k x) s' | None => None end.
  Proof. destruct n; reflexivity. Qed.
  Lemma run_call n A X (r : req X) (k : X -> prog A) s :
    run (S n) (Call r k) s =
    match run n (denote _ r) s with
    | Some (Done x, s') => run (S n) (k x) s'
    | Some (Panicked w, s') => Some (Panicked w, s')
    | None => None
    end.
  Proof. reflexivity. Qed.
  Lemma run_iter n A S R (body : S -> prog (S + R)) s0 (k : R -> prog A) s :
    run (Datatypes.S n) (Iter body s0 k) s =
    match run n (body s0) s with
    | Some (Done (inl s1), s') =>
        match run n (Iter body s1 Ret) s' with
        | Some (Done x, s'') => run (Datatypes.S n) (k x) s''
        | Some (Panicked w, s'') => Some (Panicked w, s'')
        | None => None
        end
    | Some (Done (inr x), s') => run (Datatypes.S n) (k x) s'
    | Some (Panicked w, s') => Some (Panicked w, s')
    | None => None
    end.
  Proof. reflexivity. Qed.

  Lemma run_bind n A B (p : prog A) (f : A -> prog B) s :
    run n (bind p f) s =
    match run n p s with
    | Some (Done x, s') => run n (f x) s'
    | Some (Panicked w, s') => Some (Panicked w, s')
    | None => None
    end.
  Proof.
    revert s f. induction p as [A a|A w|A X o k IH|A X r k IH|A S R body IHb s0 k IH]; intros s f.
    - rewrite run_ret. reflexivity.
    - cbn [bind]. rewrite !run_panic. reflexivity.
    - cbn [bind]. rewrite !run_vis. destruct (step_op o s) as [[x s']|]; [apply IH|reflexivity].
    - destruct n; [reflexivity|]. cbn [bind]. rewrite !run_call.
      destruct (run n (denote X r) s) as [[[x|w] s']|]; [apply IH|reflexivity|reflexivity].
    - destruct n; [reflexivity|]. cbn [bind]. rewrite !run_iter.
      destruct (run n (body s0) s) as [[[[s1|x]|w] s']|]; try reflexivity; [|apply IH].
      destruct (run n (Iter body s1 Ret) s') as [[[x|w] s'']|]; [apply IH|reflexivity|reflexivity].
  Qed.

  Lemma run_mono_S n A (p : prog A) s r : run n p s = Some r -> run (S n) p s = Some r.
  Proof.
    revert A p s r. induction n as [|n IHn]; intros A p; induction p as [A a|A w|A X o k IH|A X q k IH|A S R body IHb s0 k IH];
      intros s r; try (rewrite ?run_ret, ?run_panic; congruence).
    - rewrite !run_vis. destruct (step_op o s) as [[x s']|]; [apply IH|congruence].
    - cbn. congruence.
    - cbn. congruence.
    - rewrite !run_vis. destruct (step_op o s) as [[x s']|]; [apply IH|congruence].
    - rewrite !run_call. destruct (run n (denote X q) s) as [[[x|w] s']|] eqn:E; [| |congruence];
        rewrite (IHn _ _ _ _ E); [apply IH|congruence].
    - rewrite !run_iter. destruct (run n (body s0) s) as [[[[s1|x]|w] s']|] eqn:E; [| | |congruence];
        rewrite (IHn _ _ _ _ E); [|apply IH|congruence].
      destruct (run n (Iter body s1 Ret) s') as [[[x|w] s'']|] eqn:E2; [| |congruence];
        rewrite (IHn _ _ _ _ E2); [apply IH|congruence].
  Qed.
  Lemma run_mono n m A (p : prog A) s r : (n <= m)%nat -> run n p s = Some r -> run m p s = Some r.
  Proof. intros H. induction H; [auto|]. intros. apply run_mono_S; auto. Qed.

  (** [runs p s o s']: executed alone from [s], program [p] finishes with outcome [o] in state [s']. *)
  Definition runs {A} (p : prog A) (s : state) (o : outcome A) (s' : state) : Prop :=
    exists n, run n p s = Some (o, s').

  Lemma runs_det A (p : prog A) s o1 s1 o2 s2 :
    runs p s o1 s1 -> runs p s o2 s2 -> o1 = o2 /\ s1 = s2.
  Proof.
    intros [n1 H1] [n2 H2].
    apply (run_mono n1 (max n1 n2)) in H1; [|lia].
    apply (run_mono n2 (max n1 n2)) in H2; [|lia].
    rewrite H1 in H2. injection H2 as -> ->. auto.
  Qed.
  Lemma runs_ret A (a : A) s : runs (Ret a) s (Done a) s.
  Proof. exists O. apply run_ret. Qed.
  Lemma runs_panic A w s : runs (@Panic A w) s (Panicked w) s.
  Proof. exists O. apply run_panic. Qed.
  Lemma runs_vis A X (o : op X) (k : X -> prog A) s x s1 out s2 :
    step_op o s = Some (x, s1) -> runs (k x) s1 out s2 -> runs (Vis o k) s out s2.
  Proof. intros E [n H]. exists n. rewrite run_vis, E. exact H. Qed.
  Lemma runs_op X (o : op X) s x s1 : step_op o s = Some (x, s1) -> runs (do_op o) s (Done x) s1.
  Proof. intros E. eapply runs_vis; [exact E|apply runs_ret]. Qed.
  Lemma runs_bind A B (p : prog A) (f : A -> prog B) s x s1 out s2 :
    runs p s (Done x) s1 -> runs (f x) s1 out s2 -> runs (bind p f) s out s2.
  Proof.
    intros [n H] [m H']. exists (max n m). rewrite run_bind.
    rewrite (run_mono _ _ _ _ _ _ (Nat.le_max_l n m) H).
    apply (run_mono m); [lia|exact H'].
  Qed.
  Lemma runs_bind_panic A B (p : prog A) (f : A -> prog B) s w s1 :
    runs p s (Panicked w) s1 -> runs (bind p f) s (Panicked w) s1.
  Proof. intros [n H]. exists n. rewrite run_bind, H. reflexivity. Qed.
  Lemma runs_bind_inv A B (p : prog A) (f : A -> prog B) s out s2 :
    runs (bind p f) s out s2 ->
    (exists x s1, runs p s (Done x) s1 /\ runs (f x) s1 out s2) \/
    (exists w, out = Panicked w /\ runs p s (Panicked w) s2).
  Proof.
    intros [n H]. rewrite run_bind in H.
    destruct (run n p s) as [[[x|w] s1]|] eqn:E; [| |congruence].
    - left. exists x, s1. split; [exists n; exact E|exists n; exact H].
    - right. injection H as <- <-. exists w. split; [auto|]. exists n; exact E.
  Qed.
  Lemma runs_bind_ok A B (p : prog (res A)) (f : A -> prog (res B)) s x s1 out s2 :
    runs p s (Done (Ok x)) s1 -> runs (f x) s1 out s2 -> runs (bind_ok p f) s out s2.
  Proof. intros. eapply runs_bind; eauto. Qed.
  Lemma runs_bind_err A B (p : prog (res A)) (f : A -> prog (res B)) s m s1 :
    runs p s (Done (Err m)) s1 -> runs (bind_ok p f) s (Done (Err m)) s1.
  Proof. intros H. unfold bind_ok. eapply runs_bind; [exact H|]. apply runs_ret. Qed.
  Lemma runs_call A X (r : req X) (k : X -> prog A) s x s1 out s2 :
    runs (denote _ r) s (Done x) s1 -> runs (k x) s1 out s2 -> runs (Call r k) s out s2.
  Proof.
    intros [n H] [m H']. exists (S (max n m)). rewrite run_call.
    rewrite (run_mono _ _ _ _ _ _ (Nat.le_max_l n m) H).
    apply (run_mono m); [lia|exact H'].
  Qed.
  Lemma runs_call_panic A X (r : req X) (k : X -> prog A) s w s1 :
    runs (denote _ r) s (Panicked w) s1 -> runs (Call r k) s (Panicked w) s1.
  Proof. intros [n H]. exists (S n). rewrite run_call, H. reflexivity. Qed.
  Lemma runs_do_call X (r : req X) s x s1 :
    runs (denote _ r) s (Done x) s1 -> runs (call r) s (Done x) s1.
  Proof. intros. eapply runs_call; eauto using runs_ret. Qed.
  Lemma runs_do_call_gen X (r : req X) s out s1 :
    runs (denote _ r) s out s1 <-> runs (call r) s out s1.
  Proof.
    split.
    - intros H. destruct out; [apply runs_do_call; auto|eapply runs_call_panic; eauto].
    - intros [n H]. destruct n; [discriminate|]. unfold call in H. rewrite run_call in H.
      destruct (run n (denote X r) s) as [[[x|w] s']|] eqn:E; [| |congruence].
      + rewrite run_ret in H. injection H as <- <-. exists n; auto.
      + injection H as <- <-. exists n; auto.
  Qed.
  Lemma runs_iter_stop A S R (body : S -> prog (S + R)) s0 (k : R -> prog A) s x s1 out s2 :
    runs (body s0) s (Done (inr x)) s1 -> runs (k x) s1 out s2 -> runs (Iter body s0 k) s out s2.
  Proof.
    intros [n H] [m H']. exists (Datatypes.S (max n m)). rewrite run_iter.
    rewrite (run_mono _ _ _ _ _ _ (Nat.le_max_l n m) H).
    apply (run_mono m); [lia|exact H'].
  Qed.
  Lemma runs_loop_stop S R (body : S -> prog (S + R)) s0 s x s1 :
    runs (body s0) s (Done (inr x)) s1 -> runs (loop body s0) s (Done x) s1.
  Proof. intros. eapply runs_iter_stop; eauto using runs_ret. Qed.
  Lemma runs_loop_step S R (body : S -> prog (S + R)) s0 s t s1 out s2 :
    runs (body s0) s (Done (inl t)) s1 -> runs (loop body t) s1 out s2 -> runs (loop body s0) s out s2.
  Proof.
    intros [n H] [m H']. exists (Datatypes.S (max n m)). unfold loop in *. rewrite run_iter.
    rewrite (run_mono _ _ _ _ _ _ (Nat.le_max_l n m) H).
    rewrite (run_mono m (max n m) _ _ _ _ (Nat.le_max_r n m) H').
    destruct out; [apply run_ret|reflexivity].
  Qed.
  Lemma runs_loop_panic S R (body : S -> prog (S + R)) s0 s w s1 :
    runs (body s0) s (Panicked w) s1 -> runs (loop body s0) s (Panicked w) s1.
  Proof. intros [n H]. exists (Datatypes.S n). unfold loop. rewrite run_iter, H. reflexivity. Qed.
  Lemma runs_iter A S R (body : S -> prog (S + R)) s0 (k : R -> prog A) s x s1 out s2 :
    runs (loop body s0) s (Done x) s1 -> runs (k x) s1 out s2 -> runs (Iter body s0 k) s out s2.
  Proof.
    intros H H'. change (Iter body s0 k) with (bind (loop body s0) k). eapply runs_bind; eauto.
  Qed.
End Run.
Arguments run denote n {A} p s.
Arguments runs denote {A} p s o s'.
