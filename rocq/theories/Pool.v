(** Goroutines: any number of threads executing programs over the shared state, one atomic
    operation at a time, in the order a scheduler chooses. *)
From Verif Require Export Interp.
From stdpp Require Import list.
Local Open Scope list_scope.
Local Open Scope Z_scope.

(** What one goroutine still has to do. *)
Inductive thread :=
| TEval (p : prog (res val))        (* a goroutine of the host program evaluating an expression *)
| TProc (pl : loc) (p : prog val)   (* the goroutine of a process: prim_concurrency.go:81-94, 179-202 *)
| TPut (pl : loc) (v : val)         (* about to send its result (lines 93, 201) *)
| TDone.                            (* a finished process *)

(** The next step of a program; None = it is finished, or has to wait. *)
Definition step_prog {A} (p : prog A) (s : state) : option (prog A * state) :=
  match p in prog A return option (prog A * state) with
  | Ret _ => None
  | Panic _ => None
  | Vis o k => match step_op o s with Some (x, s') => Some (k x, s') | None => None end
  | Call r k => Some (bind (denote _ r) k, s)
  | Iter body s0 k =>
      Some (bind (body s0) (fun x => match x with inl s1 => Iter body s1 k | inr r => k r end), s)
  end.

(** How a program that is finished ended. *)
Definition finished {A} (p : prog A) : option (outcome A) :=
  match p in prog A return option (outcome A) with
  | Ret a => Some (Done a)
  | Panic w => Some (Panicked w)
  | _ => None
  end.

(** The next step of a goroutine.  A process that panics prints a message and its result is nil
    (prim_concurrency.go:81-94, 410 callWithPanicProtection). *)
Definition step_thread (t : thread) (s : state) : option (thread * state) :=
  match t with
  | TEval p => match step_prog p s with Some (p', s') => Some (TEval p', s') | None => None end
  | TProc pl p =>
      match finished p with
      | Some (Done v) => Some (TPut pl v, s)
      | Some (Panicked w) => Some (TPut pl VNil, set_log (EOut w :: s_log s) s)
      | None => match step_prog p s with Some (p', s') => Some (TProc pl p', s') | None => None end
      end
  | TPut pl v =>
      match put_ret pl v s with Some s' => Some (TDone, s') | None => None end
  | TDone => None
  end.

Definition spawn_thread (r : spawn_req) : thread := TProc (spawn_process r) (spawn_work r).
(** The goroutines started by the last step. *)
Definition spawned (s : state) : list thread := map spawn_thread (s_pending s).

Definition pool : Type := list thread * state.

(** One step of the whole program: some goroutine that can move, moves. *)
Inductive pstep : pool -> pool -> Prop :=
| PStep pre t post s t' s' :
    step_thread t s = Some (t', s') ->
    pstep (pre ++ t :: post, s) (pre ++ t' :: post ++ spawned s', set_pending [] s').

Inductive psteps : pool -> pool -> Prop :=
| psteps_refl c : psteps c c
| psteps_step c1 c2 c3 : psteps c1 c2 -> pstep c2 c3 -> psteps c1 c3.

(** Executions all of whose states, after the first, satisfy [live]. *)
Inductive psteps_within (live : state -> Prop) : pool -> pool -> Prop :=
| pw_refl c : psteps_within live c c
| pw_step c1 c2 c3 : psteps_within live c1 c2 -> pstep c2 c3 -> live (snd c3) -> psteps_within live c1 c3.

(** A host goroutine calling ParseAndEvalAll (parser.go:327) or Eval (data.go:1214) in an environment. *)
Definition eval_text_thread (src : string) (env : loc) : thread := TEval (parse_and_eval_all src env).
Definition eval_thread (v : val) (env : loc) : thread := TEval (eval v env).

(** An executable scheduler, for the worked examples: run thread [i] of the pool for one step. *)
Definition sched_step (i : nat) (c : pool) : pool :=
  let '(ts, s) := c in
  match nth_error ts i with
  | None => c
  | Some t =>
      match step_thread t s with
      | None => c
      | Some (t', s') => (list_set ts i t' ++ spawned s', set_pending [] s')
      end
  end.
Fixpoint sched (l : list nat) (c : pool) : pool :=
  match l with [] => c | i :: r => sched r (sched_step i c) end.
(** Round robin: [n] rounds of [k] steps for each of the first [m] threads. *)
Definition rounds (n m k : nat) : list nat := concat (repeat (flat_map (fun i => repeat i k) (seq 0 m)) n).
