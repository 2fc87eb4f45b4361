(** Values, the interpreter state, and the primitive state operations.

    The heap is split by kind of object; all kinds draw addresses from one counter [s_next], so
    "allocated after this point" is a comparison of addresses.  Reads of an address that was never
    allocated answer a default (this cannot happen in Go, where there are no dangling pointers). *)
From Verif Require Export Base.
From stdpp Require Export pmap.
From stdpp Require Import list.
Local Open Scope Z_scope.

Definition loc : Type := positive.

(** data.go:23-40 (type tags ConsCellType, AlistType, AlistCellType). *)
Inductive ctag := TCons | TAlist | TAlistCell.

(** data.go:52-55 Data, by type tag (23-40).
    Simplifications: integers, floats, booleans and symbols are immediate (their Data boxes are
    never mutated and are compared by content, data.go:911-921); a frame's Data box and its
    FrameMap are identified; boxed Go objects are the four kinds the interpreter itself makes
    ("[]byte", "Channel", "Process", "Atomic"). *)
Inductive val : Type :=
| VNil                          (* the Go nil pointer *)
| VCell (t : ctag) (l : loc)    (* data.go:42-45 ConsCell *)
| VNoCell                       (* a ConsCellType Data whose Value is nil: json_support.go:34 *)
| VInt (z : Z)
| VFloat (f : f32)
| VBool (b : bool)
| VStr (l : loc)
| VSym (s : string)
| VFun (l : loc)
| VMacro (l : loc)
| VPrim (name : string)
| VBytes (l : loc)
| VChan (l : loc)
| VProc (l : loc)
| VAtomic (l : loc)
| VFrame (l : loc)
| VEnv (l : loc)
| VPort (l : loc).

(** A Go (value, error) pair: a function either succeeds or returns a message.
    Simplification: on error the accompanying result pointer is dropped (every caller ignores it). *)
Inductive res (A : Type) := Ok (a : A) | Err (msg : string).
Arguments Ok {A} _. Arguments Err {A} _.

(** function.go:17-27 Function (DebugOnEntry omitted). *)
Record fn := Fn {
  f_name : string; f_params : val; f_varargs : bool; f_req : Z; f_body : val; f_env : loc }.
Record fn_state := FnState { fn_code : fn; fn_slot : bool; fn_proc : option loc }.

(** macro.go:15-22 Macro. *)
Record mac := Mac {
  m_name : string; m_params : val; m_varargs : bool; m_req : Z; m_body : val; m_env : loc }.

(** symbol_table_frame.go:23-32 SymbolTableFrame (Previous, Mutex, CurrentCode omitted). *)
Record env_rec := Env {
  e_name : string; e_parent : option loc; e_frame : option loc;
  e_binds : list (string * loc); e_restricted : bool }.

(** binding.go Binding. *)
Record bind_rec := Binding { b_sym : val; b_val : val; b_prot : bool }.

(** A Go channel of *Data, as the runtime's hchan: buffer, closed flag, queues of parked senders and
    receivers, and the outcomes handed to parked goroutines that have not resumed yet. *)
Record chan_rec := Chan {
  ch_cap : Z; ch_buf : list val; ch_closed : bool;
  ch_sendq : list (loc * val); ch_recvq : list loc;
  ch_sdone : list (loc * bool);            (* sender ticket, true = delivered, false = closed *)
  ch_rdone : list (loc * (val * bool)) }.  (* receiver ticket, (value, more) *)

(** prim_concurrency.go:21-30 Process.  The capacity-one channels Wake/Abort/Restart are booleans
    ("holds a token"), ReturnValue is an optional value, ScheduleTimer is whether it exists. *)
Record proc_rec := Proc {
  pr_wake : bool; pr_abort : bool; pr_restart : bool;
  pr_ret : option val; pr_joined : bool; pr_sched : bool }.

(** What a `go func()` statement in fork/schedule will run (prim_concurrency.go:81-94, 179-202). *)
Inductive spawn_req :=
| SpawnFork (p : loc) (f : loc) (args : val) (env : loc)
| SpawnSched (p : loc) (f : loc) (args : val) (env : loc).

(** Properties of non-ASCII runes (Go's unicode tables) are a parameter of the state. *)
Record uni_table := Uni {
  u_graphic : rune -> bool; u_space : rune -> bool; u_number : rune -> bool;
  u_upper : rune -> rune; u_lower : rune -> rune }.

(** How a file was opened: for reading, for writing from the start (O_TRUNC) or for writing at the end (O_APPEND). *)
Inductive open_mode := Reading | Replacing | Appending.
(** Observable events. *)
Inductive event :=
| EPrim (name : string) (env : loc)     (* the body of a built-in was entered *)
| EOut (s : string)                     (* text written to the terminal/log *)
| EExt (name : string)                  (* an operation outside the model (I/O, debugger, ...) ran *)
| EOpened (p : loc) (file : string) (mode : open_mode)  (* the port [p] was opened *)
| EWritten (p : loc) (s : string)       (* text written to the port [p] *)
| EGot (p : loc) (s : string)           (* text that the port [p] delivered to a new tokenizer, for a first read *)
| EMore (p : loc)                       (* a further read from the same tokenizer *)
| EClosed (p : loc).                    (* the port [p] was closed *)

Record state := State {
  s_next : positive;
  s_cells : Pmap (val * val);
  s_strs : Pmap string;
  s_bytes : Pmap (list Z);
  s_funs : Pmap fn_state;
  s_macros : Pmap mac;
  s_envs : Pmap env_rec;
  s_binds : Pmap bind_rec;
  s_frames : Pmap (list (string * val));
  s_chans : Pmap chan_rec;
  s_procs : Pmap proc_rec;
  s_atoms : Pmap Z;
  s_gensyms : list (string * Z);
  s_tops : list (string * loc);
  s_global : loc;
  s_oracle : list Z;
  s_uni : uni_table;
  s_log : list event;   (* newest first *)
  s_pending : list spawn_req }.

(** ** State operations: the atomic actions a goroutine performs. *)
Inductive op : Type -> Type :=
(* cells *)
| OCons (t : ctag) (a d : val) : op loc
| OCar (l : loc) : op val
| OCdr (l : loc) : op val
| OSetCar (l : loc) (v : val) : op unit
| OSetCdr (l : loc) (v : val) : op unit
(* strings *)
| OStrNew (s : string) : op loc
| OStrGet (l : loc) : op string
| OStrSet (l : loc) (s : string) : op unit
(* byte slices *)
| OBytesNew (b : list Z) : op loc
| OBytesGet (l : loc) : op (list Z)
| OBytesSetAt (l : loc) (i : nat) (b : Z) : op unit
| OBytesPut (l : loc) (b : list Z) : op unit
(* functions and macros *)
| OFunNew (f : fn) : op loc
| OFunGet (l : loc) : op fn
| OFunSlot (l : loc) : op bool
| OFunSetSlot (l : loc) (b : bool) : op unit
| OFunProc (l : loc) : op (option loc)
| OMacNew (m : mac) : op loc
| OMacGet (l : loc) : op mac
(* environments and bindings *)
| OEnvNew (name : string) (parent : option loc) (frame : option loc) : op loc
| OEnvName (l : loc) : op string
| OEnvParent (l : loc) : op (option loc)
| OEnvFrame (l : loc) : op (option loc)
| OEnvRestricted (l : loc) : op bool
| OEnvRestrict (l : loc) : op unit
| OEnvFind (l : loc) (name : string) : op (option loc)
| OEnvPut (l : loc) (name : string) (b : loc) : op unit
| OEnvDel (l : loc) (name : string) : op unit
| OEnvNames (l : loc) : op (list (string * loc))
| OBindNew (b : bind_rec) : op loc
| OBindSym (l : loc) : op val
| OBindVal (l : loc) : op val
| OBindProt (l : loc) : op bool
| OBindSet (l : loc) (v : val) : op unit
| OBindSetProt (l : loc) : op unit
| OTopFind (name : string) : op (option loc)
| OTopSet (name : string) (l : loc) : op unit
| OGlobal : op loc
(* frames *)
| OFrameNew (slots : list (string * val)) : op loc
| OFrameFind (l : loc) (k : string) : op (option val)
| OFrameSet (l : loc) (k : string) (v : val) : op unit
| OFrameDel (l : loc) (k : string) : op bool
| OFrameAll (l : loc) : op (list (string * val))
(* channels *)
| OChanNew (cap : Z) : op loc
| OChanSend (l : loc) (v : val) (block : bool) : op (option (bool + loc))
| OChanSendWait (l : loc) (t : loc) : op bool
| OChanRecv (l : loc) (block : bool) : op (option ((val * bool) + loc))
| OChanRecvWait (l : loc) (t : loc) : op (val * bool)
| OChanClose (l : loc) : op bool
(* processes *)
| OProcSched (l : loc) : op bool
| OProcTryWake (l : loc) : op bool
| OProcTryAbort (l : loc) : op bool
| OProcTryRestart (l : loc) : op bool
| OProcSleep (l : loc) : op bool
| OProcSelect (l : loc) : op Z
| OProcJoin (l : loc) : op bool
| OProcTakeRet (l : loc) : op val
| OSpawn (sched : bool) (f : loc) (args : val) (env : loc) : op loc
(* atomics *)
| OAtomNew (z : Z) : op loc
| OAtomLoad (l : loc) : op Z
| OAtomStore (l : loc) (z : Z) : op unit
| OAtomAdd (l : loc) (z : Z) : op Z
| OAtomSwap (l : loc) (z : Z) : op Z
| OAtomCas (l : loc) (old new : Z) : op bool
(* the rest *)
| OGensym (prefix : string) : op Z
| OChoose : op Z
| OUni : op uni_table
| OReader (p : loc) : op (option (string * nat))
| OEvent (e : event) : op unit.

(** *** Updates *)

Definition set_next (n : positive) (s : state) : state :=
  State n (s_cells s) (s_strs s) (s_bytes s) (s_funs s) (s_macros s) (s_envs s) (s_binds s)
        (s_frames s) (s_chans s) (s_procs s) (s_atoms s) (s_gensyms s) (s_tops s) (s_global s)
        (s_oracle s) (s_uni s) (s_log s) (s_pending s).
Definition set_cells x (s : state) : state :=
  State (s_next s) x (s_strs s) (s_bytes s) (s_funs s) (s_macros s) (s_envs s) (s_binds s)
        (s_frames s) (s_chans s) (s_procs s) (s_atoms s) (s_gensyms s) (s_tops s) (s_global s)
        (s_oracle s) (s_uni s) (s_log s) (s_pending s).
Definition set_strs x (s : state) : state :=
  State (s_next s) (s_cells s) x (s_bytes s) (s_funs s) (s_macros s) (s_envs s) (s_binds s)
        (s_frames s) (s_chans s) (s_procs s) (s_atoms s) (s_gensyms s) (s_tops s) (s_global s)
        (s_oracle s) (s_uni s) (s_log s) (s_pending s).
Definition set_bytes x (s : state) : state :=
  State (s_next s) (s_cells s) (s_strs s) x (s_funs s) (s_macros s) (s_envs s) (s_binds s)
        (s_frames s) (s_chans s) (s_procs s) (s_atoms s) (s_gensyms s) (s_tops s) (s_global s)
        (s_oracle s) (s_uni s) (s_log s) (s_pending s).
Definition set_funs x (s : state) : state :=
  State (s_next s) (s_cells s) (s_strs s) (s_bytes s) x (s_macros s) (s_envs s) (s_binds s)
        (s_frames s) (s_chans s) (s_procs s) (s_atoms s) (s_gensyms s) (s_tops s) (s_global s)
        (s_oracle s) (s_uni s) (s_log s) (s_pending s).
Definition set_macros x (s : state) : state :=
  State (s_next s) (s_cells s) (s_strs s) (s_bytes s) (s_funs s) x (s_envs s) (s_binds s)
        (s_frames s) (s_chans s) (s_procs s) (s_atoms s) (s_gensyms s) (s_tops s) (s_global s)
        (s_oracle s) (s_uni s) (s_log s) (s_pending s).
Definition set_envs x (s : state) : state :=
  State (s_next s) (s_cells s) (s_strs s) (s_bytes s) (s_funs s) (s_macros s) x (s_binds s)
        (s_frames s) (s_chans s) (s_procs s) (s_atoms s) (s_gensyms s) (s_tops s) (s_global s)
        (s_oracle s) (s_uni s) (s_log s) (s_pending s).
Definition set_binds x (s : state) : state :=
  State (s_next s) (s_cells s) (s_strs s) (s_bytes s) (s_funs s) (s_macros s) (s_envs s) x
        (s_frames s) (s_chans s) (s_procs s) (s_atoms s) (s_gensyms s) (s_tops s) (s_global s)
        (s_oracle s) (s_uni s) (s_log s) (s_pending s).
Definition set_frames x (s : state) : state :=
  State (s_next s) (s_cells s) (s_strs s) (s_bytes s) (s_funs s) (s_macros s) (s_envs s) (s_binds s)
        x (s_chans s) (s_procs s) (s_atoms s) (s_gensyms s) (s_tops s) (s_global s)
        (s_oracle s) (s_uni s) (s_log s) (s_pending s).
Definition set_chans x (s : state) : state :=
  State (s_next s) (s_cells s) (s_strs s) (s_bytes s) (s_funs s) (s_macros s) (s_envs s) (s_binds s)
        (s_frames s) x (s_procs s) (s_atoms s) (s_gensyms s) (s_tops s) (s_global s)
        (s_oracle s) (s_uni s) (s_log s) (s_pending s).
Definition set_procs x (s : state) : state :=
  State (s_next s) (s_cells s) (s_strs s) (s_bytes s) (s_funs s) (s_macros s) (s_envs s) (s_binds s)
        (s_frames s) (s_chans s) x (s_atoms s) (s_gensyms s) (s_tops s) (s_global s)
        (s_oracle s) (s_uni s) (s_log s) (s_pending s).
Definition set_atoms x (s : state) : state :=
  State (s_next s) (s_cells s) (s_strs s) (s_bytes s) (s_funs s) (s_macros s) (s_envs s) (s_binds s)
        (s_frames s) (s_chans s) (s_procs s) x (s_gensyms s) (s_tops s) (s_global s)
        (s_oracle s) (s_uni s) (s_log s) (s_pending s).
Definition set_gensyms x (s : state) : state :=
  State (s_next s) (s_cells s) (s_strs s) (s_bytes s) (s_funs s) (s_macros s) (s_envs s) (s_binds s)
        (s_frames s) (s_chans s) (s_procs s) (s_atoms s) x (s_tops s) (s_global s)
        (s_oracle s) (s_uni s) (s_log s) (s_pending s).
Definition set_tops x (s : state) : state :=
  State (s_next s) (s_cells s) (s_strs s) (s_bytes s) (s_funs s) (s_macros s) (s_envs s) (s_binds s)
        (s_frames s) (s_chans s) (s_procs s) (s_atoms s) (s_gensyms s) x (s_global s)
        (s_oracle s) (s_uni s) (s_log s) (s_pending s).
Definition set_oracle x (s : state) : state :=
  State (s_next s) (s_cells s) (s_strs s) (s_bytes s) (s_funs s) (s_macros s) (s_envs s) (s_binds s)
        (s_frames s) (s_chans s) (s_procs s) (s_atoms s) (s_gensyms s) (s_tops s) (s_global s)
        x (s_uni s) (s_log s) (s_pending s).
Definition set_log x (s : state) : state :=
  State (s_next s) (s_cells s) (s_strs s) (s_bytes s) (s_funs s) (s_macros s) (s_envs s) (s_binds s)
        (s_frames s) (s_chans s) (s_procs s) (s_atoms s) (s_gensyms s) (s_tops s) (s_global s)
        (s_oracle s) (s_uni s) x (s_pending s).
Definition set_pending x (s : state) : state :=
  State (s_next s) (s_cells s) (s_strs s) (s_bytes s) (s_funs s) (s_macros s) (s_envs s) (s_binds s)
        (s_frames s) (s_chans s) (s_procs s) (s_atoms s) (s_gensyms s) (s_tops s) (s_global s)
        (s_oracle s) (s_uni s) (s_log s) x.

Definition bump (s : state) : state := set_next (Pos.succ (s_next s)) s.

(** *** Reads with defaults.  Address 1 is never allocated (Interp.v, [blank]): the default function
    and macro claim to be closed over it, and an environment that does not exist is restricted. *)

Definition cell_at (s : state) (l : loc) : val * val := default (VNil, VNil) (s_cells s !! l).
Definition str_at (s : state) (l : loc) : string := default EmptyString (s_strs s !! l).
Definition bytes_at (s : state) (l : loc) : list Z := default [] (s_bytes s !! l).
Definition default_fn : fn := Fn EmptyString VNil false 0 VNil 1%positive.
Definition fun_at (s : state) (l : loc) : fn_state :=
  default (FnState default_fn false None) (s_funs s !! l).
Definition default_mac : mac := Mac EmptyString VNil false 0 VNil 1%positive.
Definition mac_at (s : state) (l : loc) : mac := default default_mac (s_macros s !! l).
Definition env_at (s : state) (l : loc) : env_rec :=
  default (Env EmptyString None None [] true) (s_envs s !! l).
Definition bind_at (s : state) (l : loc) : bind_rec :=
  default (Binding VNil VNil false) (s_binds s !! l).
Definition frame_at (s : state) (l : loc) : list (string * val) := default [] (s_frames s !! l).
Definition empty_chan : chan_rec := Chan 0 [] false [] [] [] [].
Definition chan_at (s : state) (l : loc) : chan_rec := default empty_chan (s_chans s !! l).
Definition empty_proc : proc_rec := Proc false false false None false false.
Definition proc_at (s : state) (l : loc) : proc_rec := default empty_proc (s_procs s !! l).
Definition atom_at (s : state) (l : loc) : Z := default 0 (s_atoms s !! l).

Fixpoint list_set {A} (l : list A) (i : nat) (x : A) : list A :=
  match l, i with
  | [], _ => []
  | _ :: t, O => x :: t
  | y :: t, S j => y :: list_set t j x
  end.

Fixpoint plookup {A} (k : loc) (l : list (loc * A)) : option A :=
  match l with
  | [] => None
  | (k', v) :: t => if Pos.eqb k k' then Some v else plookup k t
  end.
Fixpoint pdel {A} (k : loc) (l : list (loc * A)) : list (loc * A) :=
  match l with
  | [] => []
  | (k', v) :: t => if Pos.eqb k k' then pdel k t else (k', v) :: pdel k t
  end.

(** *** Go channel operations (runtime/chan.go semantics; language spec "Send statements",
    "Receive operator", "Close").  [t] is a fresh ticket for a goroutine that has to park. *)

(** Answer: None = would block and non-blocking; Some (inl true) = sent; Some (inl false) = channel
    closed (Go panics); Some (inr t) = parked with ticket t. *)
Definition chan_send (c : chan_rec) (v : val) (block : bool) (t : loc)
  : option (bool + loc) * chan_rec :=
  if ch_closed c then (Some (inl false), c)
  else match ch_recvq c with
  | r :: rq =>
      (Some (inl true),
       Chan (ch_cap c) (ch_buf c) false (ch_sendq c) rq (ch_sdone c) (ch_rdone c ++ [(r, (v, true))]))
  | [] =>
      if Z.of_nat (length (ch_buf c)) <? ch_cap c then
        (Some (inl true),
         Chan (ch_cap c) (ch_buf c ++ [v]) false (ch_sendq c) [] (ch_sdone c) (ch_rdone c))
      else if block then
        (Some (inr t),
         Chan (ch_cap c) (ch_buf c) false (ch_sendq c ++ [(t, v)]) [] (ch_sdone c) (ch_rdone c))
      else (None, c)
  end.

Definition chan_recv (c : chan_rec) (block : bool) (t : loc)
  : option ((val * bool) + loc) * chan_rec :=
  match ch_buf c with
  | v :: buf =>
      match ch_sendq c with
      | (tk, w) :: sq =>
          (Some (inl (v, true)),
           Chan (ch_cap c) (buf ++ [w]) (ch_closed c) sq (ch_recvq c)
                (ch_sdone c ++ [(tk, true)]) (ch_rdone c))
      | [] =>
          (Some (inl (v, true)),
           Chan (ch_cap c) buf (ch_closed c) [] (ch_recvq c) (ch_sdone c) (ch_rdone c))
      end
  | [] =>
      if ch_closed c then (Some (inl (VNil, false)), c)
      else match ch_sendq c with
      | (tk, w) :: sq =>
          (Some (inl (w, true)),
           Chan (ch_cap c) [] false sq (ch_recvq c) (ch_sdone c ++ [(tk, true)]) (ch_rdone c))
      | [] =>
          if block then
            (Some (inr t),
             Chan (ch_cap c) [] false [] (ch_recvq c ++ [t]) (ch_sdone c) (ch_rdone c))
          else (None, c)
      end
  end.

(** false = already closed (Go panics). *)
Definition chan_close (c : chan_rec) : bool * chan_rec :=
  if ch_closed c then (false, c)
  else (true,
        Chan (ch_cap c) (ch_buf c) true [] []
             (ch_sdone c ++ map (fun p => (fst p, false)) (ch_sendq c))
             (ch_rdone c ++ map (fun t => (t, (VNil, false))) (ch_recvq c))).

Definition next_choice (s : state) : Z * state :=
  match s_oracle s with
  | [] => (0, s)
  | z :: r => (z, set_oracle r s)
  end.

(** Put a token in a capacity-one channel if there is room (select with default). *)
(** Replacing an object that exists (a write to an address that was never allocated has no effect; no
    Go program can do that). *)
Definition put {A} (l : loc) (x : A) (m : Pmap A) : Pmap A :=
  match m !! l with Some _ => <[l := x]> m | None => m end.
Definition upd_proc (l : loc) (f : proc_rec -> proc_rec) (s : state) : state :=
  set_procs (put l (f (proc_at s l)) (s_procs s)) s.

(** The choice a blocked scheduled process makes (prim_concurrency.go:187-199): 0 = abort token taken,
    1 = restart token taken, 2 = timer fired.  Time is not modelled: the timer may fire whenever the
    process looks.  Go picks uniformly among ready cases; here the oracle picks. *)
Definition select_ready (p : proc_rec) : list Z :=
  (if pr_abort p then [0] else []) ++ (if pr_restart p then [1] else []) ++ [2].

Definition pick {A} (d : A) (l : list A) (z : Z) : A :=
  nth (Z.to_nat (z mod Z.max 1 (Z.of_nat (length l)))) l d.

(** tokenizer.go:54-55, 68-77: the tokenizer of the port that was read last is kept.  Its state follows from the history:
    the text it was made on and the number of expressions read from it.  For another port there is none. *)
Fixpoint reader_of (p : loc) (log : list event) : option (string * nat) :=
  match log with
  | [] => None
  | EGot q t :: _ => if Pos.eqb p q then Some (t, 1%nat) else None
  | EMore q :: older => if Pos.eqb p q then match reader_of p older with Some (t, n) => Some (t, S n) | None => None end else None
  | _ :: older => reader_of p older
  end.

(** Answer of an operation and the state after it; None = the goroutine must wait. *)
Definition step_op {X} (o : op X) (s : state) : option (X * state) :=
  match o in op X return option (X * state) with
  | OCons t a d =>
      let l := s_next s in Some (l, set_cells (<[l := (a, d)]> (s_cells s)) (bump s))
  | OCar l => Some (fst (cell_at s l), s)
  | OCdr l => Some (snd (cell_at s l), s)
  | OSetCar l v => Some (tt, set_cells (put l (v, snd (cell_at s l)) (s_cells s)) s)
  | OSetCdr l v => Some (tt, set_cells (put l (fst (cell_at s l), v) (s_cells s)) s)
  | OStrNew x => let l := s_next s in Some (l, set_strs (<[l := x]> (s_strs s)) (bump s))
  | OStrGet l => Some (str_at s l, s)
  | OStrSet l x => Some (tt, set_strs (put l x (s_strs s)) s)
  | OBytesNew b => let l := s_next s in Some (l, set_bytes (<[l := b]> (s_bytes s)) (bump s))
  | OBytesGet l => Some (bytes_at s l, s)
  | OBytesSetAt l i b => Some (tt, set_bytes (put l (list_set (bytes_at s l) i b) (s_bytes s)) s)
  | OBytesPut l b => Some (tt, set_bytes (put l b (s_bytes s)) s)
  | OFunNew f => let l := s_next s in
      Some (l, set_funs (<[l := FnState f false None]> (s_funs s)) (bump s))
  | OFunGet l => Some (fn_code (fun_at s l), s)
  | OFunSlot l => Some (fn_slot (fun_at s l), s)
  | OFunSetSlot l b =>
      Some (tt, set_funs (put l (FnState (fn_code (fun_at s l)) b (fn_proc (fun_at s l))) (s_funs s)) s)
  | OFunProc l => Some (fn_proc (fun_at s l), s)
  | OMacNew m => let l := s_next s in Some (l, set_macros (<[l := m]> (s_macros s)) (bump s))
  | OMacGet l => Some (mac_at s l, s)
  | OEnvNew name parent frame =>
      let l := s_next s in
      let r := match parent with Some p => e_restricted (env_at s p) | None => false end in
      Some (l, set_envs (<[l := Env name parent frame [] r]> (s_envs s)) (bump s))
  | OEnvName l => Some (e_name (env_at s l), s)
  | OEnvParent l => Some (e_parent (env_at s l), s)
  | OEnvFrame l => Some (e_frame (env_at s l), s)
  | OEnvRestricted l => Some (e_restricted (env_at s l), s)
  | OEnvRestrict l =>
      let e := env_at s l in
      Some (tt, set_envs (put l (Env (e_name e) (e_parent e) (e_frame e) (e_binds e) true) (s_envs s)) s)
  | OEnvFind l name => Some (alookup name (e_binds (env_at s l)), s)
  | OEnvPut l name b =>
      let e := env_at s l in
      Some (tt, set_envs (put l (Env (e_name e) (e_parent e) (e_frame e)
                                     (aset name b (e_binds e)) (e_restricted e)) (s_envs s)) s)
  | OEnvDel l name =>
      let e := env_at s l in
      Some (tt, set_envs (put l (Env (e_name e) (e_parent e) (e_frame e)
                                     (adel name (e_binds e)) (e_restricted e)) (s_envs s)) s)
  | OEnvNames l => Some (e_binds (env_at s l), s)
  | OBindNew b => let l := s_next s in Some (l, set_binds (<[l := b]> (s_binds s)) (bump s))
  | OBindSym l => Some (b_sym (bind_at s l), s)
  | OBindVal l => Some (b_val (bind_at s l), s)
  | OBindProt l => Some (b_prot (bind_at s l), s)
  | OBindSet l v =>
      Some (tt, set_binds (put l (Binding (b_sym (bind_at s l)) v (b_prot (bind_at s l))) (s_binds s)) s)
  | OBindSetProt l =>
      Some (tt, set_binds (put l (Binding (b_sym (bind_at s l)) (b_val (bind_at s l)) true) (s_binds s)) s)
  | OTopFind name => Some (alookup name (s_tops s), s)
  | OTopSet name l => Some (tt, set_tops (aset name l (s_tops s)) s)
  | OGlobal => Some (s_global s, s)
  | OFrameNew slots => let l := s_next s in Some (l, set_frames (<[l := slots]> (s_frames s)) (bump s))
  | OFrameFind l k => Some (alookup k (frame_at s l), s)
  | OFrameSet l k v => Some (tt, set_frames (put l (aset k v (frame_at s l)) (s_frames s)) s)
  | OFrameDel l k =>
      match alookup k (frame_at s l) with
      | Some _ => Some (true, set_frames (put l (adel k (frame_at s l)) (s_frames s)) s)
      | None => Some (false, s)
      end
  | OFrameAll l => Some (frame_at s l, s)
  | OChanNew cap => let l := s_next s in
      Some (l, set_chans (<[l := Chan cap [] false [] [] [] []]> (s_chans s)) (bump s))
  | OChanSend l v block =>
      let '(r, c) := chan_send (chan_at s l) v block (s_next s) in
      Some (r, set_chans (put l c (s_chans s)) (bump s))
  | OChanSendWait l t =>
      let c := chan_at s l in
      match plookup t (ch_sdone c) with
      | None => None
      | Some b =>
          Some (b, set_chans (put l (Chan (ch_cap c) (ch_buf c) (ch_closed c) (ch_sendq c) (ch_recvq c)
                                          (pdel t (ch_sdone c)) (ch_rdone c)) (s_chans s)) s)
      end
  | OChanRecv l block =>
      let '(r, c) := chan_recv (chan_at s l) block (s_next s) in
      Some (r, set_chans (put l c (s_chans s)) (bump s))
  | OChanRecvWait l t =>
      let c := chan_at s l in
      match plookup t (ch_rdone c) with
      | None => None
      | Some b =>
          Some (b, set_chans (put l (Chan (ch_cap c) (ch_buf c) (ch_closed c) (ch_sendq c) (ch_recvq c)
                                          (ch_sdone c) (pdel t (ch_rdone c))) (s_chans s)) s)
      end
  | OChanClose l =>
      let '(b, c) := chan_close (chan_at s l) in
      Some (b, set_chans (put l c (s_chans s)) s)
  | OProcSched l => Some (pr_sched (proc_at s l), s)
  | OProcTryWake l =>
      Some (negb (pr_wake (proc_at s l)),
            upd_proc l (fun p => Proc true (pr_abort p) (pr_restart p) (pr_ret p) (pr_joined p) (pr_sched p)) s)
  | OProcTryAbort l =>
      Some (negb (pr_abort (proc_at s l)),
            upd_proc l (fun p => Proc (pr_wake p) true (pr_restart p) (pr_ret p) (pr_joined p) (pr_sched p)) s)
  | OProcTryRestart l =>
      Some (negb (pr_restart (proc_at s l)),
            upd_proc l (fun p => Proc (pr_wake p) (pr_abort p) true (pr_ret p) (pr_joined p) (pr_sched p)) s)
  | OProcSleep l =>
      (* woken if a token is there and the timeout did not win; the oracle decides *)
      let '(z, s1) := next_choice s in
      if pr_wake (proc_at s l) && negb (Z.odd z) then
        Some (true, upd_proc l (fun p => Proc false (pr_abort p) (pr_restart p) (pr_ret p) (pr_joined p) (pr_sched p)) s1)
      else Some (false, s1)
  | OProcSelect l =>
      let '(z, s1) := next_choice s in
      let c := pick 2 (select_ready (proc_at s l)) z in
      Some (c,
            if c =? 0 then upd_proc l (fun p => Proc (pr_wake p) false (pr_restart p) (pr_ret p) (pr_joined p) (pr_sched p)) s1
            else if c =? 1 then upd_proc l (fun p => Proc (pr_wake p) (pr_abort p) false (pr_ret p) (pr_joined p) (pr_sched p)) s1
            else s1)
  | OProcJoin l =>
      Some (negb (pr_joined (proc_at s l)),
            upd_proc l (fun p => Proc (pr_wake p) (pr_abort p) (pr_restart p) (pr_ret p) true (pr_sched p)) s)
  | OProcTakeRet l =>
      match pr_ret (proc_at s l) with
      | None => None
      | Some v => Some (v, upd_proc l (fun p => Proc (pr_wake p) (pr_abort p) (pr_restart p) None (pr_joined p) (pr_sched p)) s)
      end
  | OSpawn sched fl args env =>
      (* &Process{}, function.ParentProcess = proc and the go statement, as one action: the process is
         not reachable by anyone else before the function points at it *)
      let l := s_next s in
      let f := FnState (fn_code (fun_at s fl)) (fn_slot (fun_at s fl)) (Some l) in
      Some (l, set_pending (s_pending s ++ [if sched then SpawnSched l fl args env else SpawnFork l fl args env])
                 (set_procs (<[l := Proc false false false None false sched]> (s_procs s))
                    (set_funs (put fl f (s_funs s)) (bump s))))
  | OAtomNew z => let l := s_next s in Some (l, set_atoms (<[l := z]> (s_atoms s)) (bump s))
  | OAtomLoad l => Some (atom_at s l, s)
  | OAtomStore l z => Some (tt, set_atoms (put l z (s_atoms s)) s)
  | OAtomAdd l z =>
      let n := wrap64 (atom_at s l + z) in Some (n, set_atoms (put l n (s_atoms s)) s)
  | OAtomSwap l z => Some (atom_at s l, set_atoms (put l z (s_atoms s)) s)
  | OAtomCas l old new =>
      if atom_at s l =? old then Some (true, set_atoms (put l new (s_atoms s)) s)
      else Some (false, s)
  | OGensym prefix =>
      let n := default 0 (alookup prefix (s_gensyms s)) in
      Some (n, set_gensyms (aset prefix (n + 1) (s_gensyms s)) s)
  | OChoose => let '(z, s1) := next_choice s in Some (z, s1)
  | OUni => Some (s_uni s, s)
  | OReader p => Some (reader_of p (s_log s), s)
  | OEvent e => Some (tt, set_log (e :: s_log s) s)
  end.

(** prim_concurrency.go:93, 201 `proc.ReturnValue <- returnValue`: the last action of a process's goroutine
    (no Lisp program can do it).  The channel has capacity one: None = it would block. *)
Definition put_ret (l : loc) (v : val) (s : state) : option state :=
  match pr_ret (proc_at s l) with
  | Some _ => None
  | None => Some (upd_proc l (fun p => Proc (pr_wake p) (pr_abort p) (pr_restart p) (Some v) (pr_joined p) (pr_sched p)) s)
  end.
