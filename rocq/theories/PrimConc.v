(** Model of prim_channel.go and prim_concurrency.go. *)
From Verif Require Export PrimString.
Local Open Scope string_scope.
Local Open Scope list_scope.
Local Open Scope Z_scope.

(** ** Channels *)

Definition fail_object {A} (text : string) (v : val) : prog (res A) :=
  fail (text +++ object_type v +++ ".").
Definition fail_type {A} (text : string) (v : val) : prog (res A) := fail (text +++ type_name v +++ ".").

(** make(chan *Data, n) panics beyond the address space (runtime/chan.go: 48-bit limit, 8-byte elements). *)
Definition max_chan : Z := 35184372088832.
(** prim_channel.go:26 MakeChannelImpl *)
Definition make_channel_impl (args : list val) (env : loc) : prog (res val) :=
  match args with
  | [VInt n] =>
      if n <? 0 then fail ("channel size needs to be positive; got " +++ string_of_Z n +++ ".")
      else if max_chan <? n then Panic "makechan: size out of range"
      else l <- do_op (OChanNew n) ;; ok (VChan l)
  | [v] => fail_type "make-channel expects an Integer as its second argument but received " v
  | _ => l <- do_op (OChanNew 0) ;; ok (VChan l)
  end.
(** prim_channel.go:58 ChannelWriteImpl: sending on a closed channel panics, and the panic becomes an error.
    A send that has to wait parks the goroutine until a receiver or a close releases it. *)
Definition channel_write_impl (args : list val) (env : loc) : prog (res val) :=
  match arg 0 args with
  | VChan l =>
      r <- do_op (OChanSend l (arg 1 args) true) ;;
      sent <- (match r with
               | Some (inr t) => do_op (OChanSendWait l t)
               | Some (inl b) => Ret b
               | None => Ret true
               end) ;;
      if sent : bool then ok VNil else fail "channel<- tried to write to a closed channel."
  | v => fail_object "channel<- expects an Channel object but received " v
  end.
(** prim_channel.go:84 ChannelReadImpl *)
Definition channel_read_impl (args : list val) (env : loc) : prog (res val) :=
  match arg 0 args with
  | VChan l =>
      r <- do_op (OChanRecv l true) ;;
      p <- (match r with
            | Some (inr t) => do_op (OChanRecvWait l t)
            | Some (inl p) => Ret p
            | None => Ret (VNil, false)
            end) ;;
      v <- array_to_list [fst p; VBool (snd p)] ;; ok v
  | v => fail_object "<-channel expects an Channel object but received " v
  end.
(** prim_channel.go:98 ChannelTryWriteImpl *)
Definition channel_try_write_impl (args : list val) (env : loc) : prog (res val) :=
  match arg 0 args with
  | VChan l =>
      r <- do_op (OChanSend l (arg 1 args) false) ;;
      match r with
      | Some (inl true) => ok (VBool true)
      | Some (inl false) => fail "channel-try-write tried to write to a closed channel."
      | _ => ok (VBool false)
      end
  | v => fail_object "channel-try-write expects an Channel object but received " v
  end.
(** prim_channel.go:129 ChannelTryReadImpl *)
Definition channel_try_read_impl (args : list val) (env : loc) : prog (res val) :=
  match arg 0 args with
  | VChan l =>
      r <- do_op (OChanRecv l false) ;;
      match r with
      | Some (inl (x, more)) => v <- array_to_list [VBool true; x; VBool more] ;; ok v
      | _ => v <- array_to_list [VBool false; VNil; VBool true] ;; ok v
      end
  | v => fail_object "<-channel expects an Channel object but received " v
  end.
(** prim_channel.go:151 CloseChannelImpl *)
Definition close_channel_impl (args : list val) (env : loc) : prog (res val) :=
  match arg 0 args with
  | VChan l =>
      b <- do_op (OChanClose l) ;;
      if b : bool then ok VNil else fail "channel-close tried to close a channel twice."
  | v => fail_object "<-channel expects an Channel object but received " v
  end.
(** prim_channel.go:17-24 *)
Definition channel_prims : list prim :=
  [ func "make-channel" "0|1" make_channel_impl; func "channel-write" "2" channel_write_impl;
    func "channel-read" "1" channel_read_impl; func "channel-try-write" "2" channel_try_write_impl;
    func "channel-try-read" "1" channel_try_read_impl; func "close-channel" "1" close_channel_impl ].

(** ** Processes *)

(** prim_concurrency.go:57-70, 155-168: the function must accept the process and the given arguments. *)
Definition arity_fits (who : string) (f : fn) (count : Z) : res unit :=
  if f_varargs f then
    if count <? f_req f then
      Err (who +++ " expected a function with arity of at most " +++ string_of_Z count
               +++ ", but it was " +++ string_of_Z (f_req f) +++ ".")
    else Ok tt
  else if count =? f_req f then Ok tt
  else Err (who +++ " expected a function with arity of " +++ string_of_Z count
                +++ ", but it was " +++ string_of_Z (f_req f) +++ ".").
Definition start_process (who : string) (sched : bool) (fl : loc) (rest : val) (env : loc) : prog (res val) :=
  n <- length_of rest ;;
  f <- do_op (OFunGet fl) ;;
  _ <-? Ret (arity_fits who f (n + 1)) ;;
  p <- do_op (OSpawn sched fl rest env) ;;
  ok (VProc p).
(** prim_concurrency.go:49 ForkImpl *)
Definition fork_impl (args : list val) (env : loc) : prog (res val) :=
  match arg 0 args with
  | VFun fl => rest <- tail_list 1 args ;; start_process "fork" false fl rest env
  | v => fail_got "fork expected a function, but received " v
  end.
(** prim_concurrency.go:141 ScheduleImpl *)
Definition schedule_impl (args : list val) (env : loc) : prog (res val) :=
  match arg 0 args with
  | VInt _ =>
      match arg 1 args with
      | VFun fl => rest <- tail_list 2 args ;; start_process "schedule" true fl rest env
      | v => fail_got "schedule expected a function, but received " v
      end
  | v => fail_got "schedule expected an integer as a delay, but received " v
  end.
(** The goroutines (prim_concurrency.go:81-94 and 179-202).  Errors and panics of the function are
    printed; whatever happens, a value is put in ReturnValue. *)
Definition result_value (r : res val) : prog val :=
  match r with
  | Ok v => Ret v
  | Err m => do_op (OEvent (EOut (m +++ nl))) ;;; Ret VNil
  end.
Definition process_call (p fl : loc) (rest : val) (env : loc) : prog val :=
  args <- cons (VProc p) rest ;;
  r <- fun_apply fl args env None false ;; result_value r.
Definition scheduled_call (p fl : loc) (rest : val) (env : loc) : prog val :=
  loop (fun _ : unit =>
          c <- do_op (OProcSelect p) ;;
          if c =? 0 then Ret (inr VNil)
          else if c =? 1 then Ret (inl tt)
          else v <- process_call p fl rest env ;; Ret (inr v)) tt.
Definition spawn_process (r : spawn_req) : loc :=
  match r with SpawnFork p _ _ _ | SpawnSched p _ _ _ => p end.
Definition spawn_work (r : spawn_req) : prog val :=
  match r with
  | SpawnFork p fl rest env => process_call p fl rest env
  | SpawnSched p fl rest env => scheduled_call p fl rest env
  end.

Definition need_process {A} (who : string) (v : val) (k : loc -> prog (res A)) : prog (res A) :=
  match v with VProc p => k p | _ => fail_object who v end.
Definition ok_string : prog (res val) := v <- new_str "OK" ;; ok v.
(** prim_concurrency.go:99 ProcSleepImpl *)
Definition proc_sleep_impl (args : list val) (env : loc) : prog (res val) :=
  need_process "proc-sleep expects a Process object expected but received " (arg 0 args) (fun p =>
  match arg 1 args with
  | VInt _ => b <- do_op (OProcSleep p) ;; ok (VBool b)
  | v => fail_got "proc-sleep expected an integer as a delay, but received " v
  end).
(** prim_concurrency.go:125 WakeImpl *)
Definition wake_impl (args : list val) (env : loc) : prog (res val) :=
  need_process "wake expects a Process object expected but received " (arg 0 args) (fun p =>
  do_op (OProcTryWake p) ;;; ok_string).
(** prim_concurrency.go:208 AbandonImpl *)
Definition abandon_impl (args : list val) (env : loc) : prog (res val) :=
  need_process "adandon expects a Process object expected but received " (arg 0 args) (fun p =>
  s <- do_op (OProcSched p) ;;
  if s : bool then do_op (OProcTryAbort p) ;;; ok_string
  else fail "tried to adandon a Process that isn't scheduled").
(** prim_concurrency.go:229 ResetTimeoutImpl *)
Definition reset_timeout_impl (args : list val) (env : loc) : prog (res val) :=
  need_process "restart expects a Process object expected but received " (arg 0 args) (fun p =>
  s <- do_op (OProcSched p) ;;
  if s : bool then
    b <- do_op (OProcTryRestart p) ;;
    v <- new_str (if b : bool then "OK" else "task was already completed or abandoned") ;; ok v
  else fail "tried to reset a Process that isn't scheduled").
(** prim_concurrency.go:253 JoinImpl *)
Definition join_impl (args : list val) (env : loc) : prog (res val) :=
  need_process "join expects a Process object but received " (arg 0 args) (fun p =>
  pp <- value_of env (VSym "parentProcess") false ;;
  if (match pp with VProc q => Pos.eqb p q | _ => false end) then ok VNil
  else
    first <- do_op (OProcJoin p) ;;
    if first : bool then v <- do_op (OProcTakeRet p) ;; ok v
    else fail "tried to join on a task twice").

(** ** Atomic integers *)

(** prim_concurrency.go:281 AtomicImpl *)
Definition atomic_impl (args : list val) (env : loc) : prog (res val) :=
  match args with
  | [VInt z] => l <- do_op (OAtomNew z) ;; ok (VAtomic l)
  | [v] => fail_type "atomic expects an Integer as its argument but received " v
  | _ => l <- do_op (OAtomNew 0) ;; ok (VAtomic l)
  end.
Definition need_atomic (name : string) (v : val) (k : loc -> prog (res val)) : prog (res val) :=
  match v with
  | VAtomic l => k l
  | _ => fail_object (name +++ " expects an Atomic object but received ") v
  end.
Definition need_int_arg (name which : string) (v : val) (k : Z -> prog (res val)) : prog (res val) :=
  match v with
  | VInt z => k z
  | _ => fail_type (name +++ " expects an Integer as its " +++ which +++ " argument but received ") v
  end.
(** prim_concurrency.go:296 AtomicLoadImpl *)
Definition atomic_load_impl (args : list val) (env : loc) : prog (res val) :=
  need_atomic "atomic-load" (arg 0 args) (fun l => z <- do_op (OAtomLoad l) ;; ok (VInt z)).
(** prim_concurrency.go:310 AtomicStoreImpl *)
Definition atomic_store_impl (args : list val) (env : loc) : prog (res val) :=
  need_atomic "atomic-store!" (arg 0 args) (fun l =>
  need_int_arg "atomic-store!" "second" (arg 1 args) (fun z => do_op (OAtomStore l z) ;;; ok VNil)).
(** prim_concurrency.go:333 AtomicAddImpl *)
Definition atomic_add_impl (args : list val) (env : loc) : prog (res val) :=
  need_atomic "atomic-add!" (arg 0 args) (fun l =>
  need_int_arg "atomic-add!" "second" (arg 1 args) (fun z => n <- do_op (OAtomAdd l z) ;; ok (VInt n))).
(** prim_concurrency.go:356 AtomicSwapImpl *)
Definition atomic_swap_impl (args : list val) (env : loc) : prog (res val) :=
  need_atomic "atomic-swap!" (arg 0 args) (fun l =>
  need_int_arg "atomic-swap!" "second" (arg 1 args) (fun z => n <- do_op (OAtomSwap l z) ;; ok (VInt n))).
(** prim_concurrency.go:379 AtomicCompareAndSwapImpl *)
Definition atomic_cas_impl (args : list val) (env : loc) : prog (res val) :=
  need_atomic "atomic-compare-and-swap!" (arg 0 args) (fun l =>
  need_int_arg "atomic-compare-and-swap!" "second" (arg 1 args) (fun old =>
  need_int_arg "atomic-compare-and-swap!" "third" (arg 2 args) (fun new =>
  b <- do_op (OAtomCas l old new) ;; ok (VBool b)))).

(** prim_concurrency.go:32-47 *)
Definition concurrency_prims : list prim :=
  [ func "fork" ">=1" fork_impl; func "proc-sleep" "2" proc_sleep_impl; func "wake" "1" wake_impl;
    func "schedule" ">=2" schedule_impl; func "reset-timeout" "1" reset_timeout_impl;
    func "abandon" "1" abandon_impl; func "join" "1" join_impl;
    func "atomic" "0|1" atomic_impl; func "atomic-load" "1" atomic_load_impl;
    func "atomic-store!" "2" atomic_store_impl; func "atomic-add!" "2" atomic_add_impl;
    func "atomic-swap!" "2" atomic_swap_impl; func "atomic-compare-and-swap!" "3" atomic_cas_impl ].
