(** What C54 and C55 mean: goroutines that panic, and what the interpreter's values are made of. *)
From Verif Require Export SpecCall.
Local Open Scope string_scope.
Local Open Scope list_scope.
Local Open Scope Z_scope.

(** The Go code of the goroutine has panicked.  A panic in a host goroutine ends the whole program (unless the host recovers
    it); one in a goroutine of fork or schedule ends that process. *)
Definition crashed (t : thread) : Prop := exists w, t = TEval (Panic w) \/ exists pl, t = TProc pl (Panic w).

(** The built-ins for which arguments, or interference by another goroutine, are known that make them panic, and union. *)
Definition may_crash : list string :=
  ["set-car!"; "set-cdr!"; "set-nth!"; "append!"; "union"; "apply"; "take"; "drop"; "make-list"; "cons*"; "modulo"; "%";
   "interval"; "apply-slot"; "apply-slot-super"; "string-capitalize"; "string-capitalize!"; "substring"; "panic!"; "format";
   "make-channel"; "json->lisp"].

(** In every frame the slots whose names end in `*:' hold frames, or nothing. *)
Definition parents_are_frames (s : state) : Prop :=
  forall f k v, In (k, v) (frame_at s f) -> has_suffix "*:" k = true -> v = VNil \/ exists p, v = VFrame p.

(** A built-in is one of the table. *)
Definition known (v : val) : Prop := forall n, v = VPrim n -> exists p, In p all_prims /\ p_name p = n.
(** The values found in the objects of a state. *)
Inductive found (s : state) : val -> Prop :=
| found_car l : found s (fst (cell_at s l))
| found_cdr l : found s (snd (cell_at s l))
| found_params l : found s (f_params (fn_code (fun_at s l)))
| found_body l : found s (f_body (fn_code (fun_at s l)))
| found_mparams l : found s (m_params (mac_at s l))
| found_mbody l : found s (m_body (mac_at s l))
| found_bsym l : found s (b_sym (bind_at s l))
| found_bval l : found s (b_val (bind_at s l))
| found_slot l n v : In (n, v) (frame_at s l) -> found s v
| found_buffer l v : In v (ch_buf (chan_at s l)) -> found s v
| found_sender l t v : In (t, v) (ch_sendq (chan_at s l)) -> found s v
| found_received l t v b : In (t, (v, b)) (ch_rdone (chan_at s l)) -> found s v
| found_result l v : pr_ret (proc_at s l) = Some v -> found s v
| found_fork p f v e : In (SpawnFork p f v e) (s_pending s) -> found s v
| found_scheduled p f v e : In (SpawnSched p f v e) (s_pending s) -> found s v.
(** Only built-ins of the table occur, and bytearrays hold bytes. *)
Definition genuine (s : state) : Prop := forall v, found s v -> known v.
Definition bytes_in_range (s : state) : Prop := forall (l : loc) bs b, s_bytes s !! l = Some bs -> In b bs -> 0 <= b < 256.

(** A goroutine of the host that evaluates a text or an expression or calls a function, given built-ins of the table only. *)
Inductive genuine_thread : thread -> Prop :=
| genuine_text src env : genuine_thread (eval_text_thread src env)
| genuine_eval v env : known v -> genuine_thread (eval_thread v env)
| genuine_apply f args env : known f -> known args -> genuine_thread (TEval (call (RApply true f args env))).

(** Executions in which no built-in of the list is entered and parent slots hold frames throughout. *)
Definition calm (s s' : state) : Prop := (forall n, In n may_crash -> ~ entered s s' n) /\ parents_are_frames s'.

(** [n] can bring a goroutine down: from the start of the interpreter, host goroutines evaluate some texts under some schedule,
    parent slots hold frames at the end, the first goroutine has crashed and no other has, and the only built-ins of the list that were
    entered are [n] and, by way of interference, set-car! and set-cdr!. *)
Definition brings_down (s : state) (n : string) : Prop :=
  exists srcs ts' s', psteps (map (fun src => eval_text_thread src (s_global s)) srcs, s) (ts', s') /\ parents_are_frames s' /\
    (exists t r, ts' = t :: r /\ crashed t /\ Forall (fun t => ~ crashed t) r) /\ entered s s' n /\
    (forall m, In m may_crash -> entered s s' m -> m = n \/ In m ["set-car!"; "set-cdr!"]).
