(** What concurrent programs can observe: the actions goroutines perform on shared objects, in the order in which
    they happen, and how atomic integers, channels, processes and the symbol generator should answer them. *)
From Verif Require Export Pool SpecCall.
Local Open Scope string_scope.
Local Open Scope list_scope.
Local Open Scope Z_scope.

(** *** Histories *)

(** What one step of a goroutine does that others can notice: an action on the shared state with its answer, or a
    process handing over its result. *)
Inductive act :=
| Did {X} (o : op X) (x : X)
| Result (p : loc) (v : val).
Definition prog_act {A} (p : prog A) (s : state) : list act :=
  match p with
  | Vis o _ => match step_op o s with Some (x, _) => [Did o x] | None => [] end
  | _ => []
  end.
Definition thread_act (t : thread) (s : state) : list act :=
  match t with
  | TEval p => prog_act p s
  | TProc _ p => prog_act p s
  | TPut p v => [Result p v]
  | TDone => []
  end.

(** [history c h c']: some interleaving of the goroutines of [c] (and of those they start) leads to [c'], and [h]
    lists the actions performed on the way, in order. *)
Inductive history (c : pool) : list act -> pool -> Prop :=
| h_start : history c [] c
| h_step h pre t post s t' s' :
    history c h (pre ++ t :: post, s) -> step_thread t s = Some (t', s') ->
    history c (h ++ thread_act t s) (pre ++ t' :: post ++ spawned s', set_pending [] s').

(** *** Atomic integers *)
Inductive atom_event :=
| ALoad (answer : Z)
| AStore (new : Z)
| AAdd (d answer : Z)
| ASwap (new answer : Z)
| ACas (expected new : Z) (answer : bool).
(** One action on an integer holding [z], after which it holds [z']. *)
Definition atom_step (z : Z) (e : atom_event) (z' : Z) : Prop :=
  match e with
  | ALoad r => r = z /\ z' = z
  | AStore n => z' = n
  | AAdd d r => r = z' /\ - 2 ^ 63 <= z' < 2 ^ 63 /\ (z' - (z + d)) mod 2 ^ 64 = 0
  | ASwap n r => r = z /\ z' = n
  | ACas e n r => (z = e /\ r = true /\ z' = n) \/ (z <> e /\ r = false /\ z' = z)
  end.
(** Executed one at a time, in this order. *)
Inductive one_at_a_time : Z -> list atom_event -> Z -> Prop :=
| oat_nil z : one_at_a_time z [] z
| oat_step z e z1 es z' : atom_step z e z1 -> one_at_a_time z1 es z' -> one_at_a_time z (e :: es) z'.

Definition on_this (l k : loc) {A} (x : A) : list A := if Pos.eqb l k then [x] else [].
Definition atom_of (l : loc) (a : act) : list atom_event :=
  match a with
  | Did o x =>
      match o in op X return X -> list atom_event with
      | OAtomLoad k => fun r => on_this l k (ALoad r)
      | OAtomStore k z => fun _ => on_this l k (AStore z)
      | OAtomAdd k d => fun r => on_this l k (AAdd d r)
      | OAtomSwap k n => fun r => on_this l k (ASwap n r)
      | OAtomCas k e n => fun r => on_this l k (ACas e n r)
      | _ => fun _ => []
      end x
  | Result _ _ => []
  end.
(** The actions on atomic integer [l], in order. *)
Definition on_atom (l : loc) (h : list act) : list atom_event := flat_map (atom_of l) h.

(** The actions are the additions of the numbers [ds]. *)
Definition sum (l : list Z) : Z := fold_right Z.add 0 l.
Definition additions (es : list atom_event) (ds : list Z) : Prop := Forall2 (fun e d => exists r, e = AAdd d r) es ds.

(** *** Channels *)
Inductive chan_event :=
| CWrite (v : val) (block : bool) (answer : option (bool + loc))
    (* None: would have to wait; inl true: done; inl false: closed; inr t: waits, under ticket t *)
| CWriteEnd (t : loc) (answer : bool)             (* the waiting write [t] returns *)
| CRead (block : bool) (answer : option ((val * bool) + loc))
| CReadEnd (t : loc) (answer : val * bool)        (* the waiting read [t] returns *)
| CClose (answer : bool).
Definition chan_of (l : loc) (a : act) : list chan_event :=
  match a with
  | Did o x =>
      match o in op X return X -> list chan_event with
      | OChanSend k v b => fun r => on_this l k (CWrite v b r)
      | OChanSendWait k t => fun r => on_this l k (CWriteEnd t r)
      | OChanRecv k b => fun r => on_this l k (CRead b r)
      | OChanRecvWait k t => fun r => on_this l k (CReadEnd t r)
      | OChanClose k => fun r => on_this l k (CClose r)
      | _ => fun _ => []
      end x
  | Result _ _ => []
  end.
Definition on_chan (l : loc) (h : list act) : list chan_event := flat_map (chan_of l) h.

(** What matters about a channel: the writes accepted so far, in order, each with its ticket if it had to wait;
    the reads so far, in order, likewise; once closed, how many of the writes had made it into the buffer; and the
    waiting calls that have returned. *)
Record chan_view := View {
  written : list (val * option loc); asked : list (option loc); kept_writes : option nat; returned : list loc }.
Definition new_channel : chan_view := View [] [] None [].
(** One action on a channel of capacity [cap].  The i-th read is served by the i-th write: a write has to wait only
    when [cap] writes are ahead of the reads, a read only when it is ahead of the writes. *)
Inductive chan_step (cap : nat) : chan_view -> chan_event -> chan_view -> Prop :=
| cs_write_now w a r v b :
    (length w < length a + cap)%nat ->
    chan_step cap (View w a None r) (CWrite v b (Some (inl true))) (View (w ++ [(v, None)]) a None r)
| cs_write_wait w a r v t :
    (length a + cap <= length w)%nat ->
    chan_step cap (View w a None r) (CWrite v true (Some (inr t))) (View (w ++ [(v, Some t)]) a None r)
| cs_write_full w a r v :
    (length a + cap <= length w)%nat ->
    chan_step cap (View w a None r) (CWrite v false None) (View w a None r)
| cs_write_closed w a n r v b :
    chan_step cap (View w a (Some n) r) (CWrite v b (Some (inl false))) (View w a (Some n) r)
| cs_write_end w a r i v t :
    nth_error w i = Some (v, Some t) -> ~ In t r -> (i < length a + cap)%nat ->
    chan_step cap (View w a None r) (CWriteEnd t true) (View w a None (t :: r))
| cs_write_end_closed w a n r i v t :
    nth_error w i = Some (v, Some t) -> ~ In t r ->
    chan_step cap (View w a (Some n) r) (CWriteEnd t (i <? n)%nat) (View w a (Some n) (t :: r))
| cs_read_now w a r v o b :
    nth_error w (length a) = Some (v, o) ->
    chan_step cap (View w a None r) (CRead b (Some (inl (v, true)))) (View w (a ++ [None]) None r)
| cs_read_wait w a r t :
    (length w <= length a)%nat ->
    chan_step cap (View w a None r) (CRead true (Some (inr t))) (View w (a ++ [Some t]) None r)
| cs_read_empty w a r :
    (length w <= length a)%nat ->
    chan_step cap (View w a None r) (CRead false None) (View w a None r)
| cs_read_left w a n r v o b :
    nth_error w (length a) = Some (v, o) -> (length a < n)%nat ->
    chan_step cap (View w a (Some n) r) (CRead b (Some (inl (v, true)))) (View w (a ++ [None]) (Some n) r)
| cs_read_over w a n r b :
    (n <= length a)%nat ->
    chan_step cap (View w a (Some n) r) (CRead b (Some (inl (VNil, false)))) (View w a (Some n) r)
| cs_read_end w a c r i v o t :
    nth_error a i = Some (Some t) -> ~ In t r -> nth_error w i = Some (v, o) ->
    chan_step cap (View w a c r) (CReadEnd t (v, true)) (View w a c (t :: r))
| cs_read_end_closed w a n r i t :
    nth_error a i = Some (Some t) -> ~ In t r -> nth_error w i = None ->
    chan_step cap (View w a (Some n) r) (CReadEnd t (VNil, false)) (View w a (Some n) (t :: r))
| cs_close w a r :
    chan_step cap (View w a None r) (CClose true) (View w a (Some (Nat.min (length w) (length a + cap))) r)
| cs_close_again w a n r :
    chan_step cap (View w a (Some n) r) (CClose false) (View w a (Some n) r).
Inductive chan_steps (cap : nat) : chan_view -> list chan_event -> chan_view -> Prop :=
| css_nil v : chan_steps cap v [] v
| css_step v es v1 e v' : chan_steps cap v es v1 -> chan_step cap v1 e v' -> chan_steps cap v (es ++ [e]) v'.

(** The same, without the machine: the values accepted by writes and the reads, in the order of the calls. *)
Definition accepted (es : list chan_event) : list val :=
  flat_map (fun e => match e with CWrite v _ (Some (inl true)) | CWrite v _ (Some (inr _)) => [v] | _ => [] end) es.
(** A read that was served at once with (value, #t), or has to wait under a ticket. *)
Definition requests (es : list chan_event) : list (val + loc) :=
  flat_map (fun e => match e with CRead _ (Some (inl (v, true))) => [inl v] | CRead _ (Some (inr t)) => [inr t] | _ => [] end) es.
(** The value a read was served with. *)
Definition served (es : list chan_event) (r : val + loc) (v : val) : Prop :=
  match r with inl x => v = x | inr t => In (CReadEnd t (v, true)) es end.
(** Writes that have returned without an error. *)
Definition completed (es : list chan_event) : nat :=
  length (List.filter (fun e => match e with CWrite _ _ (Some (inl true)) => true | CWriteEnd _ true => true | _ => false end) es).

(** Answers of a closed channel: writing and closing fail, reading never waits. *)
Definition closed_answer (e : chan_event) : Prop :=
  match e with
  | CWrite _ _ a => a = Some (inl false)
  | CRead _ a => exists x more, a = Some (inl (x, more))
  | CClose b => b = false
  | _ => True
  end.
(** Channel [l] has just been created with capacity [cap]. *)
Definition fresh_channel (s : state) (l : loc) (cap : nat) : Prop :=
  s_chans s !! l = Some (Chan (Z.of_nat cap) [] false [] [] [] []).

(** *** Processes *)
Definition owner (t : thread) : list loc := match t with TProc p _ => [p] | TPut p _ => [p] | _ => [] end.
Definition owners (ts : list thread) : list loc := flat_map owner ts.
(** No goroutine belongs to a process that does not exist yet, and no start is pending: true of a pool of host
    goroutines, and kept by every step. *)
Definition orderly (c : pool) : Prop := s_pending (snd c) = [] /\ Forall (fun q => (q < s_next (snd c))%positive) (owners (fst c)).
(** Process [p] has just been created to do [w]: it has one goroutine, no result, and nobody joined it. *)
Definition just_started (p : loc) (w : prog val) (c : pool) : Prop :=
  orderly c /\ (exists b, s_procs (snd c) !! p = Some (Proc false false false None false b)) /\
  In (TProc p w) (fst c) /\ count_occ Pos.eq_dec (owners (fst c)) p = 1%nat.

Definition proc_acts {T} (f : forall X, op X -> X -> list T) (r : loc -> val -> list T) (h : list act) : list T :=
  flat_map (fun a => match a with Did o x => f _ o x | Result p v => r p v end) h.
(** The processes started, with what their function and arguments are. *)
Definition starts (h : list act) : list (spawn_req) :=
  proc_acts (fun X o => match o in op X return X -> _ with
    | OSpawn b f args env => fun p => [if b then SpawnSched p f args env else SpawnFork p f args env]
    | _ => fun _ => [] end) (fun _ _ => []) h.
(** What the attempts to join [p] were told: #t = go on and wait for the result, #f = refused. *)
Definition joins (p : loc) (h : list act) : list bool :=
  proc_acts (fun X o => match o in op X return X -> _ with OProcJoin k => fun b => on_this p k b | _ => fun _ => [] end) (fun _ _ => []) h.
(** The results of [p] handed to joiners. *)
Definition delivered (p : loc) (h : list act) : list val :=
  proc_acts (fun X o => match o in op X return X -> _ with OProcTakeRet k => fun v => on_this p k v | _ => fun _ => [] end) (fun _ _ => []) h.
(** The results [p]'s goroutine left. *)
Definition results (p : loc) (h : list act) : list val := proc_acts (fun X o x => []) (fun k v => on_this p k v) h.

(** The signals sent to a process and consumed by it. *)
Inductive signal := Wake | Abandon | Restart.
Inductive sig_event := Sent (k : signal) | Got (k : signal).
Definition proc_of (l : loc) (a : act) : list sig_event :=
  match a with
  | Did o x =>
      match o in op X return X -> list sig_event with
      | OProcTryWake k => fun _ => on_this l k (Sent Wake)
      | OProcTryAbort k => fun _ => on_this l k (Sent Abandon)
      | OProcTryRestart k => fun _ => on_this l k (Sent Restart)
      | OProcSleep k => fun b => if b : bool then on_this l k (Got Wake) else []
      | OProcSelect k => fun c => if c =? 0 then on_this l k (Got Abandon)
                                  else if c =? 1 then on_this l k (Got Restart) else []
      | _ => fun _ => []
      end x
  | Result _ _ => []
  end.
Definition on_proc (l : loc) (h : list act) : list sig_event := flat_map (proc_of l) h.

(** One goroutine's own view: the steps of its program, while the others change the state in any way between them. *)
Inductive prog_path {A} (q : prog A) : list act -> prog A -> Prop :=
| path_start : prog_path q [] q
| path_step h q1 s q2 s' : prog_path q h q1 -> step_prog q1 s = Some (q2, s') -> prog_path q (h ++ prog_act q1 s) q2.
(** The program is finished, and the result its process leaves is [v]: what it returned, or nil after a panic. *)
Definition ends (q : prog val) (v : val) : Prop :=
  finished q = Some (Done v) \/ exists w, finished q = Some (Panicked w) /\ v = VNil.
(** A complete run: the actions [h], and then the result [v]. *)
Definition prog_run (w : prog val) (h : list act) (v : val) : Prop := exists q, prog_path w h q /\ ends q v.
(** Calling function [f] of process [p] with argument list [args]: it is given the process and the arguments. *)
Inductive process_result (p f : loc) (args : val) (env : loc) : list act -> val -> Prop :=
| pr_ok l h q v : prog_path (fun_apply f (VCell TCons l) env None false) h q -> finished q = Some (Done (Ok v)) ->
    process_result p f args env (Did (OCons TCons (VProc p) args) l :: h) v
| pr_err l h q m u : prog_path (fun_apply f (VCell TCons l) env None false) h q -> finished q = Some (Done (Err m)) ->
    process_result p f args env (Did (OCons TCons (VProc p) args) l :: h ++ [Did (OEvent (EOut (m +++ nl))) u]) VNil
| pr_panic l h q w : prog_path (fun_apply f (VCell TCons l) env None false) h q -> finished q = Some (Panicked w) ->
    process_result p f args env (Did (OCons TCons (VProc p) args) l :: h) VNil.

(** *** The symbol generator *)
Definition gensym_of (a : act) : list (string * Z) :=
  match a with
  | Did o x => match o in op X return X -> list (string * Z) with OGensym p => fun n => [(p, n)] | _ => fun _ => [] end x
  | Result _ _ => []
  end.
(** The answers of the generator, as (prefix, count), in order. *)
Definition on_gensym (h : list act) : list (string * Z) := flat_map gensym_of h.
(** The name of the symbol made from an answer: gensym gives prefix-count, gensym-naked the same with a colon. *)
Definition symbol_name (naked : bool) (a : string * Z) : string :=
  fst a +++ "-" +++ string_of_Z (snd a) +++ (if naked then ":" else "").

(** One call of the built-in [name], entered with argument values [vs] (see [applies] in SpecCall for calls that run
    alone): its own actions were [h], whatever other goroutines did in between, and it ended with [o]. *)
Definition performs (name : string) (vs : list val) (env : loc) (h : list act) (o : outcome (res val)) : Prop :=
  exists p q, In p all_prims /\ p_name p = name /\ prog_path (p_body p vs env) h q /\ finished q = Some o.
(** The two-element list (x more) was built as [v]; a nil element becomes an empty list. *)
Inductive pair_made (x : val) (more : bool) : list act -> val -> Prop :=
| made_value l1 l2 : x <> VNil ->
    pair_made x more [Did (OCons TCons (VBool more) VNil) l1; Did (OCons TCons x (VCell TCons l1)) l2] (VCell TCons l2)
| made_nil l1 l0 l2 : x = VNil ->
    pair_made x more [Did (OCons TCons (VBool more) VNil) l1; Did (OCons TCons VNil VNil) l0; Did (OCons TCons (VCell TCons l0) (VCell TCons l1)) l2] (VCell TCons l2).
(** The same for (got x more), the answer of channel-try-read. *)
Inductive triple_made (got : bool) (x : val) (more : bool) : list act -> val -> Prop :=
| made_triple h d l : pair_made x more h d -> triple_made got x more (h ++ [Did (OCons TCons (VBool got) d) l]) (VCell TCons l).
(** The outcome of channel-write: whether the value was accepted. *)
Definition write_outcome (b : bool) : outcome (res val) := Done (if b then Ok VNil else Err "channel<- tried to write to a closed channel.").
