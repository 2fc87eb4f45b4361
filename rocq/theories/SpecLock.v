(** Specification for C42 and C48: what the locks of frames and of the symbol table must guarantee. *)
From Verif Require Export Locks.
From stdpp Require Import gmap list strings.
Local Open Scope string_scope.
Local Open Scope list_scope.

(** The calls of the Go API that lock frames or the symbol table. *)
Inductive api_call : code -> Prop :=
| api_get f key : api_call (get_call f key)
| api_has f key : api_call (has_call f key)
| api_set f key v : f <> symbols -> api_call (set_call f key v)
| api_remove f key : f <> symbols -> api_call (remove_call f key)
| api_clone f : api_call (clone_call f)
| api_values f : api_call (values_call f)
| api_keys f : api_call (keys_call f)
| api_super f key : api_call (super_call f key)
| api_intern name : api_call (intern_call name).
Fixpoint then_do (c : code) (k : answer -> code) : code :=
  match c with
  | CRet a => k a
  | CPanic => CPanic
  | CRLock f c => CRLock f (then_do c k)
  | CRUnlock f c => CRUnlock f (then_do c k)
  | CLock f c => CLock f (then_do c k)
  | CUnlock f c => CUnlock f (then_do c k)
  | CRead f c => CRead f (fun m l => then_do (c m l) k)
  | CWrite f u c => CWrite f u (then_do c k)
  | CNew c => CNew (fun n => then_do (c n) k)
  | CGet f key vis c => CGet f key vis (fun v vis' => then_do (c v vis') k)
  | CHas f key vis c => CHas f key vis (fun b vis' => then_do (c b vis') k)
  end.
(** A goroutine making calls one after the other, each depending on the answers so far. *)
Inductive session (call : code -> Prop) : code -> Prop :=
| session_end a : session call (CRet a)
| session_last c : call c -> session call c
| session_call c k : call c -> (forall a, session call (k a)) -> session call (then_do c k).
(** No lock is taken. *)
Definition unlocked (s : lstate) : Prop := forall f, c_readers (cell_at s f) = 0 /\ c_writer (cell_at s f) = None /\ c_held (cell_at s f) = false.
(** The symbol table maps names to symbols of that name. *)
Definition proper_symbols (s : lstate) : Prop := forall n v, c_slots (cell_at s symbols) !! n = Some v -> exists id, v = ISym id n.
Definition beginning (call : code -> Prop) (c : gpool) : Prop :=
  Forall (fun g => exists p, g = Run p /\ session call p) (fst c) /\ unlocked (snd c) /\ proper_symbols (snd c).

(** One goroutine is changing a map while another one accesses it: the Go runtime kills the program ("concurrent map
    read and map write"). *)
Definition accesses (g : gor) (f : loc) : Prop :=
  match g with Reading f' _ => f' = f | Writing f' _ _ _ => f' = f | _ => False end.
Definition changes (g : gor) (f : loc) : Prop := match g with Writing f' _ _ _ => f' = f | _ => False end.
Definition collision (ts : list gor) : Prop :=
  exists i j f gi gj, i <> j /\ nth_error ts i = Some gi /\ nth_error ts j = Some gj /\ changes gi f /\ accesses gj f.

(** The accesses to the map of [f], in order. *)
Definition on_map (f : loc) (h : list (nat * event)) : list event :=
  List.filter (fun e => match e with ERead f' _ | EWrite f' _ => Pos.eqb f f' end) (map snd h).
(** They happen one at a time: every read sees all the changes made before it, a change works on the latest map, and a
    slot is only ever removed when it is there. *)
Inductive in_turn : slots -> list event -> slots -> Prop :=
| turn_end m : in_turn m [] m
| turn_read m f es m' : in_turn m es m' -> in_turn m (ERead f m :: es) m'
| turn_set m f k v es m' : in_turn (<[k := v]> m) es m' -> in_turn m (EWrite f (USet k v) :: es) m'
| turn_del m f k es m' : m !! k <> None -> in_turn (delete k m) es m' -> in_turn m (EWrite f (UDel k) :: es) m'.

(** One goroutine's own view of a call: its steps and accesses, whatever the others do in between. *)
Inductive own_steps (g : gor) : list event -> gor -> Prop :=
| own_start : own_steps g [] g
| own_step es g1 t s e g2 s' : own_steps g es g1 -> gstep t g1 s e g2 s' -> own_steps g (es ++ e) g2.

(** Nobody can move, and somebody is not finished. *)
Definition finished_gor (g : gor) : Prop := match g with Run (CRet _) => True | Run CPanic => True | _ => False end.
Definition can_move (c : gpool) : Prop := exists t g es g' s', nth_error (fst c) t = Some g /\ gstep t g (snd c) es g' s'.
Definition deadlock (c : gpool) : Prop := ~ can_move c /\ ~ Forall finished_gor (fst c).

(** Prototypes without cycles: a number for every frame such that parent slots lead to smaller numbers, and calls that
    keep it so. *)
Definition ranked_item (rank : loc -> nat) (f : loc) (key : string) (v : item) : Prop :=
  is_parent_key key = true -> match v with INil => True | IFrame p => p <> symbols /\ rank p < rank f | _ => False end.
Definition ranked (rank : loc -> nat) (s : lstate) : Prop :=
  forall f key v, f <> symbols -> c_slots (cell_at s f) !! key = Some v -> ranked_item rank f key v.
Inductive ranked_call (rank : loc -> nat) : code -> Prop :=
| ranked_get f key : f <> symbols -> ranked_call rank (get_call f key)
| ranked_has f key : f <> symbols -> ranked_call rank (has_call f key)
| ranked_set f key v : f <> symbols -> ranked_item rank f key v -> ranked_call rank (set_call f key v)
| ranked_remove f key : f <> symbols -> ranked_call rank (remove_call f key)
| ranked_clone f : ranked_call rank (clone_call f)
| ranked_values f : ranked_call rank (values_call f)
| ranked_keys f : f <> symbols -> ranked_call rank (keys_call f)
| ranked_super f key : f <> symbols -> ranked_call rank (super_call f key)
| ranked_intern name : ranked_call rank (intern_call name).

(** data.go:818-905 IsEqual on symbols compares the names. *)
Definition sym_name (v : item) : option string := match v with ISym _ n => Some n | _ => None end.
Definition same_symbol (v w : item) : Prop := exists n, sym_name v = Some n /\ sym_name w = Some n.
