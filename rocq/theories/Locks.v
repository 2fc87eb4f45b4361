(** Frames and the symbol table at the level of their locks.  The rest of the model treats a slot access as one atomic
    action; here every lock operation and every access to a Go map is a separate step of a goroutine, and an access
    has a beginning and an end, so that unprotected accesses would be seen to overlap. *)
From Verif Require Export Values.
From stdpp Require Import gmap list strings.
Local Open Scope string_scope.
Local Open Scope list_scope.

(** Values, as far as it matters here.  A symbol object has an identity of its own besides its name. *)
Inductive item := INil | IFrame (f : loc) | ISym (id : nat) (name : string) | IOther (z : Z).
Notation slots := (gmap string item).
(** frame.go:17-22 FrameMap: a map and a sync.RWMutex.  The mutex is (number of read locks held, the goroutine that
    called Lock, whether it got it): once a goroutine has called Lock no further read lock is granted
    (documentation of sync.RWMutex: "a blocked Lock call excludes new readers from acquiring the lock"). *)
Record cell := Cell { c_slots : slots; c_readers : nat; c_writer : option nat; c_held : bool }.
Definition no_cell : cell := Cell ∅ 0 None false.
Record lstate := LState { l_cells : gmap loc cell; l_next : nat }.
Definition cell_at (s : lstate) (f : loc) : cell := match l_cells s !! f with Some c => c | None => no_cell end.
Definition set_cell (f : loc) (c : cell) (s : lstate) : lstate := LState (<[f := c]> (l_cells s)) (l_next s).

(** Changes of a map: self.Data[key] = value, and delete(self.Data, key). *)
Inductive update := USet (k : string) (v : item) | UDel (k : string).
Definition apply_update (u : update) (m : slots) : slots := match u with USet k v => <[k := v]> m | UDel k => delete k m end.

Inductive answer := AItem (v : item) | ABool (b : bool) | ASlots (m : slots) | AItems (l : list item).
(** What a goroutine still has to do.  [CGet] and [CHas] stand for calls of getHelper and hasSlotHelper, with the set of
    visited frames; they go on with the result and the new set. *)
Inductive code :=
| CRet (a : answer)
| CPanic
| CRLock (f : loc) (k : code) | CRUnlock (f : loc) (k : code)
| CLock (f : loc) (k : code) | CUnlock (f : loc) (k : code)
| CRead (f : loc) (k : slots -> list (string * item) -> code)   (* the map, and the order a range statement goes *)
| CWrite (f : loc) (u : update) (k : code)
| CNew (k : nat -> code)                                         (* a new symbol object *)
| CGet (f : loc) (key : string) (visited : list loc) (k : item -> list loc -> code)
| CHas (f : loc) (key : string) (visited : list loc) (k : bool -> list loc -> code).

(** strings.HasSuffix(key, "*:"): frame.go:37 isParentKey *)
Definition is_parent_key (k : string) : bool :=
  has_suffix "*:" k.
(** frame.go:51-59 Parents: FrameValue panics on a value that is not a frame (None). *)
Fixpoint parents_of (l : list (string * item)) : option (list loc) :=
  match l with
  | [] => Some []
  | (k, v) :: r =>
      if is_parent_key k then
        match v with
        | INil => parents_of r
        | IFrame f => match parents_of r with Some ps => Some (f :: ps) | None => None end
        | _ => None
        end
      else parents_of r
  end.

(** frame.go:110-116 and :79-86: the loops over the parents, each locked while it is searched. *)
Fixpoint get_loop (key : string) (ps : list loc) (vis : list loc) (k : item -> list loc -> code) : code :=
  match ps with
  | [] => k INil vis
  | p :: r => CRLock p (CGet p key vis (fun v vis' => CRUnlock p (match v with INil => get_loop key r vis' k | _ => k v vis' end)))
  end.
Fixpoint has_loop (key : string) (ps : list loc) (vis : list loc) (k : bool -> list loc -> code) : code :=
  match ps with
  | [] => k false vis
  | p :: r => CRLock p (CHas p key vis (fun b vis' => CRUnlock p (if b then k true vis' else has_loop key r vis' k)))
  end.
Definition member (f : loc) (l : list loc) : bool := existsb (Pos.eqb f) l.
(** frame.go:98-119 getHelper *)
Definition get_body (f : loc) (key : string) (vis : list loc) (k : item -> list loc -> code) : code :=
  if member f vis then k INil vis
  else CRead f (fun m _ =>
         match m !! key with
         | Some v => k v (f :: vis)
         | None => CRead f (fun _ l => match parents_of l with Some ps => get_loop key ps (f :: vis) k | None => CPanic end)
         end).
(** frame.go:63-88 hasSlotHelper (hasSlotLocally, hasParentSlots and Parents each read the map) *)
Definition has_body (f : loc) (key : string) (vis : list loc) (k : bool -> list loc -> code) : code :=
  if member f vis then k false vis
  else CRead f (fun m _ =>
         match m !! key with
         | Some _ => k true (f :: vis)
         | None => CRead f (fun _ l1 =>
             if existsb (fun x => is_parent_key (fst x)) l1 then
               CRead f (fun _ l => match parents_of l with Some ps => has_loop key ps (f :: vis) k | None => CPanic end)
             else k false (f :: vis))
         end).

(** ** The calls *)
(** frame.go:121 Get, 90 HasSlot *)
Definition get_call (f : loc) (key : string) : code := CRLock f (CGet f key [] (fun v _ => CRUnlock f (CRet (AItem v)))).
Definition has_call (f : loc) (key : string) : code := CRLock f (CHas f key [] (fun b _ => CRUnlock f (CRet (ABool b)))).
(** frame.go:143 Set *)
Definition set_call (f : loc) (key : string) (v : item) : code := CLock f (CWrite f (USet key v) (CUnlock f (CRet (AItem v)))).
(** frame.go:131 Remove *)
Definition remove_call (f : loc) (key : string) : code :=
  CLock f (CRead f (fun m _ =>
    match m !! key with
    | None => CUnlock f (CRet (ABool false))
    | Some _ => CWrite f (UDel key) (CUnlock f (CRet (ABool true)))
    end)).
(** frame.go:152 Clone (the copy is a new map), 177 Values *)
Definition clone_call (f : loc) : code := CRLock f (CRead f (fun m _ => CRUnlock f (CRet (ASlots m)))).
Definition values_call (f : loc) : code := CRLock f (CRead f (fun _ l => CRUnlock f (CRet (AItems (map snd l))))).
(** prim_frame.go:176 getSuperFunction: the read lock is held while the parents are searched. *)
Fixpoint super_loop (f : loc) (key : string) (ps : list loc) : code :=
  match ps with
  | [] => CRUnlock f (CRet (AItem INil))
  | p :: r => CRLock p (CGet p key [] (fun v _ => CRUnlock p (match v with INil => super_loop f key r | _ => CRUnlock f (CRet (AItem v)) end)))
  end.
Definition super_call (f : loc) (key : string) : code :=
  CRLock f (CRead f (fun _ l => match parents_of l with Some ps => super_loop f key ps | None => CPanic end)).
(** symbol_table_frame.go:47-60: internedSymbols is a map with a lock like a frame's; it is kept at address 1, which no
    frame has (Values.v). *)
Definition symbols : loc := 1%positive.
Definition intern_code (name : string) (k : item -> code) : code :=
  CRLock symbols (CRead symbols (fun m _ => CRUnlock symbols
    (match m !! name with
     | Some v => k v
     | None => CLock symbols (CNew (fun id => CWrite symbols (USet name (ISym id name)) (CUnlock symbols (k (ISym id name)))))
     end))).
Definition intern_call (name : string) : code := intern_code name (fun v => CRet (AItem v)).
(** frame.go:167 Keys: interns each key while holding the read lock. *)
Fixpoint intern_all (l : list string) (acc : list item) (k : list item -> code) : code :=
  match l with [] => k (rev acc) | n :: r => intern_code n (fun v => intern_all r (v :: acc) k) end.
Definition keys_call (f : loc) : code := CRLock f (CRead f (fun _ l => intern_all (map fst l) [] (fun ks => CRUnlock f (CRet (AItems ks))))).

(** ** Goroutines *)
Inductive gor :=
| Run (c : code)
| Waiting (f : loc) (c : code)                                      (* has called Lock *)
| Reading (f : loc) (k : slots -> list (string * item) -> code)     (* in the middle of reading the map *)
| Writing (f : loc) (m : slots) (u : update) (c : code).            (* in the middle of changing the map it found to be m *)
(** Accesses to maps, when they end. *)
Inductive event := ERead (f : loc) (m : slots) | EWrite (f : loc) (u : update).
Definition with_slots (m : slots) (c : cell) : cell := Cell m (c_readers c) (c_writer c) (c_held c).

(** One step of goroutine number [t]. *)
Inductive gstep (t : nat) : gor -> lstate -> list event -> gor -> lstate -> Prop :=
| g_rlock f k s c : cell_at s f = c -> c_writer c = None ->
    gstep t (Run (CRLock f k)) s [] (Run k) (set_cell f (Cell (c_slots c) (S (c_readers c)) None (c_held c)) s)
| g_runlock f k s c : cell_at s f = c ->
    gstep t (Run (CRUnlock f k)) s [] (Run k) (set_cell f (Cell (c_slots c) (pred (c_readers c)) (c_writer c) (c_held c)) s)
| g_ask f k s c : cell_at s f = c -> c_writer c = None ->
    gstep t (Run (CLock f k)) s [] (Waiting f k) (set_cell f (Cell (c_slots c) (c_readers c) (Some t) false) s)
| g_lock f k s c : cell_at s f = c -> c_writer c = Some t -> c_readers c = 0 ->
    gstep t (Waiting f k) s [] (Run k) (set_cell f (Cell (c_slots c) 0 (Some t) true) s)
| g_unlock f k s c : cell_at s f = c ->
    gstep t (Run (CUnlock f k)) s [] (Run k) (set_cell f (Cell (c_slots c) (c_readers c) None false) s)
| g_read f k s : gstep t (Run (CRead f k)) s [] (Reading f k) s
| g_read_end f k s l : l ≡ₚ map_to_list (c_slots (cell_at s f)) ->
    gstep t (Reading f k) s [ERead f (c_slots (cell_at s f))] (Run (k (c_slots (cell_at s f)) l)) s
| g_write f u k s : gstep t (Run (CWrite f u k)) s [] (Writing f (c_slots (cell_at s f)) u k) s
| g_write_end f m u k s : gstep t (Writing f m u k) s [EWrite f u] (Run k) (set_cell f (with_slots (apply_update u m) (cell_at s f)) s)
| g_new k s : gstep t (Run (CNew k)) s [] (Run (k (l_next s))) (LState (l_cells s) (S (l_next s)))
| g_get f key vis k s : gstep t (Run (CGet f key vis k)) s [] (Run (get_body f key vis k)) s
| g_has f key vis k s : gstep t (Run (CHas f key vis k)) s [] (Run (has_body f key vis k)) s.

(** Any number of goroutines; [moves c h c']: some interleaving leads from [c] to [c'], with the accesses [h] (and the
    number of the goroutine that made each). *)
Definition gpool : Type := list gor * lstate.
Inductive moves (c : gpool) : list (nat * event) -> gpool -> Prop :=
| mv_start : moves c [] c
| mv_step h ts s t g es g' s' : moves c h (ts, s) -> nth_error ts t = Some g -> gstep t g s es g' s' ->
    moves c (h ++ map (pair t) es) (<[t := g']> ts, s').
