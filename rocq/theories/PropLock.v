(** C42 and C48: the locks of the symbol table and of frames (model: Locks.v; the goroutines may do any number of calls,
    in any interleaving of their lock operations and map accesses). *)
From Verif Require Import ProofLock.
From Verif Require RunFacts ProofSchedule.
From stdpp Require Import gmap list strings.
From Verif Require Import SpecLock.
Local Open Scope string_scope.
Local Open Scope list_scope.

(** * C42 *)
(** Every Intern call answers a symbol with the name it was given, whatever else goes on. *)
Theorem C42_names : forall names others s h c', moves (map (fun n => Run (intern_call n)) names ++ others, s) h c' ->
  Forall (fun g => exists p, g = Run p /\ session api_call p) others -> unlocked s -> proper_symbols s ->
  forall t n a, nth_error names t = Some n -> nth_error (fst c') t = Some (Run (CRet a)) -> exists id, a = AItem (ISym id n).
Proof. exact intern_names. Qed.
(** So the answers of two calls are equal symbols exactly when the names are the same. *)
Theorem C42_equal : forall names others s h c', moves (map (fun n => Run (intern_call n)) names ++ others, s) h c' ->
  Forall (fun g => exists p, g = Run p /\ session api_call p) others -> unlocked s -> proper_symbols s ->
  forall t1 t2 n1 n2 v1 v2, nth_error names t1 = Some n1 -> nth_error names t2 = Some n2 ->
  nth_error (fst c') t1 = Some (Run (CRet (AItem v1))) -> nth_error (fst c') t2 = Some (Run (CRet (AItem v2))) -> (same_symbol v1 v2 <-> n1 = n2).
Proof. exact intern_equal. Qed.
(** Once a name is in the table all later calls answer that very object. *)
Theorem C42_settled : forall k n v others s h c', moves (map (fun n => Run (intern_call n)) (repeat n k) ++ others, s) h c' ->
  Forall (fun g => exists p, g = Run p /\ session api_call p) others -> unlocked s -> c_slots (cell_at s symbols) !! n = Some v ->
  forall t a, (t < k)%nat -> nth_error (fst c') t = Some (Run (CRet a)) -> a = AItem v.
Proof. exact intern_settled. Qed.
(** But two first calls can answer two different objects of the same name (symbol_table_frame.go:50-57 looks under the
    read lock and inserts under a later write lock without looking again). *)
Definition c42_start : gpool := ([Run (intern_call "a"); Run (intern_call "a")], one_frame 5%positive ∅).
Definition c42_race : list nat := [0;0;0;0; 1;1;1;1; 0;0;0;0;0;0; 1;1;1;1;1;1].
Theorem C42_one_object_refuted : exists h c', moves c42_start h c' /\ fst c' = [Run (CRet (AItem (ISym 0 "a"))); Run (CRet (AItem (ISym 1 "a")))].
Proof. eexists _, _. split; [exact (gsched_moves c42_race c42_start)|vm_compute; reflexivity]. Qed.
(** The premises hold for these two goroutines, and they get to the end. *)
Example C42_cases :
  (unlocked (snd c42_start) /\ proper_symbols (snd c42_start)) /\
  Forall (fun g => exists p, g = Run p /\ session api_call p) [Run (set_call 5%positive "a:" INil)] /\
  (exists v, c_slots (cell_at (snd (snd (gsched c42_race c42_start))) symbols) !! "a" = Some v) /\
  same_symbol (ISym 0 "a") (ISym 1 "a") /\ ~ same_symbol (ISym 0 "a") (ISym 1 "b").
Proof.
  apply conj; [apply conj; [apply one_frame_unlocked|apply one_frame_symbols; discriminate]|]. apply conj.
  { constructor; [|constructor]. eexists. split; [reflexivity|]. apply session_last. constructor. discriminate. }
  apply conj; [eexists; vm_compute; reflexivity|]. apply conj; [exists "a"; auto|]. intros (n & H1 & H2). cbn in *. congruence.
Qed.
Print Assumptions C42_names.
Print Assumptions C42_equal.
Print Assumptions C42_settled.
Print Assumptions C42_one_object_refuted.

(** * C48 *)
(** Whatever API calls any number of goroutines make, no map is ever accessed by one while another one changes it. *)
Theorem C48_exclusion : forall c h c', moves c h c' -> beginning api_call c -> ~ collision (fst c').
Proof. exact no_collisions. Qed.
(** The accesses to a frame's map are one at a time: each read sees exactly the updates before it, none is lost. *)
Theorem C48_in_turn : forall c h c' f, moves c h c' -> beginning api_call c ->
  in_turn (c_slots (cell_at (snd c) f)) (on_map f h) (c_slots (cell_at (snd c') f)).
Proof. exact maps_in_turn. Qed.
(** Each call has the accesses one expects, whatever the others do meanwhile: Set is one write, Remove looks and then
    removes what it found, Get and HasSlot answer from the frame's own slots when the slot is there, Clone is one read. *)
Theorem C48_set : forall f key v es a, own_steps (Run (set_call f key v)) es (Run (CRet a)) -> es = [EWrite f (USet key v)] /\ a = AItem v.
Proof. exact set_steps. Qed.
Theorem C48_remove : forall f key es a, own_steps (Run (remove_call f key)) es (Run (CRet a)) ->
  exists m, (es = [ERead f m] /\ m !! key = None /\ a = ABool false) \/ (es = [ERead f m; EWrite f (UDel key)] /\ m !! key <> None /\ a = ABool true).
Proof. exact remove_steps. Qed.
Theorem C48_get : forall f key es a, own_steps (Run (get_call f key)) es (Run (CRet a)) ->
  exists m es', es = ERead f m :: es' /\ forall v, m !! key = Some v -> es' = [] /\ a = AItem v.
Proof. exact get_steps. Qed.
Theorem C48_has : forall f key es a, own_steps (Run (has_call f key)) es (Run (CRet a)) ->
  exists m es', es = ERead f m :: es' /\ (m !! key <> None -> es' = [] /\ a = ABool true).
Proof. exact has_steps. Qed.
Theorem C48_clone : forall f es a, own_steps (Run (clone_call f)) es (Run (CRet a)) -> exists m, es = [ERead f m] /\ a = ASlots m.
Proof. exact clone_steps. Qed.
(** With prototypes that form no cycle nothing ever gets stuck: somebody can move until all calls have answered. *)
Theorem C48_no_deadlock : forall rank c h c', moves c h c' ->
  Forall (fun g => exists p, g = Run p /\ session (ranked_call rank) p) (fst c) -> unlocked (snd c) -> ranked rank (snd c) ->
  can_move c' \/ Forall (fun g => exists a, g = Run (CRet a)) (fst c').
Proof. exact no_deadlock. Qed.
(** But a frame that is its own parent is locked twice for reading by one Get, HasSlot or send-super, and a Set that
    comes in between makes both wait for ever. *)
Definition c48_self : lstate := one_frame 5%positive {[ "p*:" := IFrame 5%positive ]}.
Definition c48_start (c : code) : gpool := ([Run c; Run (set_call 5%positive "y:" INil)], c48_self).
Theorem C48_cycle_refuted : forall c, In c [get_call 5%positive "x:"; has_call 5%positive "x:"; super_call 5%positive "x:"] ->
  beginning api_call (c48_start c) /\ exists h c', moves (c48_start c) h c' /\ deadlock c'.
Proof.
  intros c I. split.
  - split; [|split; [apply one_frame_unlocked|apply one_frame_symbols; discriminate]]. destruct I as [<-|[<-|[<-|[]]]].
    all: constructor; [|constructor; [|constructor]]; (eexists; split; [reflexivity|apply session_last; constructor; discriminate]).
  - destruct I as [<-|[<-|[<-|[]]]].
    + exists (fst (gsched [0;0;0;0;0;0;1] (c48_start (get_call 5%positive "x:")))), (snd (gsched [0;0;0;0;0;0;1] (c48_start (get_call 5%positive "x:")))).
      split; [apply gsched_moves|apply deadlock_check; vm_compute; reflexivity].
    + exists (fst (gsched [0;0;0;0;0;0;0;0;1] (c48_start (has_call 5%positive "x:")))), (snd (gsched [0;0;0;0;0;0;0;0;1] (c48_start (has_call 5%positive "x:")))).
      split; [apply gsched_moves|apply deadlock_check; vm_compute; reflexivity].
    + exists (fst (gsched [0;0;0;1] (c48_start (super_call 5%positive "x:")))), (snd (gsched [0;0;0;1] (c48_start (super_call 5%positive "x:")))).
      split; [apply gsched_moves|apply deadlock_check; vm_compute; reflexivity].
Qed.
(** And a Get that panics (a parent slot that holds no frame) keeps the read lock, so every later Set waits for ever. *)
Definition c48_bad : gpool := ([Run (get_call 5%positive "x:"); Run (set_call 5%positive "y:" INil)], one_frame 5%positive {[ "p*:" := IOther 7 ]}).
Theorem C48_panic_refuted : beginning api_call c48_bad /\ exists h c', moves c48_bad h c' /\ nth_error (fst c') 0 = Some (Run CPanic) /\ deadlock c'.
Proof.
  split.
  - split; [|split; [apply one_frame_unlocked|apply one_frame_symbols; discriminate]].
    constructor; [|constructor; [|constructor]]; (eexists; split; [reflexivity|apply session_last; constructor; discriminate]).
  - exists (fst (gsched [0;0;0;0;0;0;1] c48_bad)), (snd (gsched [0;0;0;0;0;0;1] c48_bad)). split; [apply gsched_moves|].
    split; [vm_compute; reflexivity|apply deadlock_check; vm_compute; reflexivity].
Qed.
(** The premises hold for a reader and two writers on a frame and its prototype; one run of them, with its accesses. *)
Definition c48_rank (f : loc) : nat := Pos.to_nat f.
Definition c48_cells : lstate := LState {[ 6%positive := Cell {[ "p*:" := IFrame 5%positive ]} 0 None false; 5%positive := Cell {[ "x:" := IOther 1 ]} 0 None false ]} 0.
Definition c48_pool : gpool := ([Run (get_call 6%positive "x:"); Run (set_call 5%positive "x:" (IOther 2)); Run (remove_call 6%positive "p*:")], c48_cells).
Example C48_cases :
  beginning api_call c48_pool /\
  Forall (fun g => exists p, g = Run p /\ session (ranked_call c48_rank) p) (fst c48_pool) /\ ranked c48_rank (snd c48_pool) /\
  (let x := gsched [0;1;0;0;0;0;0;0;1;1;1;1;0;0;0;0;0;0;2;2;2;2;2;2;2;2] c48_pool in
   fst (snd x) = [Run (CRet (AItem (IOther 2))); Run (CRet (AItem (IOther 2))); Run (CRet (ABool true))] /\
   length (on_map 5%positive (fst x)) = 2 /\ length (on_map 6%positive (fst x)) = 4).
Proof.
  assert (Cells : forall f, (f = 6%positive /\ cell_at c48_cells f = Cell {[ "p*:" := IFrame 5%positive ]} 0 None false) \/
                            (f = 5%positive /\ cell_at c48_cells f = Cell {[ "x:" := IOther 1 ]} 0 None false) \/ cell_at c48_cells f = no_cell).
  { intros f. destruct (decide (f = 6%positive)) as [->|D6]; [left; auto|]. destruct (decide (f = 5%positive)) as [->|D5]; [right; left; auto|].
    right. right. unfold cell_at, c48_cells. cbn [l_cells]. rewrite lookup_insert_ne by congruence. rewrite lookup_singleton_ne by congruence. reflexivity. }
  apply conj; [|apply conj; [|apply conj]].
  - split; [|split].
    + constructor; [|constructor; [|constructor; [|constructor]]]; (eexists; split; [reflexivity|apply session_last; constructor; discriminate]).
    + intros f. cbn [snd c48_pool]. destruct (Cells f) as [[-> ->]|[[-> ->]| ->]]; auto.
    + intros n v H. vm_compute in H. destruct n; discriminate.
  - constructor; [|constructor; [|constructor; [|constructor]]]; (eexists; split; [reflexivity|apply session_last; constructor; try discriminate]).
  - intros f key v Df H. cbn [snd c48_pool] in H. destruct (Cells f) as [[-> E]|[[-> E]|E]]; rewrite E in H; cbn [c_slots no_cell] in H.
    + apply lookup_singleton_Some in H as [<- <-]. intros _. split; [discriminate|]. unfold c48_rank. lia.
    + apply lookup_singleton_Some in H as [<- <-]. intros K. vm_compute in K. discriminate.
    + rewrite lookup_empty in H. discriminate.
  - vm_compute. auto.
Qed.
Print Assumptions C48_exclusion.
Print Assumptions C48_in_turn.
Print Assumptions C48_set.
Print Assumptions C48_remove.
Print Assumptions C48_get.
Print Assumptions C48_has.
Print Assumptions C48_clone.
Print Assumptions C48_no_deadlock.
Print Assumptions C48_cycle_refuted.
Print Assumptions C48_panic_refuted.
