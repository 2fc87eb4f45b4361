(** C23, C24, C49: frames.  [reaches], [inherits] and [proper_parents] (SpecFrame) describe the prototype graph, which
    may be cyclic and arbitrarily large; the order in which a frame's prototypes are visited is chosen by the state. *)
From Verif Require Import ProofFrame.
From Verif Require ProofList.
From stdpp Require Import list.
From Verif Require Import Data SpecFrame.
Local Open Scope string_scope.
Local Open Scope list_scope.
Local Open Scope Z_scope.

(** * C23 *)
(** Every search ends; #t means somebody reachable has the slot, #f that nobody has; it can only crash when a
    reachable prototype slot holds something that is not a frame. *)
Theorem C23_terminates : forall f k env s, naked k -> exists o s', applies "has-slot?" [VFrame f; VSym k] env s o s' /\ only_choices (entering "has-slot?" env s) s' /\
  match o with
  | Done (Ok v) => (v = VBool true /\ exists g, reaches s f g /\ slot s g k <> None) \/
                   (v = VBool false /\ proper_parents s f /\ forall g, reaches s f g -> slot s g k = None)
  | Done (Err _) => False
  | Panicked _ => ~ proper_parents s f
  end.
Proof. exact has_slot_any. Qed.
Theorem C23_has_slot : forall f k env s, naked k -> proper_parents s f -> exists b s',
  applies "has-slot?" [VFrame f; VSym k] env s (Done (Ok (VBool b))) s' /\ only_choices (entering "has-slot?" env s) s' /\
  (b = true <-> exists g, reaches s f g /\ slot s g k <> None).
Proof. exact has_slot_iff. Qed.
(** A frame's own slot is always what is read. *)
Theorem C23_own : forall f k v env s, naked k -> slot s f k = Some v ->
  applies "get-slot" [VFrame f; VSym k] env s (Done (Ok v)) (entering "get-slot" env s) /\
  applies "get-slot-or-nil" [VFrame f; VSym k] env s (Done (Ok v)) (entering "get-slot-or-nil" env s).
Proof. exact get_slot_own. Qed.
(** Otherwise the value comes from a prototype that is not overridden on the way. *)
Theorem C23_inherited : forall f k env s, naked k -> proper_parents s f -> (exists g, reaches s f g /\ slot s g k <> None) ->
  exists g v s', applies "get-slot" [VFrame f; VSym k] env s (Done (Ok v)) s' /\ only_choices (entering "get-slot" env s) s' /\ inherits s k f g v.
Proof. exact get_slot_found. Qed.
Theorem C23_missing : forall f k env s, naked k -> proper_parents s f -> (forall g, reaches s f g -> slot s g k = None) ->
  exists s', applies "get-slot" [VFrame f; VSym k] env s (Done (Err ("get-slot requires an existing slot, but was given " +++ k +++ "."))) s' /\
    only_choices (entering "get-slot" env s) s'.
Proof. exact get_slot_missing. Qed.
Theorem C23_or_nil : forall f k env s, naked k -> proper_parents s f ->
  exists v s', applies "get-slot-or-nil" [VFrame f; VSym k] env s (Done (Ok v)) s' /\ only_choices (entering "get-slot-or-nil" env s) s' /\
  ((exists g, inherits s k f g v) \/ (v = VNil /\ forall g, reaches s f g -> slot s g k = None)).
Proof. exact get_or_nil. Qed.
(** Not so when a prototype slot holds a value that is not a frame: the search crashes. *)
Theorem C23_bad_parent_refuted : forall f k env s, naked k -> ~ proper_parents s f -> (forall g, reaches s f g -> slot s g k = None) ->
  exists w s', applies "has-slot?" [VFrame f; VSym k] env s (Panicked w) s'.
Proof. exact has_slot_bad. Qed.
Print Assumptions C23_terminates. Print Assumptions C23_has_slot. Print Assumptions C23_own. Print Assumptions C23_inherited.
Print Assumptions C23_missing. Print Assumptions C23_or_nil. Print Assumptions C23_bad_parent_refuted.

(** [two_frames]: each is the other's prototype, k: is only in the second. *)
Example C23_cases :
  show 200 "(define a {a: 1}) (define b {k: 2 q*: a}) (set-slot! a p*: b) (list (has-slot? a k:) (get-slot a k:) (has-slot? a z:) (get-slot-or-nil a z:) (get-slot b a:) (on-error (get-slot a z:) (lambda (e) e)))" start
    = Some (Done (Ok "(#t 2 #f () 1 ""get-slot requires an existing slot, but was given z:."")")) /\
  (exists w, show 200 "(has-slot? {p*: 3} k:)" start = Some (Panicked w)) /\
  (let s := two_frames start in naked "k:" /\ proper_parents s 1000%positive /\ reaches s 1000%positive 1001%positive /\ reaches s 1001%positive 1000%positive /\
    inherits s "k:" 1000%positive 1001%positive (VInt 2)) /\
  (let s := odd_parent start in ~ proper_parents s 1000%positive /\ forall g, reaches s 1000%positive g -> slot s g "k:" = None).
Proof.
  split; [vm_compute; reflexivity|]. split; [eexists; vm_compute; reflexivity|]. split; [exact (two_frames_case start)|exact (odd_parent_case start)].
Qed.

(** * C24 *)
Theorem C24_set : forall f k v env s, naked k -> s_frames s !! (f : loc) <> None -> let s0 := entering "set-slot!" env s in exists s',
  applies "set-slot!" [VFrame f; VSym k; v] env s (Done (Ok v)) s' /\ only_frame f s0 s' /\ slot s' f k = Some v /\
  forall k', k' <> k -> slot s' f k' = slot s f k'.
Proof. exact set_slot_run. Qed.
Theorem C24_set_get : forall f k v env s, naked k -> s_frames s !! (f : loc) <> None -> exists s1,
  applies "set-slot!" [VFrame f; VSym k; v] env s (Done (Ok v)) s1 /\ forall env2,
  applies "get-slot" [VFrame f; VSym k] env2 s1 (Done (Ok v)) (entering "get-slot" env2 s1).
Proof. exact set_slot_get. Qed.
Theorem C24_remove : forall f k env s, naked k -> s_frames s !! (f : loc) <> None -> let s0 := entering "remove-slot!" env s in exists s',
  applies "remove-slot!" [VFrame f; VSym k] env s (Done (Ok (VBool (match slot s f k with Some _ => true | None => false end)))) s' /\
  only_frame f s0 s' /\ slot s' f k = None /\ forall k', k' <> k -> slot s' f k' = slot s f k'.
Proof. exact remove_slot_run. Qed.
(** The clone is a new frame, so that by the two theorems above updates of one never show in the other. *)
Theorem C24_clone : forall f env s, wf_state s -> exists g s',
  applies "clone" [VFrame f] env s (Done (Ok (VFrame g))) s' /\ grows s s' /\ s_frames s !! (g : loc) = None /\ frame_at s' g = frame_at s f /\
  forall l, l <> g -> frame_at s' l = frame_at s l.
Proof. exact clone_run. Qed.
(** Assigning an inherited slot inside a method writes the object itself and leaves its prototypes alone. *)
Theorem C24_method_write : forall n e env f v s s1, evals e env (entering "set!" env s) (Done (Ok v)) s1 ->
  local_binding s1 env n = None -> e_frame (env_at s1 env) = Some f -> s_frames s1 !! (f : loc) <> None ->
  proper_parents s1 f -> (exists g, reaches s1 f g /\ slot s1 g (slot_name n) <> None) ->
  exists s2 s', only_choices s1 s2 /\ applies "set!" [VSym n; e] env s (Done (Ok v)) s' /\ only_frame f s2 s' /\
    slot s' f (slot_name n) = Some v /\ forall k, k <> slot_name n -> slot s' f k = slot s1 f k.
Proof. exact set_bang_slot. Qed.
Print Assumptions C24_set. Print Assumptions C24_set_get. Print Assumptions C24_remove. Print Assumptions C24_clone. Print Assumptions C24_method_write.
Example C24_cases :
  show 300 "(define p {x: 1 bump: (lambda () (set! x (+ x 1)))}) (define o {p*: p y: 5}) (define c (clone o)) (send o bump:) (set-slot! c y: 6) (list (get-slot o x:) (get-slot p x:) (get-slot c x:) (get-slot o y:) (get-slot c y:) (remove-slot! o x:) (get-slot o x:) (remove-slot! o x:))" start
    = Some (Done (Ok "(2 1 1 5 6 #t 1 #f)")) /\
  (let s := with_method start in
   local_binding s 1002%positive "x" = None /\ e_frame (env_at s 1002%positive) = Some 1000%positive /\ s_frames s !! (1000%positive : loc) <> None /\
   proper_parents s 1000%positive /\ reaches s 1000%positive 1000%positive /\ slot s 1000%positive "x:" = Some (VInt 1) /\
   inherits s "m:" 1000%positive 1000%positive (VFun 1001%positive)).
Proof. split; [vm_compute; reflexivity|exact (with_method_case start)]. Qed.

(** * C49 *)
(** send finds the method as C23 says and calls it with the values given, as a method of the receiver [f] itself,
    wherever the method was found. *)
Theorem C49_send : forall f k vs env s, wf_state s -> naked k -> no_nils vs -> proper_parents s f -> (exists g, reaches s f g /\ slot s g k <> None) ->
  exists g v s1, inherits s k f g v /\ only_choices (entering "send" env s) s1 /\
  match v with
  | VFun fl => symbolp (f_params (fn_code (fun_at s fl))) = false ->
      exists l s2, grows s1 s2 /\ is_list s2 l vs /\
      forall o s', applies "send" (VFrame f :: VSym k :: vs) env s o s' <-> calls_function fl (Some f) as_it_is l (length vs) env s2 o s'
  | _ => forall o s', applies "send" (VFrame f :: VSym k :: vs) env s o s' <->
      fails ("send requires a function slot, but was given a slot containing a " +++ type_name v +++ ".") s1 o s'
  end.
Proof. exact send_found. Qed.
Theorem C49_missing : forall f k vs env s, naked k -> proper_parents s f -> (forall g, reaches s f g -> slot s g k = None) ->
  exists s', applies "send" (VFrame f :: VSym k :: vs) env s (Done (Err ("send requires an existing slot, but was given " +++ k +++ "."))) s' /\
    only_choices (entering "send" env s) s'.
Proof. exact send_missing. Qed.
(** The body of a method of [f] runs in a new environment, below that of the method's definition, that belongs to [f]
    and where self is [f]. *)
Theorem C49_self : forall fl f env s, wf_state s ->
  let f0 := fn_code (fun_at s fl) in
  let s2 := add_binding (s_next s) (VSym "self") (VFrame f) (open_env (f_name f0) (f_env f0) (Some f) s) in
  (forall argument args got o s', calls_function fl (Some f) argument args got env s o s' <->
    bind_if_any (s_next s) "parentProcess" (option_map VProc (fn_proc (fun_at s2 fl))) s2 (fun s3 =>
      if enough (f_varargs f0) (f_req f0) got then passes argument (s_next s) (runs_body f0 (s_next s)) (f_params f0) args s3
      else fails (arity_msg (f_name f0) (f_varargs f0) (f_req f0) (Z.of_nat got)) s3) o s') /\
  e_frame (env_at s2 (s_next s)) = Some f /\ e_parent (env_at s2 (s_next s)) = Some (f_env f0) /\
  evals (VSym "self") (s_next s) s2 (Done (Ok (VFrame f))) s2.
Proof. exact method_self. Qed.
(** In an environment that belongs to [f], the slots of [f] (own or inherited) are visible by name. *)
Theorem C49_slots : forall n env f s, has_suffix ":" n = false -> local_binding s env n = None -> e_frame (env_at s env) = Some f ->
  proper_parents s f -> (exists g, reaches s f g /\ slot s g (slot_name n) <> None) ->
  exists g v s1, inherits s (slot_name n) f g v /\ only_choices s s1 /\ evals (VSym n) env s (Done (Ok v)) (noted true v s1).
Proof. exact method_reads. Qed.
(** Not so for send-super: a method reached through it does not see the receiver's slots. *)
Theorem C49_send_super_refuted : exists src,
  show 300 src start = Some (Done (Ok "(3 ())")) /\
  src = "(define p {m: (lambda () y)}) (define a {p*: p y: 3}) (define b {p*: p y: 3 m: (lambda () (send-super m:))}) (list (send a m:) (send b m:))".
Proof. eexists. split; [|reflexivity]. vm_compute. reflexivity. Qed.
Print Assumptions C49_send. Print Assumptions C49_missing. Print Assumptions C49_self. Print Assumptions C49_slots. Print Assumptions C49_send_super_refuted.
Example C49_cases :
  show 300 "(define p {total: (lambda (z) (+ x y z)) me: (lambda () self)}) (define o {p*: p x: 1 y: 2}) (list (send o total: 10) (eq? (send o me:) o) (on-error (send o x:) (lambda (e) e)) (on-error (send o none:) (lambda (e) e)))" start
    = Some (Done (Ok "(13 #t ""send requires a function slot, but was given a slot containing a Integer."" ""send requires an existing slot, but was given none:."")")) /\
  (let s := with_method start in
   local_binding s 1002%positive "x" = None /\ e_frame (env_at s 1002%positive) = Some 1000%positive /\ s_frames s !! (1000%positive : loc) <> None /\
   proper_parents s 1000%positive /\ reaches s 1000%positive 1000%positive /\ slot s 1000%positive "x:" = Some (VInt 1) /\
   inherits s "m:" 1000%positive 1000%positive (VFun 1001%positive)).
Proof. split; [vm_compute; reflexivity|exact (with_method_case start)]. Qed.
