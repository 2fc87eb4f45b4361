(** C68: apply-slot, send-super and apply-slot-super. *)
From Verif Require Import SpecSuper ProofSuper ProofOut ProofData ProofList ProofWf.
From Verif Require Import Data.
From Verif Require Import SpecSuper.
Local Open Scope string_scope.
Local Open Scope list_scope.
Local Open Scope Z_scope.

(** apply-slot: frame and slot name are evaluated, the method is found as C23 says, then the other operands are evaluated
    from left to right; the last must be a list, and the method is called as a method of the frame with the values before
    it followed by its elements, none of them evaluated again.  A failing operand ends the call with its failure. *)
Theorem C68_apply_slot : forall fe ke f k env s s1 s2,
  evals fe env (entering "apply-slot" env s) (Done (Ok (VFrame f))) s1 -> evals ke env s1 (Done (Ok (VSym k))) s2 -> naked k ->
  forall es, wf_state s -> proper_parents s2 f -> (exists g, reaches s2 f g /\ slot s2 g k <> None) ->
  exists g v s3, inherits s2 k f g v /\ only_choices s2 s3 /\
  match v with
  | VFun fl =>
      (forall vs lst xs s4, evals_all env es s3 (vs ++ [lst]) s4 -> no_nils vs -> is_list s4 lst xs -> symbolp (f_params (fn_code (fun_at s4 fl))) = false ->
        exists l s5, grows s4 s5 /\ is_list s5 l (vs ++ xs) /\
        forall o s', applies "apply-slot" (fe :: ke :: es) env s o s' <-> calls_function fl (Some f) as_it_is l (length (vs ++ xs)) env s5 o s') /\
      (forall vs x s4, evals_all env es s3 (vs ++ [x]) s4 -> listp x = false -> applies "apply-slot" (fe :: ke :: es) env s (Done (Err last_not_list)) s4) /\
      (forall es1 e es2 vs s4 o s5, es = es1 ++ e :: es2 -> evals_all env es1 s3 vs s4 -> evals e env s4 o s5 -> (forall v, o <> Done (Ok v)) ->
        applies "apply-slot" (fe :: ke :: es) env s o s5)
  | _ => forall o s', applies "apply-slot" (fe :: ke :: es) env s o s' <->
      fails ("apply-slot requires a function slot, but was given a slot containing a " +++ type_name v +++ ".") s3 o s'
  end.
Proof. exact apply_slot_call. Qed.
Theorem C68_apply_slot_missing : forall fe ke f k env s s1 s2,
  evals fe env (entering "apply-slot" env s) (Done (Ok (VFrame f))) s1 -> evals ke env s1 (Done (Ok (VSym k))) s2 -> naked k ->
  forall es, proper_parents s2 f -> (forall g, reaches s2 f g -> slot s2 g k = None) ->
  exists s', applies "apply-slot" (fe :: ke :: es) env s (Done (Err ("apply-slot requires an existing slot, but was given " +++ k +++ "."))) s' /\ only_choices s2 s'.
Proof. exact apply_slot_missing. Qed.
(** send-super, in an environment that belongs to [f]: the method comes from a prototype of [f], whatever [f] itself has
    under that name, and is called with the values from an environment where self is [f]. *)
Theorem C68_send_super : forall k vs env f s, wf_state s -> naked k -> no_nils vs -> e_frame (env_at s env) = Some f -> proper_above s f ->
  exists v s1, only_choices (entering "send-super" env s) s1 /\
  ((v <> VNil /\ inherits_above s k f v) \/ (v = VNil /\ forall w, inherits_above s k f w -> w = VNil)) /\
  match v with
  | VFun fl => symbolp (f_params (fn_code (fun_at s fl))) = false ->
      exists l s2, grows s1 s2 /\ is_list s2 l vs /\
      forall o s', applies "send-super" (VSym k :: vs) env s o s' <-> calls_function fl None as_it_is l (length vs) (s_next s2) (super_env env f s2) o s'
  | _ => forall o s', applies "send-super" (VSym k :: vs) env s o s' <-> fails (not_message v) s1 o s'
  end.
Proof. exact send_super_found. Qed.
Theorem C68_selector : forall x vs env f s, (forall k, naked k -> x <> VSym k) -> e_frame (env_at s env) = Some f ->
  applies "send-super" (x :: vs) env s (Done (Err (not_selector x))) (entering "send-super" env s).
Proof. exact send_super_selector. Qed.
(** apply-slot-super: the method found like that, the operands treated as apply-slot does. *)
Theorem C68_apply_slot_super : forall ke k es env f s s1, e_frame (env_at s env) = Some f ->
  evals ke env (entering "apply-slot-super" env s) (Done (Ok (VSym k))) s1 -> naked k -> wf_state s -> e_frame (env_at s1 env) = Some f -> proper_above s1 f ->
  exists v s2, only_choices s1 s2 /\
  ((v <> VNil /\ inherits_above s1 k f v) \/ (v = VNil /\ forall w, inherits_above s1 k f w -> w = VNil)) /\
  match v with
  | VFun fl =>
      (forall vs lst xs s3, evals_all env es s2 (vs ++ [lst]) s3 -> no_nils vs -> is_list s3 lst xs -> symbolp (f_params (fn_code (fun_at s3 fl))) = false ->
        exists l s4, grows s3 s4 /\ is_list s4 l (vs ++ xs) /\
        forall o s', applies "apply-slot-super" (ke :: es) env s o s' <-> calls_function fl None as_it_is l (length (vs ++ xs)) (s_next s4) (super_env env f s4) o s') /\
      (forall vs x s3, evals_all env es s2 (vs ++ [x]) s3 -> listp x = false -> applies "apply-slot-super" (ke :: es) env s (Done (Err last_not_list)) s3) /\
      (forall es1 e es2 vs s3 o s4, es = es1 ++ e :: es2 -> evals_all env es1 s2 vs s3 -> evals e env s3 o s4 -> (forall v, o <> Done (Ok v)) ->
        applies "apply-slot-super" (ke :: es) env s o s4)
  | _ => forall o s', applies "apply-slot-super" (ke :: es) env s o s' <-> fails (not_message v) s2 o s'
  end.
Proof. exact apply_super_call. Qed.
(** Outside a frame's methods there is no prototype to ask. *)
Theorem C68_outside : forall vs env s, e_frame (env_at s env) = None ->
  applies "send-super" vs env s (Done (Err "send-super can only be used within the context of a frame.")) (entering "send-super" env s) /\
  applies "apply-slot-super" vs env s (Done (Err "apply-slot-super can only be used within the context of a frame.")) (entering "apply-slot-super" env s).
Proof. exact super_outside. Qed.
(** A method reached through a prototype has [f] as self exactly when the function is marked as last read as a slot or local name (C45);
    its environment belongs to the frame of its definition, not to [f] (see C49_send_super_refuted). *)
Theorem C68_self : forall fl env f argument args got s, wf_state s ->
  let s0 := super_env env f s in
  let f0 := fn_code (fun_at s fl) in
  let s1 := open_env (f_name f0) (f_env f0) (e_frame (env_at s0 (f_env f0))) s0 in
  let s2 := if fn_slot (fun_at s fl) then add_binding (s_next s0) (VSym "self") (VFrame f) s1 else s1 in
  forall o s', calls_function fl None argument args got (s_next s) s0 o s' <->
    bind_if_any (s_next s0) "parentProcess" (option_map VProc (fn_proc (fun_at s fl))) s2 (fun s3 =>
      if enough (f_varargs f0) (f_req f0) got then passes argument (s_next s0) (runs_body f0 (s_next s0)) (f_params f0) args s3
      else fails (arity_msg (f_name f0) (f_varargs f0) (f_req f0) (Z.of_nat got)) s3) o s'.
Proof. exact super_self. Qed.
Print Assumptions C68_apply_slot. Print Assumptions C68_apply_slot_missing. Print Assumptions C68_send_super. Print Assumptions C68_selector.
Print Assumptions C68_apply_slot_super. Print Assumptions C68_outside. Print Assumptions C68_self.
Example C68_cases :
  show 300 "(define p {m: (lambda (x y z) (list 'p x y z)) k: 5}) (define o {p*: p m: (lambda (x) (list 'o (send-super m: x 2 3) (apply-slot-super m: x (list 'q 'r)) (on-error (send-super k:) (lambda (e) e)) (on-error (send-super n:) (lambda (e) e)) (on-error (send-super 4) (lambda (e) e))))}) (list (send o m: 1) (apply-slot p m: 'a '(b c)) (apply-slot p 'm: '(a b c)) (on-error (apply-slot o m: 1) (lambda (e) e)) (on-error (apply-slot o k: '()) (lambda (e) e)) (on-error (apply-slot o n: '()) (lambda (e) e)) (on-error (send-super m:) (lambda (e) e)))" start
    = Some (Done (Ok "((o (p 1 2 3) (p 1 q r) ""Message sent must select a function slot but was Integer."" ""Message sent must select a function slot but was Nil."" ""Selector must be a naked symbol but was Integer."") (p a b c) (p a b c) ""The last argument to apply must be a list"" ""apply-slot requires a function slot, but was given a slot containing a Integer."" ""apply-slot requires an existing slot, but was given n:."" ""send-super can only be used within the context of a frame."")")) /\
  (let s := with_super start in
  e_frame (env_at s 1002%positive) = Some 1000%positive /\ proper_above s 1000%positive /\ proper_parents s 1000%positive /\
  inherits_above s "m:" 1000%positive (VFun 1003%positive) /\ inherits s "m:" 1000%positive 1000%positive (VInt 9) /\
  evals_all 1002%positive [VInt 5; VFrame 1000%positive] s [VInt 5; VFrame 1000%positive] s).
Proof. split; [vm_compute; reflexivity|exact (with_super_case start)]. Qed.
