(** What C01-C04 mean, in terms of the state and of the log of entered built-ins only. *)
From Verif Require Export Pool.
Local Open Scope string_scope.
Local Open Scope list_scope.

(** A goroutine of the host program: it evaluates some source text, evaluates some expression or calls
    some function, in some environment (ParseAndEvalAll, Eval, Apply of the Go API). *)
Definition host_thread (t : thread) : Prop :=
  (exists src env, t = eval_text_thread src env) \/
  (exists v env, t = eval_thread v env) \/
  (exists f args env, t = TEval (call (RApply true f args env))).

(** Objects live at addresses that have been handed out (the first one is 2). *)
Definition handed_out (s : state) (l : loc) : Prop := (1 < l < s_next s)%positive.
Record wf_state (s : state) : Prop := WfState {
  wf_next : (1 < s_next s)%positive;
  wf_cells : forall (l : loc) x, s_cells s !! l = Some x -> handed_out s l;
  wf_strs : forall (l : loc) x, s_strs s !! l = Some x -> handed_out s l;
  wf_bytes : forall (l : loc) x, s_bytes s !! l = Some x -> handed_out s l;
  wf_funs : forall (l : loc) x, s_funs s !! l = Some x -> handed_out s l;
  wf_macros : forall (l : loc) x, s_macros s !! l = Some x -> handed_out s l;
  wf_envs : forall (l : loc) x, s_envs s !! l = Some x -> handed_out s l;
  wf_binds : forall (l : loc) x, s_binds s !! l = Some x -> handed_out s l;
  wf_frames : forall (l : loc) x, s_frames s !! l = Some x -> handed_out s l;
  wf_chans : forall (l : loc) x, s_chans s !! l = Some x -> handed_out s l;
  wf_procs : forall (l : loc) x, s_procs s !! l = Some x -> handed_out s l;
  wf_atoms : forall (l : loc) x, s_atoms s !! l = Some x -> handed_out s l }.

(** Built-in [n] was entered between [s] and [s']. *)
Definition entered (s s' : state) (n : string) : Prop :=
  exists new env, s_log s' = new ++ s_log s /\ In (EPrim n env) new.

(** In state [s], environment [e] itself binds [n], with binding record [r]. *)
Definition binds (s : state) (e : loc) (n : string) (r : bind_rec) : Prop :=
  exists b, alookup n (e_binds (env_at s e)) = Some b /\ bind_at s b = r.
Definition binds_protected (s : state) (e : loc) (n : string) (r : bind_rec) : Prop :=
  binds s e n r /\ b_prot r = true.

(** *** Reachability (C02) *)
(** The address a value refers to. *)
Definition addr (v : val) : option loc :=
  match v with
  | VCell _ l | VStr l | VFun l | VMacro l | VBytes l | VChan l | VProc l | VAtomic l
  | VFrame l | VEnv l | VPort l => Some l
  | _ => None
  end.
(** [reach s roots l]: following references from the roots, a program can get hold of the object at
    [l].  Having an environment gives access to what is bound in it and in its ancestors, but not to
    the ancestors themselves as values ([visible]). *)
Inductive reach (s : state) (roots : list loc) : loc -> Prop :=
| reach_root l : In l roots -> reach s roots l
| reach_car l k : reach s roots l -> addr (fst (cell_at s l)) = Some k -> reach s roots k
| reach_cdr l k : reach s roots l -> addr (snd (cell_at s l)) = Some k -> reach s roots k
| reach_params l k : reach s roots l -> addr (f_params (fn_code (fun_at s l))) = Some k -> reach s roots k
| reach_body l k : reach s roots l -> addr (f_body (fn_code (fun_at s l))) = Some k -> reach s roots k
| reach_closure l r : reach s roots l -> s_funs s !! l = Some r -> reach s roots (f_env (fn_code r))
| reach_process l k : reach s roots l -> fn_proc (fun_at s l) = Some k -> reach s roots k
| reach_mparams l k : reach s roots l -> addr (m_params (mac_at s l)) = Some k -> reach s roots k
| reach_mbody l k : reach s roots l -> addr (m_body (mac_at s l)) = Some k -> reach s roots k
| reach_mclosure l r : reach s roots l -> s_macros s !! l = Some r -> reach s roots (m_env r)
| reach_self l k : reach s roots l -> e_frame (env_at s l) = Some k -> reach s roots k
| reach_slot l n v k : reach s roots l -> In (n, v) (frame_at s l) -> addr v = Some k -> reach s roots k
| reach_buffer l v k : reach s roots l -> In v (ch_buf (chan_at s l)) -> addr v = Some k -> reach s roots k
| reach_sender l t v k :
    reach s roots l -> In (t, v) (ch_sendq (chan_at s l)) -> addr v = Some k -> reach s roots k
| reach_received l t v b k :
    reach s roots l -> In (t, (v, b)) (ch_rdone (chan_at s l)) -> addr v = Some k -> reach s roots k
| reach_result l v k : reach s roots l -> pr_ret (proc_at s l) = Some v -> addr v = Some k -> reach s roots k
| reach_binding e n b : visible s roots e -> In (n, b) (e_binds (env_at s e)) -> reach s roots b
| reach_bsym b k : reach s roots b -> addr (b_sym (bind_at s b)) = Some k -> reach s roots k
| reach_bval b k : reach s roots b -> addr (b_val (bind_at s b)) = Some k -> reach s roots k
with visible (s : state) (roots : list loc) : loc -> Prop :=
| visible_env e : reach s roots e -> visible s roots e
| visible_parent e p : visible s roots e -> e_parent (env_at s e) = Some p -> visible s roots p.

(** Every environment in reach is restricted. *)
Definition confined (s : state) (roots : list loc) : Prop :=
  forall (l : loc) e, reach s roots l -> s_envs s !! l = Some e -> e_restricted e = true.

(** The roots of a host goroutine. *)
Definition opt_list (o : option loc) : list loc := match o with Some l => [l] | None => [] end.
Inductive sandboxed_thread (roots : list loc) : thread -> Prop :=
| sandboxed_text src env : In env roots -> sandboxed_thread roots (eval_text_thread src env)
| sandboxed_eval v env :
    In env roots -> incl (opt_list (addr v)) roots -> sandboxed_thread roots (eval_thread v env)
| sandboxed_apply f args env :
    In env roots -> incl (opt_list (addr f)) roots -> incl (opt_list (addr args)) roots ->
    sandboxed_thread roots (TEval (call (RApply true f args env))).

(** The built-ins the Go code registers with MakeRestrictedPrimitiveFunction. *)
Definition restricted_names : list string :=
  ["load"; "global-eval"; "panic!"; "exec"; "environment-parent"; "system-global-environment";
   "make-top-level-environment"; "find-top-level-environment"; "open-input-file"; "open-output-file";
   "close-port"; "write-bytes"; "debug"; "debug-on-error"; "add-debug-on-entry"].

(** *** C03 *)
(** The environment at [l] exists and is restricted. *)
Definition is_restricted (s : state) (l : loc) : Prop :=
  exists e, s_envs s !! l = Some e /\ e_restricted e = true.

(** *** C04 *)
(** The built-ins that write into cells, strings or bytearrays... *)
Definition writes_data : list string :=
  ["set-car!"; "set-cdr!"; "set-nth!"; "append!"; "acons"; "pairlis"; "dissoc"; "alist"; "copy"; "union";
   "intersection"; "complement"; "replace-byte!"; "append-bytes!"; "string-upcase!"; "string-downcase!";
   "string-capitalize!"].
(** ... and those that may write into frames (set! of a slot of the current object). *)
Definition writes_frames : list string := ["set!"; "append!"; "set-slot!"; "remove-slot!"].
