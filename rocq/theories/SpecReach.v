(** What C52 and C53 mean: which objects a program can get at. *)
From Verif Require Export SpecCall.
Local Open Scope string_scope.
Local Open Scope list_scope.

(** The object at [l] refers to the one at [k]: list cells to their two parts; functions and macros to their
    parameters, body and environment (and the process they run in); environments to the enclosing one, the object
    they belong to and their bindings; bindings to symbol and value; frames to the values of their slots; channels to the
    values in transit; processes to their result. *)
Inductive refers (s : state) (l : loc) : loc -> Prop :=
| ref_car k : addr (fst (cell_at s l)) = Some k -> refers s l k
| ref_cdr k : addr (snd (cell_at s l)) = Some k -> refers s l k
| ref_params k : addr (f_params (fn_code (fun_at s l))) = Some k -> refers s l k
| ref_body k : addr (f_body (fn_code (fun_at s l))) = Some k -> refers s l k
| ref_closure r : s_funs s !! l = Some r -> refers s l (f_env (fn_code r))
| ref_process k : fn_proc (fun_at s l) = Some k -> refers s l k
| ref_mparams k : addr (m_params (mac_at s l)) = Some k -> refers s l k
| ref_mbody k : addr (m_body (mac_at s l)) = Some k -> refers s l k
| ref_mclosure r : s_macros s !! l = Some r -> refers s l (m_env r)
| ref_parent k : e_parent (env_at s l) = Some k -> refers s l k
| ref_object k : e_frame (env_at s l) = Some k -> refers s l k
| ref_binding n b : In (n, b) (e_binds (env_at s l)) -> refers s l b
| ref_bsym k : addr (b_sym (bind_at s l)) = Some k -> refers s l k
| ref_bval k : addr (b_val (bind_at s l)) = Some k -> refers s l k
| ref_slot n v k : In (n, v) (frame_at s l) -> addr v = Some k -> refers s l k
| ref_buffer v k : In v (ch_buf (chan_at s l)) -> addr v = Some k -> refers s l k
| ref_sender t v k : In (t, v) (ch_sendq (chan_at s l)) -> addr v = Some k -> refers s l k
| ref_received t v b k : In (t, (v, b)) (ch_rdone (chan_at s l)) -> addr v = Some k -> refers s l k
| ref_result v k : pr_ret (proc_at s l) = Some v -> addr v = Some k -> refers s l k.

(** What can be got at from the roots. *)
Inductive accessible (s : state) (roots : list loc) : loc -> Prop :=
| acc_root l : In l roots -> accessible s roots l
| acc_step l k : accessible s roots l -> refers s l k -> accessible s roots k.

(** The global environment and the named top-level environments can be got at from anywhere (with
    system-global-environment, global-eval and find-top-level-environment). *)
Definition shared_roots (s : state) : list loc := s_global s :: map snd (s_tops s).

(** The object at [l] is the same in both states. *)
Definition unchanged (s s' : state) (l : loc) : Prop :=
  s_cells s' !! l = s_cells s !! l /\ s_strs s' !! l = s_strs s !! l /\ s_bytes s' !! l = s_bytes s !! l /\
  s_funs s' !! l = s_funs s !! l /\ s_macros s' !! l = s_macros s !! l /\ s_envs s' !! l = s_envs s !! l /\
  s_binds s' !! l = s_binds s !! l /\ s_frames s' !! l = s_frames s !! l /\ s_chans s' !! l = s_chans s !! l /\
  s_procs s' !! l = s_procs s !! l /\ s_atoms s' !! l = s_atoms s !! l.

(** No reference to an object that does not exist yet. *)
Definition no_dangling (s : state) : Prop :=
  (forall l k, refers s l k -> (k < s_next s)%positive) /\ Forall (fun l => (l < s_next s)%positive) (shared_roots s).
Definition below (s : state) (v : val) : Prop := forall k, addr v = Some k -> (k < s_next s)%positive.
