(** One family of policies, used for three properties: protected bindings keep their value, sandboxed
    code stays in its sandbox, and code that calls no destructive built-in changes no existing data.

    [R] is a set of addresses the program may get hold of; [A] the environments a variable look-up may
    visit; [PB] and [NB] fix protected bindings and the names they are found under; [W] and [WF] say
    whether cells/strings/bytes and frames may be written; [excl] are built-ins whose entry ends the
    part of the execution we look at; [forb] built-ins that must never be entered; [sandbox] says that
    every environment in [R] is restricted.  [strict] says that bytes are kept between 0 and 255 and
    that built-ins are those of the table; [MP] that a program may panic. *)
From Verif Require Export Safety BaseFacts.
Local Open Scope string_scope.
Local Open Scope list_scope.

Class Fine (T : Type) := fine : T -> Prop.

(** Every parent slot holds a frame or nil. *)
Definition proper_slots (sl : list (string * val)) : Prop :=
  forall k v, In (k, v) sl -> is_parent_key k = true -> is_nil v = true \/ exists f, v = VFrame f.
(** A byte. *)
Definition is_byte (z : Z) : Prop := (0 <= z < 256)%Z.

(** Every frame is proper. *)
Definition proper_frames (s : state) : Prop := forall f, proper_slots (frame_at s f).

Section Policy.
  Variables strict MP : Prop.
  Variables R A : loc -> Prop.
  Variable PB : loc -> option bind_rec.
  Variable NB : loc -> string -> option loc.
  Variables W WF : Prop.
  Variables excl forb : string -> Prop.
  Variable sandbox : Prop.

  (** *** Values made of reachable addresses only *)
  #[local] Instance fine_loc : Fine loc := R.
  #[local] Instance fine_val : Fine val := fun v =>
    match v with
    | VNil | VNoCell | VInt _ | VFloat _ | VBool _ | VSym _ => True
    | VPrim n => strict -> exists p, table n = Some p
    | VCell _ l | VStr l | VFun l | VMacro l | VBytes l | VChan l | VProc l | VAtomic l
    | VFrame l | VEnv l | VPort l => R l
    end.
  #[local] Instance fine_string : Fine string := fun _ => True.
  #[local] Instance fine_Z : Fine Z := fun _ => True.
  #[local] Instance fine_nat : Fine nat := fun _ => True.
  #[local] Instance fine_bool : Fine bool := fun _ => True.
  #[local] Instance fine_unit : Fine unit := fun _ => True.
  #[local] Instance fine_uni : Fine uni_table := fun _ => True.
  #[local] Instance fine_json : Fine json := fun _ => True.
  #[local] Instance fine_token : Fine token := fun _ => True.
  #[local] Instance fine_list {T} `{Fine T} : Fine (list T) := Forall fine.
  #[local] Instance fine_option {T} `{Fine T} : Fine (option T) :=
    fun o => match o with Some x => fine x | None => True end.
  #[local] Instance fine_prod {T U} `{Fine T} `{Fine U} : Fine (T * U) :=
    fun p => fine (fst p) /\ fine (snd p).
  #[local] Instance fine_sum {T U} `{Fine T} `{Fine U} : Fine (T + U) :=
    fun p => match p with inl x => fine x | inr y => fine y end.
  #[local] Instance fine_res {T} `{Fine T} : Fine (res T) :=
    fun r => match r with Ok x => fine x | Err _ => True end.
  #[local] Instance fine_fn : Fine fn := fun f => fine (f_params f) /\ fine (f_body f) /\ R (f_env f).
  #[local] Instance fine_mac : Fine mac := fun f => fine (m_params f) /\ fine (m_body f) /\ R (m_env f).
  #[local] Instance fine_bind : Fine bind_rec := fun b => fine (b_sym b) /\ fine (b_val b).
  #[local] Instance fine_spawn : Fine spawn_req := fun r =>
    match r with SpawnFork p f a e | SpawnSched p f a e => R p /\ R f /\ fine a /\ R e end.

  Definition okbytes (b : list Z) : Prop := strict -> Forall is_byte b.

  Definition okop {X} (o : op X) : Prop :=
    match o with
    | OCons _ a d => fine a /\ fine d
    | OCar l | OCdr l => R l
    | OSetCar l v | OSetCdr l v => W /\ R l /\ fine v
    | OStrNew _ => True
    | OStrGet l => R l
    | OStrSet l _ => W /\ R l
    | OBytesNew b => okbytes b
    | OBytesGet l => R l
    | OBytesSetAt l _ z => W /\ R l /\ (strict -> is_byte z)
    | OBytesPut l b => W /\ R l /\ okbytes b
    | OFunNew f => fine f
    | OFunGet l | OFunSlot l | OFunSetSlot l _ | OFunProc l => R l
    | OMacNew m => fine m
    | OMacGet l => R l
    | OEnvNew _ p f => p <> None /\ fine p /\ fine f
    | OEnvName l | OEnvFrame l | OEnvRestricted l | OEnvRestrict l | OEnvNames l => R l
    | OEnvParent l | OEnvFind l _ => A l
    | OEnvPut l n b => R l /\ R b /\ NB l n = None
    | OEnvDel _ _ => False
    | OBindNew b => fine b
    | OBindSym l | OBindVal l | OBindProt l => R l
    | OBindSet l v => R l /\ fine v /\ PB l = None
    | OBindSetProt _ => False
    | OTopFind _ | OGlobal => True
    | OTopSet _ l => R l
    | OFrameNew sl => fine sl
    | OFrameFind l _ | OFrameAll l => R l
    | OFrameSet l _ v => WF /\ R l /\ fine v
    | OFrameDel l _ => WF /\ R l
    | OChanNew _ => True
    | OChanSend l v _ => R l /\ fine v
    | OChanSendWait l t | OChanRecvWait l t => R l
    | OChanRecv l _ | OChanClose l => R l
    | OProcSched l | OProcTryWake l | OProcTryAbort l | OProcTryRestart l | OProcSleep l
    | OProcSelect l | OProcJoin l | OProcTakeRet l => R l
    | OSpawn _ f a e => R f /\ fine a /\ R e
    | OAtomNew _ => True
    | OAtomLoad l | OAtomStore l _ | OAtomAdd l _ | OAtomSwap l _ | OAtomCas l _ _ => R l
    | OGensym _ | OChoose | OUni => True
    | OReader _ => True
    | OEvent (EPrim n _) => ~ forb n
    | OEvent _ => True
    end.
  Definition okans {X} (o : op X) : X -> Prop :=
    match o in op X return X -> Prop with
    | OCons _ _ _ => R | OCar _ => fine | OCdr _ => fine
    | OStrNew _ => R | OBytesNew _ => R | OBytesGet _ => okbytes
    | OFunNew _ => R | OFunGet _ => fine | OFunProc _ => fine
    | OMacNew _ => R | OMacGet _ => fine
    | OEnvNew _ _ _ => R
    | OEnvParent _ => fun o => match o with Some p => A p | None => True end
    | OEnvFrame _ => fine
    | OEnvRestricted _ => fun b => sandbox -> b = true
    | OEnvFind l n => fun o => fine o /\ (NB l n <> None -> o <> None)
    | OEnvNames _ => fine
    | OBindNew _ => R | OBindSym _ => fine | OBindVal _ => fine
    | OBindProt l => fun b => PB l <> None -> b = true
    | OTopFind _ => fun o => ~ sandbox -> fine o
    | OGlobal => fun g => ~ sandbox -> R g
    | OFrameNew _ => R | OFrameFind _ _ => fine
    | OFrameAll _ => fun sl => fine sl /\ (MP \/ proper_slots sl)
    | OChanNew _ => R
    | OChanSend _ _ _ => fun _ => True
    | OChanRecv _ _ =>
        fun o => match o with Some (inl p) => fine (fst p) | _ => True end
    | OChanRecvWait _ _ => fun p => fine (fst p)
    | OSpawn _ _ _ _ => R
    | OProcTakeRet _ => fine
    | OAtomNew _ => R
    | OEvent (EPrim n _) => fun _ => ~ excl n
    | _ => fun _ => True
    end.
  Definition okreq {X} (r : req X) : Prop :=
    match r with
    | REval d env _ => fine d /\ R env
    | RApply _ f args env => fine f /\ fine args /\ R env
    | REqual a b => fine a /\ fine b
    | RCopy v | RAlist v => W /\ fine v
    | RString v | RRecFlat v | RToJson v | RToJsonF v => fine v
    | RHasSlot _ f vis | RGetSlot _ f vis => R f /\ fine vis
    | RQuasi x _ env => fine x /\ R env
    end.
  Definition okres {X} (r : req X) : X -> Prop :=
    match r in req X return X -> Prop with
    | REval _ _ _ | RApply _ _ _ _ | RQuasi _ _ _ | RRecFlat _ => fine
    | RCopy _ | RAlist _ => fine
    | RHasSlot _ _ _ => fun p => fine (snd p)
    | RGetSlot _ _ _ => fine
    | REqual _ _ => fine
    | RString _ => fine
    | RToJson _ | RToJsonF _ => fine
    end.
  Definition pol : policy := Policy (@okop) (@okans) (@okreq) (@okres) MP.

  (** *** The state invariant *)
  (** The addresses that may be handed out before we stop looking. *)
  Variable lim : loc -> Prop.
  Variable L0 : list event.
  Variable C0 : state.

  Definition fine_chan (c : chan_rec) : Prop :=
    fine (ch_buf c) /\ fine (map snd (ch_sendq c)) /\ fine (map (fun p => fst (snd p)) (ch_rdone c)).
  Record heap_fine (s : state) : Prop := HeapFine {
    hf_cell : forall l, R l -> fine (cell_at s l);
    hf_bytes : forall l, R l -> okbytes (bytes_at s l);
    hf_fun : forall l, R l -> fine (fn_code (fun_at s l));
    hf_proc : forall l, R l -> fine (fn_proc (fun_at s l));
    hf_mac : forall l, R l -> fine (mac_at s l);
    hf_frame_of : forall l, R l -> fine (e_frame (env_at s l));
    hf_restricted : sandbox -> forall l, R l -> e_restricted (env_at s l) = true;
    hf_bind : forall l, R l -> fine (bind_at s l);
    hf_frame : forall l, R l -> fine (frame_at s l);
    hf_chan : forall l, R l -> fine_chan (chan_at s l);
    hf_ret : forall l, R l -> fine (pr_ret (proc_at s l));
    hf_parent : forall l, A l -> match e_parent (env_at s l) with Some p => A p | None => True end;
    hf_binds : forall l, A l -> fine (e_binds (env_at s l));
    hf_global : ~ sandbox -> R (s_global s);
    hf_tops : ~ sandbox -> fine (s_tops s);
    hf_next : forall l, (s_next s <= l)%positive -> lim l -> R l;
    hf_pending : fine (s_pending s) }.
  Definition prot_kept (s : state) : Prop :=
    (forall l b, PB l = Some b -> bind_at s l = b /\ b_prot b = true /\ (l < s_next s)%positive) /\
    (forall l n b, NB l n = Some b ->
       alookup n (e_binds (env_at s l)) = Some b /\ (l < s_next s)%positive).
  Definition data_kept (s : state) : Prop :=
    (~ W -> (forall l x, s_cells C0 !! l = Some x -> s_cells s !! l = Some x) /\
            (forall l x, s_strs C0 !! l = Some x -> s_strs s !! l = Some x) /\
            (forall l x, s_bytes C0 !! l = Some x -> s_bytes s !! l = Some x)) /\
    (~ WF -> forall l x, s_frames C0 !! l = Some x -> s_frames s !! l = Some x) /\
    (s_next C0 <= s_next s)%positive.
  Definition log_ok (s : state) : Prop :=
    exists new, s_log s = new ++ L0 /\ forall n e, In (EPrim n e) new -> ~ forb n.
  (** Objects that are not in [R] are as they were. *)
  Definition same_object (s : state) (l : loc) : Prop :=
    s_cells s !! l = s_cells C0 !! l /\ s_strs s !! l = s_strs C0 !! l /\ s_bytes s !! l = s_bytes C0 !! l /\
    s_funs s !! l = s_funs C0 !! l /\ s_macros s !! l = s_macros C0 !! l /\ s_envs s !! l = s_envs C0 !! l /\
    s_binds s !! l = s_binds C0 !! l /\ s_frames s !! l = s_frames C0 !! l /\ s_chans s !! l = s_chans C0 !! l /\
    s_procs s !! l = s_procs C0 !! l /\ s_atoms s !! l = s_atoms C0 !! l.
  Definition out_kept (s : state) : Prop := forall l, ~ R l -> same_object s l.
  Definition pinv (s : state) : Prop := heap_fine s /\ prot_kept s /\ data_kept s /\ log_ok s /\ out_kept s.
  (** No excluded built-in entered since the start, and not more than [lim] handed out. *)
  Definition plive (s : state) : Prop :=
    (forall new, s_log s = new ++ L0 -> forall n e, In (EPrim n e) new -> ~ excl n) /\
    (forall l, (l < s_next s)%positive -> lim l).

  (** *** Operations that respect the policy preserve the invariant *)
  Hypothesis RA : forall l, R l -> A l.
  Hypothesis C0_wf :
    (forall l x, s_cells C0 !! l = Some x -> (l < s_next C0)%positive) /\
    (forall l x, s_strs C0 !! l = Some x -> (l < s_next C0)%positive) /\
    (forall l x, s_bytes C0 !! l = Some x -> (l < s_next C0)%positive) /\
    (forall l x, s_frames C0 !! l = Some x -> (l < s_next C0)%positive).

  Lemma default_insert {T} (d : T) (m : Pmap T) k x l :
    default d (<[k:=x]> m !! l) = if Pos.eqb k l then x else default d (m !! l).
  Proof. destruct (Pos.eqb_spec k l) as [<-|N]; [rewrite lookup_insert|rewrite lookup_insert_ne by done]; reflexivity. Qed.

  Lemma default_put {T} (d : T) (m : Pmap T) k x l :
    default d (put k x m !! l) =
    match m !! k with Some _ => if Pos.eqb k l then x else default d (m !! l) | None => default d (m !! l) end.
  Proof. unfold put. destruct (m !! k); [apply default_insert|reflexivity]. Qed.

  Lemma fine_alookup {T} `{Fine T} k (l : list (string * T)) : fine l -> fine (alookup k l).
  Proof.
    unfold fine at 1. cbn. induction l as [|[k' v] l IH]; cbn; intros Hf; [exact I|].
    pose proof (Forall_inv Hf) as [_ H1]. destruct (str_eqb k k'); [exact H1|].
    apply IH. exact (Forall_inv_tail Hf).
  Qed.
  Lemma fine_aset {T} `{Fine T} k v (l : list (string * T)) : fine v -> fine l -> fine (aset k v l).
  Proof.
    unfold fine at 2 3. cbn. induction l as [|[k' v'] l IH]; cbn; intros Hv Hf.
    - repeat constructor. exact Hv.
    - destruct (str_eqb k k').
      + constructor; [split; [exact I|exact Hv]|exact (Forall_inv_tail Hf)].
      + constructor; [exact (Forall_inv Hf)|apply IH; [exact Hv|exact (Forall_inv_tail Hf)]].
  Qed.
  Lemma fine_adel {T} `{Fine T} k (l : list (string * T)) : fine l -> fine (adel k l).
  Proof.
    unfold fine at 1 2. cbn. induction l as [|[k' v'] l IH]; cbn; intros Hf; [constructor|].
    destruct (str_eqb k k'); [apply IH; exact (Forall_inv_tail Hf)|].
    constructor; [exact (Forall_inv Hf)|apply IH; exact (Forall_inv_tail Hf)].
  Qed.

  Lemma fine_chan_send c v blk t r c' :
    fine_chan c -> fine v -> chan_send c v blk t = (r, c') -> fine_chan c'.
  Proof.
    intros (Hb & Hs & Hd) Hv. unfold chan_send.
    destruct (ch_closed c); [intros [= <- <-]; repeat split; auto|].
    destruct (ch_recvq c).
    - destruct (_ <? _)%Z; [|destruct blk]; intros [= <- <-]; repeat split; cbn; auto.
      + apply Forall_app. split; [exact Hb|]. constructor; [exact Hv|constructor].
      + rewrite map_app. apply Forall_app. split; [exact Hs|]. constructor; [exact Hv|constructor].
    - intros [= <- <-]; repeat split; cbn; auto.
      rewrite map_app. apply Forall_app. split; [exact Hd|]. constructor; [exact Hv|constructor].
  Qed.
  Lemma fine_chan_recv c blk t r c' :
    fine_chan c -> chan_recv c blk t = (r, c') ->
    fine_chan c' /\ match r with Some (inl p) => fine (fst p) | _ => True end.
  Proof.
    intros (Hb & Hs & Hd). unfold chan_recv.
    destruct (ch_buf c) as [|v buf] eqn:Eb; destruct (ch_sendq c) as [|[tk w] sq] eqn:Es.
    - destruct (ch_closed c); [|destruct blk]; intros [= <- <-]; repeat split; cbn; auto; rewrite ?Eb, ?Es; auto.
    - destruct (ch_closed c); intros [= <- <-]; repeat split; cbn; auto; rewrite ?Eb, ?Es; auto;
        cbn in Hs; first [exact (Forall_inv_tail Hs) | exact (Forall_inv Hs)].
    - intros [= <- <-]; repeat split; cbn; auto; first [exact (Forall_inv_tail Hb) | exact (Forall_inv Hb)].
    - intros [= <- <-]; repeat split; cbn; auto.
      + apply Forall_app. split; [exact (Forall_inv_tail Hb)|]. constructor; [exact (Forall_inv Hs)|constructor].
      + exact (Forall_inv_tail Hs).
      + exact (Forall_inv Hb).
  Qed.
  Lemma fine_chan_close c b c' : fine_chan c -> chan_close c = (b, c') -> fine_chan c'.
  Proof.
    intros (Hb & Hs & Hd). unfold chan_close. destruct (ch_closed c); intros [= <- <-]; repeat split; cbn; auto.
    - constructor.
    - rewrite map_app. apply Forall_app. split; [exact Hd|]. rewrite map_map. cbn.
      apply Forall_map. apply Forall_forall. intros; exact I.
  Qed.
  Lemma fine_pdel (t : loc) (l : list (loc * (val * bool))) :
    fine (map (fun p => fst (snd p)) l) -> fine (map (fun p => fst (snd p)) (pdel t l)).
  Proof.
    induction l as [|[k v] l IH]; cbn; intros H; [constructor|].
    destruct (Pos.eqb t k); [exact (IH (Forall_inv_tail H))|]. cbn.
    constructor; [exact (Forall_inv H)|apply IH; exact (Forall_inv_tail H)].
  Qed.
  Lemma fine_plookup (t : loc) (l : list (loc * (val * bool))) p :
    fine (map (fun p => fst (snd p)) l) -> plookup t l = Some p -> fine (fst p).
  Proof.
    induction l as [|[k v] l IH]; cbn; intros H; [discriminate|].
    destruct (Pos.eqb t k); [intros [= <-]; exact (Forall_inv H)|]. apply IH. exact (Forall_inv_tail H).
  Qed.

  Lemma next_choice_heap s z s1 : next_choice s = (z, s1) -> heap_fine s -> heap_fine s1.
  Proof.
    unfold next_choice. destruct (s_oracle s); intros [= <- <-] H; [exact H|]. destruct H; constructor; assumption.
  Qed.
  (** Replacing one entry. *)
  Ltac rd := unfold cell_at, bytes_at, fun_at, mac_at, env_at, bind_at, frame_at, chan_at, proc_at, upd_proc;
             cbn [s_cells s_strs s_bytes s_funs s_macros s_envs s_binds s_frames s_chans s_procs s_atoms s_next
                  s_pending s_tops s_global s_gensyms s_log
                  set_cells set_strs set_bytes set_funs set_macros set_envs set_binds set_frames set_chans
                  set_procs set_atoms set_next set_pending set_tops set_gensyms set_log set_oracle bump].
  Ltac keep H := lazymatch goal with |- context [<[_ := _]> _] => idtac | _ => exact H end.
  Ltac rest H := constructor; rd;
    [keep (hf_cell _ H)|keep (hf_bytes _ H)|keep (hf_fun _ H)|keep (hf_proc _ H)|keep (hf_mac _ H)|keep (hf_frame_of _ H)
    |keep (hf_restricted _ H)|keep (hf_bind _ H)|keep (hf_frame _ H)|keep (hf_chan _ H)|keep (hf_ret _ H)
    |keep (hf_parent _ H)|keep (hf_binds _ H)|keep (hf_global _ H)|keep (hf_tops _ H)|keep (hf_next _ H)|keep (hf_pending _ H)].
  Ltac one l k Hk :=
    intros k Hk; rewrite default_insert; destruct (Pos.eqb_spec l k) as [<-|].
  Lemma bump_heap s : heap_fine s -> heap_fine (bump s).
  Proof.
    intros H. destruct H. constructor; try assumption. cbn. intros k Hk. apply hf_next0; lia.
  Qed.
  Lemma put_cases {T} k (x : T) m : put k x m = m \/ put k x m = <[k := x]> m.
  Proof. unfold put. destruct (m !! k); auto. Qed.
  Lemma cells_heap l (x : val * val) s : heap_fine s -> fine x -> heap_fine (set_cells (<[l := x]> (s_cells s)) s).
  Proof. intros H Hx. rest H. one l k Hk; [exact Hx|exact (hf_cell _ H _ Hk)]. Qed.
  Lemma strs_heap x s : heap_fine s -> heap_fine (set_strs x s).
  Proof. intros H. rest H. Qed.
  Lemma bytes_heap l (x : list Z) s : heap_fine s -> okbytes x -> heap_fine (set_bytes (<[l := x]> (s_bytes s)) s).
  Proof. intros H Hx. rest H. one l k Hk; [exact Hx|exact (hf_bytes _ H _ Hk)]. Qed.
  Lemma atoms_heap x s : heap_fine s -> heap_fine (set_atoms x s).
  Proof. intros H. rest H. Qed.
  Lemma log_heap x s : heap_fine s -> heap_fine (set_log x s).
  Proof. intros H. rest H. Qed.
  Lemma tops_heap (x : list (string * loc)) s : heap_fine s -> (~ sandbox -> fine x) -> heap_fine (set_tops x s).
  Proof. intros H Hx. destruct H. constructor; assumption. Qed.
  Lemma gensyms_heap x s : heap_fine s -> heap_fine (set_gensyms x s).
  Proof. intros H. rest H. Qed.
  Lemma pending_heap (x : list spawn_req) s : heap_fine s -> fine x -> heap_fine (set_pending x s).
  Proof. intros H Hx. destruct H. constructor; assumption. Qed.
  Lemma funs_heap l (f : fn) b (p : option loc) s :
    heap_fine s -> fine f -> fine p -> heap_fine (set_funs (<[l := FnState f b p]> (s_funs s)) s).
  Proof.
    intros H Hf Hp. rest H.
    - one l k Hk; [exact Hf|exact (hf_fun _ H _ Hk)].
    - one l k Hk; [exact Hp|exact (hf_proc _ H _ Hk)].
  Qed.
  Lemma macros_heap l (x : mac) s : heap_fine s -> fine x -> heap_fine (set_macros (<[l := x]> (s_macros s)) s).
  Proof. intros H Hx. rest H. one l k Hk; [exact Hx|exact (hf_mac _ H _ Hk)]. Qed.
  Lemma binds_heap l (x : bind_rec) s : heap_fine s -> fine x -> heap_fine (set_binds (<[l := x]> (s_binds s)) s).
  Proof. intros H Hx. rest H. one l k Hk; [exact Hx|exact (hf_bind _ H _ Hk)]. Qed.
  Lemma frames_heap l (x : list (string * val)) s : heap_fine s -> fine x -> heap_fine (set_frames (<[l := x]> (s_frames s)) s).
  Proof. intros H Hx. rest H. one l k Hk; [exact Hx|exact (hf_frame _ H _ Hk)]. Qed.
  Lemma chans_heap l (x : chan_rec) s : heap_fine s -> fine_chan x -> heap_fine (set_chans (<[l := x]> (s_chans s)) s).
  Proof. intros H Hx. rest H. one l k Hk; [exact Hx|exact (hf_chan _ H _ Hk)]. Qed.
  Lemma procs_heap l (x : proc_rec) s : heap_fine s -> fine (pr_ret x) -> heap_fine (set_procs (<[l := x]> (s_procs s)) s).
  Proof. intros H Hx. rest H. one l k Hk; [exact Hx|exact (hf_ret _ H _ Hk)]. Qed.
  Lemma envs_heap l (x : env_rec) s :
    heap_fine s -> fine (e_frame x) -> (sandbox -> e_restricted x = true) ->
    match e_parent x with Some p => A p | None => True end -> fine (e_binds x) ->
    heap_fine (set_envs (<[l := x]> (s_envs s)) s).
  Proof.
    intros H Hf Hr Hp Hb. rest H.
    - one l k Hk; [exact Hf|exact (hf_frame_of _ H _ Hk)].
    - intros Hs. one l k Hk; [exact (Hr Hs)|exact (hf_restricted _ H Hs _ Hk)].
    - one l k Hk; [exact Hp|exact (hf_parent _ H _ Hk)].
    - one l k Hk; [exact Hb|exact (hf_binds _ H _ Hk)].
  Qed.

  (** The same for updates of existing objects. *)
  Ltac putc l x m H :=
    destruct (put_cases l x m) as [->| ->]; [destruct H; constructor; assumption|].
  Lemma cells_put l (x : val * val) s : heap_fine s -> fine x -> heap_fine (set_cells (put l x (s_cells s)) s).
  Proof. intros H Hx. putc l x (s_cells s) H. apply cells_heap; assumption. Qed.
  Lemma bytes_put l (x : list Z) s : heap_fine s -> okbytes x -> heap_fine (set_bytes (put l x (s_bytes s)) s).
  Proof. intros H Hx. putc l x (s_bytes s) H. apply bytes_heap; assumption. Qed.
  Lemma okbytes_set b i z : okbytes b -> (strict -> is_byte z) -> okbytes (list_set b i z).
  Proof.
    intros Hb Hz Hs. specialize (Hb Hs). specialize (Hz Hs). revert i. induction Hb as [|y b Hy Hb IH]; intros i; [constructor|].
    destruct i; cbn; constructor; auto.
  Qed.
  Lemma funs_put l (f : fn) b (p : option loc) s :
    heap_fine s -> fine f -> fine p -> heap_fine (set_funs (put l (FnState f b p) (s_funs s)) s).
  Proof. intros H Hf Hp. putc l (FnState f b p) (s_funs s) H. apply funs_heap; assumption. Qed.
  Lemma binds_put l (x : bind_rec) s : heap_fine s -> fine x -> heap_fine (set_binds (put l x (s_binds s)) s).
  Proof. intros H Hx. putc l x (s_binds s) H. apply binds_heap; assumption. Qed.
  Lemma frames_put l (x : list (string * val)) s :
    heap_fine s -> fine x -> heap_fine (set_frames (put l x (s_frames s)) s).
  Proof. intros H Hx. putc l x (s_frames s) H. apply frames_heap; assumption. Qed.
  Lemma chans_put l (x : chan_rec) s : heap_fine s -> fine_chan x -> heap_fine (set_chans (put l x (s_chans s)) s).
  Proof. intros H Hx. putc l x (s_chans s) H. apply chans_heap; assumption. Qed.
  Lemma upd_proc_heap l f s : heap_fine s -> fine (pr_ret (f (proc_at s l))) -> heap_fine (upd_proc l f s).
  Proof.
    intros H Hf. unfold upd_proc. putc l (f (proc_at s l)) (s_procs s) H. apply procs_heap; assumption.
  Qed.
  Lemma envs_put l (x : env_rec) s :
    heap_fine s -> fine (e_frame x) -> (sandbox -> e_restricted x = true) ->
    match e_parent x with Some p => A p | None => True end -> fine (e_binds x) ->
    heap_fine (set_envs (put l x (s_envs s)) s).
  Proof. intros H Hf Hr Hp Hb. putc l x (s_envs s) H. apply envs_heap; assumption. Qed.

  Lemma heap_step X (o : op X) s x s' :
    heap_fine s -> ((s_next s < s_next s')%positive -> R (s_next s)) -> okop o -> step_op o s = Some (x, s') -> heap_fine s'.
  Proof.
    intros H Hnew Ho Hs. pose proof (bump_heap _ H) as HB.
    destruct o; cbn [step_op] in Hs; cbn [okop] in Ho; try (injection Hs as <- <-);
      try lazymatch goal with |- heap_fine s => exact H end.
    - apply (cells_heap _ _ _ HB). exact Ho.
    - destruct Ho as (_ & Hl & Hv). apply cells_put; [exact H|]. split; [exact Hv|apply (hf_cell _ H _ Hl)].
    - destruct Ho as (_ & Hl & Hv). apply cells_put; [exact H|]. split; [apply (hf_cell _ H _ Hl)|exact Hv].
    - apply strs_heap, HB.
    - apply strs_heap, H.
    - apply (bytes_heap _ _ _ HB). exact Ho.
    - destruct Ho as (_ & Hl & Hz). apply bytes_put; [exact H|]. apply okbytes_set; [apply (hf_bytes _ H _ Hl)|exact Hz].
    - destruct Ho as (_ & Hl & Hz). apply bytes_put; [exact H|exact Hz].
    - apply (funs_heap _ _ _ _ _ HB); [exact Ho|exact I].
    - apply funs_put; [exact H|apply (hf_fun _ H _ Ho)|apply (hf_proc _ H _ Ho)].
    - apply (macros_heap _ _ _ HB). exact Ho.
    - destruct Ho as (Hne & Hpar & Hfra).
      apply (envs_heap _ _ _ HB); cbn [e_frame e_restricted e_parent e_binds].
      + exact Hfra.
      + intros Hs. destruct parent as [p|]; [|contradiction]. apply (hf_restricted _ H Hs). exact Hpar.
      + destruct parent as [p|]; [|exact I]. apply RA. exact Hpar.
      + constructor.
    - apply envs_put; cbn [e_frame e_restricted e_parent e_binds];
        [exact H|apply (hf_frame_of _ H), Ho|reflexivity|apply (hf_parent _ H), RA, Ho|apply (hf_binds _ H), RA, Ho].
    - destruct Ho as (Hl & Hbl & _).
      apply envs_put; cbn [e_frame e_restricted e_parent e_binds];
        [exact H|apply (hf_frame_of _ H), Hl|intros Hs; apply (hf_restricted _ H Hs), Hl|apply (hf_parent _ H), RA, Hl|].
      apply fine_aset; [exact Hbl|]. apply (hf_binds _ H), RA, Hl.
    - destruct Ho.
    - apply (binds_heap _ _ _ HB). exact Ho.
    - destruct Ho as (Hl & Hv & _). apply binds_put; [exact H|]. split; [apply (hf_bind _ H _ Hl)|exact Hv].
    - destruct Ho.
    - apply tops_heap; [exact H|]. intros Hn. apply fine_aset; [exact Ho|exact (hf_tops _ H Hn)].
    - apply (frames_heap _ _ _ HB). exact Ho.
    - destruct Ho as (_ & Hl & Hv). apply frames_put; [exact H|]. apply fine_aset; [exact Hv|apply (hf_frame _ H _ Hl)].
    - destruct (alookup k (frame_at s l)); injection Hs as <- <-; [|exact H].
      destruct Ho as (_ & Hl). apply frames_put; [exact H|]. apply fine_adel, (hf_frame _ H _ Hl).
    - apply (chans_heap _ _ _ HB). repeat split; constructor.
    - destruct Ho as (Hl & Hv). destruct (chan_send _ _ _ _) as [r c] eqn:E. injection Hs as <- <-.
      apply (chans_put _ _ _ HB). exact (fine_chan_send _ _ _ _ _ _ (hf_chan _ H _ Hl) Hv E).
    - destruct (plookup t (ch_sdone _)); [|discriminate]. injection Hs as <- <-.
      apply chans_put; [exact H|]. destruct (hf_chan _ H _ Ho) as (H1 & H2 & H3).
      split; [exact H1|split; [exact H2|exact H3]].
    - destruct (chan_recv _ _ _) as [r c] eqn:E. injection Hs as <- <-.
      apply (chans_put _ _ _ HB). exact (proj1 (fine_chan_recv _ _ _ _ _ (hf_chan _ H _ Ho) E)).
    - destruct (plookup t (ch_rdone _)); [|discriminate]. injection Hs as <- <-.
      apply chans_put; [exact H|]. destruct (hf_chan _ H _ Ho) as (H1 & H2 & H3).
      split; [exact H1|split; [exact H2|]]. apply fine_pdel. exact H3.
    - destruct (chan_close _) as [r c] eqn:E. injection Hs as <- <-.
      apply chans_put; [exact H|]. exact (fine_chan_close _ _ _ (hf_chan _ H _ Ho) E).
    - apply upd_proc_heap; [exact H|]. apply (hf_ret _ H _ Ho).
    - apply upd_proc_heap; [exact H|]. apply (hf_ret _ H _ Ho).
    - apply upd_proc_heap; [exact H|]. apply (hf_ret _ H _ Ho).
    - destruct (next_choice s) as [z s1] eqn:E.
      pose proof (next_choice_heap _ _ _ E H) as H1.
      destruct (_ && _); injection Hs as <- <-; [|exact H1].
      apply upd_proc_heap; [exact H1|]. apply (hf_ret _ H1 _ Ho).
    - destruct (next_choice s) as [z s1] eqn:E. injection Hs as <- <-.
      pose proof (next_choice_heap _ _ _ E H) as H1.
      destruct (_ =? 0)%Z; [|destruct (_ =? 1)%Z]; [| |exact H1];
        (apply upd_proc_heap; [exact H1|]; apply (hf_ret _ H1 _ Ho)).
    - apply upd_proc_heap; [exact H|]. apply (hf_ret _ H _ Ho).
    - destruct (pr_ret _); [|discriminate]. injection Hs as <- <-.
      apply upd_proc_heap; [exact H|]. exact I.
    - assert (Hl : R (s_next s)) by (apply Hnew; cbn; lia). destruct Ho as (Hf & Ha & He).
      match goal with |- heap_fine (set_pending _ (set_procs (<[_ := ?x]> _) (set_funs (put ?l ?f _) _))) =>
        assert (H1 : heap_fine (set_funs (put l f (s_funs (bump s))) (bump s)));
        [|pose proof (procs_heap (s_next s) x _ H1 I) as H2; apply (pending_heap _ _ H2)] end.
      + apply funs_put; [exact HB|apply (hf_fun _ H _ Hf)|exact Hl].
      + apply Forall_app. split; [apply (hf_pending _ H)|]. constructor; [|constructor].
        destruct sched; (split; [exact Hl|split; [exact Hf|split; [exact Ha|exact He]]]).
    - apply atoms_heap, HB.
    - apply atoms_heap, H.
    - apply atoms_heap, H.
    - apply atoms_heap, H.
    - destruct (_ =? _)%Z; injection Hs as <- <-; [|exact H]. apply atoms_heap, H.
    - apply gensyms_heap, H.
    - destruct (next_choice s) as [z s1] eqn:E. injection Hs as <- <-. exact (next_choice_heap _ _ _ E H).
    - apply log_heap, H.
  Qed.

  (** What each operation leaves alone. *)
  Lemma next_choice_same s z s1 : next_choice s = (z, s1) ->
    s_next s1 = s_next s /\ s_cells s1 = s_cells s /\ s_strs s1 = s_strs s /\ s_bytes s1 = s_bytes s /\
    s_frames s1 = s_frames s /\ s_binds s1 = s_binds s /\ s_envs s1 = s_envs s /\ s_log s1 = s_log s.
  Proof. unfold next_choice. destruct (s_oracle s); intros [= <- <-]; repeat split. Qed.

  Lemma next_mono X (o : op X) s x s' : step_op o s = Some (x, s') -> (s_next s <= s_next s')%positive.
  Proof.
    intros Hs. destruct o; cbn [step_op] in Hs; try (injection Hs as <- <-); cbn; try lia.
    - destruct (alookup _ _); injection Hs as <- <-; cbn; lia.
    - destruct (chan_send _ _ _ _); injection Hs as <- <-; cbn; lia.
    - destruct (plookup _ _); [|discriminate]; injection Hs as <- <-; cbn; lia.
    - destruct (chan_recv _ _ _); injection Hs as <- <-; cbn; lia.
    - destruct (plookup _ _); [|discriminate]; injection Hs as <- <-; cbn; lia.
    - destruct (chan_close _); injection Hs as <- <-; cbn; lia.
    - destruct (next_choice s) as [z s1] eqn:E.
      assert (s_next s1 = s_next s) by apply (next_choice_same _ _ _ E).
      destruct (_ && _); injection Hs as <- <-; cbn; lia.
    - destruct (next_choice s) as [z s1] eqn:E.
      assert (s_next s1 = s_next s) by apply (next_choice_same _ _ _ E).
      injection Hs as <- <-. destruct (_ =? 0)%Z; [|destruct (_ =? 1)%Z]; cbn; lia.
    - destruct (pr_ret _); [|discriminate]. injection Hs as <- <-. cbn. lia.
    - destruct (_ =? _)%Z; injection Hs as <- <-; cbn; lia.
    - destruct (next_choice s) as [z s1] eqn:E. injection Hs as <- <-.
      assert (s_next s1 = s_next s) by apply (next_choice_same _ _ _ E). lia.
  Qed.

  (** The cases of [step_op] that branch, opened up. *)
  Ltac branch Hs :=
    match type of Hs with
    | context [alookup ?a ?b] => destruct (alookup a b) eqn:?; injection Hs as <- <-
    | context [chan_send ?a ?b ?c ?d] => destruct (chan_send a b c d) eqn:?; injection Hs as <- <-
    | context [chan_recv ?a ?b ?c] => destruct (chan_recv a b c) eqn:?; injection Hs as <- <-
    | context [chan_close ?a] => destruct (chan_close a) eqn:?; injection Hs as <- <-
    | context [plookup ?a ?b] => destruct (plookup a b) eqn:?; [injection Hs as <- <-|discriminate]
    | context [next_choice ?s] =>
        let z := fresh "z" in let s1 := fresh "s1" in
        destruct (next_choice s) as [z s1] eqn:?;
        match goal with E : next_choice _ = _ |- _ => 
          destruct (next_choice_same _ _ _ E) as (? & ? & ? & ? & ? & ? & ? & ?) end;
        try match type of Hs with context [if ?b then _ else _] => destruct b end;
        try match type of Hs with context [if ?b then _ else _] => destruct b end;
        injection Hs as <- <-
    | context [pr_ret (proc_at ?s ?l)] =>
        destruct (pr_ret (proc_at s l)) eqn:?; try discriminate; injection Hs as <- <-
    | context [if ?b then _ else _] => destruct b eqn:?; injection Hs as <- <-
    end.

  Ltac flat := cbn [s_cells s_strs s_bytes s_funs s_macros s_envs s_binds s_frames s_chans s_procs s_atoms s_next
                  s_pending s_tops s_global s_gensyms s_log
                  set_cells set_strs set_bytes set_funs set_macros set_envs set_binds set_frames set_chans
                  set_procs set_atoms set_next set_pending set_tops set_gensyms set_log set_oracle bump upd_proc].

  Lemma cells_step X (o : op X) s x s' :
    ~ W -> okop o -> step_op o s = Some (x, s') ->
    (s_cells s' = s_cells s \/ exists y, s_cells s' = <[s_next s := y]> (s_cells s)) /\
    (s_strs s' = s_strs s \/ exists y, s_strs s' = <[s_next s := y]> (s_strs s)) /\
    (s_bytes s' = s_bytes s \/ exists y, s_bytes s' = <[s_next s := y]> (s_bytes s)).
  Proof.
    intros HW Ho Hs. destruct o; cbn [step_op] in Hs; cbn [okop] in Ho; try (injection Hs as <- <-);
      try (branch Hs); try tauto; flat;
      (split; [|split]); first [left; solve [reflexivity | assumption] | right; eexists; reflexivity].
  Qed.
  Lemma frames_step X (o : op X) s x s' :
    ~ WF -> okop o -> step_op o s = Some (x, s') ->
    s_frames s' = s_frames s \/ exists y, s_frames s' = <[s_next s := y]> (s_frames s).
  Proof.
    intros HW Ho Hs. destruct o; cbn [step_op] in Hs; cbn [okop] in Ho; try (injection Hs as <- <-);
      try (branch Hs); try tauto; flat;
      first [left; solve [reflexivity | assumption] | right; eexists; reflexivity].
  Qed.
  Lemma kept_insert {T} (m m' : Pmap T) (n0 n : positive) l x :
    (m' = m \/ exists y, m' = <[n := y]> m) -> (l < n0)%positive -> (n0 <= n)%positive ->
    m !! l = Some x -> m' !! l = Some x.
  Proof.
    intros [->|(y & ->)] Hl Hn Hm; [exact Hm|]. rewrite lookup_insert_ne; [exact Hm|lia].
  Qed.
  Lemma data_step X (o : op X) s x s' :
    data_kept s -> okop o -> step_op o s = Some (x, s') -> data_kept s'.
  Proof.
    intros (HW & HF & Hn) Ho Hs. pose proof (next_mono _ _ _ _ _ Hs) as Hm.
    destruct C0_wf as (W1 & W2 & W3 & W4). split; [|split].
    - intros NW. destruct (HW NW) as (H1 & H2 & H3).
      destruct (cells_step _ _ _ _ _ NW Ho Hs) as (E1 & E2 & E3).
      split; [|split]; intros l y Hy.
      + eapply kept_insert; [exact E1|exact (W1 _ _ Hy)|exact Hn|exact (H1 _ _ Hy)].
      + eapply kept_insert; [exact E2|exact (W2 _ _ Hy)|exact Hn|exact (H2 _ _ Hy)].
      + eapply kept_insert; [exact E3|exact (W3 _ _ Hy)|exact Hn|exact (H3 _ _ Hy)].
    - intros NW l y Hy. eapply kept_insert; [exact (frames_step _ _ _ _ _ NW Ho Hs)|exact (W4 _ _ Hy)|exact Hn|].
      exact (HF NW _ _ Hy).
    - lia.
  Qed.

  Lemma log_step X (o : op X) s x s' :
    step_op o s = Some (x, s') ->
    s_log s' = match o with OEvent e => e :: s_log s | _ => s_log s end.
  Proof.
    intros Hs. destruct o; cbn [step_op] in Hs; try (injection Hs as <- <-);
      try (branch Hs); flat; solve [reflexivity|assumption].
  Qed.
  Lemma log_ok_step X (o : op X) s x s' :
    log_ok s -> okop o -> step_op o s = Some (x, s') -> log_ok s'.
  Proof.
    intros (new & Hl & Hn) Ho Hs. pose proof (log_step _ _ _ _ _ Hs) as E.
    destruct o; try (exists new; rewrite E; split; assumption).
    exists (e :: new). split; [rewrite E, Hl; reflexivity|].
    intros n env [->|Hi]; [exact Ho|exact (Hn _ _ Hi)].
  Qed.

  Lemma prot_step X (o : op X) s x s' :
    prot_kept s -> okop o -> step_op o s = Some (x, s') -> prot_kept s'.
  Proof.
    intros (HP & HN) Ho Hs. pose proof (next_mono _ _ _ _ _ Hs) as Hm. split.
    - intros l b Hb. destruct (HP _ _ Hb) as (H1 & H2 & H3). split; [|split; [exact H2|lia]].
      rewrite <- H1. unfold bind_at.
      destruct o; cbn [step_op] in Hs; cbn [okop] in Ho; try (injection Hs as <- <-); try (branch Hs);
        try reflexivity; try tauto;
        try (match goal with E : s_binds _ = s_binds _ |- _ => flat; rewrite E; reflexivity end);
        flat; first [rewrite default_insert|rewrite default_put; destruct (_ !! l0); [|reflexivity]].
      + destruct (Pos.eqb_spec (s_next s) l) as [<-|]; [lia|reflexivity].
      + destruct (Pos.eqb_spec l0 l) as [->|]; [|reflexivity].
        destruct Ho as (_ & _ & Ho). rewrite Ho in Hb. discriminate.
    - intros l n b Hb. destruct (HN _ _ _ Hb) as (H1 & H3). split; [|lia].
      rewrite <- H1. unfold env_at.
      destruct o; cbn [step_op] in Hs; cbn [okop] in Ho; try (injection Hs as <- <-); try (branch Hs);
        try reflexivity; try tauto;
        try (match goal with E : s_envs _ = s_envs _ |- _ => flat; rewrite E; reflexivity end);
        flat; first [rewrite default_insert|rewrite default_put; destruct (_ !! l0); [|reflexivity]].
      + destruct (Pos.eqb_spec (s_next s) l) as [<-|]; [lia|reflexivity].
      + destruct (Pos.eqb_spec l0 l) as [->|]; reflexivity.
      + destruct (Pos.eqb_spec l0 l) as [->|]; [|reflexivity].
        destruct Ho as (_ & _ & Ho). cbn [e_binds]. apply alookup_aset_ne.
        intros ->. rewrite Ho in Hb. discriminate.
  Qed.

  Lemma ans_step X (o : op X) s x s' :
    pinv s -> plive s' -> (MP \/ proper_frames s') -> okop o -> step_op o s = Some (x, s') -> okans o x.
  Proof.
    intros (H & HP & HD & HL & _) Hlive Hproper Ho Hs.
    assert (Hnew : (s_next s < s_next s')%positive -> R (s_next s)) by (intros Hn; apply (hf_next _ H _ (Pos.le_refl _)), Hlive, Hn).
    destruct o; cbn [step_op] in Hs; cbn [okop] in Ho; cbn [okans]; try exact I;
      try (injection Hs as <- <-); try (apply Hnew; cbn; lia).
    - apply (hf_cell _ H _ Ho).
    - apply (hf_cell _ H _ Ho).
    - apply (hf_bytes _ H _ Ho).
    - apply (hf_fun _ H _ Ho).
    - apply (hf_proc _ H _ Ho).
    - apply (hf_mac _ H _ Ho).
    - apply (hf_parent _ H _ Ho).
    - apply (hf_frame_of _ H _ Ho).
    - intros Hsb. apply (hf_restricted _ H Hsb _ Ho).
    - split; [apply fine_alookup, (hf_binds _ H _ Ho)|].
      intros Hn. destruct (NB l name) as [b|] eqn:E; [|contradiction].
      destruct (proj2 HP _ _ _ E) as (-> & _). discriminate.
    - apply (hf_binds _ H), RA, Ho.
    - apply (hf_bind _ H _ Ho).
    - apply (hf_bind _ H _ Ho).
    - intros Hn. destruct (PB l) as [b|] eqn:E; [|contradiction].
      destruct (proj1 HP _ _ E) as (-> & Hb & _). exact Hb.
    - intros Hn. apply fine_alookup, (hf_tops _ H Hn).
    - intros Hn. exact (hf_global _ H Hn).
    - apply fine_alookup, (hf_frame _ H _ Ho).
    - split; [apply (hf_frame _ H _ Ho)|]. destruct Hproper as [?|Hp]; [left; assumption|right; apply Hp].
    - destruct (chan_recv _ _ _) as [r c] eqn:E. injection Hs as <- <-.
      exact (proj2 (fine_chan_recv _ _ _ _ _ (hf_chan _ H _ Ho) E)).
    - destruct (plookup t (ch_rdone _)) eqn:E; [|discriminate]. injection Hs as <- <-.
      destruct (hf_chan _ H _ Ho) as (H1 & H2 & H3). exact (fine_plookup _ _ _ H3 E).
    - destruct (pr_ret _) eqn:E; [|discriminate]. injection Hs as <- <-.
      pose proof (hf_ret _ H _ Ho) as Hr. rewrite E in Hr. exact Hr.
    - destruct e as [n env| | | | | | |]; try exact I. cbn.
      destruct HL as (new & Hl & _). apply (proj1 Hlive (EPrim n env :: new)) with env; [|left; reflexivity].
      cbn. rewrite Hl. reflexivity.
  Qed.

  Lemma out_step X (o : op X) s x s' :
    heap_fine s -> plive s' -> out_kept s -> okop o -> step_op o s = Some (x, s') -> out_kept s'.
  Proof.
    intros H Hlive HO Ho Hs l Hl. specialize (HO l Hl).
    assert (Hn : (s_next s < s_next s')%positive -> s_next s <> l)
      by (intros Hn <-; apply Hl, (hf_next _ H _ (Pos.le_refl _)), Hlive, Hn).
    assert (Hk : forall k, R k -> k <> l) by (intros k Hk <-; exact (Hl Hk)).
    clear H Hlive. unfold same_object in *.
    destruct o; cbn [step_op] in Hs; cbn [okop] in Ho; try (injection Hs as <- <-); try (branch Hs);
      try exact HO; unfold upd_proc, put in *; cbn [s_next set_cells set_strs set_bytes set_funs set_macros set_envs set_binds set_frames set_chans
        set_procs set_atoms set_next set_pending set_tops set_gensyms set_log set_oracle bump] in Hn; flat.
    all: repeat match goal with |- context [match ?m !! ?k with Some _ => _ | None => _ end] => destruct (m !! k) end; flat; try exact HO.
    all: rewrite ?lookup_insert_ne by (first [apply Hn; lia | apply Hk; tauto]); try exact HO.
    all: match goal with E : next_choice _ = _ |- _ => unfold next_choice in E; destruct (s_oracle s); injection E as <- <-; exact HO end.
  Qed.
  Lemma pinv_step X (o : op X) s x s' :
    pinv s -> plive s' -> (MP \/ proper_frames s') -> okop o -> step_op o s = Some (x, s') -> pinv s' /\ okans o x.
  Proof.
    intros Hi Hl Hpr Ho Hs. split; [|exact (ans_step _ _ _ _ _ Hi Hl Hpr Ho Hs)].
    destruct Hi as (H & HP & HD & HL & HO). split; [|split; [|split; [|split]]].
    - refine (heap_step _ _ _ _ _ H _ Ho Hs). intros Hn. apply (hf_next _ H _ (Pos.le_refl _)), Hl, Hn.
    - exact (prot_step _ _ _ _ _ HP Ho Hs).
    - exact (data_step _ _ _ _ _ HD Ho Hs).
    - exact (log_ok_step _ _ _ _ _ HL Ho Hs).
    - exact (out_step _ _ _ _ _ H Hl HO Ho Hs).
  Qed.
  (** The result of a process. *)
  Definition okput (l : loc) (v : val) : Prop := R l /\ fine v.
  Lemma pinv_put l v s s' : pinv s -> plive s' -> okput l v -> put_ret l v s = Some s' -> pinv s'.
  Proof.
    intros (H & HP & HD & HL & HO) _ [Hl Hv]. unfold put_ret. destruct (pr_ret _); [discriminate|]. intros [= <-].
    split; [apply upd_proc_heap; [exact H|exact Hv]|]. split; [exact HP|]. split; [exact HD|]. split; [exact HL|].
    intros k Hk. destruct (HO k Hk) as (?&?&?&?&?&?&?&?&?&E&?). unfold same_object. unfold upd_proc; flat.
    repeat apply conj; try assumption. rewrite <- E. unfold put. destruct (s_procs s !! l); [|reflexivity].
    apply lookup_insert_ne. intros <-. exact (Hk Hl).
  Qed.
  Lemma plive_put l v s s' : put_ret l v s = Some s' -> plive s' -> plive s.
  Proof. unfold put_ret. destruct (pr_ret _); [discriminate|]. intros [= <-] H. exact H. Qed.
  Lemma plive_back X (o : op X) s x s' : step_op o s = Some (x, s') -> plive s' -> plive s.
  Proof.
    intros Hs [Hl Hl2]. split; [|intros l Hlt; apply Hl2; pose proof (next_mono _ _ _ _ _ Hs); lia].
    intros new Hn n e Hi. pose proof (log_step _ _ _ _ _ Hs) as E.
    destruct o; try (apply (Hl new) with e; [rewrite E; exact Hn|exact Hi]).
    apply (Hl (e0 :: new)) with e; [rewrite E, Hn; reflexivity|right; exact Hi].
  Qed.
End Policy.
