(** Proofs of C74: objects that share a prototype. *)
From Verif Require Export SpecObject ProofState ProofFrame ProofWf.
From stdpp Require Import list.
From Verif Require Import Base Data StrFacts SpecCore SpecEval SpecFrame SpecState SpecObject.
Local Open Scope string_scope.
Local Open Scope list_scope.
Local Open Scope Z_scope.

Lemma keeps_choices s s' : only_choices s s' -> keeps [] s s'.
Proof.
  intros C. rewrite C. constructor; try reflexivity; try (intros l x H; exact H); eauto.
  exists []. split; [reflexivity|constructor].
Qed.
Lemma frame_is s (f : loc) fr : s_frames s !! f = Some fr -> frame_at s f = fr.
Proof. intros E. unfold frame_at. rewrite E. reflexivity. Qed.
(** A built-in called by a name that is found. *)
Lemma call_found env s n q ts (l : loc) args cs s1 o s' : plain_head (VSym n) -> In q all_prims -> Apply.p_name q = n -> declared q ts -> p_restricted q = false ->
  accepts ts (length cs) -> s_cells s !! l = Some (VSym n, args) -> is_list s args cs -> finds true env n s (Done (Ok (VPrim n))) s1 -> kept (s_cells s) (s_cells s1) ->
  collects (if p_special q then as_it_is else evaluated env) (enters n env) [] args s1 o s' -> evals (VCell TCons l) env s o s'.
Proof.
  intros Ph Iq Eq D Rq A E L F K C. apply call_expression.
  - cbn [at_end]. rewrite (cell_some _ _ _ E). discriminate.
  - cbn [head_of]. rewrite (cell_some _ _ _ E). exact Ph.
  - cbn [head_of]. rewrite (cell_some _ _ _ E). cbn [fst operator]. pose proof Ph as (_ & _ & -> & _). exists (Done (Ok (VPrim n))), s1. split; [exact F|].
    cbn [nilb rest_of]. rewrite (cell_some _ _ _ (K _ _ E)). cbn [snd]. rewrite <- Eq.
    apply (builtin_called q ts args cs env s1 o s' Iq D (is_list_kept _ _ _ _ K L) (or_introl Rq) A). rewrite Eq. exact C.
Qed.
Lemma send_called f k fl vs env s : wf_state s -> naked k -> no_nils vs -> proper_parents s f -> (exists g, reaches s f g /\ slot s g k <> None) ->
  (forall g v, inherits s k f g v -> v = VFun fl) -> symbolp (f_params (fn_code (fun_at s fl))) = false ->
  exists l s2, keeps [] s s2 /\ wf_state s2 /\ is_list s2 l vs /\
    forall o s', calls_function fl (Some f) as_it_is l (length vs) env s2 o s' -> applies "send" (VFrame f :: VSym k :: vs) env s o s'.
Proof.
  intros W K N P X Hv Sy. set (s0 := entering "send" env s). assert (W0 : wf_state s0) by apply wf_entering, W.
  destruct (finds_slot f k s s0 (fun _ => eq_refl) P X) as (g & v & s1 & s2 & A & R & C & I). assert (v = VFun fl) as -> by exact (Hv _ _ I).
  assert (W2 : wf_state s2) by (eapply wf_runs; [eapply wf_runs; [exact W0|exact A]|exact R]).
  pose proof (new_tail_list vs VNil [] s2 W2 N (il_nil _)) as L. rewrite app_nil_r in L. destruct (new_tail_grows vs VNil s2 W2) as [G W3].
  exists (fst (new_tail vs VNil s2)), (snd (new_tail vs VNil s2)).
  split; [exact (keeps_trans _ _ _ _ (keeps_entering "send" env s) (keeps_trans _ _ _ _ (keeps_choices _ _ C) (grows_keeps _ _ G)))|]. split; [exact W3|]. split; [exact L|]. intros o s' H.
  applies. unfold send_impl. cbn [arg nth need_frame need_naked]. rewrite (naked_true k K).
  refine (proj2 (asks_iff _ _ _ _ _ _ _ _ A) _). cbn [negb]. refine (proj2 (reads_iff _ _ _ _ _ _ _ _ R) _).
  unfold tail_list. change (skipn 2 (VFrame f :: VSym k :: vs)) with vs. rewrite (then_iff _ _ _ _ _ _ _ (new_tail_run _ _ _)).
  refine (proj2 (fun_apply_iff fl _ vs env (Some f) false _ o s' L _) H).
  assert (E : s_funs (snd (new_tail vs VNil s2)) = s_funs s2).
  { clear. induction vs as [|v vs IH]; [reflexivity|]. cbn [new_tail]. destruct (new_tail vs VNil s2) as [t s1]. cbn [snd] in *. destruct v; exact IH. }
  unfold fun_at. rewrite E. assert (H2 : s_funs s2 = s_funs s) by (rewrite C; reflexivity). rewrite H2. exact Sy.
Qed.
Lemma open_wf name p fr s : wf_state s -> wf_state (open_env name p fr s).
Proof.
  intros W. assert (Q := wf_step _ (OEnvNew name (Some p) fr) s _ _ eq_refl W). unfold open_env. destruct (Pos.eqb p (s_global s)); [|exact Q].
  destruct Q. constructor; assumption.
Qed.
Lemma add_wf env n v s : local_binding s env n = None -> wf_state s -> wf_state (add_binding env (VSym n) v s).
Proof.
  intros L W. pose proof (bind_locally_run env (VSym n) v s) as R. unfold bind_here in R. cbn [name_of] in R. rewrite L in R. exact (wf_runs _ _ _ _ _ W R).
Qed.
(** The prototype [cl] with the method [fl]. *)
Record has_class (s : state) (m y p : string) (z : Z) (cl fl : loc) : Prop := HasClass {
  hc_frame : s_frames s !! cl = Some [(slot_name m, VFun fl); (slot_name y, VInt z)];
  hc_fun : exists fs bc, s_funs s !! fl = Some fs /\ fn_proc fs = None /\ f_varargs (fn_code fs) = false /\ f_req (fn_code fs) = 1 /\
    holds s (f_params (fn_code fs)) (XList [XSym p]) /\ is_list s (f_body (fn_code fs)) [bc] /\ holds s bc (paying y p) /\ f_env (fn_code fs) = s_global s }.
(** The object [f] with prototype [cl] and balance [z]: its own, or still the prototype's. *)
Definition stores (s : state) (y : string) (z0 z : Z) (cl f : loc) : Prop :=
  f <> cl /\ ((s_frames s !! f = Some [("class*:", VFrame cl)] /\ z = z0) \/ s_frames s !! f = Some [("class*:", VFrame cl); (slot_name y, VInt z)]).
Definition global_frame (s : state) (x : string) (f : loc) : Prop :=
  exists gb be, local_binding s (s_global s) x = Some gb /\ s_binds s !! (gb : loc) = Some be /\ b_val be = VFrame f.

Section Names.
  Context (m y p : string) (Wm : slot_word m) (Wy : slot_word y) (Pp : plain_name p) (Nym : y <> m) (Nyp : y <> p).
  Lemma slot_names a b : slot_name a = slot_name b -> a = b.
  Proof. apply str_app_inj_r. Qed.
  Lemma class_parent : names_parent "class*:". Proof. exists "class". reflexivity. Qed.
  Lemma word_class n : slot_word n -> slot_name n <> "class*:".
  Proof. intros [_ N] E. apply N. change (n +++ ":") with (slot_name n). rewrite E. exact class_parent. Qed.
  Lemma class_alone s z cl fl g : has_class s m y p z cl fl -> reaches s cl g -> g = cl.
  Proof.
    intros H R. inversion R as [|? q ? (k & I & _) _]; subst; [reflexivity|]. rewrite (frame_is _ _ _ (hc_frame _ _ _ _ _ _ _ H)) in I.
    destruct I as [[=]|[[=]|[]]].
  Qed.
  Lemma object_up s z0 z cl f g : stores s y z0 z cl f -> parent s f g -> g = cl.
  Proof. intros (_ & [[H _]|H]) (k & I & _); rewrite (frame_is _ _ _ H) in I; cbn in I; destruct I as [[=]|I]; [|destruct I| |destruct I as [[=]|[]]]; congruence. Qed.
  Lemma object_reaches s z0 z cl fl f g : has_class s m y p z0 cl fl -> stores s y z0 z cl f -> reaches s f g -> g = f \/ g = cl.
  Proof. intros H O R. inversion R as [|? q ? P R']; subst; [left; reflexivity|]. rewrite (object_up _ _ _ _ _ _ O P) in R'. right. exact (class_alone _ _ _ _ _ H R'). Qed.
  Lemma object_parent s z0 z cl f : stores s y z0 z cl f -> parent s f cl.
  Proof. intros (_ & [[H _]|H]); exists "class*:"; (split; [rewrite (frame_is _ _ _ H); left; reflexivity|exact class_parent]). Qed.
  Lemma object_proper s z0 z cl fl f : has_class s m y p z0 cl fl -> stores s y z0 z cl f -> proper_parents s f.
  Proof.
    intros H O g R k v I Np. destruct (object_reaches _ _ _ _ _ _ _ H O R) as [->| ->].
    - destruct O as (_ & [[E _]|E]); rewrite (frame_is _ _ _ E) in I; cbn in I; destruct I as [[= <- <-]|I]; eauto; [destruct I|]. destruct I as [[= <- <-]|[]]. destruct Wy as [_ Q]. destruct (Q Np).
    - rewrite (frame_is _ _ _ (hc_frame _ _ _ _ _ _ _ H)) in I. destruct I as [[= <- <-]|[[= <- <-]|[]]]; [destruct Wm as [_ Q]|destruct Wy as [_ Q]]; destruct (Q Np).
  Qed.
  Lemma object_none s z0 z cl fl f n : has_class s m y p z0 cl fl -> stores s y z0 z cl f -> n <> m -> n <> y -> slot_name n <> "class*:" ->
    ~ exists g, reaches s f g /\ slot s g (slot_name n) <> None.
  Proof.
    intros H O N1 N2 N3 (g & R & Q). apply Q. assert (M1 : slot_name n <> slot_name m) by (intros E; exact (N1 (slot_names _ _ E))). assert (M2 : slot_name n <> slot_name y) by (intros E; exact (N2 (slot_names _ _ E))).
    unfold slot. destruct (object_reaches _ _ _ _ _ _ _ H O R) as [->| ->].
    - destruct O as (_ & [[E _]|E]); rewrite (frame_is _ _ _ E); cbn [alookup]; rewrite ?(proj2 (str_eqb_neq _ _) N3), ?(proj2 (str_eqb_neq _ _) M2); reflexivity.
    - rewrite (frame_is _ _ _ (hc_frame _ _ _ _ _ _ _ H)). cbn [alookup]. rewrite (proj2 (str_eqb_neq _ _) M1), (proj2 (str_eqb_neq _ _) M2). reflexivity.
  Qed.
  Lemma class_slots s z cl fl : has_class s m y p z cl fl -> slot s cl (slot_name m) = Some (VFun fl) /\ slot s cl (slot_name y) = Some (VInt z).
  Proof.
    intros H. unfold slot. rewrite (frame_is _ _ _ (hc_frame _ _ _ _ _ _ _ H)). cbn [alookup]. rewrite !str_eqb_refl.
    rewrite (proj2 (str_eqb_neq (slot_name y) (slot_name m))) by (intros E; exact (Nym (slot_names _ _ E))). split; reflexivity.
  Qed.
  Lemma object_has s z0 z cl fl f n : has_class s m y p z0 cl fl -> stores s y z0 z cl f -> n = m \/ n = y -> exists g, reaches s f g /\ slot s g (slot_name n) <> None.
  Proof.
    intros H O E. exists cl. split; [eapply reaches_up; [exact (object_parent _ _ _ _ _ O)|constructor]|]. destruct (class_slots _ _ _ _ H) as [Q1 Q2].
    destruct E as [->| ->]; congruence.
  Qed.
  Lemma object_inherits s z0 z cl fl f g n v : has_class s m y p z0 cl fl -> stores s y z0 z cl f -> inherits s (slot_name n) f g v ->
    (n = m -> v = VFun fl) /\ (n = y -> v = VInt z).
  Proof.
    intros H O I. destruct (class_slots _ _ _ _ H) as [Q1 Q2]. pose proof O as (_ & Of).
    assert (Cy := word_class _ Wy). assert (Cm := word_class _ Wm). assert (Nmy : slot_name m <> slot_name y) by (intros E; exact (Nym (eq_sym (slot_names _ _ E)))).
    inversion I as [? ? S|? q ? ? S P I']; subst.
    - unfold slot in S. split; intros ->.
      + exfalso. destruct Of as [[E _]|E]; rewrite (frame_is _ _ _ E) in S; cbn [alookup] in S; rewrite ?(proj2 (str_eqb_neq _ _) Cm), ?(proj2 (str_eqb_neq _ _) Nmy) in S; discriminate.
      + destruct Of as [[E _]|E]; rewrite (frame_is _ _ _ E) in S; cbn [alookup] in S; rewrite ?(proj2 (str_eqb_neq _ _) Cy), ?str_eqb_refl in S; congruence.
    - rewrite (object_up _ _ _ _ _ _ O P) in I'.
      assert (Sc : slot s cl (slot_name n) = Some v).
      { inversion I' as [|? q' ? ? _ P' _]; subst; [assumption|]. exfalso. destruct P' as (k & J & _). rewrite (frame_is _ _ _ (hc_frame _ _ _ _ _ _ _ H)) in J. destruct J as [[=]|[[=]|[]]]. }
      split; intros ->; [congruence|]. destruct Of as [[_ ->]|E]; [congruence|]. exfalso. unfold slot in S. rewrite (frame_is _ _ _ E) in S. cbn [alookup] in S.
      rewrite (proj2 (str_eqb_neq _ _) Cy), str_eqb_refl in S. discriminate.
  Qed.
  (** *** What stays *)
  Lemma class_kept but s s' z cl fl : keeps but s s' -> has_class s m y p z cl fl -> has_class s' m y p z cl fl.
  Proof.
    intros K [H (fs & bc & A1 & A2 & A3 & A4 & A5 & A6 & A7 & A8)]. assert (HK := holds_kept s s' (k_cells _ _ _ K) (k_strs _ _ _ K) (k_bytes _ _ _ K)).
    constructor; [apply K, H|]. destruct (k_funs _ _ _ K _ _ A1) as (f' & E1 & E2 & E3). exists f', bc. rewrite E2, E3, (k_global _ _ _ K).
    repeat apply conj; auto. exact (is_list_kept _ _ _ _ (k_cells _ _ _ K) A6).
  Qed.
  Lemma stores_kept but s s' z0 z cl f : keeps but s s' -> stores s y z0 z cl f -> stores s' y z0 z cl f.
  Proof. intros K (N & [[H E]|H]); (split; [exact N|]); [left; split; [apply K, H|exact E]|right; apply K, H]. Qed.
  Lemma global_kept s s' x f : has_builtins s -> keeps [] s s' -> global_frame s x f -> global_frame s' x f.
  Proof.
    intros (ge & Hg & _) K (gb & be & A & B & C). exists gb, be. split; [|split; [apply K, B|exact C]].
    assert (Q := k_envs _ _ _ K _ _ ltac:(intros []) Hg). unfold local_binding in *. rewrite (k_global _ _ _ K), (env_is _ _ _ Q). rewrite (env_is _ _ _ Hg) in A. exact A.
  Qed.
  Lemma offers_kept s s' n : has_builtins s -> keeps [] s s' -> offers s n -> offers s' n.
  Proof.
    intros (ge & Hg & _) K (gb & be & A & B & C). exists gb, be. split; [|split; [apply K, B|exact C]].
    assert (Q := k_envs _ _ _ K _ _ ltac:(intros []) Hg). unfold local_binding in *. rewrite (k_global _ _ _ K), (env_is _ _ _ Q). rewrite (env_is _ _ _ Hg) in A. exact A.
  Qed.
  (** *** A slot written *)
  Lemma put_frame s (f g : loc) k v : f <> g -> s_frames (put_slot f k v s) !! g = s_frames s !! g.
  Proof. intros N. unfold put_slot. cbn. unfold put. destruct (s_frames s !! f); [apply lookup_insert_ne, N|reflexivity]. Qed.
  Lemma class_put s z cl fl f k v : f <> cl -> has_class s m y p z cl fl -> has_class (put_slot f k v s) m y p z cl fl.
  Proof.
    intros N [H (fs & bc & A1 & A2 & A3 & A4 & A5 & A6 & A7 & A8)]. constructor; [rewrite put_frame by exact N; exact H|]. exists fs, bc.
    repeat apply conj; auto; try (apply (holds_same s); auto; fail). exact (is_list_kept s (put_slot f k v s) _ _ ltac:(intros ? ? Q; exact Q) A6).
  Qed.
  Lemma stores_other s z0 z cl f g k v : f <> g -> stores s y z0 z cl g -> stores (put_slot f k v s) y z0 z cl g.
  Proof. intros N (M & H). split; [exact M|]. rewrite put_frame by exact N. exact H. Qed.
  Lemma stores_put s z0 z r cl f : stores s y z0 z cl f -> stores (put_slot f (slot_name y) (VInt r) s) y z0 r cl f.
  Proof.
    intros (M & H). split; [exact M|]. right. unfold put_slot. cbn. unfold put.
    destruct H as [[H _]|H]; rewrite H, (frame_is _ _ _ H), lookup_insert; cbn [aset]; rewrite (proj2 (str_eqb_neq _ _) (word_class _ Wy)); [|rewrite str_eqb_refl]; reflexivity.
  Qed.
  Lemma ready_put G s f k v : ready G s -> ready G (put_slot f k v s).
  Proof.
    intros [B R]. split; [exact B|]. intros x xs body E. destruct (R x xs body E) as (b' & be' & l & g & A1 & A2 & C & D & F & I). exists b', be', l, g.
    repeat (split; [assumption|]).
    inversion I as [| | | | |l' g' xs' body' ns c d F1 F2 F3 F4 F5 F6 F7 F8 F9 F10 F11 F12 |]; subst. rewrite D in F1. injection F1 as <-.
    apply (sf_closure _ l g xs body [] (f_body (fn_code g)) d); auto; try (apply (holds_same s); auto; fail).
    - exact (is_list_kept s (put_slot f k v s) _ _ ltac:(intros ? ? H; exact H) F9).
    - rewrite F. apply (sees_global (put_slot f k v s)).
  Qed.
  (** *** The body of the method *)
  Definition called_on (s : state) (ce f : loc) (d : Z) : Prop :=
    exists e sb (pb : loc) be, s_envs s !! ce = Some e /\ e_parent e = Some (s_global s) /\ e_frame e = Some f /\ e_binds e = [("self", sb); (p, pb)] /\
      s_binds s !! pb = Some be /\ b_val be = VInt d.
  Lemma called_kept s s' ce f d : keeps [] s s' -> called_on s ce f d -> called_on s' ce f d.
  Proof.
    intros K (e & sb & pb & be & A1 & A2 & A3 & A4 & A5 & A6). exists e, sb, pb, be. rewrite (k_global _ _ _ K).
    split; [apply K; [intros []|exact A1]|]. repeat (split; [assumption|]). split; [apply K, A5|exact A6].
  Qed.
  Lemma called_local s ce f d n : called_on s ce f d -> n <> "self" -> n <> p -> local_binding s ce n = None /\ e_frame (env_at s ce) = Some f.
  Proof.
    intros (e & sb & pb & be & A1 & A2 & A3 & A4 & A5 & A6) N1 N2. unfold local_binding. rewrite (env_is _ _ _ A1), A4. cbn [alookup].
    rewrite (proj2 (str_eqb_neq _ _) N1), (proj2 (str_eqb_neq _ _) N2). split; [reflexivity|exact A3].
  Qed.
  Lemma word_found G s z0 z cl fl f ce d n : ready G s -> has_class s m y p z0 cl fl -> stores s y z0 z cl f -> called_on s ce f d -> In n ["+"; "set!"] ->
    exists s1, finds true ce n s (Done (Ok (VPrim n))) s1 /\ only_choices s s1.
  Proof.
    intros R H O Cd I. assert (Ir : In n reserved) by (destruct I as [<-|[<-|[]]]; cbn; tauto).
    assert (Ns : n <> "self") by (destruct I as [<-|[<-|[]]]; discriminate). assert (Nc : slot_name n <> "class*:") by (destruct I as [<-|[<-|[]]]; discriminate).
    assert (Np : n <> p) by (intros ->; destruct Pp as (_ & _ & Q); exact (Q Ir)). assert (Nm : n <> m) by (intros ->; destruct Wm as ((_ & _ & Q) & _); exact (Q Ir)).
    assert (Ny : n <> y) by (intros ->; destruct Wy as ((_ & _ & Q) & _); exact (Q Ir)).
    destruct (called_local _ _ _ _ _ Cd Ns Np) as [L Fr].
    destruct (finds_no_slot f (slot_name n) s s (fun _ => eq_refl) (object_proper _ _ _ _ _ _ H O) (object_none _ _ _ _ _ _ _ H O Nm Ny Nc)) as (s1 & A & C).
    pose proof R as [(ge & He & _ & _ & _ & Hb) _]. destruct (Hb n Ir) as (b & be & B1 & B2 & B3). exists s1. split; [|exact C].
    unfold finds. rewrite L, Fr. exists (Done false), s1. split; [exact A|]. exists (Some b).
    pose proof Cd as (e & sb & pb & be' & A1 & A2 & _). split.
    - apply (visible_same s); [rewrite C; reflexivity|]. eapply visible_above; [exact L|rewrite (env_is _ _ _ A1); exact A2|].
      apply visible_here. unfold local_binding. rewrite (env_is _ _ _ He). exact B1.
    - assert (B2' : s_binds s1 !! b = Some be) by (rewrite C; exact B2). rewrite (bind_is _ _ _ B2'), B3. split; reflexivity.
  Qed.
  Lemma method_body G s ce c z0 z d r cl fl f : wf_state s -> ready G s -> has_class s m y p z0 cl fl -> stores s y z0 z cl f -> called_on s ce f d ->
    mod64 r (z + d) -> holds s c (paying y p) ->
    exists s', evals c ce s (Done (Ok (VInt r))) (put_slot f (slot_name y) (VInt r) s') /\ keeps [] s s'.
  Proof.
    intros W R H O Cd Hr Hc. unfold paying in Hc.
    destruct (holds_list_inv _ _ _ Hc) as (cs & L & Fc). apply Forall2_cons_inv_r in Fc. destruct Fc as (h & cs' & Hh & Fc & ->). apply holds_sym_inv in Hh. subst h.
    destruct (list_head _ _ _ _ L) as (l & dd & -> & E & N & Ld).
    apply Forall2_cons_inv_r in Fc. destruct Fc as (yy & cs1 & Hy & Fc & ->). apply holds_sym_inv in Hy. subst yy. apply Forall2_cons_inv_r in Fc. destruct Fc as (pl & cs2 & Hpl & Fc & ->). apply Forall2_nil_inv_r in Fc. subst cs2.
    destruct (word_found G _ _ _ _ _ _ _ _ "set!" R H O Cd ltac:(cbn; tauto)) as (s1 & F1 & C1). assert (K1 := keeps_choices _ _ C1).
    assert (W1 : wf_state s1) by (assert (Q : operator (VSym "set!") ce s (Done (Ok (VPrim "set!"))) s1) by exact F1; apply operator_iff in Q; exact (wf_runs _ _ _ _ _ W Q)).
    set (s2 := entering "set!" ce s1). assert (K2 : keeps [] s s2) by exact (keeps_trans _ _ _ _ K1 (keeps_entering "set!" ce s1)).
    assert (W2 : wf_state s2) by apply wf_entering, W1.
    assert (R2 := ready_still _ _ _ K2 R). assert (H2 := class_kept _ _ _ _ _ _ K2 H). assert (O2 := stores_kept _ _ _ _ _ _ _ K2 O). assert (Cd2 := called_kept _ _ _ _ _ K2 Cd).
    assert (Hpl2 := holds_kept _ _ (k_cells _ _ _ K2) (k_strs _ _ _ K2) (k_bytes _ _ _ K2) _ _ Hpl).
    destruct (holds_list_inv _ _ _ Hpl2) as (es & Le & Fe). apply Forall2_cons_inv_r in Fe. destruct Fe as (h & es' & Hh & Fe & ->). apply holds_sym_inv in Hh. subst h.
    destruct (list_head _ _ _ _ Le) as (l' & dd' & -> & E' & N' & Ld').
    apply Forall2_cons_inv_r in Fe. destruct Fe as (yy & es1 & Hy & Fe & ->). apply holds_sym_inv in Hy. subst yy. apply Forall2_cons_inv_r in Fe. destruct Fe as (pp & es2 & Hp & Fe & ->). apply holds_sym_inv in Hp. subst pp. apply Forall2_nil_inv_r in Fe. subst es2.
    destruct (word_found G _ _ _ _ _ _ _ _ "+" R2 H2 O2 Cd2 ltac:(cbn; tauto)) as (s3 & F3 & C3). assert (K3 := keeps_choices _ _ C3).
    assert (W3 : wf_state s3) by (assert (Q : operator (VSym "+") ce s2 (Done (Ok (VPrim "+"))) s3) by exact F3; apply operator_iff in Q; exact (wf_runs _ _ _ _ _ W2 Q)).
    assert (H3 := class_kept _ _ _ _ _ _ K3 H2). assert (O3 := stores_kept _ _ _ _ _ _ _ K3 O2). assert (Cd3 := called_kept _ _ _ _ _ K3 Cd2).
    assert (Nys : y <> "self") by (destruct Wy as ((_ & Q & _) & _); exact Q).
    assert (Yc : has_suffix ":" y = false) by (destruct Wy as (((_ & _ & Q & _) & _) & _); exact Q). assert (Pc : has_suffix ":" p = false) by (destruct Pp as ((_ & _ & Q & _) & _); exact Q).
    destruct (called_local _ _ _ _ _ Cd3 Nys Nyp) as [L3 Fr3].
    destruct (method_reads y ce f s3 Yc L3 Fr3 (object_proper _ _ _ _ _ _ H3 O3) (object_has _ _ _ _ _ _ _ H3 O3 (or_intror eq_refl))) as (g & v & s4 & In4 & C4 & Ev4).
    assert (v = VInt z) as -> by exact (proj2 (object_inherits _ _ _ _ _ _ _ _ _ H3 O3 In4) eq_refl). cbn [noted] in Ev4.
    assert (K4 := keeps_choices _ _ C4). assert (W4 := wf_evals _ _ _ _ _ W3 Ev4). assert (Cd4 := called_kept _ _ _ _ _ K4 Cd3).
    assert (Ev5 : evals (VSym p) ce s4 (Done (Ok (VInt d))) s4).
    { apply symbol_iff. rewrite Pc. destruct Cd4 as (e & sb & pb & be & A1 & A2 & A3 & A4 & A5 & A6). unfold finds, local_binding. rewrite (env_is _ _ _ A1), A4. cbn [alookup].
      rewrite (proj2 (str_eqb_neq p "self")) by (destruct Pp as (_ & Q & _); exact Q). rewrite str_eqb_refl, (bind_is _ _ _ A5), A6. split; reflexivity. }
    assert (Cp : computes "+" [Number z; Number d] (Number r)) by (apply c_plus; exact Hr).
    destruct (computed [] "+" _ _ Cp ce s4 [VInt z; VInt d] W4 ltac:(repeat constructor) ltac:(repeat constructor; discriminate)) as (w & s5 & A5 & K5 & Sw). inversion Sw; subst.
    assert (K25 := keeps_trans _ _ _ _ K3 (keeps_trans _ _ _ _ K4 K5)).
    assert (Ev : evals (VCell TCons l') ce s2 (Done (Ok (VInt r))) s5).
    { destruct (function_prim _ _ _ Cp) as (q & ts & Iq & Eq & Dq & Sq & Rq & Aq).
      eapply (call_found ce s2 "+" q ts l' dd'); [repeat apply conj; reflexivity|exact Iq|exact Eq|exact Dq|exact Rq| |exact E'|exact Ld'|exact F3|exact (k_cells _ _ _ K3)|]; [exact Aq|].
      rewrite Sq. assert (L3' := is_list_kept _ _ _ _ (k_cells _ _ _ K3) Ld'). destruct (list_head _ _ _ _ L3') as (l1 & d1 & -> & E1 & N1 & Ld1).
      eapply collect_next; [exact (cell_end _ _ _ _ E1 N1)|cbn [head_of]; rewrite (cell_some _ _ _ E1); exact Ev4|].
      cbn [rest_of]. rewrite (cell_some _ _ _ (k_cells _ _ _ K4 _ _ E1)). cbn [snd]. assert (L4 := is_list_kept _ _ _ _ (k_cells _ _ _ K4) Ld1).
      destruct (list_head _ _ _ _ L4) as (l2 & d2 & -> & E2 & N2 & Ld2).
      eapply collect_next; [exact (cell_end _ _ _ _ E2 N2)|cbn [head_of]; rewrite (cell_some _ _ _ E2); exact Ev5|].
      cbn [rest_of]. rewrite (cell_some _ _ _ E2). cbn [snd]. apply collect_end; [apply list_end, Ld2|]. cbn [app]. unfold enters. cbn [all_stored stored]. exact A5. }
    assert (K05 := keeps_trans _ _ _ _ K2 K25). assert (H5 := class_kept _ _ _ _ _ _ K05 H). assert (O5 := stores_kept _ _ _ _ _ _ _ K05 O). assert (Cd5 := called_kept _ _ _ _ _ K05 Cd).
    destruct (called_local _ _ _ _ _ Cd5 Nys Nyp) as [L5 Fr5].
    destruct (finds_slot f (slot_name y) s5 s5 (fun _ => eq_refl) (object_proper _ _ _ _ _ _ H5 O5) (object_has _ _ _ _ _ _ _ H5 O5 (or_intror eq_refl))) as (g5 & w5 & s6 & s7 & As & _ & _ & _).
    assert (C6 : only_choices s5 s6). { destruct (asks_run f (slot_name y) s5) as (o & s6' & A' & C & _). destruct (runs_det _ _ _ _ _ _ _ _ As A') as [_ ->]. exact C. }
    exists s6. split; [|exact (keeps_trans _ _ _ _ K05 (keeps_choices _ _ C6))].
    destruct special_set as (q & Iq & Eq & Dq & Sq & Rq).
    eapply (call_found ce s "set!" q [Exactly 2] l dd); [repeat apply conj; reflexivity|exact Iq|exact Eq|exact Dq|exact Rq| |exact E|exact Ld|exact F1|exact (k_cells _ _ _ K1)|].
    { eexists; split; [left; reflexivity|reflexivity]. }
    rewrite Sq. apply (collect_as_is _ [VSym y; VCell TCons l']); [exact (is_list_kept _ _ _ _ (k_cells _ _ _ K1) Ld)|]. cbn [app]. unfold enters. cbn [all_stored stored].
    apply set_iff. exists (Done (Ok (VInt r))), s5. split; [exact Ev|]. unfold sets. rewrite L5, Fr5. exists (Done true), s6. split; [exact As|]. split; reflexivity.
  Qed.
  (** *** Sending *)
  Lemma send_step G s c x e d r z0 z cl fl f : wf_state s -> ready G s -> offers s "send" -> has_class s m y p z0 cl fl -> stores s y z0 z cl f -> global_frame s x f ->
    plain_name x -> proper e -> means G [] e (Number d) -> mod64 r (z + d) -> holds s c (XList [XSym "send"; XSym x; XSym (slot_name m); written e]) ->
    exists s', evals c (s_global s) s (Done (Ok (VInt r))) (put_slot f (slot_name y) (VInt r) s') /\ keeps [] s s'.
  Proof.
    intros W R Of H O Gx Px Pe Me Hr Hc. set (env := s_global s).
    destruct (holds_list_inv _ _ _ Hc) as (cs & L & Fc). apply Forall2_cons_inv_r in Fc. destruct Fc as (h & cs' & Hh & Fc & ->). apply holds_sym_inv in Hh. subst h.
    destruct (list_head _ _ _ _ L) as (l & dd & -> & E & N & Ld).
    apply Forall2_cons_inv_r in Fc. destruct Fc as (xx & cs1 & Hx & Fc & ->). apply holds_sym_inv in Hx. subst xx. apply Forall2_cons_inv_r in Fc. destruct Fc as (mm & cs2 & Hm & Fc & ->). apply holds_sym_inv in Hm. subst mm.
    apply Forall2_cons_inv_r in Fc. destruct Fc as (ee & cs3 & He & Fc & ->). apply Forall2_nil_inv_r in Fc. subst cs3.
    destruct (proj1 (all_good G) _ _ _ Me Pe [] s env ee W R ltac:(intros ? []) ltac:(constructor) He) as (w & s1 & Ev & K1 & Sw). inversion Sw; subst. assert (W1 := wf_evals _ _ _ _ _ W Ev).
    assert (H1 := class_kept _ _ _ _ _ _ K1 H). assert (O1 := stores_kept _ _ _ _ _ _ _ K1 O). pose proof (hc_fun _ _ _ _ _ _ _ H1) as (fs1 & bc1 & A1 & _ & _ & _ & A5 & _).
    destruct (send_called f (slot_name m) fl [VInt d] env s1 W1 ltac:(exists m; reflexivity) ltac:(repeat constructor; discriminate) (object_proper _ _ _ _ _ _ H1 O1) (object_has _ _ _ _ _ _ _ H1 O1 (or_introl eq_refl))) as (lv & s3 & K3 & W3 & Lv & Call).
    { intros g v I. exact (proj1 (object_inherits _ _ _ _ _ _ _ _ _ H1 O1 I) eq_refl). }
    { rewrite (fun_is _ _ _ A1). destruct (holds_list_inv _ _ _ A5) as (ps & Lp & _). exact (list_not_symbol _ _ _ Lp). }
    assert (K03 := keeps_trans _ _ _ _ K1 K3). assert (R3 := ready_still _ _ _ K03 R). assert (H3 := class_kept _ _ _ _ _ _ K03 H).
    pose proof (hc_fun _ _ _ _ _ _ _ H3) as (fs & bc & B1 & B2 & B3 & B4 & B5 & B6 & B7 & B8).
    set (fn := fn_code fs) in *. set (ce := s_next s3). set (s4 := open_env (f_name fn) (f_env fn) (Some f) s3).
    assert (W4 : wf_state s4) by apply open_wf, W3. assert (K4 : keeps [] s3 s4) by apply keeps_open, W3.
    assert (E4 := open_env_at (f_name fn) (f_env fn) (Some f) s3). fold ce in E4. fold s4 in E4.
    set (s5 := add_binding ce (VSym "self") (VFrame f) s4). assert (W5 : wf_state s5) by (apply add_wf; [unfold local_binding; rewrite (env_is _ _ _ E4); reflexivity|exact W4]).
    assert (K5 : keeps [ce] s4 s5) by apply keeps_add, W4. assert (E5 := add_env ce "self" (VFrame f) s4 _ E4). fold s5 in E5. cbn [e_name e_parent e_frame e_binds e_restricted] in E5.
    change (aset "self" (s_next s4) []) with [("self", s_next s4)] in E5. assert (Ps : p <> "self") by (destruct Pp as (_ & Q & _); exact Q).
    assert (L5 : local_binding s5 ce p = None) by (unfold local_binding; rewrite (env_is _ _ _ E5); cbn [e_binds alookup]; rewrite (proj2 (str_eqb_neq _ _) Ps); reflexivity).
    set (s6 := add_binding ce (VSym p) (VInt d) s5). assert (W6 : wf_state s6) by (apply add_wf; [exact L5|exact W5]).
    assert (K6 : keeps [ce] s5 s6) by apply keeps_add, W5. assert (E6 := add_env ce p (VInt d) s5 _ E5). fold s6 in E6. cbn [e_name e_parent e_frame e_binds e_restricted aset] in E6. rewrite (proj2 (str_eqb_neq _ _) Ps) in E6.
    assert (K36 : keeps [] s3 s6) by (apply (keeps_fresh ce s3 s4 s6); [exact (next_free s3 W3)|exact K4|exact (keeps_trans _ _ _ _ K5 K6)]).
    assert (K06 := keeps_trans _ _ _ _ K03 K36).
    destruct (method_body G s6 ce bc z0 z d r cl fl f W6 (ready_still _ _ _ K06 R) (class_kept _ _ _ _ _ _ K06 H) (stores_kept _ _ _ _ _ _ _ K06 O)) as (s7 & Ev7 & K7); [|exact Hr| |].
    { eexists _, (s_next s4), (s_next s5), (Binding (VSym p) (VInt d) false). split; [exact E6|]. cbn [e_parent e_frame e_binds]. split; [rewrite B8, (k_global _ _ _ K36); reflexivity|].
      split; [reflexivity|]. split; [reflexivity|]. split; [unfold s6, add_binding; cbn; apply lookup_insert|reflexivity]. }
    { exact (holds_kept _ _ (k_cells _ _ _ K36) (k_strs _ _ _ K36) (k_bytes _ _ _ K36) _ _ B7). }
    exists s7. split; [|exact (keeps_trans _ _ _ _ K06 K7)].
    (* the call of send *)
    assert (Send : applies "send" [VFrame f; VSym (slot_name m); VInt d] env s1 (Done (Ok (VInt r))) (put_slot f (slot_name y) (VInt r) s7)).
    { apply Call. apply (proj1 (method_self fl f env s3 W3)). cbv zeta. rewrite (fun_is _ _ _ B1). fold fn. fold s4. fold ce. fold s5.
      assert (Q : fun_at s5 fl = fs) by (apply fun_is; unfold s5, s4, add_binding, open_env; destruct (Pos.eqb (f_env fn) (s_global s3)); exact B1).
      rewrite Q, B2. cbn [option_map bind_if_any]. rewrite B3, B4. unfold enough. cbn [length Z.of_nat].
      destruct (holds_list_inv _ _ _ B5) as (ps & Lp & Fp). apply Forall2_cons_inv_r in Fp. destruct Fp as (pv & ps1 & Hp & Fp & ->). apply holds_sym_inv in Hp. subst pv. apply Forall2_nil_inv_r in Fp. subst ps1.
      destruct (list_head _ _ _ _ Lp) as (lp & dp & Eqp & Ep & _ & Ldp). destruct (list_head _ _ _ _ Lv) as (la & da & -> & Ea & Na & Lda). rewrite Eqp.
      assert (K35 : keeps [ce] s3 s5) by exact (keeps_trans _ _ _ _ (keeps_more [] [ce] _ _ ltac:(intros ? []) K4) K5).
      eapply (pass_next as_it_is ce _ (VCell TCons lp) (VCell TCons la) s5 (VInt d) s5 s6).
      - exact (cell_end _ _ _ _ (k_cells _ _ _ K35 _ _ Ea) Na).
      - reflexivity.
      - cbn [head_of]. rewrite (cell_some _ _ _ (k_cells _ _ _ K35 _ _ Ea)). split; reflexivity.
      - cbn [head_of]. rewrite (cell_some _ _ _ (k_cells _ _ _ K35 _ _ Ep)). cbn [fst]. unfold bind_here. cbn [name_of]. rewrite L5. reflexivity.
      - cbn [rest_of]. rewrite (cell_some _ _ _ (k_cells _ _ _ K36 _ _ Ep)), (cell_some _ _ _ (k_cells _ _ _ K36 _ _ Ea)). cbn [snd].
        apply pass_end; [apply list_end; exact (is_list_kept _ _ _ _ (k_cells _ _ _ K36) Lda)|exact (list_not_symbol _ _ _ Ldp)|].
        apply (body_cells ce s6 bc (f_body fn)); [exact (is_list_kept _ _ _ _ (k_cells _ _ _ K36) B6)|reflexivity|exact Ev7|exact (k_cells _ _ _ K7)]. }
    assert (Fs : exists q ts, In q all_prims /\ Apply.p_name q = "send" /\ declared q ts /\ p_special q = false /\ p_restricted q = false /\ accepts ts 3).
    { destruct (table "send") as [q|] eqn:T; [|discriminate]. exists q, [AtLeast 2]. destruct (table_in _ _ T) as [I1 I2]. injection T as <-.
      split; [exact I1|]. split; [exact I2|]. split; [split; [reflexivity|repeat constructor; unfold sane, int64_max, two63; lia]|]. split; [reflexivity|]. split; [reflexivity|]. eexists; split; [left; reflexivity|cbn; lia]. }
    destruct Fs as (q & ts & Iq & Eq & Dq & Sq & Rq & Aq). destruct Of as (ob & obe & Of1 & Of2 & Of3). destruct Gx as (xb & xbe & Gx1 & Gx2 & Gx3).
    eapply (call_found env s "send" q ts l dd [VSym x; VSym (slot_name m); ee] s); [repeat apply conj; reflexivity|exact Iq|exact Eq|exact Dq|exact Rq|exact Aq|exact E|exact Ld| |intros ? ? Q; exact Q|].
    { unfold finds, env. rewrite Of1, (bind_is _ _ _ Of2), Of3. split; reflexivity. }
    rewrite Sq. destruct (list_head _ _ _ _ Ld) as (l1 & d1 & -> & E1 & N1 & Ld1). destruct (list_head _ _ _ _ Ld1) as (l2 & d2 & -> & E2 & N2 & Ld2). destruct (list_head _ _ _ _ Ld2) as (l3 & d3 & -> & E3 & N3 & Ld3).
    eapply collect_next; [exact (cell_end _ _ _ _ E1 N1)| |].
    { cbn [head_of]. rewrite (cell_some _ _ _ E1). cbn [fst]. apply symbol_iff. destruct Px as ((_ & _ & -> & _) & _). unfold finds, env. rewrite Gx1, (bind_is _ _ _ Gx2), Gx3. split; reflexivity. }
    cbn [rest_of noted]. rewrite (cell_some _ _ _ E1). cbn [snd].
    eapply collect_next; [exact (cell_end _ _ _ _ E2 N2)| |].
    { cbn [head_of]. rewrite (cell_some _ _ _ E2). cbn [fst]. apply symbol_iff. rewrite (proj2 (has_suffix_spec ":" (slot_name m))) by (exists m; reflexivity). split; reflexivity. }
    cbn [rest_of]. rewrite (cell_some _ _ _ E2). cbn [snd].
    eapply collect_next; [exact (cell_end _ _ _ _ E3 N3)|cbn [head_of]; rewrite (cell_some _ _ _ E3); exact Ev|].
    cbn [rest_of]. rewrite (cell_some _ _ _ (k_cells _ _ _ K1 _ _ E3)). cbn [snd]. apply collect_end; [apply list_end; exact (is_list_kept _ _ _ _ (k_cells _ _ _ K1) Ld3)|].
    cbn [app]. unfold enters. cbn [all_stored stored]. exact Send.
  Qed.
  (** *** Making the frames *)
  Lemma named_still s x v n : wf_state s -> has_builtins s -> n <> x ->
    local_binding (add_binding (s_global s) (VSym x) v s) (s_global s) n = local_binding s (s_global s) n.
  Proof.
    intros W (ge & Hg & _) Nx. assert (Q := add_env (s_global s) x v s ge Hg). unfold local_binding. rewrite (env_is _ _ _ Q), (env_is _ _ _ Hg). cbn [e_binds].
    apply alookup_aset_other. congruence.
  Qed.
  Lemma global_add s x v x' f : wf_state s -> has_builtins s -> x' <> x -> global_frame s x' f -> global_frame (add_binding (s_global s) (VSym x) v s) x' f.
  Proof.
    intros W B Nx (gb & be & A1 & A2 & A3). assert (K := keeps_add (s_global s) x v s W). exists gb, be. rewrite (k_global _ _ _ K), named_still by assumption.
    split; [exact A1|]. split; [apply K, A2|exact A3].
  Qed.
  Lemma offers_add s x v n : wf_state s -> has_builtins s -> n <> x -> offers s n -> offers (add_binding (s_global s) (VSym x) v s) n.
  Proof.
    intros W B Nx (gb & be & A1 & A2 & A3). assert (K := keeps_add (s_global s) x v s W). exists gb, be. rewrite (k_global _ _ _ K), named_still by assumption.
    split; [exact A1|]. split; [apply K, A2|exact A3].
  Qed.
  Lemma global_new s x f : has_builtins s -> global_frame (add_binding (s_global s) (VSym x) (VFrame f) s) x f.
  Proof.
    intros (ge & Hg & _). assert (Q := add_env (s_global s) x (VFrame f) s ge Hg). exists (s_next s), (Binding (VSym x) (VFrame f) false).
    change (s_global (add_binding (s_global s) (VSym x) (VFrame f) s)) with (s_global s). split; [unfold local_binding; rewrite (env_is _ _ _ Q); cbn [e_binds]; apply alookup_aset_same|].
    split; [unfold add_binding; cbn; apply lookup_insert|reflexivity].
  Qed.
  Lemma make_frame_exact ws fr env s : Nat.odd (length ws) = false -> (forall s0, runs denote (frame_slots ws []) s0 (Done (Ok fr)) s0) ->
    applies "make-frame" ws env s (Done (Ok (VFrame (s_next s)))) (set_frames (<[s_next s := fr]> (s_frames s)) (bump (entering "make-frame" env s))).
  Proof. intros O R. applies. unfold make_frame_impl. rewrite O. eapply runs_bind; [apply R|]. cbv iota beta. eapply runs_bind; [apply runs_op; reflexivity|apply runs_ret]. Qed.
  Lemma define_frame G s c x ds (Q : list (string * val) -> state -> Prop) : wf_state s -> ready G s -> offers s "make-frame" -> plain_name x -> local_binding s (s_global s) x = None -> alookup x G = None ->
    holds s c (XList [XSym "define"; XSym x; XList (XSym "make-frame" :: ds)]) ->
    (forall s1 args cs, keeps [] s s1 -> wf_state s1 -> is_list s1 args cs -> Forall2 (holds s1) cs ds ->
      exists ws s2 fr, keeps [] s1 s2 /\ wf_state s2 /\ Q fr s2 /\ no_nils ws /\ Nat.odd (length ws) = false /\ (forall s0, runs denote (frame_slots ws []) s0 (Done (Ok fr)) s0) /\
        forall (k : list val -> state -> behaviour) o s', k ws s2 o s' -> collects (evaluated (s_global s)) k [] args s1 o s') ->
    exists w f fr s2 s3, evals c (s_global s) s (Done (Ok w)) (add_binding (s_global s3) (VSym x) (VFrame f) s3) /\ wf_state (add_binding (s_global s3) (VSym x) (VFrame f) s3) /\
      ready G (add_binding (s_global s3) (VSym x) (VFrame f) s3) /\ keeps [] s s3 /\ wf_state s3 /\ Q fr s2 /\ keeps [] s2 s3 /\ s_frames s3 !! f = Some fr /\ (s_next s <= f)%positive.
  Proof.
    intros W R Of Px U UG Hc HD. set (env := s_global s) in *. assert (S : seesX [] s env []) by constructor.
    destruct (form_call G [] s env [] "define" [AtLeast 1] c _ special_define ltac:(cbn; tauto) W R S Hc ltac:(eexists; split; [left; reflexivity|cbn; lia])) as (us & s1 & W1 & K1 & F & N1 & C1).
    apply Forall2_cons_inv_r in F. destruct F as (xv & us1 & Hx & F & ->). apply holds_sym_inv in Hx. subst xv. apply Forall2_cons_inv_r in F. destruct F as (lt & us2 & Hlt & F & ->). apply Forall2_nil_inv_r in F. subst us2.
    set (s2 := entering "define" env s1). assert (W2 : wf_state s2) by apply wf_entering, W1. assert (K2 := keeps_trans _ _ _ _ K1 (keeps_entering "define" env s1)). fold s2 in K2.
    assert (Hlt2 : holds s2 lt (XList (XSym "make-frame" :: ds))) by (apply (holds_same s1); auto).
    destruct (holds_list_inv _ _ _ Hlt2) as (cs & L & Fc). apply Forall2_cons_inv_r in Fc. destruct Fc as (h & cs' & Hh & Fc & ->). apply holds_sym_inv in Hh. subst h.
    destruct (list_head _ _ _ _ L) as (l & dd & -> & E & N & Ld).
    destruct (HD s2 dd cs' K2 W2 Ld Fc) as (ws & s3 & fr & K3 & W3 & Hq & Nn & Od & Fr & C). assert (K03 := keeps_trans _ _ _ _ K2 K3).
    assert (St : all_stored ws s3 = (ws, s3)). { clear - Nn. induction ws as [|w ws IH]; [reflexivity|]. apply (proj1 (List.Forall_cons_iff _ _ _)) in Nn. destruct Nn as [Nw Nn]. cbn [all_stored]. destruct w; try (exfalso; apply Nw; reflexivity); cbn [stored]; rewrite (IH Nn); reflexivity. }
    assert (A := make_frame_exact ws fr env s3 Od Fr). set (s4 := set_frames _ _) in A. set (f := s_next s3) in *.
    assert (Fs : exists q ts, In q all_prims /\ Apply.p_name q = "make-frame" /\ declared q ts /\ p_special q = false /\ p_restricted q = false /\ accepts ts (length cs')).
    { destruct (table "make-frame") as [q|] eqn:T; [|discriminate]. exists q, [AnyCount]. destruct (table_in _ _ T) as [I1 I2]. injection T as <-.
      split; [exact I1|]. split; [exact I2|]. split; [split; [reflexivity|repeat constructor]|]. split; [reflexivity|]. split; [reflexivity|]. eexists; split; [left; reflexivity|exact Logic.I]. }
    destruct Fs as (q & ts & Iq & Eq & Dq & Sq & Rq & Aq). destruct (offers_kept _ _ _ (proj1 R) K2 Of) as (ob & obe & Of1 & Of2 & Of3).
    assert (Eg2 : s_global s2 = env) by exact (k_global _ _ _ K2).
    assert (Ev : evals (VCell TCons l) env s2 (Done (Ok (VFrame f))) s4).
    { eapply (call_found env s2 "make-frame" q ts l dd cs' s2); [repeat apply conj; reflexivity|exact Iq|exact Eq|exact Dq|exact Rq|exact Aq|exact E|exact Ld| |intros ? ? Z0; exact Z0|].
      { unfold finds. rewrite Eg2 in Of1. rewrite Of1, (bind_is _ _ _ Of2), Of3. split; reflexivity. }
      rewrite Sq. apply C. unfold enters. rewrite St. exact A. }
    assert (K34 : keeps [] s3 s4).
    { apply grows_keeps. eapply grows_trans; [apply (grows_entering "make-frame" env)|]. exact (grows_frame (entering "make-frame" env s3) fr _ _ (wf_entering _ _ _ W3) eq_refl). }
    assert (K04 := keeps_trans _ _ _ _ K03 K34). assert (W4 := wf_evals _ _ _ _ _ W2 Ev). assert (Eg4 : s_global s4 = env) by exact (k_global _ _ _ K04).
    pose proof R as [(ge & Hge & _) _]. fold env in Hge. assert (Hge4 := k_envs _ _ _ K04 _ _ ltac:(intros []) Hge).
    assert (L4 : local_binding s4 env x = None) by (unfold local_binding in *; rewrite (env_is _ _ _ Hge4); rewrite (env_is _ _ _ Hge) in U; exact U).
    assert (Evc : evals c env s (Done (Ok (VFrame f))) (add_binding (s_global s4) (VSym x) (VFrame f) s4)).
    { rewrite Eg4. apply C1, define_iff. exists (Done (Ok (VFrame f))), s4. split; [exact Ev|]. unfold then_bind, bind_here. cbn [name_of]. rewrite L4. split; reflexivity. }
    exists (VFrame f), f, fr, s3, s4. split; [exact Evc|]. split; [exact (wf_evals _ _ _ _ _ W Evc)|]. split; [exact (ready_add G s4 x _ W4 (ready_still _ _ _ K04 R) Px UG)|].
    split; [exact K04|]. split; [exact W4|]. split; [exact Hq|]. split; [exact K34|]. split; [unfold s4; cbn; apply lookup_insert|exact (k_next _ _ _ K03)].
  Qed.
  Lemma lambda_made G s lam body : wf_state s -> ready G s -> holds s lam (XList [XSym "lambda"; XList [XSym p]; body]) ->
    exists fl s', evals lam (s_global s) s (Done (Ok (VFun fl))) s' /\ keeps [] s s' /\ exists fs bc, s_funs s' !! fl = Some fs /\ fn_proc fs = None /\ f_varargs (fn_code fs) = false /\ f_req (fn_code fs) = 1 /\
      holds s' (f_params (fn_code fs)) (XList [XSym p]) /\ is_list s' (f_body (fn_code fs)) [bc] /\ holds s' bc body /\ f_env (fn_code fs) = s_global s'.
  Proof.
    intros W R Hlam. set (env := s_global s). assert (S : seesX [] s env []) by constructor.
    destruct (form_call G [] s env _ "lambda" [AtLeast 1] lam _ special_lambda ltac:(cbn; tauto) W R S Hlam ltac:(eexists; split; [left; reflexivity|cbn; lia])) as (vs & s7 & W7 & K67 & F & N7 & C7).
    apply Forall2_cons_inv_r in F. destruct F as (ps & vs1 & Hps & F & ->). apply Forall2_cons_inv_r in F. destruct F as (b & vs2 & Hbo & F & ->). apply Forall2_nil_inv_r in F. subst vs2.
    destruct (holds_list_inv _ _ _ Hps) as (pcs & Lp & Fp).
    pose proof (lambda_run ps [b] env (length pcs) false s7 W7 (list_pair _ _ _ Lp) (list_parameters _ _ _ Lp)) as A.
    assert (W8 := wf_entering "lambda" env s7 W7). apply (proj1 (List.Forall_cons_iff _ _ _)) in N7. destruct N7 as [_ N7].
    assert (Lb := new_tail_is [b] (entering "lambda" env s7) W8 N7). destruct (new_tail_grows [b] VNil (entering "lambda" env s7) W8) as [Gr W9].
    destruct (new_tail [b] VNil (entering "lambda" env s7)) as [bdy s9]. unfold fresh_function in A. cbn [fst snd] in *.
    set (f := Fn "unnamed" ps false (Z.of_nat (length pcs)) bdy env) in *. set (s10 := set_funs _ _) in *.
    assert (K79 := grows_keeps _ _ (grows_trans _ _ _ (grows_entering "lambda" env s7) Gr)).
    assert (K910 : keeps [] s9 s10).
    { apply grows_keeps. unfold s10. constructor; try reflexivity; try (intros k q H; exact H).
      - cbn. lia.
      - intros k g Hg. cbn. rewrite lookup_insert_ne; [exact Hg|]. intros <-. destruct (wf_funs _ W9 _ _ Hg). lia.
      - exists []. split; [reflexivity|constructor]. }
    assert (K710 := keeps_trans _ _ _ _ K79 K910). assert (K := keeps_trans _ _ _ _ K67 K710).
    assert (HK := holds_kept _ _ (k_cells _ _ _ K710) (k_strs _ _ _ K710) (k_bytes _ _ _ K710)).
    exists (s_next s9), s10. split; [apply C7, A|]. split; [exact K|]. exists (FnState f false None), b. split; [unfold s10; cbn; apply lookup_insert|]. cbn [fn_code fn_proc f f_varargs f_req f_params f_body f_env].
    split; [reflexivity|]. split; [reflexivity|]. split; [cbn; rewrite (Forall2_length _ _ _ Fp); reflexivity|]. split; [apply HK, Hps|].
    split; [exact (is_list_kept _ _ _ _ (k_cells _ _ _ K910) Lb)|]. split; [apply HK, Hbo|]. symmetry. exact (k_global _ _ _ K).
  Qed.
  Lemma naked_self env n s : evals (VSym (slot_name n)) env s (Done (Ok (VSym (slot_name n)))) s.
  Proof. apply symbol_iff. rewrite (proj2 (has_suffix_spec ":" (slot_name n))) by (exists n; reflexivity). split; reflexivity. Qed.
  Lemma slots_two a v b w : a <> b -> forall s, runs denote (frame_slots [VSym (slot_name a); v; VSym (slot_name b); w] []) s (Done (Ok [(slot_name a, v); (slot_name b, w)])) s.
  Proof.
    intros N s. cbn [frame_slots need_naked]. rewrite !(naked_true (slot_name _)) by (eexists; reflexivity). cbn [aset].
    rewrite (proj2 (str_eqb_neq (slot_name b) (slot_name a))) by (intros E; exact (N (eq_sym (slot_names _ _ E)))). apply runs_ret.
  Qed.
  Lemma slots_one a v : forall s, runs denote (frame_slots [VSym (slot_name a); v] []) s (Done (Ok [(slot_name a, v)])) s.
  Proof. intros s. cbn [frame_slots need_naked]. rewrite (naked_true (slot_name _)) by (eexists; reflexivity). apply runs_ret. Qed.
  Lemma make_class G s c cn z : wf_state s -> ready G s -> offers s "make-frame" -> plain_name cn -> local_binding s (s_global s) cn = None -> alookup cn G = None -> holds s c (prototype cn m y p z) ->
    exists w s' cl fl, evals c (s_global s) s (Done (Ok w)) s' /\ wf_state s' /\ ready G s' /\ s_global s' = s_global s /\ has_class s' m y p z cl fl /\ global_frame s' cn cl /\
      (forall n, n <> cn -> local_binding s' (s_global s') n = local_binding s (s_global s) n) /\ (forall n, n <> cn -> offers s n -> offers s' n).
  Proof.
    intros W R Of Pc U UG Hc. unfold prototype in Hc.
    destruct (define_frame G s c cn _ (fun fr s2 => exists fl, fr = [(slot_name m, VFun fl); (slot_name y, VInt z)] /\ exists fs bc, s_funs s2 !! fl = Some fs /\ fn_proc fs = None /\ f_varargs (fn_code fs) = false /\ f_req (fn_code fs) = 1 /\
      holds s2 (f_params (fn_code fs)) (XList [XSym p]) /\ is_list s2 (f_body (fn_code fs)) [bc] /\ holds s2 bc (paying y p) /\ f_env (fn_code fs) = s_global s2) W R Of Pc U UG Hc) as (w & f & fr & s2 & s3 & Ev & W' & R' & K & W3 & (fl & -> & Hf) & K23 & Hfr & _).
    - intros s1 args cs K1 W1 L F. assert (Eg1 := k_global _ _ _ K1).
      apply Forall2_cons_inv_r in F. destruct F as (a1 & cs1 & H1 & F & ->). apply holds_sym_inv in H1. subst a1. apply Forall2_cons_inv_r in F. destruct F as (a2 & cs2 & H2 & F & ->).
      apply Forall2_cons_inv_r in F. destruct F as (a3 & cs3 & H3 & F & ->). apply holds_sym_inv in H3. subst a3. apply Forall2_cons_inv_r in F. destruct F as (a4 & cs4 & H4 & F & ->). apply Forall2_nil_inv_r in F. subst cs4. inversion H4; subst.
      destruct (lambda_made G s1 a2 _ W1 (ready_still _ _ _ K1 R) H2) as (fl & s2 & El & K2 & Hf). rewrite Eg1 in El.
      exists [VSym (slot_name m); VFun fl; VSym (slot_name y); VInt z], s2. eexists. split; [exact K2|]. split; [exact (wf_evals _ _ _ _ _ W1 El)|]. split; [exists fl; split; [reflexivity|exact Hf]|].
      split; [repeat constructor; discriminate|]. split; [reflexivity|]. split; [apply slots_two; congruence|]. intros k o s' H.
      destruct (list_head _ _ _ _ L) as (l1 & d1 & -> & E1 & N1 & Ld1). destruct (list_head _ _ _ _ Ld1) as (l2 & d2 & -> & E2 & N2 & Ld2).
      destruct (list_head _ _ _ _ Ld2) as (l3 & d3 & -> & E3 & N3 & Ld3). destruct (list_head _ _ _ _ Ld3) as (l4 & d4 & -> & E4 & N4 & Ld4).
      eapply collect_next; [exact (cell_end _ _ _ _ E1 N1)|cbn [head_of]; rewrite (cell_some _ _ _ E1); apply naked_self|]. cbn [rest_of]. rewrite (cell_some _ _ _ E1). cbn [snd].
      eapply collect_next; [exact (cell_end _ _ _ _ E2 N2)|cbn [head_of]; rewrite (cell_some _ _ _ E2); exact El|]. cbn [rest_of]. rewrite (cell_some _ _ _ (k_cells _ _ _ K2 _ _ E2)). cbn [snd].
      assert (E3' := k_cells _ _ _ K2 _ _ E3). assert (E4' := k_cells _ _ _ K2 _ _ E4).
      eapply collect_next; [exact (cell_end _ _ _ _ E3' N3)|cbn [head_of]; rewrite (cell_some _ _ _ E3'); apply naked_self|]. cbn [rest_of]. rewrite (cell_some _ _ _ E3'). cbn [snd].
      eapply collect_next; [exact (cell_end _ _ _ _ E4' N4)|cbn [head_of]; rewrite (cell_some _ _ _ E4'); apply eval_self; [exact Logic.I|split; reflexivity]|]. cbn [rest_of]. rewrite (cell_some _ _ _ E4'). cbn [snd].
      apply collect_end; [apply list_end; exact (is_list_kept _ _ _ _ (k_cells _ _ _ K2) Ld4)|exact H].
    - assert (B3 : has_builtins s3) by exact (proj1 (ready_still _ _ _ K R)). assert (Eg3 := k_global _ _ _ K). set (s4 := add_binding _ _ _ s3) in *. assert (K4 : keeps [s_global s3] s3 s4) by apply keeps_add, W3.
      exists w, s4, f, fl. split; [exact Ev|]. split; [exact W'|]. split; [exact R'|]. split; [rewrite (k_global _ _ _ K4); exact Eg3|].
      split; [|split; [apply global_new, B3|split]].
      + apply (class_kept _ s3 s4 _ _ _ K4). constructor; [exact Hfr|]. destruct Hf as (fs & bc & A1 & A2 & A3 & A4 & A5 & A6 & A7 & A8).
        destruct (k_funs _ _ _ K23 _ _ A1) as (fs' & D1 & D2 & D3). assert (HK := holds_kept _ _ (k_cells _ _ _ K23) (k_strs _ _ _ K23) (k_bytes _ _ _ K23)).
        exists fs', bc. rewrite D2, D3, (k_global _ _ _ K23). repeat apply conj; auto. exact (is_list_kept _ _ _ _ (k_cells _ _ _ K23) A6).
      + intros n Nn. rewrite (k_global _ _ _ K4). unfold s4. rewrite named_still by assumption. exact (global_still G s s3 n R K).
      + intros n Nn Hn. apply offers_add; [exact W3|exact B3|exact Nn|]. exact (offers_kept _ _ _ (proj1 R) K Hn).
  Qed.
  Lemma make_object G s c cn x z cl fl : wf_state s -> ready G s -> offers s "make-frame" -> plain_name x -> local_binding s (s_global s) x = None -> alookup x G = None -> plain_name cn ->
    has_class s m y p z cl fl -> global_frame s cn cl -> holds s c (object x cn) ->
    exists w s' f, evals c (s_global s) s (Done (Ok w)) s' /\ wf_state s' /\ ready G s' /\ s_global s' = s_global s /\ has_class s' m y p z cl fl /\ stores s' y z z cl f /\ (s_next s <= f)%positive /\ global_frame s' x f /\
      (forall x' f', x' <> x -> global_frame s x' f' -> global_frame s' x' f') /\ (forall z' f', stores s y z z' cl f' -> stores s' y z z' cl f') /\
      (forall n, n <> x -> local_binding s' (s_global s') n = local_binding s (s_global s) n) /\ (forall n, n <> x -> offers s n -> offers s' n).
  Proof.
    intros W R Of Px U UG Pc H Gc Hc. unfold object in Hc.
    destruct (define_frame G s c x _ (fun fr _ => fr = [("class*:", VFrame cl)]) W R Of Px U UG Hc) as (w & f & fr & s2 & s3 & Ev & W' & R' & K & W3 & -> & K23 & Hfr & Le).
    - intros s1 args cs K1 W1 L F. assert (Eg1 := k_global _ _ _ K1).
      apply Forall2_cons_inv_r in F. destruct F as (a1 & cs1 & H1 & F & ->). apply holds_sym_inv in H1. subst a1. apply Forall2_cons_inv_r in F. destruct F as (a2 & cs2 & H2 & F & ->). apply holds_sym_inv in H2. subst a2. apply Forall2_nil_inv_r in F. subst cs2.
      exists [VSym "class*:"; VFrame cl], s1, [("class*:", VFrame cl)]. split; [apply keeps_refl|]. split; [exact W1|]. split; [reflexivity|].
      split; [repeat constructor; discriminate|]. split; [reflexivity|]. split; [exact (slots_one "class*" (VFrame cl))|]. intros k o s' Hk.
      destruct (list_head _ _ _ _ L) as (l1 & d1 & -> & E1 & N1 & Ld1). destruct (list_head _ _ _ _ Ld1) as (l2 & d2 & -> & E2 & N2 & Ld2).
      eapply collect_next; [exact (cell_end _ _ _ _ E1 N1)|cbn [head_of]; rewrite (cell_some _ _ _ E1); exact (naked_self _ "class*" _)|]. cbn [rest_of]. rewrite (cell_some _ _ _ E1). cbn [snd].
      destruct (global_kept _ _ _ _ (proj1 R) K1 Gc) as (gb & be & B1 & B2 & B3). rewrite Eg1 in B1.
      eapply collect_next; [exact (cell_end _ _ _ _ E2 N2)| |].
      { cbn [head_of]. rewrite (cell_some _ _ _ E2). cbn [fst]. apply symbol_iff. destruct Pc as ((_ & _ & -> & _) & _). unfold finds. rewrite B1, (bind_is _ _ _ B2), B3. split; reflexivity. }
      cbn [rest_of noted]. rewrite (cell_some _ _ _ E2). cbn [snd]. apply collect_end; [apply list_end; exact Ld2|exact Hk].
    - assert (B3 : has_builtins s3) by exact (proj1 (ready_still _ _ _ K R)). assert (Eg3 := k_global _ _ _ K). set (s4 := add_binding _ _ _ s3) in *. assert (K4 : keeps [s_global s3] s3 s4) by apply keeps_add, W3.
      exists w, s4, f. split; [exact Ev|]. split; [exact W'|]. split; [exact R'|]. split; [rewrite (k_global _ _ _ K4); exact Eg3|].
      split; [exact (class_kept _ _ _ _ _ _ K4 (class_kept _ _ _ _ _ _ K H))|]. split; [|split; [exact Le|split; [apply global_new, B3|split; [|split; [|split]]]]].
      + apply (stores_kept _ s3 s4 _ _ _ _ K4). split; [|left; split; [exact Hfr|reflexivity]]. intros ->. destruct (wf_frames _ W _ _ (hc_frame _ _ _ _ _ _ _ H)). lia.
      + intros x' f' Nx Hg. apply global_add; [exact W3|exact B3|exact Nx|]. exact (global_kept _ _ _ _ (proj1 R) K Hg).
      + intros z' f' Hs. exact (stores_kept _ _ _ _ _ _ _ K4 (stores_kept _ _ _ _ _ _ _ K Hs)).
      + intros n Nn. rewrite (k_global _ _ _ K4). unfold s4. rewrite named_still by assumption. exact (global_still G s s3 n R K).
      + intros n Nn Hn. apply offers_add; [exact W3|exact B3|exact Nn|]. exact (offers_kept _ _ _ (proj1 R) K Hn).
  Qed.
End Names.
(** *** The whole program *)
Section Messages.
  Context (G : globals) (x1 x2 m y p : string) (P1 : plain_name x1) (P2 : plain_name x2) (Wm : slot_word m) (Wy : slot_word y) (Pp : plain_name p) (Nym : y <> m) (Nyp : y <> p).
  Context (z0 : Z) (cl fl ff fo : loc) (first : bool) (Nf : ff <> fo).
  Let name_of_it (b : bool) : string := if b then x1 else x2.
  Record living (s : state) (zf zo : Z) : Prop := Living {
    lv_wf : wf_state s; lv_ready : ready G s; lv_send : offers s "send"; lv_class : has_class s m y p z0 cl fl;
    lv_this : stores s y z0 zf cl ff; lv_that : stores s y z0 zo cl fo;
    lv_name : global_frame s (name_of_it first) ff; lv_other : global_frame s (name_of_it (negb first)) fo }.
  Lemma plain_it b : plain_name (name_of_it b). Proof. destruct b; assumption. Qed.
  Lemma living_kept s s' zf zo : wf_state s' -> keeps [] s s' -> living s zf zo -> living s' zf zo.
  Proof.
    intros W' K [W R Os H A B C D]. constructor; [exact W'|exact (ready_still _ _ _ K R)|exact (offers_kept _ _ _ (proj1 R) K Os)|eapply class_kept; eassumption|eapply stores_kept; eassumption|eapply stores_kept; eassumption| |];
      eapply global_kept; try eassumption; apply R.
  Qed.
  Lemma message_step s put a d zf zo : living s zf zo -> proper_action a -> pays G first a d -> plants (message x1 x2 m a) put ->
    exists w s' zf' zo', evals (fst (put s)) (s_global s) (snd (put s)) (Done (Ok w)) s' /\ s_global s' = s_global s /\ living s' zf' zo' /\ (forall r c, mod64 r (zf + (d + c)) -> mod64 r (zf' + c)) /\
      (forall e, a = Deposit first e -> w = VInt zf' /\ int64 zf').
  Proof.
    intros L0 Pa H Pl. destruct (Pl s (lv_wf _ _ _ L0)) as (G1 & W1 & H1). assert (K := grows_keeps _ _ G1). assert (Eg := k_global _ _ _ K).
    assert (L := living_kept _ _ _ _ W1 K L0). pose proof L as [_ R Os Hc A B C D].
    destruct H as [e d M|e d M|e v M]; cbn [message proper_action] in *.
    - destruct (mod64_exists (zf + d)) as (r & Hr). change (if first then x1 else x2) with (name_of_it first) in H1.
      destruct (send_step m y p Wm Wy Pp Nym Nyp G _ _ (name_of_it first) e d r z0 zf cl fl ff W1 R Os Hc A C (plain_it _) Pa M Hr H1) as (s' & Ev & K').
      assert (W' := wf_evals _ _ _ _ _ W1 Ev). set (s2 := put_slot ff (slot_name y) (VInt r) s') in *.
      exists (VInt r), s2, r, zo. rewrite Eg in Ev. split; [exact Ev|]. split; [change (s_global s2) with (s_global s'); rewrite (k_global _ _ _ K'); exact Eg|].
      split; [|split; [intros q c Hq; apply (mod64_shift r (zf + d)); [exact Hr|]; rewrite Z.add_assoc in Hq; exact Hq|intros _ _; split; [reflexivity|apply Hr]]].
      constructor; [exact W'|apply ready_put; exact (ready_still _ _ _ K' R)|exact (offers_kept _ _ _ (proj1 R) K' Os)|apply class_put; [apply A|eapply class_kept; eassumption]| | |exact (global_kept _ _ _ _ (proj1 R) K' C)|exact (global_kept _ _ _ _ (proj1 R) K' D)].
      + eapply stores_put; [exact Wy|eapply stores_kept; eassumption].
      + apply stores_other; [exact Nf|eapply stores_kept; eassumption].
    - destruct (mod64_exists (zo + d)) as (r & Hr). change (if negb first then x1 else x2) with (name_of_it (negb first)) in H1.
      destruct (send_step m y p Wm Wy Pp Nym Nyp G _ _ (name_of_it (negb first)) e d r z0 zo cl fl fo W1 R Os Hc B D (plain_it _) Pa M Hr H1) as (s' & Ev & K').
      assert (W' := wf_evals _ _ _ _ _ W1 Ev). set (s2 := put_slot fo (slot_name y) (VInt r) s') in *.
      exists (VInt r), s2, zf, r. rewrite Eg in Ev. split; [exact Ev|]. split; [change (s_global s2) with (s_global s'); rewrite (k_global _ _ _ K'); exact Eg|].
      split; [|split; [intros q c Hq; exact Hq|intros e' [= Q _]; destruct first; discriminate]].
      constructor; [exact W'|apply ready_put; exact (ready_still _ _ _ K' R)|exact (offers_kept _ _ _ (proj1 R) K' Os)|apply class_put; [apply B|eapply class_kept; eassumption]| | |exact (global_kept _ _ _ _ (proj1 R) K' C)|exact (global_kept _ _ _ _ (proj1 R) K' D)].
      + apply stores_other; [congruence|eapply stores_kept; eassumption].
      + eapply stores_put; [exact Wy|eapply stores_kept; eassumption].
    - assert (Sg : sees (snd (put s)) (s_global s) []) by (rewrite <- Eg; constructor).
      destruct (expression_value G [] e v _ _ _ M Pa W1 R Sg H1) as ((w & s' & Ev) & Q). destruct (Q _ _ Ev) as (w' & [= <-] & _ & K' & R').
      exists w, s', zf, zo. split; [exact Ev|]. split; [rewrite (k_global _ _ _ K'); exact Eg|]. split; [exact (living_kept _ _ _ _ (wf_evals _ _ _ _ _ W1 Ev) K' L)|]. split; [intros q c Hq; exact Hq|discriminate].
  Qed.
  Lemma message_full a : message x1 x2 m a <> XList [].
  Proof. destruct a; [discriminate|]. apply written_not_empty. Qed.
  Lemma messages_run e : forall acts ds r zf zo s puts last, living s zf zo ->
    Forall proper_action (acts ++ [Deposit first e]) -> Forall2 (pays G first) (acts ++ [Deposit first e]) ds -> mod64 r (zf + sum ds) ->
    Forall2 plants (map (message x1 x2 m) (acts ++ [Deposit first e])) puts ->
    exists s', in_turn (s_global s) gives (combine (map (message x1 x2 m) (acts ++ [Deposit first e])) puts) last s (Done (Ok (VInt r))) s'.
  Proof.
    induction acts as [|a acts IH]; intros ds r zf zo s puts last L Pa H Hr F; cbn [app map] in *;
      inversion H as [|? d ? ds' Hd Hds]; subst; inversion F as [|? put ? puts' Pl F']; subst; apply (proj1 (List.Forall_cons_iff _ _ _)) in Pa; destruct Pa as [Pa Pas];
      destruct (message_step s put _ d zf zo L Pa Hd Pl) as (w & s' & zf' & zo' & Ev & Eg & L' & Hz & Hw).
    - inversion Hds; subst. inversion F'; subst. exists s'. cbn [combine]. apply in_turn_next; [discriminate|]. exists (Done (Ok w)), s'. split; [exact Ev|].
      destruct (Hw e eq_refl) as [-> Iz]. cbn [sum fold_right] in Hr. specialize (Hz r 0 Hr). rewrite Z.add_0_r in Hz.
      destruct Hz as (A1 & k & Ek). assert (k = 0) by (unfold SpecMath.int64, SpecRead.int64 in *; lia). subst k. replace r with zf' by lia. split; reflexivity.
    - specialize (Hz r (sum ds') Hr). destruct (IH ds' r zf' zo' s' puts' w L' Pas Hds Hz F') as (s2 & T). exists s2. cbn [combine]. apply in_turn_next; [apply message_full|].
      exists (Done (Ok w)), s'. split; [exact Ev|]. rewrite Eg in T. exact T.
  Qed.
End Messages.
Lemma objects_run u G c x1 x2 m y p z acts first e ds r src :
  program u (objects G c x1 x2 m y p z (acts ++ [Deposit first e])) src -> proper_globals G ->
  plain_name c -> plain_name x1 -> plain_name x2 -> slot_word m -> slot_word y -> plain_name p -> List.NoDup (c :: x1 :: x2 :: map fst G) -> y <> m -> y <> p ->
  (forall n, In n ["make-frame"; "send"] -> ~ In n (c :: x1 :: x2 :: map fst G)) ->
  Forall proper_action (acts ++ [Deposit first e]) -> Forall2 (pays G first) (acts ++ [Deposit first e]) ds -> mod64 r (z + sum ds) ->
  forall s, wf_state s -> s_uni s = u -> has_builtins s -> offers s "make-frame" -> offers s "send" ->
  (forall x, In x (c :: x1 :: x2 :: map fst G) -> local_binding s (s_global s) x = None) ->
  (exists s', run_text src (s_global s) s (Done (Ok (VInt r))) s') /\ forall o s', run_text src (s_global s) s o s' -> o = Done (Ok (VInt r)).
Proof.
  intros P PG Pc P1 P2 Wm Wy Pp Nd Nym Nyp Nb Pa Hd Hr s W Eu B Om Os U. destruct (run_program u _ src P) as (puts & F & H).
  apply (proj1 (List.NoDup_cons_iff _ _)) in Nd. destruct Nd as [Nc Nd]. apply (proj1 (List.NoDup_cons_iff _ _)) in Nd. destruct Nd as [N1 Nd]. apply (proj1 (List.NoDup_cons_iff _ _)) in Nd. destruct Nd as [N2 Nd].
  cbn [In] in Nc, N1. assert (Nb1 := Nb "make-frame" ltac:(cbn; tauto)). assert (Nb2 := Nb "send" ltac:(cbn; tauto)). cbn [In] in Nb1, Nb2.
  assert (R : ready [] s) by (split; [exact B|intros x xs body E; discriminate]). unfold objects in F, H.
  destruct (definitions_run _ G [] puts s VNil PG F W R ltac:(intros x I; apply U; cbn [In]; tauto)) as (puts1 & s1 & last1 & F1 & W1 & R1 & Eg1 & L1 & K1 & T1). cbn [app] in R1, F1, T1.
  assert (O1 : forall n, ~ In n (map fst G) -> offers s n -> offers s1 n).
  { intros n Nn (b & be & Q1 & Q2 & Q3). exists b, be. split; [rewrite L1 by exact Nn; exact Q1|]. split; [apply K1, Q2|exact Q3]. }
  inversion F1 as [|? put1 ? puts2 Pl1 F2]; subst. destruct (Pl1 s1 W1) as (Gr1 & Wa & Ha). assert (Ka := grows_keeps _ _ Gr1). assert (Ra := ready_still _ _ _ Ka R1).
  assert (La := fun n => global_still G s1 (snd (put1 s1)) n R1 Ka). assert (Ega := k_global _ _ _ Ka).
  destruct (make_class m y p Nym G (snd (put1 s1)) (fst (put1 s1)) c z Wa Ra) as (w1 & s2 & cl & fl & Ev1 & W2 & R2 & Eg2 & H2 & C2 & L2 & O2).
  { apply (offers_kept _ _ _ (proj1 R1) Ka), O1; [tauto|exact Om]. }
  { exact Pc. }
  { rewrite La, L1 by tauto. apply U. left. reflexivity. }
  { apply alookup_not_in. tauto. }
  { exact Ha. }
  assert (Om2 : offers s2 "make-frame") by (apply O2; [intuition congruence|]; apply (offers_kept _ _ _ (proj1 R1) Ka), O1; [tauto|exact Om]).
  assert (Os2 : offers s2 "send") by (apply O2; [intuition congruence|]; apply (offers_kept _ _ _ (proj1 R1) Ka), O1; [tauto|exact Os]).
  inversion F2 as [|? put2 ? puts3 Pl2 F3]; subst. destruct (Pl2 s2 W2) as (Gr2 & Wb & Hb). assert (Kb := grows_keeps _ _ Gr2). assert (Rb := ready_still _ _ _ Kb R2).
  assert (Lb := fun n => global_still G s2 (snd (put2 s2)) n R2 Kb). assert (Egb := k_global _ _ _ Kb).
  destruct (make_object m y p G (snd (put2 s2)) (fst (put2 s2)) c x1 z cl fl Wb Rb (offers_kept _ _ _ (proj1 R2) Kb Om2) P1) as (w2 & s3 & f1 & Ev2 & W3 & R3 & Eg3 & H3 & S3 & _ & X3 & Y3 & _ & L3 & O3).
  { rewrite Lb, L2 by intuition congruence. rewrite La, L1 by tauto. apply U. right. left. reflexivity. }
  { apply alookup_not_in. tauto. }
  { exact Pc. }
  { eapply class_kept; eassumption. }
  { exact (global_kept _ _ _ _ (proj1 R2) Kb C2). }
  { exact Hb. }
  assert (Om3 : offers s3 "make-frame") by (apply O3; [intuition congruence|exact (offers_kept _ _ _ (proj1 R2) Kb Om2)]).
  assert (Os3 : offers s3 "send") by (apply O3; [intuition congruence|exact (offers_kept _ _ _ (proj1 R2) Kb Os2)]).
  assert (C3 : global_frame s3 c cl) by (apply Y3; [intuition congruence|exact (global_kept _ _ _ _ (proj1 R2) Kb C2)]).
  inversion F3 as [|? put3 ? puts4 Pl3 F4]; subst. destruct (Pl3 s3 W3) as (Gr3 & Wc & Hc). assert (Kc := grows_keeps _ _ Gr3). assert (Rc := ready_still _ _ _ Kc R3).
  assert (Lc := fun n => global_still G s3 (snd (put3 s3)) n R3 Kc). assert (Egc := k_global _ _ _ Kc).
  assert (S3' : stores (snd (put3 s3)) y z z cl f1) by (eapply stores_kept; eassumption).
  destruct (make_object m y p G (snd (put3 s3)) (fst (put3 s3)) c x2 z cl fl Wc Rc (offers_kept _ _ _ (proj1 R3) Kc Om3) P2) as (w3 & s4 & f2 & Ev3 & W4 & R4 & Eg4 & H4 & S4 & Le & X4 & Y4 & Z4 & _ & O4).
  { rewrite Lc, L3 by intuition congruence. rewrite Lb, L2 by intuition congruence. rewrite La, L1 by tauto. apply U. right. right. left. reflexivity. }
  { apply alookup_not_in. tauto. }
  { exact Pc. }
  { eapply class_kept; eassumption. }
  { exact (global_kept _ _ _ _ (proj1 R3) Kc C3). }
  { exact Hc. }
  assert (Nf : f1 <> f2). { intros ->. destruct S3' as (_ & [[Q _]|Q]); destruct (wf_frames _ Wc _ _ Q); lia. }
  assert (X1 : global_frame s4 x1 f1) by (apply Y4; [intuition congruence|exact (global_kept _ _ _ _ (proj1 R3) Kc X3)]).
  assert (Os4 : offers s4 "send") by (apply O4; [intuition congruence|exact (offers_kept _ _ _ (proj1 R3) Kc Os3)]).
  assert (S1 := Z4 _ _ S3').
  assert (T : exists s', in_turn (s_global s4) gives (combine (map (message x1 x2 m) (acts ++ [Deposit first e])) puts4) w3 s4 (Done (Ok (VInt r))) s').
  { destruct first.
    - eapply (messages_run G x1 x2 m y p P1 P2 Wm Wy Pp Nym Nyp z cl fl f1 f2 true Nf e acts ds r z z s4 puts4 w3); try assumption. constructor; assumption.
    - eapply (messages_run G x1 x2 m y p P1 P2 Wm Wy Pp Nym Nyp z cl fl f2 f1 false ltac:(congruence) e acts ds r z z s4 puts4 w3); try assumption. constructor; assumption. }
  destruct T as (s' & T). assert (Run : run_text src (s_global s) s (Done (Ok (VInt r))) s').
  { apply (H (s_global s) s eq_refl). apply T1. cbn [combine app]. apply in_turn_next; [discriminate|]. exists (Done (Ok w1)), s2. rewrite Ega, Eg1 in Ev1. split; [exact Ev1|].
    apply in_turn_next; [discriminate|]. exists (Done (Ok w2)), s3. rewrite Egb, Eg2, Ega, Eg1 in Ev2. split; [exact Ev2|].
    apply in_turn_next; [discriminate|]. exists (Done (Ok w3)), s4. rewrite Egc, Eg3, Egb, Eg2, Ega, Eg1 in Ev3. split; [exact Ev3|]. rewrite Eg4, Egc, Eg3, Egb, Eg2, Ega, Eg1 in T. exact T. }
  split; [exists s'; exact Run|]. intros o s5 Q. destruct (runs_det _ _ _ _ _ _ _ _ Run Q) as [<- _]. reflexivity.
Qed.
(** *** A sample *)
Definition objects_sample : list tree := objects factorial "account" "savings" "other" "pay" "balance" "k" 10 sample_actions.
Lemma objects_sample_program u : program u objects_sample (all_laid_out objects_sample).
Proof.
  apply all_laid_out_program. unfold objects_sample, objects, sample_actions, prototype, object, paying.
  repeat apply Forall_cons_2; try apply Forall_nil_2; cbn [simple_tree definition written factorial message map fst snd fold_right app];
    repeat apply conj; try exact Logic.I; try apply minus_symbol; try (apply symbol_sample; reflexivity); unfold int64; lia.
Qed.
Lemma objects_sample_names : plain_name "account" /\ slot_word "pay" /\ slot_word "balance".
Proof.
  split; [repeat split; try reflexivity; try discriminate; cbn; intuition discriminate|].
  split; (split; [repeat split; try reflexivity; try discriminate; cbn; intuition discriminate|intros Q; apply parent_key in Q; vm_compute in Q; discriminate]).
Qed.
Lemma objects_sample_unbound : forall x, In x ["account"; "savings"; "other"; "fact"] -> local_binding start (s_global start) x = None.
Proof. intros x [<-|[<-|[<-|[<-|[]]]]]; vm_compute; reflexivity. Qed.
Lemma offered s n : match local_binding s (s_global s) n with Some b => match s_binds s !! (b : loc) with Some be => match b_val be with VPrim k => String.eqb k n | _ => false end | None => false end | None => false end = true -> offers s n.
Proof.
  intros H. unfold offers. destruct (local_binding s (s_global s) n) as [b|]; [|discriminate]. destruct (s_binds s !! (b : loc)) as [be|] eqn:E; [|discriminate].
  exists b, be. split; [reflexivity|]. split; [exact E|]. destruct (b_val be); try discriminate. apply String.eqb_eq in H. subst. reflexivity.
Qed.
Lemma start_offers : offers start "make-frame" /\ offers start "send".
Proof. split; apply offered; vm_compute; reflexivity. Qed.
