(** Proofs of C67: the functional core. *)
From Verif Require Export SpecCore ProofText ProofApply ProofForm ProofFloat ProofMath ProofList ProofData ProofHigher.
From Verif Require Import ProofNum.
From stdpp Require Import list.
From Verif Require Import Base Data SpecCore SpecEval.
Local Open Scope string_scope.
Local Open Scope list_scope.
Local Open Scope Z_scope.

Scheme means_rec := Induction for means Sort Prop with means_all_rec := Induction for means_all Sort Prop
  with means_each_rec := Induction for means_each Sort Prop with means_fold_rec := Induction for means_fold Sort Prop.
Combined Scheme means_both from means_rec, means_all_rec, means_each_rec, means_fold_rec.

(** *** Values in memory, avoiding the environments in [X] (calls that are still collecting their arguments) *)
Inductive standsX (X : list loc) (s : state) : val -> value -> Prop :=
| sx_number z : standsX X s (VInt z) (Number z)
| sx_boolean b : standsX X s (VBool b) (Boolean b)
| sx_characters (l : loc) t : s_strs s !! l = Some t -> standsX X s (VStr l) (Characters t)
| sx_symbol x : standsX X s (VSym x) (Symbol x)
| sx_items w ws vs : is_list s w ws -> standX X s ws vs -> standsX X s w (Items vs)
| sx_closure (l : loc) f xs body ns b c : s_funs s !! l = Some f -> fn_proc f = None ->
    f_varargs (fn_code f) = false -> f_req (fn_code f) = Z.of_nat (length xs) ->
    holds s (f_params (fn_code f)) (XList (map XSym xs)) -> Forall plain_name xs -> List.NoDup xs ->
    f_body (fn_code f) = b -> is_list s b [c] -> holds s c (written body) -> proper body ->
    seesX X s (f_env (fn_code f)) ns -> standsX X s (VFun l) (Closure xs body ns)
| sx_loop (l : loc) f x xs body ns b c le e p (bd : loc) be : s_funs s !! l = Some f -> fn_proc f = None ->
    f_varargs (fn_code f) = false -> f_req (fn_code f) = Z.of_nat (length xs) ->
    holds s (f_params (fn_code f)) (XList (map XSym xs)) -> Forall plain_name xs -> List.NoDup xs ->
    f_body (fn_code f) = b -> is_list s b [c] -> holds s c (written body) -> proper body ->
    f_env (fn_code f) = le -> ~ In le X -> s_envs s !! le = Some e -> le <> s_global s -> e_parent e = Some p -> e_frame e = None ->
    plain_name x -> e_binds e = [(x, bd)] -> s_binds s !! bd = Some be -> b_val be = VFun l ->
    seesX X s p ns -> standsX X s (VFun l) (Looping x xs body ns)
with standX (X : list loc) (s : state) : list val -> list value -> Prop :=
| sx_none : standX X s [] []
| sx_more w v ws vs : standsX X s w v -> standX X s ws vs -> standX X s (w :: ws) (v :: vs)
with seesX (X : list loc) (s : state) : loc -> list (string * value) -> Prop :=
| seesX_global : seesX X s (s_global s) []
| seesX_local env e p ns ns' : ~ In env X -> s_envs s !! env = Some e -> env <> s_global s -> e_parent e = Some p -> e_frame e = None ->
    boundX X s (e_binds e) ns -> seesX X s p ns' -> seesX X s env (ns ++ ns')
with boundX (X : list loc) (s : state) : list (string * loc) -> list (string * value) -> Prop :=
| bx_none : boundX X s [] []
| bx_more x (b : loc) e w v bs ns : plain_name x -> s_binds s !! b = Some e -> b_val e = w -> standsX X s w v -> boundX X s bs ns ->
    boundX X s ((x, b) :: bs) ((x, v) :: ns).
Scheme standsX_rec := Induction for standsX Sort Prop with standX_rec := Induction for standX Sort Prop
  with seesX_rec := Induction for seesX Sort Prop with boundX_rec := Induction for boundX Sort Prop.
Combined Scheme standsX_all from standsX_rec, standX_rec, seesX_rec, boundX_rec.
Scheme stands_for_rec := Induction for stands_for Sort Prop with stand_for_rec := Induction for stand_for Sort Prop
  with sees_rec := Induction for sees Sort Prop with bound_to_rec := Induction for bound_to Sort Prop.
Combined Scheme stands_for_all from stands_for_rec, stand_for_rec, sees_rec, bound_to_rec.

Lemma to_X s : (forall w v, stands_for s w v -> standsX [] s w v) /\ (forall ws vs, stand_for s ws vs -> standX [] s ws vs) /\
  (forall env ns, sees s env ns -> seesX [] s env ns) /\ (forall bs ns, bound_to s bs ns -> boundX [] s bs ns).
Proof. apply stands_for_all; intros; econstructor; eauto. Qed.
Lemma from_X X s : (forall w v, standsX X s w v -> stands_for s w v) /\ (forall ws vs, standX X s ws vs -> stand_for s ws vs) /\
  (forall env ns, seesX X s env ns -> sees s env ns) /\ (forall bs ns, boundX X s bs ns -> bound_to s bs ns).
Proof. apply standsX_all; intros; econstructor; eauto. Qed.

Lemma holds_kept s s' : kept (s_cells s) (s_cells s') -> kept (s_strs s) (s_strs s') -> kept (s_bytes s) (s_bytes s') ->
  forall d v, holds s v d -> holds s' v d.
Proof.
  intros K1 K2 K3. induction d as [z|b|t|t|bs|ds IH|ds y IH IHy] using tree_ind2; intros v H.
  - inversion H; constructor.
  - inversion H; constructor.
  - inversion H; subst. constructor. apply K2. assumption.
  - inversion H; constructor.
  - inversion H; subst. constructor. apply K3. assumption.
  - inversion H as [| | | | |? xs ? L F| |]; subst. econstructor; [exact (is_list_kept _ _ _ _ K1 L)|].
    clear H L. revert IH. induction F as [|x q xs ds E F IHF]; intros IH; constructor; apply Forall_cons_1 in IH as [I1 I2]; eauto.
  - revert v H. induction ds as [|d ds IHds]; intros v H; [inversion H|]. apply Forall_cons_1 in IH as [I1 I2].
    inversion H as [| | | | | |l a e x y' E Ha Hd|l a e x xs y' E Ha Hd]; subst.
    + econstructor; [apply K1, E|eauto|eauto].
    + econstructor; [apply K1, E|eauto|eauto].
Qed.
(** *** [keeps] *)
Lemma keeps_refl but s : keeps but s s.
Proof. constructor; try reflexivity; try (intros l x H; exact H); eauto. exists []. split; [reflexivity|constructor]. Qed.
Lemma keeps_trans but a b c : keeps but a b -> keeps but b c -> keeps but a c.
Proof.
  intros H K. constructor; try (intros l x Hx; apply K, H, Hx).
  - etransitivity; [apply H|apply K].
  - intros l f Hf. destruct (k_funs _ _ _ H l f Hf) as (f1 & H1 & E1 & E2). destruct (k_funs _ _ _ K l f1 H1) as (f2 & H2 & E3 & E4).
    exists f2. split; [exact H2|]. split; congruence.
  - intros l e N He. apply (k_envs _ _ _ K); [exact N|]. apply (k_envs _ _ _ H); assumption.
  - rewrite (k_gensyms _ _ _ K). apply H.
  - rewrite (k_global _ _ _ K). apply H.
  - rewrite (k_uni _ _ _ K). apply H.
  - destruct (k_log _ _ _ H) as (n1 & E1 & F1). destruct (k_log _ _ _ K) as (n2 & E2 & F2). exists (n2 ++ n1). split; [rewrite E2, E1, app_assoc; reflexivity|].
    apply List.Forall_app. split; assumption.
  - rewrite (k_pending _ _ _ K). apply H.
Qed.
Lemma keeps_more but but' s s' : (forall l, In l but -> In l but') -> keeps but s s' -> keeps but' s s'.
Proof. intros I H. destruct H. constructor; auto. Qed.
Lemma grows_keeps s s' : grows s s' -> keeps [] s s'.
Proof.
  intros G. constructor; try apply G.
  - intros l f Hf. exists f. split; [apply G, Hf|]. split; reflexivity.
  - intros l e _ He. apply G, He.
Qed.
Lemma keeps_noted b v s : keeps [] s (noted b v s).
Proof.
  destruct v; try apply keeps_refl. cbn [noted]. destruct (s_funs s !! l) as [f|] eqn:E; [|apply keeps_refl].
  constructor; try reflexivity; try (intros k x H; exact H); eauto.
  - intros k g Hg. cbn. destruct (Pos.eqb_spec l k) as [<-|N].
    + rewrite lookup_insert. eexists. split; [reflexivity|]. rewrite E in Hg. injection Hg as <-. split; reflexivity.
    + rewrite lookup_insert_ne by exact N. exists g. split; [exact Hg|]. split; reflexivity.
  - exists []. split; [reflexivity|constructor].
Qed.
Lemma keeps_entering name env s : keeps [] s (entering name env s).
Proof. apply grows_keeps, grows_entering. Qed.
Lemma keeps_open name p f s : wf_state s -> keeps [] s (open_env name p f s).
Proof.
  intros W. unfold open_env.
  assert (K : keeps [] s (set_envs (<[s_next s := Env name (Some p) f [] (e_restricted (env_at s p))]> (s_envs s)) (bump s))).
  { constructor; try reflexivity; try (intros k x H; exact H); eauto.
    - cbn. lia.
    - intros l e _ He. cbn. rewrite lookup_insert_ne; [exact He|]. intros <-. destruct (wf_envs _ W _ _ He). lia.
    - exists []. split; [reflexivity|constructor]. }
  destruct (Pos.eqb p (s_global s)); [|exact K]. destruct K. constructor; assumption.
Qed.
Lemma open_env_at name p f s : s_envs (open_env name p f s) !! s_next s = Some (Env name (Some p) f [] (e_restricted (env_at s p))).
Proof. unfold open_env. destruct (Pos.eqb p (s_global s)); cbn; apply lookup_insert. Qed.
Lemma open_env_wf name p s : wf_state s -> wf_state (open_env name p (e_frame (env_at s p)) s).
Proof. intros W. exact (wf_runs _ _ _ _ _ W (new_env_below_run p name s)). Qed.
Lemma keeps_add env n v s : wf_state s -> keeps [env] s (add_binding env (VSym n) v s).
Proof.
  intros W. unfold add_binding. cbn [name_of]. constructor; try reflexivity; try (intros k x H; exact H); eauto.
  - cbn. lia.
  - intros l e N He. cbn. unfold put. destruct (s_envs s !! env) eqn:E; [|exact He]. rewrite lookup_insert_ne; [exact He|]. intros <-. apply N. left. reflexivity.
  - intros l e He. cbn. rewrite lookup_insert_ne; [exact He|]. intros <-. destruct (wf_binds _ W _ _ He). lia.
  - exists []. split; [reflexivity|constructor].
Qed.
(** *** Moving values to another state *)
Record moves (X Y : list loc) (s s' : state) : Prop := Moves {
  mv_cells : kept (s_cells s) (s_cells s');
  mv_strs : kept (s_strs s) (s_strs s');
  mv_bytes : kept (s_bytes s) (s_bytes s');
  mv_funs : forall (l : loc) f, s_funs s !! l = Some f -> exists f', s_funs s' !! l = Some f' /\ fn_code f' = fn_code f /\ fn_proc f' = fn_proc f;
  mv_envs : forall (l : loc) e, ~ In l X -> s_envs s !! l = Some e -> ~ In l Y /\ s_envs s' !! l = Some e;
  mv_binds : kept (s_binds s) (s_binds s');
  mv_global : s_global s' = s_global s }.
Lemma moved X Y s s' : moves X Y s s' -> (forall w v, standsX X s w v -> standsX Y s' w v) /\ (forall ws vs, standX X s ws vs -> standX Y s' ws vs) /\
  (forall env ns, seesX X s env ns -> seesX Y s' env ns) /\ (forall bs ns, boundX X s bs ns -> boundX Y s' bs ns).
Proof.
  intros M. assert (HK := holds_kept s s' (mv_cells _ _ _ _ M) (mv_strs _ _ _ _ M) (mv_bytes _ _ _ _ M)).
  assert (LK := fun v xs => is_list_kept s s' v xs (mv_cells _ _ _ _ M)). apply standsX_all.
  - constructor.
  - constructor.
  - intros l t H. constructor. apply M, H.
  - constructor.
  - intros w ws vs L _ H. econstructor; [apply LK, L|exact H].
  - intros l f xs body ns b c Hf Hp H1 H2 H3 H4 H5 H6 H7 H8 H9 _ IH. destruct (mv_funs _ _ _ _ M _ _ Hf) as (f' & E1 & E2 & E3).
    apply (sx_closure Y s' l f' xs body ns b c); rewrite ?E2; auto. congruence.
  - intros l f x xs body ns b c le e p bd be Hf Hp H1 H2 H3 H4 H5 H6 H7 H8 H9 H10 Nl He Ng Hpa Hfr Px Hb Hbd Hbe _ IH. destruct (mv_funs _ _ _ _ M _ _ Hf) as (f' & E1 & E2 & E3).
    destruct (mv_envs _ _ _ _ M _ _ Nl He) as [N' He']. apply (sx_loop Y s' l f' x xs body ns b c le e p bd be); rewrite ?E2; auto; [congruence|rewrite (mv_global _ _ _ _ M); exact Ng|apply M, Hbd].
  - constructor.
  - intros. constructor; assumption.
  - rewrite <- (mv_global _ _ _ _ M). constructor.
  - intros env e p ns ns' N He Ng Hp Hf _ IH1 _ IH2. destruct (mv_envs _ _ _ _ M _ _ N He) as [N' He']. econstructor; try eassumption. rewrite (mv_global _ _ _ _ M). exact Ng.
  - constructor.
  - intros x b e w v bs ns P Hb E _ IH1 _ IH2. econstructor; try eassumption. apply M, Hb.
Qed.
Lemma keeps_moves X but s s' : (forall l, In l but -> In l X) -> keeps but s s' -> moves X X s s'.
Proof. intros I K. constructor; try apply K. intros l e N He. split; [exact N|]. apply K; [auto|exact He]. Qed.
Lemma fewer_moves X Y s : (forall l, In l Y -> In l X) -> moves X Y s s.
Proof. intros I. constructor; try reflexivity; try (intros l x H; exact H); eauto. Qed.
Lemma fresh_moves X s : wf_state s -> moves X (s_next s :: X) s s.
Proof.
  intros W. constructor; try reflexivity; try (intros l x H; exact H); eauto.
  intros l e N He. split; [|exact He]. intros [E|H]; [|auto]. subst l. destruct (wf_envs _ W _ _ He). lia.
Qed.
Definition stands_moved X Y s s' (M : moves X Y s s') := proj1 (moved X Y s s' M).
Definition stand_moved X Y s s' (M : moves X Y s s') := proj1 (proj2 (moved X Y s s' M)).
Definition sees_moved X Y s s' (M : moves X Y s s') := proj1 (proj2 (proj2 (moved X Y s s' M))).
Definition bound_moved X Y s s' (M : moves X Y s s') := proj2 (proj2 (proj2 (moved X Y s s' M))).
(** *** [ready] *)
Lemma ready_keeps G but s s' : ~ In (s_global s) but -> keeps but s s' -> ready G s -> ready G s'.
Proof.
  intros N K [(e & He & H1 & H2 & H3 & H4) R]. assert (He' := k_envs _ _ _ K _ _ N He). split.
  - exists e. rewrite (k_global _ _ _ K). split; [exact He'|]. split; [exact H1|]. split; [exact H2|]. split; [exact H3|].
    intros n I. destruct (H4 n I) as (b & be & A & B & C). exists b, be. split; [exact A|]. split; [apply K, B|exact C].
  - intros x xs body E. destruct (R x xs body E) as (b & be & l & f & A & B & C & D & F & I). destruct (k_funs _ _ _ K _ _ D) as (f' & E1 & E2 & E3).
    exists b, be, l, f'.
    split; [unfold local_binding, env_at in *; rewrite (k_global _ _ _ K), He'; rewrite He in A; exact A|]. split; [apply K, B|].
    split; [exact C|]. split; [exact E1|]. split; [rewrite E2, (k_global _ _ _ K); exact F|].
    inversion I as [| | | | |l' g xs' body' ns c d F1 F2 F3 F4 F5 F6 F7 F8 F9 F10 F11 F12 |]; subst. rewrite D in F1. injection F1 as <-.
    assert (HK := holds_kept s s' (k_cells _ _ _ K) (k_strs _ _ _ K) (k_bytes _ _ _ K)).
    apply (sf_closure s' l f' xs body [] (f_body (fn_code f)) d); rewrite ?E2; auto; [congruence|exact (is_list_kept s s' _ _ (k_cells _ _ _ K) F9)|].
    rewrite F, <- (k_global _ _ _ K). constructor.
Qed.
Lemma global_stands G s x xs body X : has_globals G s -> alookup x G = Some (xs, body) -> exists b be w,
  local_binding s (s_global s) x = Some b /\ s_binds s !! (b : loc) = Some be /\ b_val be = w /\ standsX X s w (Closure xs body []).
Proof.
  intros R E. destruct (R x xs body E) as (b & be & l & f & A & B & C & D & F & I). exists b, be, (VFun l). split; [exact A|]. split; [exact B|]. split; [exact C|].
  inversion I as [| | | | |l' g xs' body' ns c d F1 F2 F3 F4 F5 F6 F7 F8 F9 F10 F11 F12 |]; subst. rewrite D in F1. injection F1 as <-.
  apply (sx_closure X s l f xs body [] (f_body (fn_code f)) d); auto. rewrite F. constructor.
Qed.
(** *** Looking names up *)
Lemma bound_lookup X s bs ns x : boundX X s bs ns ->
  match alookup x ns with
  | Some v => exists b e, alookup x bs = Some b /\ s_binds s !! (b : loc) = Some e /\ standsX X s (b_val e) v
  | None => alookup x bs = None
  end.
Proof.
  induction 1 as [|y b e w v bs ns P Hb E H _ IH]; [reflexivity|]. cbn [alookup]. destruct (str_eqb x y); [|exact IH].
  exists b, e. split; [reflexivity|]. split; [exact Hb|]. rewrite E. exact H.
Qed.
Lemma bound_plain X s bs ns x : boundX X s bs ns -> alookup x bs <> None -> plain_name x.
Proof.
  induction 1 as [|y b e w v bs ns P Hb E H _ IH]; cbn [alookup]; [congruence|]. destruct (str_eqb x y) eqn:Q; [|exact IH].
  apply str_eqb_eq in Q. subst. auto.
Qed.
Lemma env_is s (l : loc) e : s_envs s !! l = Some e -> env_at s l = e.
Proof. intros H. unfold env_at. rewrite H. reflexivity. Qed.
Lemma bind_is s (l : loc) e : s_binds s !! l = Some e -> value_in s l = b_val e.
Proof. intros H. unfold value_in, bind_at. rewrite H. reflexivity. Qed.
Lemma alookup_app {A} x (a b : list (string * A)) : alookup x (a ++ b) = match alookup x a with Some v => Some v | None => alookup x b end.
Proof. induction a as [|[y v] a IH]; [reflexivity|]. cbn [alookup app]. destruct (str_eqb x y); [reflexivity|exact IH]. Qed.
Lemma seen_local X s env ns : seesX X s env ns -> forall x v, alookup x ns = Some v -> exists b e,
  visible s x env (Some b) /\ s_binds s !! (b : loc) = Some e /\ standsX X s (b_val e) v.
Proof.
  induction 1 as [|env e p ns ns' N He Ng Hp Hf Hb _ IH]; intros x v E; [discriminate|]. rewrite alookup_app in E.
  assert (B := bound_lookup _ _ _ _ x Hb). destruct (alookup x ns) as [v1|].
  - injection E as ->. destruct B as (b & be & B1 & B2 & B3). exists b, be. split; [|auto]. apply visible_here. unfold local_binding. rewrite (env_is _ _ _ He). exact B1.
  - destruct (IH x v E) as (b & be & V & B2 & B3). exists b, be. split; [|auto]. eapply visible_above; [|rewrite (env_is _ _ _ He); exact Hp|exact V].
    unfold local_binding. rewrite (env_is _ _ _ He). exact B.
Qed.
Lemma seen_global X s env ns : seesX X s env ns -> forall x r, alookup x ns = None -> visible s x (s_global s) r -> visible s x env r.
Proof.
  induction 1 as [|env e p ns ns' N He Ng Hp Hf Hb _ IH]; intros x r E V; [exact V|]. rewrite alookup_app in E.
  assert (B := bound_lookup _ _ _ _ x Hb). destruct (alookup x ns) as [v1|]; [discriminate|].
  eapply visible_above; [|rewrite (env_is _ _ _ He); exact Hp|apply IH; assumption]. unfold local_binding. rewrite (env_is _ _ _ He). exact B.
Qed.
Lemma seen_frame G X s env ns : ready G s -> seesX X s env ns -> e_frame (env_at s env) = None /\ local_binding s env "self" = None /\ s_envs s !! env <> None.
Proof.
  intros [(e & He & H1 & H2 & H3 & H4) _] H. unfold local_binding. destruct H as [|env e1 p ns ns' N He1 Ng Hp Hf Hb _].
  - rewrite (env_is _ _ _ He). split; [exact H2|]. split; [exact H3|]. rewrite He. discriminate.
  - rewrite (env_is _ _ _ He1). split; [exact Hf|]. split; [|rewrite He1; discriminate].
    destruct (alookup "self" (e_binds e1)) eqn:E; [|reflexivity]. exfalso.
    destruct (bound_plain _ _ _ _ "self" Hb) as (_ & Q & _); [rewrite E; discriminate|]. apply Q. reflexivity.
Qed.
Lemma seen_plain X s env ns : seesX X s env ns -> forall x, alookup x ns <> None -> plain_name x.
Proof.
  induction 1 as [|env e p ns ns' N He Ng Hp Hf Hb _ IH]; intros x E; [destruct E; reflexivity|]. rewrite alookup_app in E.
  assert (B := bound_lookup _ _ _ _ x Hb). destruct (alookup x ns) as [v1|] eqn:Q; [|apply IH; exact E].
  destruct B as (b & be & B1 & _). eapply bound_plain; [exact Hb|]. rewrite B1. discriminate.
Qed.
(** Reading a name, as an operand or as an operator. *)
Lemma name_found G X s env ns x b op : ready G s -> seesX X s env ns -> visible s x env (Some b) ->
  exists s', finds op env x s (Done (Ok (value_in s b))) s' /\ keeps [] s s'.
Proof.
  intros R S V. destruct (seen_frame G X s env ns R S) as (F & _ & _). unfold finds. destruct (local_binding s env x) as [b'|] eqn:L.
  - inversion V as [? ? Q| ? ? ? Q|]; subst; rewrite L in Q; [injection Q as ->|discriminate]. eexists. split; [split; reflexivity|apply keeps_noted].
  - rewrite F. eexists. split; [exists (Some b); split; [exact V|split; reflexivity]|apply keeps_noted].
Qed.
Lemma builtin_found G X s env ns n op : ready G s -> seesX X s env ns -> In n reserved -> finds op env n s (Done (Ok (VPrim n))) s.
Proof.
  intros R S I. assert (A : alookup n ns = None).
  { destruct (alookup n ns) eqn:E; [|reflexivity]. exfalso. destruct (seen_plain _ _ _ _ S n) as (_ & _ & Q); [rewrite E; discriminate|auto]. }
  destruct (seen_frame G X s env ns R S) as (F & _ & _). pose proof R as [(e & He & H1 & H2 & H3 & H4) _]. destruct (H4 n I) as (b & be & B1 & B2 & B3).
  assert (V : visible s n env (Some b)).
  { apply (seen_global X s env ns S n _ A). apply visible_here. unfold local_binding. rewrite (env_is _ _ _ He). exact B1. }
  assert (E : value_in s b = VPrim n) by (rewrite (bind_is _ _ _ B2); exact B3).
  unfold finds. destruct (local_binding s env n) as [b'|] eqn:L.
  - inversion V as [? ? Q| ? ? ? Q|]; subst; rewrite L in Q; [injection Q as ->|discriminate]. rewrite E. split; reflexivity.
  - rewrite F. exists (Some b). split; [exact V|]. rewrite E. split; reflexivity.
Qed.

(** *** Evaluation *)
Definition good (G : globals) (ns : list (string * value)) (e : expr) (v : value) : Prop :=
  proper e -> forall X s env c, wf_state s -> ready G s -> (forall l, In l X -> handed_out s l) -> seesX X s env ns -> holds s c (written e) ->
  exists w s', evals c env s (Done (Ok w)) s' /\ keeps [] s s' /\ standsX X s' w v.

Lemma wf_evals c env s o s' : wf_state s -> evals c env s o s' -> wf_state s'.
Proof. apply wf_runs. Qed.
Lemma ready_still G s s' : keeps [] s s' -> ready G s -> ready G s'.
Proof. apply ready_keeps. intros []. Qed.
Lemma handed_later s s' l : (s_next s <= s_next s')%positive -> handed_out s l -> handed_out s' l.
Proof. unfold handed_out. lia. Qed.
Lemma operator_frame c env s o s' : e_frame (env_at s env) = None -> (forall n, c = VSym n -> has_suffix ":" n = false) -> evals c env s o s' -> operator c env s o s'.
Proof.
  intros F N H. destruct c; try exact H. match goal with |- operator (VSym ?m) _ _ _ _ => rename m into n end. cbn [operator]. rewrite (N n eq_refl). unfold evals in H. apply symbol_iff in H. rewrite (N n eq_refl) in H.
  unfold finds in *. destruct (local_binding s env n); [exact H|]. rewrite F in *. exact H.
Qed.
Lemma list_head s v a xs : is_list s v (a :: xs) -> exists (l : loc) d, v = VCell TCons l /\ s_cells s !! l = Some (a, d) /\ (a <> VNil \/ d <> VNil) /\ is_list s d xs.
Proof. intros H. inversion H; subst. eauto 10. Qed.
Lemma cell_end s (l : loc) a d : s_cells s !! l = Some (a, d) -> a <> VNil \/ d <> VNil -> ~ at_end s (VCell TCons l).
Proof. intros E N. cbn [at_end]. rewrite (cell_some _ _ _ E). intros [= -> ->]. destruct N as [N|N]; apply N; reflexivity. Qed.
Lemma list_end s v : is_list s v [] -> at_end s v.
Proof. intros H. inversion H as [| |l E|]; subst; cbn [at_end]; [exact Logic.I|exact Logic.I|apply cell_some, E]. Qed.
Lemma holds_list_inv s v ds : holds s v (XList ds) -> exists xs, is_list s v xs /\ Forall2 (holds s) xs ds.
Proof. intros H. inversion H; subst. eauto. Qed.
Lemma holds_sym_inv s v x : holds s v (XSym x) -> v = VSym x.
Proof. intros H. inversion H; subst. reflexivity. Qed.

(** Operands of a built-in. *)
Lemma collect_all G ns es vs : Forall2 (good G ns) es vs -> (forall e, In e es -> proper e) -> forall X s env args cs acc,
  wf_state s -> ready G s -> (forall l, In l X -> handed_out s l) -> seesX X s env ns -> is_list s args cs -> Forall2 (holds s) cs (map written es) ->
  exists ws s', keeps [] s s' /\ wf_state s' /\ standX X s' ws vs /\
    forall (k : list val -> state -> behaviour) o s2, k (acc ++ ws) s' o s2 -> collects (evaluated env) k acc args s o s2.
Proof.
  induction 1 as [|e v es vs He _ IH]; intros P X s env args cs acc W R HX S L F.
  - apply Forall2_nil_inv_r in F. subst cs. exists [], s. split; [apply keeps_refl|]. split; [exact W|]. split; [constructor|].
    intros k o s2 H. rewrite app_nil_r in H. apply collect_end; [apply list_end, L|exact H].
  - cbn [map] in F. apply Forall2_cons_inv_r in F. destruct F as (c & cs' & Hc & F & ->). destruct (list_head _ _ _ _ L) as (l & d & -> & E & N & L').
    destruct (He (P e (or_introl eq_refl)) X s env c W R HX S Hc) as (w & s1 & Ev & K & Sw).
    assert (W1 := wf_evals _ _ _ _ _ W Ev). assert (M := keeps_moves X [] s s1 ltac:(intros ? []) K).
    destruct (IH (fun e' I => P e' (or_intror I)) X s1 env d cs' (acc ++ [w]) W1 (ready_still _ _ _ K R)) as (ws & s2 & K2 & W2 & Sws & C).
    + intros y Hy. exact (handed_later _ _ _ (k_next _ _ _ K) (HX y Hy)).
    + exact (sees_moved _ _ _ _ M _ _ S).
    + exact (is_list_kept _ _ _ _ (k_cells _ _ _ K) L').
    + eapply Forall2_impl; [exact F|]. intros x y. apply (holds_kept s s1 (k_cells _ _ _ K) (k_strs _ _ _ K) (k_bytes _ _ _ K)).
    + exists (w :: ws), s2. split; [exact (keeps_trans _ _ _ _ K K2)|]. split; [exact W2|].
      split; [constructor; [exact (stands_moved _ _ _ _ (keeps_moves X [] s1 s2 ltac:(intros ? []) K2) _ _ Sw)|exact Sws]|].
      intros k o s3 H. eapply collect_next; [exact (cell_end _ _ _ _ E N)|cbn [head_of]; rewrite (cell_some _ _ _ E); exact Ev|].
      cbn [rest_of]. rewrite (cell_some _ _ _ (k_cells _ _ _ K _ _ E)). cbn [snd]. apply C. rewrite <- app_assoc. exact H.
Qed.
(** Operands of a special form are not evaluated. *)
Lemma collect_as_is (k : list val -> state -> behaviour) : forall cs acc args s o s', is_list s args cs -> k (acc ++ cs) s o s' -> collects as_it_is k acc args s o s'.
Proof.
  induction cs as [|c cs IH]; intros acc args s o s' L H.
  - rewrite app_nil_r in H. apply collect_end; [apply list_end, L|exact H].
  - destruct (list_head _ _ _ _ L) as (l & d & -> & E & N & L'). eapply collect_next; [exact (cell_end _ _ _ _ E N)|cbn [head_of]; rewrite (cell_some _ _ _ E); split; reflexivity|].
    cbn [rest_of fst]. rewrite (cell_some _ _ _ E). cbn [snd]. apply IH; [exact L'|]. rewrite <- app_assoc. exact H.
Qed.
(** Go nils become empty lists. *)
Lemma all_stored_ok ws : forall s, wf_state s -> grows s (snd (all_stored ws s)) /\ wf_state (snd (all_stored ws s)) /\
  Forall2 (elem_as (snd (all_stored ws s))) ws (fst (all_stored ws s)) /\ no_nils (fst (all_stored ws s)).
Proof.
  induction ws as [|w ws IH]; intros s W; cbn [all_stored]; [split; [apply grows_refl|]; split; [exact W|]; split; constructor|].
  assert (S : grows s (snd (stored w s)) /\ wf_state (snd (stored w s)) /\ elem_as (snd (stored w s)) w (fst (stored w s)) /\ fst (stored w s) <> VNil).
  { destruct w; try (split; [apply grows_refl|]; split; [exact W|]; split; [left; split; [reflexivity|discriminate]|discriminate]).
    cbn [stored fresh_cell fst snd]. split; [apply grows_new_cell, W|]. split; [apply wf_new_cell, W|]. split; [|discriminate].
    right. split; [reflexivity|]. apply il_empty. cbn. apply lookup_insert. }
  destruct (stored w s) as [w' s1]. cbn [fst snd] in S. destruct S as (G1 & W1 & E1 & N1). destruct (IH s1 W1) as (G2 & W2 & E2 & N2).
  destruct (all_stored ws s1) as [ws' s2]. cbn [fst snd] in *. split; [exact (grows_trans _ _ _ G1 G2)|]. split; [exact W2|].
  split; constructor; try assumption. destruct E1 as [E1|[-> E1]]; [left; exact E1|right]. split; [reflexivity|]. exact (is_list_grows _ _ _ _ G2 E1).
Qed.
Lemma elem_stands X s ws xs : Forall2 (elem_as s) ws xs -> forall vs, standX X s ws vs -> standX X s xs vs.
Proof.
  induction 1 as [|w x ws xs E _ IH]; intros vs H; inversion H as [|w' v ws' vs' H1 H2]; subst; constructor; [|apply IH, H2].
  destruct E as [[-> _]|[-> E]]; [exact H1|]. inversion H1 as [| | | |w' ws' vs'' L S| |]; subst. assert (ws' = []) as -> by (inversion L; reflexivity).
  inversion S; subst. econstructor; [exact E|constructor].
Qed.
Lemma elem_holds s ws xs : Forall2 (elem_as s) ws xs -> forall ds, Forall2 (holds s) ws ds -> Forall2 (holds s) xs ds.
Proof.
  induction 1 as [|w x ws xs E _ IH]; intros ds H; inversion H as [|w' v ws' vs' H1 H2]; subst; constructor; [|apply IH, H2].
  destruct E as [[-> _]|[-> E]]; [exact H1|]. inversion H1 as [| | | | |w' ws' vs'' L S| |]; subst. assert (ws' = []) as -> by (inversion L; reflexivity).
  inversion S; subst. econstructor; [exact E|constructor].
Qed.
(** *** Calling by name *)
Lemma call_name G X s env ns n args (l : loc) o s' p : ready G s -> seesX X s env ns -> In n reserved -> In p all_prims -> p_name p = n ->
  s_cells s !! l = Some (VSym n, args) -> applied (VPrim (p_name p)) args env s o s' -> evals (VCell TCons l) env s o s'.
Proof.
  intros R S I Ip Ep E H. assert (C := cell_some _ _ _ E). apply call_expression.
  - cbn [at_end]. rewrite C. discriminate.
  - cbn [head_of]. rewrite C. cbn [fst plain_head]. revert I. clear. intros I. cbn in I. repeat (destruct I as [<-|I]; [repeat apply conj; reflexivity|]). destruct I.
  - cbn [head_of]. rewrite C. cbn [fst operator]. assert (Q : has_suffix ":" n = false).
    { revert I. clear. intros I. cbn in I. repeat (destruct I as [<-|I]; [reflexivity|]). destruct I. }
    rewrite Q. exists (Done (Ok (VPrim n))), s. split; [exact (builtin_found G X s env ns n true R S I)|]. cbn [nilb rest_of]. rewrite C. cbn [snd]. rewrite <- Ep. exact H.
Qed.
(** *** The built-in functions *)
Lemma function_prim n vs v : computes n vs v -> exists p ts, In p all_prims /\ p_name p = n /\ declared p ts /\ p_special p = false /\ p_restricted p = false /\ accepts ts (length vs).
Proof.
  assert (Q : forall n ts k, (exists p, table n = Some p /\ p_spec p = counts_text ts /\ p_special p = false /\ p_restricted p = false) -> Forall sane ts -> accepts ts k ->
    exists p ts, In p all_prims /\ p_name p = n /\ declared p ts /\ p_special p = false /\ p_restricted p = false /\ accepts ts k).
  { intros m ts k (p & T & H1 & H2 & H3) Hs Ha. exists p, ts. destruct (table_in _ _ T) as [I1 I2]. repeat apply conj; assumption. }
  assert (A : forall k, accepts [AnyCount] k) by (intros k; exists AnyCount; split; [left; reflexivity|exact Logic.I]).
  assert (B : forall k : nat, accepts [Exactly (Z.of_nat k)] k) by (intros k; eexists; split; [left; reflexivity|reflexivity]).
  intros H; destruct H; cbn [length];
    first [apply (Q _ [AnyCount]); [eexists; split; [reflexivity|repeat apply conj; reflexivity]|constructor; [exact Logic.I|constructor]|apply A]
          |apply (Q _ [Exactly 1]); [eexists; split; [reflexivity|repeat apply conj; reflexivity]|constructor; [unfold sane, int64_max, two63; lia|constructor]|apply (B 1%nat)]
          |apply (Q _ [Exactly 2]); [eexists; split; [reflexivity|repeat apply conj; reflexivity]|constructor; [unfold sane, int64_max, two63; lia|constructor]|apply (B 2%nat)]].
Qed.
Lemma divides_unique a b q r q' r' : divides_into a b q r -> divides_into a b q' r' -> r = r'.
Proof.
  intros (E & B & S) (E' & B' & S').
  assert (D : r - r' = (q' - q) * b) by lia. assert (Q : q' - q = 0 \/ 1 <= Z.abs (q' - q)) by lia.
  destruct Q as [Q|Q]; [rewrite Q in D; lia|]. exfalso.
  assert (L : Z.abs b <= Z.abs (r - r')).
  { rewrite D, Z.abs_mul. assert (1 * Z.abs b <= Z.abs (q' - q) * Z.abs b) by (apply Z.mul_le_mono_nonneg_r; lia). lia. }
  assert (N : forall r, 0 <= r * a -> a < 0 -> r <= 0). { intros k H A. destruct (Z.leb_spec k 0); [assumption|]. pose proof (Z.mul_pos_neg k a). lia. }
  assert (P : forall r, 0 <= r * a -> 0 < a -> 0 <= r). { intros k H A. destruct (Z.leb_spec 0 k); [assumption|]. pose proof (Z.mul_neg_pos k a). lia. }
  assert (Zero : forall k, Z.abs (k * b) < Z.abs b -> k = 0).
  { intros k H. rewrite Z.abs_mul in H. destruct (Z.eq_dec k 0) as [|K]; [assumption|]. exfalso.
    assert (1 * Z.abs b <= Z.abs k * Z.abs b) by (apply Z.mul_le_mono_nonneg_r; lia). lia. }
  destruct (Z.lt_trichotomy a 0) as [A|[A|A]].
  - pose proof (N r S A). pose proof (N r' S' A). lia.
  - assert (q = 0) by (apply Zero; lia). assert (q' = 0) by (apply Zero; lia). lia.
  - pose proof (P r S A). pose proof (P r' S' A). lia.
Qed.
Lemma same_ints a b env s : applies "==" [VInt a; VInt b] env s (Done (Ok (VBool (a =? b)))) (entering "==" env s).
Proof.
  applies. unfold equal_impl. cbn [arg nth].
  assert (R : runs denote (call (REqual (VInt a) (VInt b))) (entering "==" env s) (Done (a =? b)) (entering "==" env s)).
  { apply call_iff. cbn [denote]. apply runs_ret. }
  eapply runs_bind; [exact R|apply runs_ret].
Qed.
Lemma truthy_stands X s w v : standsX X s w v -> truthy s w = counts_true v.
Proof.
  intros H. destruct H as [z|b|l t E|x|w ws vs L S| |]; try reflexivity. destruct S as [|x y xs ys]; cbn [counts_true].
  - inversion L as [| |l E|]; subst; try reflexivity. cbn [truthy]. rewrite (cell_some _ _ _ E). reflexivity.
  - destruct (list_head _ _ _ _ L) as (l & d & -> & E & N & _). cbn [truthy]. rewrite (cell_some _ _ _ E). destruct N as [N|N]; destruct x, d; congruence.
Qed.
Lemma truthy_entering n env s w : truthy (entering n env s) w = truthy s w.
Proof. reflexivity. Qed.
Lemma stand_two X s xs v1 v2 : standX X s xs [v1; v2] -> exists a b, xs = [a; b] /\ standsX X s a v1 /\ standsX X s b v2.
Proof. intros H. inversion H as [|a ? r ? H1 H2]; subst. inversion H2 as [|b ? r' ? H3 H4]; subst. inversion H4; subst. eauto. Qed.
Lemma stand_one X s xs v1 : standX X s xs [v1] -> exists a, xs = [a] /\ standsX X s a v1.
Proof. intros H. inversion H as [|a ? r ? H1 H2]; subst. inversion H2; subst. eauto. Qed.
Lemma stands_number X s a z : standsX X s a (Number z) -> a = VInt z.
Proof. intros H. inversion H; subst. reflexivity. Qed.
Lemma stands_items X s w vs : standsX X s w (Items vs) -> exists ws, is_list s w ws /\ standX X s ws vs.
Proof. intros H. inversion H; subst. eauto. Qed.
Lemma stand_length X s ws vs : standX X s ws vs -> length ws = length vs.
Proof. induction 1; cbn; congruence. Qed.
Lemma stand_app X s ws vs ws' vs' : standX X s ws vs -> standX X s ws' vs' -> standX X s (ws ++ ws') (vs ++ vs').
Proof. induction 1; intros Q; [exact Q|]. cbn [app]. constructor; auto. Qed.
Lemma len_str t : str_len t = Z.of_nat (String.length t).
Proof. induction t as [|c t IH]; [reflexivity|]. cbn [str_len String.length]. lia. Qed.
Lemma run_car (l : loc) a d env s : s_cells s !! l = Some (a, d) -> applies "car" [VCell TCons l] env s (Done (Ok a)) (entering "car" env s).
Proof.
  intros E. assert (Q : accessor_letters ["a"%char]) by (split; [split; auto|repeat constructor]).
  assert (A := run_accessor ["a"%char] (VCell TCons l) env s Q). unfold follow in A. cbn [fold_right rev app] in A. cbn in A. try rewrite E in A. exact A.
Qed.
Lemma run_cdr (l : loc) a d env s : s_cells s !! l = Some (a, d) -> applies "cdr" [VCell TCons l] env s (Done (Ok d)) (entering "cdr" env s).
Proof.
  intros E. assert (Q : accessor_letters ["d"%char]) by (split; [split; auto|constructor; [right; reflexivity|constructor]]).
  assert (A := run_accessor ["d"%char] (VCell TCons l) env s Q). unfold follow in A. cbn [fold_right rev app] in A. cbn in A. try rewrite E in A. exact A.
Qed.
Lemma computed X n vs v : computes n vs v -> forall env s xs, wf_state s -> standX X s xs vs -> no_nils xs ->
  exists w s', applies n xs env s (Done (Ok w)) s' /\ keeps [] s s' /\ standsX X s' w v.
Proof.
  assert (Num2 : forall name a b (w : val) v env s xs, standX X s xs [Number a; Number b] ->
    applies name [VInt a; VInt b] env s (Done (Ok w)) (entering name env s) -> (forall s, standsX X s w v) ->
    exists w s', applies name xs env s (Done (Ok w)) s' /\ keeps [] s s' /\ standsX X s' w v).
  { intros name a b w v0 env s xs S A Q. destruct (stand_two _ _ _ _ _ S) as (x & y & -> & H1 & H2). apply stands_number in H1, H2. subst.
    exists w, (entering name env s). split; [exact A|]. split; [apply keeps_entering|apply Q]. }
  assert (Num1 : forall name a (w : val) v env s xs, standX X s xs [Number a] ->
    applies name [VInt a] env s (Done (Ok w)) (entering name env s) -> (forall s, standsX X s w v) ->
    exists w s', applies name xs env s (Done (Ok w)) s' /\ keeps [] s s' /\ standsX X s' w v).
  { intros name a w v0 env s xs S A Q. destruct (stand_one _ _ _ _ S) as (x & -> & H1). apply stands_number in H1. subst.
    exists w, (entering name env s). split; [exact A|]. split; [apply keeps_entering|apply Q]. }
  intros C env s xs W S N. destruct C as [a b r M|a b r Ha M|a b r M|a b q r Hb D|a b Ha Hb|a b Ha Hb|a b Ha Hb|a b Ha Hb|a b|vs|v vs|v vs|v vs|vs|vs|vs ws|t|v|a r M|a r M|a|a|a Ha|a Ha|a Ha|a b q r q' Hb D M|vs Ne].
  - destruct (run_plus [a; b] env s) as (r' & M' & A). replace (sum [a; b]) with (a + b) in M' by (cbn; lia). rewrite (mod64_unique _ _ _ M' M) in A.
    eapply Num2; [exact S|exact A|constructor].
  - destruct (run_minus a [b] env s Ha) as (r' & M' & A). replace (a - sum [b]) with (a - b) in M' by (cbn; lia). rewrite (mod64_unique _ _ _ M' M) in A.
    eapply Num2; [exact S|exact A|constructor].
  - destruct (run_times [a; b] env s) as (r' & M' & A). replace (product [a; b]) with (a * b) in M' by (cbn; lia). rewrite (mod64_unique _ _ _ M' M) in A.
    eapply Num2; [exact S|exact A|constructor].
  - destruct (run_rem "%" a b env s (or_introl eq_refl) Hb) as (q' & r' & D' & A). rewrite (divides_unique _ _ _ _ _ _ D' D) in A.
    eapply Num2; [exact S|exact A|constructor].
  - rewrite <- (ltb_exact a b Ha Hb). eapply Num2; [exact S|apply run_lt|constructor].
  - rewrite <- (ltb_exact b a Hb Ha). eapply Num2; [exact S|apply run_gt|constructor].
  - rewrite <- (leb_exact a b Ha Hb). eapply Num2; [exact S|apply run_le|constructor].
  - rewrite <- (leb_exact b a Hb Ha). eapply Num2; [exact S|apply run_ge|constructor].
  - eapply Num2; [exact S|apply same_ints|constructor].
  - destruct (run_list xs env s W) as (w & s' & A & Gr & ys & F & L). exists w, s'. split; [exact A|]. assert (K := grows_keeps _ _ Gr). split; [exact K|].
    econstructor; [exact L|]. apply (elem_stands X s' xs ys F). exact (stand_moved _ _ _ _ (keeps_moves X [] s s' ltac:(intros ? []) K) _ _ S).
  - destruct (stand_two _ _ _ _ _ S) as (x & y & -> & H1 & H2). destruct (run_cons x y env s W) as (l & s' & A & Gr & _ & E).
    exists (VCell TCons l), s'. split; [exact A|]. assert (K := grows_keeps _ _ Gr). split; [exact K|].
    assert (M := keeps_moves X [] s s' ltac:(intros ? []) K). destruct (stands_items _ _ _ _ (stands_moved _ _ _ _ M _ _ H2)) as (ws & L & Sw).
    econstructor; [eapply il_cons; [exact E|left|exact L]|constructor; [exact (stands_moved _ _ _ _ M _ _ H1)|exact Sw]]. apply (proj1 (List.Forall_cons_iff _ _ _)) in N. apply N.
  - destruct (stand_one _ _ _ _ S) as (x & -> & H). destruct (stands_items _ _ _ _ H) as (ws & L & Sw). inversion Sw as [|y ? ys ? Sy Sys]; subst.
    destruct (list_head _ _ _ _ L) as (l & d & -> & E & _ & Ld). assert (A := run_car l _ _ env s E).
    exists y, (entering "car" env s). split; [exact A|]. split; [apply keeps_entering|].
    exact (stands_moved _ _ _ _ (keeps_moves X [] _ _ ltac:(intros ? []) (keeps_entering "car" env s)) _ _ Sy).
  - destruct (stand_one _ _ _ _ S) as (x & -> & H). destruct (stands_items _ _ _ _ H) as (ws & L & Sw). inversion Sw as [|y ? ys ? Sy Sys]; subst.
    destruct (list_head _ _ _ _ L) as (l & d & -> & E & _ & Ld). assert (A := run_cdr l _ _ env s E).
    exists d, (entering "cdr" env s). split; [exact A|]. split; [apply keeps_entering|].
    assert (M := keeps_moves X [] _ _ ltac:(intros ? []) (keeps_entering "cdr" env s)).
    apply (stands_moved _ _ _ _ M). econstructor; [exact Ld|exact Sys].
  - destruct (stand_one _ _ _ _ S) as (x & -> & H). destruct (stands_items _ _ _ _ H) as (ws & L & Sw).
    destruct (nil_decides "null?" (v:=x) env s (or_intror (or_introl eq_refl))) as (b & D & E).
    exists (VBool b), (entering "null?" env s). split; [apply D; split; reflexivity|]. split; [apply keeps_entering|].
    assert (b = match vs with [] => true | _ => false end) as ->; [|constructor].
    destruct Sw as [|w v0 ws0 vs0]; [apply E, list_end, L|]. destruct b; [|reflexivity]. exfalso.
    destruct (list_head _ _ _ _ L) as (l & d & -> & Ec & Nc & _). exact (cell_end _ _ _ _ Ec Nc (proj1 E eq_refl)).
  - destruct (stand_one _ _ _ _ S) as (x & -> & H). destruct (stands_items _ _ _ _ H) as (ws & L & Sw).
    exists (VInt (Z.of_nat (length vs))), (entering "length" env s). split; [rewrite <- (stand_length _ _ _ _ Sw); apply run_length, L|]. split; [apply keeps_entering|constructor].
  - destruct (stand_two _ _ _ _ _ S) as (x & y & -> & H1 & H2). destruct (stands_items _ _ _ _ H1) as (xs1 & L1 & S1). destruct (stands_items _ _ _ _ H2) as (xs2 & L2 & S2).
    destruct (run_append [x; y] [xs1; xs2] env s W ltac:(discriminate) ltac:(constructor; [exact L1|constructor; [exact L2|constructor]])) as (w & s' & A & Gr & ys & F & L).
    exists w, s'. split; [exact A|]. assert (K := grows_keeps _ _ Gr). split; [exact K|]. cbn [List.concat] in F. rewrite app_nil_r in F.
    econstructor; [exact L|]. apply (elem_stands X s' _ ys F). apply (stand_moved _ _ _ _ (keeps_moves X [] s s' ltac:(intros ? []) K)). apply stand_app; assumption.
  - destruct (stand_one _ _ _ _ S) as (x & -> & H). inversion H as [| |l t' E| | | |]; subst.
    exists (VInt (Z.of_nat (String.length t))), (entering "string-length" env s). split; [|split; [apply keeps_entering|constructor]].
    rewrite <- len_str. apply (run_string_length (VStr l) t env s); [exists l; split; [reflexivity|exact E]|split; reflexivity].
  - destruct (stand_one _ _ _ _ S) as (x & -> & H). exists (VBool (negb (counts_true v))), (entering "not" env s).
    split; [|split; [apply keeps_entering|constructor]]. applies. unfold not_impl. cbn [arg nth]. eapply runs_bind; [apply truthy_value|].
    rewrite truthy_entering, (truthy_stands _ _ _ _ H). apply runs_ret.
  - destruct (run_succ a env s) as (r' & M' & A). rewrite (mod64_unique _ _ _ M' M) in A. eapply Num1; [exact S|exact A|constructor].
  - destruct (run_pred a env s) as (r' & M' & A). rewrite (mod64_unique _ _ _ M' M) in A. eapply Num1; [exact S|exact A|constructor].
  - eapply Num1; [exact S|apply run_even|constructor].
  - eapply Num1; [exact S|apply run_odd|constructor].
  - eapply Num1; [exact S|apply run_sign, Ha|constructor].
  - eapply Num1; [exact S|apply run_sign, Ha|constructor].
  - eapply Num1; [exact S|apply run_sign, Ha|constructor].
  - destruct (run_quotient "quotient" a [b] env s ltac:(right; left; reflexivity) ltac:(constructor; [exact Hb|constructor])) as (r' & Q & A).
    inversion Q as [|? ? ? q1 r1 q2 ? Hb1 D1 M1 Q1]; subst. inversion Q1; subst.
    assert (q1 = q) as -> by (pose proof (divides_unique _ _ _ _ _ _ D1 D) as <-; destruct D1 as (D1 & _), D as (D & _); apply (Z.mul_reg_r _ _ b Hb); lia).
    rewrite (mod64_unique _ _ _ M1 M) in A. eapply Num2; [exact S|exact A|constructor].
  - destruct (stand_one _ _ _ _ S) as (x & -> & H). destruct (stands_items _ _ _ _ H) as (ws & L & Sw).
    assert (Nu : no_nils ws). { clear -Sw Ne. unfold no_nils. induction Sw as [|u v us vs H _ IH]; [constructor|]. apply (proj1 (List.Forall_cons_iff _ _ _)) in Ne. destruct Ne as [N1 N2]. constructor; [|apply IH, N2].
      intros ->. inversion H as [| | | |? ? ? L' S'| |]; subst. inversion L'; subst. inversion S'; subst. congruence. }
    destruct (run_reverse x ws env s W L Nu) as (w & s' & A & Gr & Lr). exists w, s'. split; [exact A|]. assert (K := grows_keeps _ _ Gr). split; [exact K|].
    econstructor; [exact Lr|]. apply (stand_moved _ _ _ _ (keeps_moves X [] s s' ltac:(intros ? []) K)). clear -Sw.
    induction Sw as [|u v us vs H _ IH]; [constructor|]. cbn [rev]. apply stand_app; [exact IH|constructor; [exact H|constructor]].
Qed.
(** *** Parameters *)
Lemma aset_fresh {A} x (b : A) bs : alookup x bs = None -> aset x b bs = bs ++ [(x, b)].
Proof. induction bs as [|[y c] bs IH]; intros H; [reflexivity|]. cbn [alookup aset app] in *. destruct (str_eqb x y); [discriminate|]. rewrite (IH H). reflexivity. Qed.
Lemma bound_app X s bs ns bs' ns' : boundX X s bs ns -> boundX X s bs' ns' -> boundX X s (bs ++ bs') (ns ++ ns').
Proof. induction 1; intros Hb; [exact Hb|]. cbn [app]. econstructor; eauto. Qed.
Lemma alookup_not_in {A} x (ns : list (string * A)) : ~ In x (map fst ns) -> alookup x ns = None.
Proof.
  induction ns as [|[y v] ns IH]; intros H; [reflexivity|]. cbn [alookup]. destruct (str_eqb x y) eqn:E; [|apply IH; intros Hi; apply H; right; exact Hi].
  exfalso. apply H. left. symmetry. apply str_eqb_eq. exact E.
Qed.
(** Binding one more name in an environment that is being filled. *)
Lemma bind_next X s le e bs ns x w v : wf_state s -> le <> s_global s -> s_envs s !! le = Some e -> e_binds e = bs -> boundX (le :: X) s bs ns -> plain_name x -> ~ In x (map fst ns) ->
  standsX (le :: X) s w v -> exists s', bind_here le (VSym x) w s = Some s' /\ wf_state s' /\ keeps [le] s s' /\
    exists e', s_envs s' !! le = Some e' /\ e_parent e' = e_parent e /\ e_frame e' = e_frame e /\ boundX (le :: X) s' (e_binds e') (ns ++ [(x, v)]).
Proof.
  intros W Ng He Eb B P N S. assert (L : local_binding s le x = None).
  { unfold local_binding. rewrite (env_is _ _ _ He), Eb. assert (Q := bound_lookup _ _ _ _ x B). rewrite (alookup_not_in _ _ N) in Q. exact Q. }
  unfold bind_here. cbn [name_of]. rewrite L. eexists. split; [reflexivity|].
  assert (Bh : bind_here le (VSym x) w s = Some (add_binding le (VSym x) w s)) by (unfold bind_here; cbn [name_of]; rewrite L; reflexivity).
  split. { pose proof (bind_locally_run le (VSym x) w s) as R. rewrite Bh in R. exact (wf_runs _ _ _ _ _ W R). }
  assert (K := keeps_add le x w s W). split; [exact K|].
  eexists. split; [unfold add_binding; cbn; unfold put; rewrite He; apply lookup_insert|]. rewrite (env_is _ _ _ He). cbn. split; [reflexivity|]. split; [reflexivity|].
  rewrite Eb. rewrite aset_fresh by (unfold local_binding in L; rewrite (env_is _ _ _ He), Eb in L; exact L).
  assert (M := keeps_moves (le :: X) [le] s _ ltac:(intros l [<-|[]]; left; reflexivity) K).
  apply bound_app; [exact (bound_moved _ _ _ _ M _ _ B)|].
  econstructor; [exact P|cbn; apply lookup_insert|reflexivity|exact (stands_moved _ _ _ _ M _ _ S)|constructor].
Qed.
Lemma ready_other G le s s' : le <> s_global s -> keeps [le] s s' -> ready G s -> ready G s'.
Proof. intros N. apply ready_keeps. intros [E|[]]. auto. Qed.
Lemma plain_name_sym x s : name_of s (VSym x) = x.
Proof. reflexivity. Qed.
Lemma pass_all G ns es vs : Forall2 (good G ns) es vs -> (forall e, In e es -> proper e) -> forall X s env args cs ps xs le e ns0,
  length xs = length vs -> Forall plain_name xs -> List.NoDup (map fst ns0 ++ xs) ->
  wf_state s -> ready G s -> (forall l, In l (le :: X) -> handed_out s l) -> le <> s_global s -> seesX (le :: X) s env ns ->
  is_list s args cs -> Forall2 (holds s) cs (map written es) -> holds s ps (XList (map XSym xs)) ->
  s_envs s !! le = Some e -> boundX (le :: X) s (e_binds e) ns0 ->
  exists s', keeps [le] s s' /\ wf_state s' /\
    (exists e', s_envs s' !! le = Some e' /\ e_parent e' = e_parent e /\ e_frame e' = e_frame e /\ boundX (le :: X) s' (e_binds e') (ns0 ++ combine xs vs)) /\
    forall (k : state -> behaviour) o s2, k s' o s2 -> passes (evaluated env) le k ps args s o s2.
Proof.
  induction 1 as [|e0 v es vs He _ IH]; intros P X s env args cs ps xs le e ns0 Len Px Nd W R HX Ng S L F Hp Hle B.
  - destruct xs; [|discriminate]. apply Forall2_nil_inv_r in F. subst cs. exists s. split; [apply keeps_refl|]. split; [exact W|].
    split; [exists e; rewrite app_nil_r; auto|]. intros k o s2 H. destruct (holds_list_inv _ _ _ Hp) as (ws & Lp & _).
    apply pass_end; [apply list_end, L| |exact H]. inversion Lp; reflexivity.
  - destruct xs as [|x xs]; [discriminate|]. cbn [map] in F, Hp. apply Forall2_cons_inv_r in F. destruct F as (c & cs' & Hc & F & ->). destruct (list_head _ _ _ _ L) as (l & d & -> & E & N & L').
    destruct (holds_list_inv _ _ _ Hp) as (ws & Lp & Fp). apply Forall2_cons_inv_r in Fp. destruct Fp as (px & ws' & Hx & Fp & ->). apply holds_sym_inv in Hx. subst px.
    destruct (list_head _ _ _ _ Lp) as (lp & dp & -> & Ep & Np & Lp').
    apply (proj1 (List.Forall_cons_iff _ _ _)) in Px. destruct Px as [Px Pxs].
    destruct (He (P e0 (or_introl eq_refl)) (le :: X) s env c W R HX S Hc) as (w & s1 & Ev & K & Sw).
    assert (W1 := wf_evals _ _ _ _ _ W Ev). assert (M := keeps_moves (le :: X) [] s s1 ltac:(intros ? []) K).
    assert (G1 := k_global _ _ _ K). assert (Hle1 := k_envs _ _ _ K _ _ ltac:(intros []) Hle).
    assert (Nx : ~ In x (map fst ns0)). { intros I. apply NoDup_remove_2 in Nd. apply Nd, in_or_app. left. exact I. }
    destruct (bind_next X s1 le e (e_binds e) ns0 x w v W1 ltac:(congruence) Hle1 eq_refl (bound_moved _ _ _ _ M _ _ B) Px Nx Sw) as (s2 & Bh & W2 & K2 & e2 & He2 & Q1 & Q2 & B2).
    assert (M2 := keeps_moves (le :: X) [le] s1 s2 ltac:(intros l0 [<-|[]]; left; reflexivity) K2).
    assert (K12 : keeps [le] s s2) by (eapply keeps_trans; [eapply keeps_more; [|exact K]; intros ? []|exact K2]).
    destruct (IH (fun e' I => P e' (or_intror I)) X s2 env d cs' dp xs le e2 (ns0 ++ [(x, v)])) as (s3 & K3 & W3 & (e3 & He3 & Q3 & Q4 & B3) & C).
    + cbn in Len. congruence.
    + exact Pxs.
    + rewrite map_app. cbn [map fst]. rewrite <- app_assoc. exact Nd.
    + exact W2.
    + apply (ready_other G le s s2 Ng K12 R).
    + intros y Hy. exact (handed_later _ _ _ (k_next _ _ _ K12) (HX y Hy)).
    + rewrite (k_global _ _ _ K12). exact Ng.
    + exact (sees_moved _ _ _ _ M2 _ _ (sees_moved _ _ _ _ M _ _ S)).
    + exact (is_list_kept _ _ _ _ (k_cells _ _ _ K12) L').
    + eapply Forall2_impl; [exact F|]. intros x0 y. apply (holds_kept s s2 (k_cells _ _ _ K12) (k_strs _ _ _ K12) (k_bytes _ _ _ K12)).
    + apply (holds_kept s s2 (k_cells _ _ _ K12) (k_strs _ _ _ K12) (k_bytes _ _ _ K12)). econstructor; [exact Lp'|exact Fp].
    + exact He2.
    + exact B2.
    + exists s3. split; [exact (keeps_trans _ _ _ _ K12 K3)|]. split; [exact W3|]. split; [exists e3; rewrite Q3, Q4; rewrite <- app_assoc in B3; auto|].
      intros k o s4 H. eapply pass_next; [exact (cell_end _ _ _ _ E N)|reflexivity|cbn [head_of]; rewrite (cell_some _ _ _ E); exact Ev| |].
      * cbn [head_of]. rewrite (cell_some _ _ _ (k_cells _ _ _ K _ _ Ep)). exact Bh.
      * cbn [rest_of]. rewrite (cell_some _ _ _ (k_cells _ _ _ K12 _ _ E)), (cell_some _ _ _ (k_cells _ _ _ K12 _ _ Ep)). cbn [snd]. apply C, H.
Qed.
(** let *)
Lemma init_all G ns bs vs : Forall2 (good G ns) (map snd bs) vs -> (forall b, In b bs -> proper (snd b)) -> forall X s env c cs le e ns0,
  Forall plain_name (map fst bs) -> List.NoDup (map fst ns0 ++ map fst bs) ->
  wf_state s -> ready G s -> (forall l, In l (le :: X) -> handed_out s l) -> le <> s_global s -> seesX (le :: X) s env ns ->
  is_list s c cs -> Forall2 (holds s) cs (map (fun b => XList [XSym (fst b); written (snd b)]) bs) ->
  s_envs s !! le = Some e -> boundX (le :: X) s (e_binds e) ns0 ->
  exists s', keeps [le] s s' /\ wf_state s' /\
    (exists e', s_envs s' !! le = Some e' /\ e_parent e' = e_parent e /\ e_frame e' = e_frame e /\ boundX (le :: X) s' (e_binds e') (ns0 ++ combine (map fst bs) vs)) /\
    forall (k : state -> behaviour) o s2, k s' o s2 -> initialises env le k c s o s2.
Proof.
  revert vs. induction bs as [|[x e0] bs IH]; intros vs H P X s env c cs le e ns0 Px Nd W R HX Ng S L F Hle B.
  - inversion H; subst. apply Forall2_nil_inv_r in F. subst cs. exists s. split; [apply keeps_refl|]. split; [exact W|].
    split; [exists e; rewrite app_nil_r; auto|]. intros k o s2 Hk. apply init_end; [apply list_end, L|exact Hk].
  - cbn [map fst snd] in *. inversion H as [|? v ? vs' He H']; subst. apply Forall2_cons_inv_r in F. destruct F as (cb & cs' & Hb & F & ->). destruct (list_head _ _ _ _ L) as (l & d & -> & E & N & L').
    destruct (holds_list_inv _ _ _ Hb) as (ws & Lb & Fb). apply Forall2_cons_inv_r in Fb. destruct Fb as (px & ws' & Hx & Fb & ->). apply holds_sym_inv in Hx. subst px.
    apply Forall2_cons_inv_r in Fb. destruct Fb as (ce & ws & Hc & Fb & ->). apply Forall2_nil_inv_r in Fb. subst ws.
    destruct (list_head _ _ _ _ Lb) as (lb & db & -> & E1 & N1 & Lb'). destruct (list_head _ _ _ _ Lb') as (lc & dc & -> & E2 & N2 & _).
    apply (proj1 (List.Forall_cons_iff _ _ _)) in Px. destruct Px as [Px Pxs].
    destruct (He (P (x, e0) (or_introl eq_refl)) (le :: X) s env ce W R HX S Hc) as (w & s1 & Ev & K & Sw).
    assert (W1 := wf_evals _ _ _ _ _ W Ev). assert (M := keeps_moves (le :: X) [] s s1 ltac:(intros ? []) K).
    assert (G1 := k_global _ _ _ K). assert (Hle1 := k_envs _ _ _ K _ _ ltac:(intros []) Hle).
    assert (Nx : ~ In x (map fst ns0)). { intros I. apply NoDup_remove_2 in Nd. apply Nd, in_or_app. left. exact I. }
    destruct (bind_next X s1 le e (e_binds e) ns0 x w v W1 ltac:(congruence) Hle1 eq_refl (bound_moved _ _ _ _ M _ _ B) Px Nx Sw) as (s2 & Bh & W2 & K2 & e2 & He2 & Q1 & Q2 & B2).
    assert (M2 := keeps_moves (le :: X) [le] s1 s2 ltac:(intros l0 [<-|[]]; left; reflexivity) K2).
    assert (K12 : keeps [le] s s2) by (eapply keeps_trans; [eapply keeps_more; [|exact K]; intros ? []|exact K2]).
    destruct (IH vs' H' (fun b I => P b (or_intror I)) X s2 env d cs' le e2 (ns0 ++ [(x, v)])) as (s3 & K3 & W3 & (e3 & He3 & Q3 & Q4 & B3) & C).
    + exact Pxs.
    + rewrite map_app. cbn [map fst]. rewrite <- app_assoc. exact Nd.
    + exact W2.
    + apply (ready_other G le s s2 Ng K12 R).
    + intros y Hy. exact (handed_later _ _ _ (k_next _ _ _ K12) (HX y Hy)).
    + rewrite (k_global _ _ _ K12). exact Ng.
    + exact (sees_moved _ _ _ _ M2 _ _ (sees_moved _ _ _ _ M _ _ S)).
    + exact (is_list_kept _ _ _ _ (k_cells _ _ _ K12) L').
    + eapply Forall2_impl; [exact F|]. intros x0 y. apply (holds_kept s s2 (k_cells _ _ _ K12) (k_strs _ _ _ K12) (k_bytes _ _ _ K12)).
    + exact He2.
    + exact B2.
    + exists s3. split; [exact (keeps_trans _ _ _ _ K12 K3)|]. split; [exact W3|]. split; [exists e3; rewrite Q3, Q4; rewrite <- app_assoc in B3; auto|].
      intros k o s4 Hk. assert (Hd : head_of s (head_of s (VCell TCons l)) = VSym x) by (cbn [head_of]; rewrite (cell_some _ _ _ E); cbn [fst head_of]; rewrite (cell_some _ _ _ E1); reflexivity).
      eapply init_next; [exact (cell_end _ _ _ _ E N)| |rewrite Hd; exact Bh|].
      * cbn [head_of]. rewrite (cell_some _ _ _ E). cbn [fst rest_of]. rewrite (cell_some _ _ _ E1). cbn [snd head_of]. rewrite (cell_some _ _ _ E2). exact Ev.
      * cbn [rest_of]. rewrite (cell_some _ _ _ (k_cells _ _ _ K12 _ _ E)). cbn [snd]. apply C, Hk.
Qed.
(** *** A function body or let body in its new environment *)
Lemma keeps_fresh le s s1 s2 : s_envs s !! le = None -> keeps [] s s1 -> keeps [le] s1 s2 -> keeps [] s s2.
Proof.
  intros N K1 K2. assert (K := keeps_trans _ _ _ _ (keeps_more [] [le] _ _ ltac:(intros ? []) K1) K2). constructor; try apply K.
  intros l e _ He. apply (k_envs _ _ _ K); [|exact He]. intros [<-|[]]. congruence.
Qed.
Lemma next_free s : wf_state s -> s_envs s !! s_next s = None.
Proof. intros W. destruct (s_envs s !! s_next s) eqn:E; [|reflexivity]. destruct (wf_envs _ W _ _ E). lia. Qed.
Lemma env_below s (l : loc) : wf_state s -> s_envs s !! l <> None -> (l < s_next s)%positive.
Proof. intros W N. destruct (s_envs s !! l) eqn:E; [|congruence]. destruct (wf_envs _ W _ _ E). assumption. Qed.
Lemma ready_global G s : wf_state s -> ready G s -> (s_global s < s_next s)%positive.
Proof. intros W [(e & He & _) _]. apply env_below; [exact W|]. rewrite He. discriminate. Qed.
Lemma open_next name p f s : s_next (open_env name p f s) = Pos.succ (s_next s).
Proof. unfold open_env. destruct (Pos.eqb p (s_global s)); reflexivity. Qed.
(** In a new environment below [p], filled with [names], the body [body] means [v]. *)
Lemma inner_scope G X s s1 le e p ns ns' : ~ In le X -> le <> s_global s1 -> s_envs s1 !! le = Some e -> e_parent e = Some p -> e_frame e = None ->
  boundX (le :: X) s1 (e_binds e) ns -> keeps [le] s s1 -> seesX (le :: X) s p ns' -> ready G s -> le <> s_global s ->
  seesX X s1 le (ns ++ ns') /\ ready G s1.
Proof.
  intros N Ng He Hp Hf B K S R Ng'. split; [|exact (ready_other G le s s1 Ng' K R)].
  assert (F := fewer_moves (le :: X) X s1 ltac:(intros l H; right; exact H)).
  econstructor; try eassumption; [exact (bound_moved _ _ _ _ F _ _ B)|].
  apply (sees_moved _ _ _ _ F). exact (sees_moved _ _ _ _ (keeps_moves (le :: X) [le] s s1 ltac:(intros l [<-|[]]; left; reflexivity) K) _ _ S).
Qed.
Lemma fun_is s (l : loc) f : s_funs s !! l = Some f -> fun_at s l = f.
Proof. intros E. unfold fun_at. rewrite E. reflexivity. Qed.
Lemma list_not_symbol s v xs : is_list s v xs -> symbolp v = false.
Proof. intros H. inversion H; reflexivity. Qed.
Lemma list_pair s v xs : is_list s v xs -> is_pair v = true.
Proof. intros H. inversion H; reflexivity. Qed.
Lemma list_parameters s v xs : is_list s v xs -> parameters s v (length xs) false.
Proof. induction 1; econstructor; eauto. Qed.
Lemma elem_one s xs w : Forall2 (elem_as s) [w] xs -> exists x, xs = [x].
Proof. intros H. inversion H as [|? x ? ys E H']; subst. inversion H'; subst. eauto. Qed.
Lemma holds_nonempty s c t ts : holds s c (XList (t :: ts)) -> exists l, c = VCell TCons l.
Proof. intros H. destruct (holds_list_inv _ _ _ H) as (xs & L & F). apply Forall2_cons_inv_r in F. destruct F as (x & xs' & _ & _ & ->). destruct (list_head _ _ _ _ L) as (l & d & -> & _). eauto. Qed.
Lemma body_value le s c b w s' f : is_list s b [c] -> f_body f = b -> evals c le s (Done (Ok w)) s' -> keeps [] s s' -> runs_body f le s (Done (Ok w)) s'.
Proof.
  intros L Eb Ev K. exists (Done (Ok w)). split; [|reflexivity]. rewrite Eb. destruct (list_head _ _ _ _ L) as (l & d & -> & E & N & Ld).
  eapply cells_next; [exact (cell_end _ _ _ _ E N)|cbn [head_of]; rewrite (cell_some _ _ _ E); exact Ev|].
  cbn [rest_of]. rewrite (cell_some _ _ _ (k_cells _ _ _ K _ _ E)). cbn [snd]. apply cells_end. apply list_end. exact (is_list_kept _ _ _ _ (k_cells _ _ _ K) Ld).
Qed.
Definition special_here (n : string) (ts : list count_term) : Prop := exists p, In p all_prims /\ p_name p = n /\ declared p ts /\ p_special p = true /\ p_restricted p = false.
Lemma special_if : special_here "if" [Exactly 2; Exactly 3].
Proof.
  destruct (table "if") as [p|] eqn:T; [|discriminate]. exists p. destruct (table_in _ _ T) as [I1 I2]. injection T as <-.
  repeat apply conj; try assumption; try reflexivity. repeat constructor; unfold sane, int64_max, two63; lia.
Qed.
Lemma special_lambda : special_here "lambda" [AtLeast 1].
Proof.
  destruct (table "lambda") as [p|] eqn:T; [|discriminate]. exists p. destruct (table_in _ _ T) as [I1 I2]. injection T as <-.
  repeat apply conj; try assumption; try reflexivity. repeat constructor; unfold sane, int64_max, two63; lia.
Qed.
Lemma special_let : special_here "let" [AtLeast 1].
Proof.
  destruct (table "let") as [p|] eqn:T; [|discriminate]. exists p. destruct (table_in _ _ T) as [I1 I2]. injection T as <-.
  repeat apply conj; try assumption; try reflexivity. repeat constructor; unfold sane, int64_max, two63; lia.
Qed.
(** A special form whose operands [ds] are written after its name. *)
Lemma form_call G X s env ns n ts c ds : special_here n ts -> In n reserved -> wf_state s -> ready G s -> seesX X s env ns ->
  holds s c (XList (XSym n :: ds)) -> accepts ts (length ds) -> exists xs s1, wf_state s1 /\ keeps [] s s1 /\ Forall2 (holds s1) xs ds /\ no_nils xs /\
    forall o s', applies n xs env s1 o s' -> evals c env s o s'.
Proof.
  intros (p & Ip & Ep & D & Sp & Rp) In_ W R S H A. destruct (holds_list_inv _ _ _ H) as (cs & L & F). apply Forall2_cons_inv_r in F.
  destruct F as (h & cs' & Hh & F & ->). apply holds_sym_inv in Hh. subst h. destruct (list_head _ _ _ _ L) as (l & d & -> & E & N & Ld).
  destruct (all_stored_ok cs' s W) as (G1 & W1 & E1 & N1). exists (fst (all_stored cs' s)), (snd (all_stored cs' s)).
  assert (K := grows_keeps _ _ G1). split; [exact W1|]. split; [exact K|].
  split. { apply (elem_holds _ _ _ E1). eapply Forall2_impl; [exact F|]. intros x y. apply (holds_kept _ _ (k_cells _ _ _ K) (k_strs _ _ _ K) (k_bytes _ _ _ K)). }
  split; [exact N1|]. intros o s' H'. apply (call_name G X s env ns n d l o s' p R S In_ Ip Ep E).
  apply (builtin_called p ts d cs' env s o s' Ip D Ld (or_introl Rp)). { rewrite (Forall2_length _ _ _ F). exact A. }
  rewrite Sp. apply (collect_as_is _ cs'); [exact Ld|]. cbn [app]. unfold enters. destruct (all_stored cs' s). rewrite Ep. exact H'.
Qed.
(** *** The cases *)
Lemma good_name G ns x v : (alookup x ns = Some v \/ (alookup x ns = None /\ exists xs body, alookup x G = Some (xs, body) /\ v = Closure xs body [])) -> good G ns (Name x) v.
Proof.
  intros H P X s env c W R HX S Hc. inversion P as [| | | |? Px| | | | | | | | | |]; subst. cbn [written] in Hc. apply holds_sym_inv in Hc. subst c.
  assert (Q : exists b e, visible s x env (Some b) /\ s_binds s !! (b : loc) = Some e /\ standsX X s (b_val e) v).
  { destruct H as [H|(H & xs & body & HG & ->)]; [exact (seen_local _ _ _ _ S x v H)|].
    destruct (global_stands G s x xs body X (proj2 R) HG) as (b & be & w & B1 & B2 & B3 & B4). exists b, be. subst w. split; [|auto].
    apply (seen_global _ _ _ _ S x _ H). apply visible_here, B1. }
  destruct Q as (b & e & V & B & Sw). destruct (name_found G X s env ns x b false R S V) as (s' & F & K).
  rewrite (bind_is _ _ _ B) in F. exists (b_val e), s'. split; [|split; [exact K|exact (stands_moved _ _ _ _ (keeps_moves X [] s s' ltac:(intros ? []) K) _ _ Sw)]].
  unfold evals. apply symbol_iff. destruct Px as ((_ & _ & -> & _) & _). exact F.
Qed.
Lemma good_lambda G ns xs body : good G ns (Lambda xs body) (Closure xs body ns).
Proof.
  intros P X s env c W R HX S Hc. inversion P as [| | | | |? ? Px Nd Pb| | | | | | | | |]; subst. cbn [written] in Hc.
  destruct (form_call G X s env ns "lambda" [AtLeast 1] c _ special_lambda ltac:(cbn; tauto) W R S Hc ltac:(eexists; split; [left; reflexivity|cbn; lia])) as (vs & s1 & W1 & K & F & N & C).
  apply Forall2_cons_inv_r in F. destruct F as (ps & vs1 & Hps & F & ->). apply Forall2_cons_inv_r in F. destruct F as (b & vs2 & Hb & F & ->). apply Forall2_nil_inv_r in F. subst vs2.
  destruct (holds_list_inv _ _ _ Hps) as (pcs & Lp & Fp).
  pose proof (lambda_run ps [b] env (length pcs) false s1 W1 (list_pair _ _ _ Lp) (list_parameters _ _ _ Lp)) as A.
  assert (W2 := wf_entering "lambda" env s1 W1). apply (proj1 (List.Forall_cons_iff _ _ _)) in N. destruct N as [N1 N2].
  assert (Lb := new_tail_is [b] (entering "lambda" env s1) W2 N2). destruct (new_tail_grows [b] VNil (entering "lambda" env s1) W2) as [Gr W3].
  destruct (new_tail [b] VNil (entering "lambda" env s1)) as [bd s3]. unfold fresh_function in A. cbn [fst snd] in *.
  eexists _, _. split; [apply C, A|]. assert (K2 := grows_keeps _ _ (grows_trans _ _ _ (grows_entering "lambda" env s1) Gr)).
  set (f := Fn "unnamed" ps false (Z.of_nat (length pcs)) bd env) in *. set (s4 := set_funs _ _) in *.
  assert (K3 : keeps [] s3 s4).
  { apply grows_keeps. unfold s4. constructor; try reflexivity; try (intros l x H; exact H).
    - cbn. lia.
    - intros l g Hg. cbn. rewrite lookup_insert_ne; [exact Hg|]. intros <-. destruct (wf_funs _ W3 _ _ Hg). lia.
    - exists []. split; [reflexivity|constructor]. }
  assert (K4 := keeps_trans _ _ _ _ K (keeps_trans _ _ _ _ K2 K3)). assert (K14 := keeps_trans _ _ _ _ K2 K3). split; [exact K4|].
  apply (sx_closure X s4 (s_next s3) (FnState f false None) xs body ns bd b).
  - unfold s4. cbn. apply lookup_insert.
  - reflexivity.
  - reflexivity.
  - cbn. rewrite (Forall2_length _ _ _ Fp), map_length. reflexivity.
  - apply (holds_kept _ _ (k_cells _ _ _ K14) (k_strs _ _ _ K14) (k_bytes _ _ _ K14)). exact Hps.
  - exact Px.
  - exact Nd.
  - reflexivity.
  - exact (is_list_kept _ _ _ _ (k_cells _ _ _ K3) Lb).
  - apply (holds_kept _ _ (k_cells _ _ _ K14) (k_strs _ _ _ K14) (k_bytes _ _ _ K14)). exact Hb.
  - exact Pb.
  - exact (sees_moved _ _ _ _ (keeps_moves X [] s s4 ltac:(intros ? []) K4) _ _ S).
Qed.
Lemma good_if G ns c t e b v : good G ns c b -> good G ns (if counts_true b then t else e) v -> good G ns (If c t e) v.
Proof.
  intros Ic Ib P X s env ce W R HX S Hc. inversion P as [| | | | | | |? ? ? P1 P2 P3| | | | | | |]; subst. cbn [written] in Hc.
  destruct (form_call G X s env ns "if" [Exactly 2; Exactly 3] ce _ special_if ltac:(cbn; tauto) W R S Hc ltac:(eexists; split; [right; left; reflexivity|reflexivity])) as (vs & s1 & W1 & K & F & N & C).
  apply Forall2_cons_inv_r in F. destruct F as (a1 & vs1 & H1 & F & ->). apply Forall2_cons_inv_r in F. destruct F as (a2 & vs2 & H2 & F & ->).
  apply Forall2_cons_inv_r in F. destruct F as (a3 & vs3 & H3 & F & ->). apply Forall2_nil_inv_r in F. subst vs3.
  assert (W2 := wf_entering "if" env s1 W1). assert (K2 := keeps_trans _ _ _ _ K (keeps_entering "if" env s1)).
  assert (HK := fun d v => holds_kept _ _ (k_cells _ _ _ (keeps_entering "if" env s1)) (k_strs _ _ _ (keeps_entering "if" env s1)) (k_bytes _ _ _ (keeps_entering "if" env s1)) d v).
  destruct (Ic P1 X (entering "if" env s1) env a1 W2 (ready_still _ _ _ K2 R) ltac:(intros y Hy; exact (handed_later _ _ _ (k_next _ _ _ K2) (HX y Hy)))
    (sees_moved _ _ _ _ (keeps_moves X [] _ _ ltac:(intros ? []) K2) _ _ S) (HK _ _ H1)) as (w & s2 & Ev & K3 & Sw).
  assert (W3 := wf_evals _ _ _ _ _ W2 Ev). assert (K4 := keeps_trans _ _ _ _ K2 K3).
  assert (Hb : holds s2 (if truthy s2 w then a2 else a3) (written (if counts_true b then t else e))).
  { rewrite (truthy_stands _ _ _ _ Sw). apply (holds_kept _ _ (k_cells _ _ _ K3) (k_strs _ _ _ K3) (k_bytes _ _ _ K3)). destruct (counts_true b); apply HK; assumption. }
  destruct (Ib ltac:(destruct (counts_true b); assumption) X s2 env _ W3 (ready_still _ _ _ K4 R) ltac:(intros y Hy; exact (handed_later _ _ _ (k_next _ _ _ K4) (HX y Hy)))
    (sees_moved _ _ _ _ (keeps_moves X [] _ _ ltac:(intros ? []) K4) _ _ S) Hb) as (w2 & s3 & Ev2 & K5 & Sw2).
  exists w2, s3. split; [|split; [exact (keeps_trans _ _ _ _ K4 K5)|exact Sw2]]. apply C. apply if_iff. exists (Done (Ok w)), s2. split; [exact Ev|exact Ev2].
Qed.
Definition function_here (n : string) (k : nat) : Prop :=
  exists p ts, In p all_prims /\ p_name p = n /\ declared p ts /\ p_special p = false /\ p_restricted p = false /\ accepts ts k.
Lemma good_applies G ns n es vs v : Forall2 (good G ns) es vs -> function_here n (length vs) ->
  (forall X env s xs, wf_state s -> ready G s -> (forall l, In l X -> handed_out s l) -> seesX X s env ns -> standX X s xs vs -> no_nils xs ->
    exists w s', applies n xs env s (Done (Ok w)) s' /\ keeps [] s s' /\ standsX X s' w v) -> good G ns (Builtin n es) v.
Proof.
  intros F Cv D P X s env c W R HX S Hc. inversion P as [| | | | | | | | | | | | |? ? Pn Pe |]; subst. cbn [written] in Hc.
  destruct (holds_list_inv _ _ _ Hc) as (cs & L & Fc). apply Forall2_cons_inv_r in Fc.
  destruct Fc as (h & cs' & Hh & Fc & ->). apply holds_sym_inv in Hh. subst h. destruct (list_head _ _ _ _ L) as (l & d & -> & E & N & Ld).
  destruct (collect_all G ns es vs F Pe X s env d cs' [] W R HX S Ld Fc) as (ws & s1 & K & W1 & Sws & C).
  destruct (all_stored_ok ws s1 W1) as (G1 & W2 & E1 & N1). assert (K2 := grows_keeps _ _ G1). assert (K02 := keeps_trans _ _ _ _ K K2).
  destruct (D X env (snd (all_stored ws s1)) (fst (all_stored ws s1)) W2) as (w & s2 & A & K3 & Sw).
  - exact (ready_still _ _ _ K02 R).
  - intros y Hy. exact (handed_later _ _ _ (k_next _ _ _ K02) (HX y Hy)).
  - exact (sees_moved _ _ _ _ (keeps_moves X [] _ _ ltac:(intros ? []) K02) _ _ S).
  - apply (elem_stands _ _ _ _ E1). exact (stand_moved _ _ _ _ (keeps_moves X [] _ _ ltac:(intros ? []) K2) _ _ Sws).
  - exact N1.
  - exists w, s2. split; [|split; [exact (keeps_trans _ _ _ _ K (keeps_trans _ _ _ _ K2 K3))|exact Sw]].
    destruct Cv as (p & ts & Ip & Ep & Dc & Sp & Rp & Ac).
    apply (call_name G X s env ns n d l _ _ p R S (in_or_app _ _ _ (or_introl Pn)) Ip Ep E).
    apply (builtin_called p ts d cs' env s _ _ Ip Dc Ld (or_introl Rp)).
    { rewrite (Forall2_length _ _ _ Fc), map_length, (Forall2_length _ _ _ F). exact Ac. }
    rewrite Sp. apply C. cbn [app]. unfold enters. destruct (all_stored ws s1). rewrite Ep. exact A.
Qed.
Lemma good_builtin G ns n es vs v : Forall2 (good G ns) es vs -> computes n vs v -> good G ns (Builtin n es) v.
Proof. intros F Cv. apply (good_applies G ns n es vs v F (function_prim n vs v Cv)). intros X env s xs W _ _ _ S N. exact (computed X n vs v Cv env s xs W S N). Qed.
Lemma good_let G ns bs body vs v : Forall2 (good G ns) (map snd bs) vs -> good G (combine (map fst bs) vs ++ ns) body v -> good G ns (Let bs body) v.
Proof.
  intros F Ib P X s env c W R HX S Hc. inversion P as [| | | | | | | | | | | |? ? Px Nd Pe Pb| |]; subst. cbn [written] in Hc.
  destruct (form_call G X s env ns "let" [AtLeast 1] c _ special_let ltac:(cbn; tauto) W R S Hc ltac:(eexists; split; [left; reflexivity|cbn; lia])) as (us & s1 & W1 & K & Fu & N & C).
  apply Forall2_cons_inv_r in Fu. destruct Fu as (bv & us1 & Hbv & Fu & ->). apply Forall2_cons_inv_r in Fu. destruct Fu as (b & us2 & Hb & Fu & ->). apply Forall2_nil_inv_r in Fu. subst us2.
  destruct (holds_list_inv _ _ _ Hbv) as (bcs & Lb & Fb).
  set (s2 := entering "let" env s1). assert (W2 : wf_state s2) by (apply wf_entering, W1). assert (K2 : keeps [] s s2) by exact (keeps_trans _ _ _ _ K (keeps_entering "let" env s1)).
  assert (Nx : s_next s2 = s_next s1) by reflexivity.
  set (le := s_next s2). set (s3 := open_env "let" env (e_frame (env_at s1 env)) s2).
  assert (Ef : env_at s1 env = env_at s2 env) by reflexivity.
  assert (W3 : wf_state s3) by (unfold s3; rewrite Ef; apply open_env_wf, W2).
  assert (K3 : keeps [] s2 s3) by (apply keeps_open, W2). assert (K13 : keeps [] s s3) by exact (keeps_trans _ _ _ _ K2 K3).
  assert (S2 := sees_moved _ _ _ _ (keeps_moves X [] _ _ ltac:(intros ? []) K2) _ _ S). assert (R2 := ready_still _ _ _ K2 R).
  assert (HX2 : forall l, In l X -> handed_out s2 l) by (intros y Hy; exact (handed_later _ _ _ (k_next _ _ _ K2) (HX y Hy))).
  assert (Nle : ~ In le X). { intros I. specialize (HX2 _ I). unfold handed_out, le in HX2. lia. }
  assert (Ng : le <> s_global s2). { assert (Q := ready_global G s2 W2 R2). unfold le. lia. }
  assert (Ng3 : le <> s_global s3) by (rewrite (k_global _ _ _ K3); exact Ng).
  assert (He := open_env_at "let" env (e_frame (env_at s1 env)) s2). fold le in He. fold s3 in He.
  assert (S3 : seesX (le :: X) s3 env ns).
  { apply (sees_moved _ _ _ _ (keeps_moves (le :: X) [] s2 s3 ltac:(intros ? []) K3)). exact (sees_moved _ _ _ _ (fresh_moves X s2 W2) _ _ S2). }
  assert (K1_3 := keeps_trans _ _ _ _ (keeps_entering "let" env s1) K3).
  assert (HK := fun d v => holds_kept _ _ (k_cells _ _ _ K1_3) (k_strs _ _ _ K1_3) (k_bytes _ _ _ K1_3) d v).
  assert (HL : forall l, In l (le :: X) -> handed_out s3 l).
  { intros l [<-|I]; [|exact (handed_later _ _ _ (k_next _ _ _ K3) (HX2 l I))]. unfold handed_out, s3. rewrite open_next. assert (Q := ready_global G s2 W2 R2). unfold le. lia. }
  destruct (init_all G ns bs vs F Pe X s3 env bv bcs le (Env "let" (Some env) (e_frame (env_at s1 env)) [] (e_restricted (env_at s2 env))) [] Px Nd W3 (ready_still _ _ _ K13 R) HL Ng3 S3 (is_list_kept _ _ _ _ (k_cells _ _ _ K1_3) Lb)) as (s4 & K4 & W4 & (e4 & He4 & Q1 & Q2 & B4) & I).
  - eapply Forall2_impl; [exact Fb|]. intros x y. apply HK.
  - exact He.
  - constructor.
  - cbn [e_parent e_frame app] in Q1, Q2, B4. destruct (seen_frame G X s2 env ns R2 S2) as (Fr & _ & _). rewrite Ef, Fr in Q2.
    destruct (inner_scope G X s3 s4 le e4 env _ ns Nle ltac:(rewrite (k_global _ _ _ K4); exact Ng3) He4 Q1 Q2 B4 K4 S3 (ready_still _ _ _ K13 R) Ng3) as [S4 R4].
    assert (K04 : keeps [] s s4).
    { apply (keeps_fresh le s s3 s4); [|exact K13|exact K4]. destruct (s_envs s !! le) eqn:E; [|exact E]. exfalso.
      assert (Q : (le < s_next s)%positive) by (apply env_below; [exact W|intros Q0; discriminate (eq_trans (eq_sym E) Q0)]). assert (Q' := k_next _ _ _ K2). unfold le in Q. lia. }
    destruct (Ib Pb X s4 le b W4 R4) as (w & s5 & Ev & K5 & Sw).
    + intros y Hy. exact (handed_later _ _ _ (k_next _ _ _ K04) (HX y Hy)).
    + exact S4.
    + apply (holds_kept _ _ (k_cells _ _ _ K4) (k_strs _ _ _ K4) (k_bytes _ _ _ K4)). apply HK, Hb.
    + exists w, s5. split; [|split; [exact (keeps_trans _ _ _ _ K04 K5)|exact Sw]]. apply C.
      apply (let_iff bv (map fst bs)).
      { exists bcs. split; [exact Lb|]. clear -Fb. revert bs Fb. induction bcs as [|bc bcs IH]; intros bs Fb; destruct bs as [|[x e] bs]; try (inversion Fb; fail); [constructor|].
        cbn [map fst snd] in Fb. inversion Fb as [|? ? ? ? H1 H2]; subst. constructor; [|apply IH, H2].
        destruct (holds_list_inv _ _ _ H1) as (zs & Lz & Fz). apply Forall2_cons_inv_r in Fz. destruct Fz as (z & zs' & Hz & _ & ->). apply holds_sym_inv in Hz. subst z.
        destruct (list_head _ _ _ _ Lz) as (l & d & -> & E & _). split; [reflexivity|]. cbn [head_of fst]. rewrite (cell_some _ _ _ E). reflexivity. }
      cbv zeta. apply I. cbn [eval_each]. exists (Done (Ok w)), s5. split; [exact Ev|]. split; reflexivity.
Qed.
(** The parameters, the body and the names a function sees. *)
Definition parts (v : value) : option (list string * expr * list (string * value)) :=
  match v with
  | Closure xs body ns => Some (xs, body, ns)
  | Looping x xs body ns => Some (xs, body, (x, v) :: ns)
  | _ => None
  end.
Lemma stands_parts X s w fv xs body ns : standsX X s w fv -> parts fv = Some (xs, body, ns) -> exists (fl : loc) fs bc,
  w = VFun fl /\ s_funs s !! fl = Some fs /\ fn_proc fs = None /\ f_varargs (fn_code fs) = false /\ f_req (fn_code fs) = Z.of_nat (length xs) /\
  holds s (f_params (fn_code fs)) (XList (map XSym xs)) /\ Forall plain_name xs /\ List.NoDup xs /\ is_list s (f_body (fn_code fs)) [bc] /\
  holds s bc (written body) /\ proper body /\ seesX X s (f_env (fn_code fs)) ns.
Proof.
  intros H E. assert (H' := H). destruct H; try discriminate; cbn [parts] in E; injection E as <- <- <-.
  - subst b. do 3 eexists. split; [reflexivity|]. split; [eassumption|]. repeat apply conj; eassumption.
  - subst b. do 3 eexists. split; [reflexivity|]. split; [eassumption|]. repeat apply conj; try eassumption.
    change ((x, Looping x xs0 body0 ns0) :: ns0) with ([(x, Looping x xs0 body0 ns0)] ++ ns0).
    eapply seesX_local; [| | | | | |eassumption]; try (subst le; eassumption).
    match goal with K : e_binds _ = _ |- _ => rewrite K end. econstructor; [eassumption|eassumption|reflexivity| |constructor].
    match goal with K : b_val _ = _ |- _ => rewrite K end. exact H'.
Qed.
(** A function called with operands to be evaluated. *)
Lemma function_value G X s env ns (fl : loc) fv xs body ns' d cs es vs v : wf_state s -> ready G s -> (forall l, In l X -> handed_out s l) -> seesX X s env ns ->
  standsX X s (VFun fl) fv -> parts fv = Some (xs, body, ns') -> Forall2 (good G ns) es vs -> (forall e, In e es -> proper e) -> length xs = length vs ->
  good G (combine xs vs ++ ns') body v -> is_list s d cs -> Forall2 (holds s) cs (map written es) ->
  exists w s', calls_function fl None (evaluated env) d (length cs) env s (Done (Ok w)) s' /\ keeps [] s s' /\ standsX X s' w v.
Proof.
  intros W1 R1 HX1 S1 Sw Ep F Pe Len Ib Ld Fc. destruct (stands_parts _ _ _ _ _ _ _ Sw Ep) as (fl' & fs & bc & E & Hfs & Hp & Hv & Hr & Hps & Px & Nd & Lb & Hbc & Pb & Sn).
  injection E as <-.
  set (le := s_next s). set (fn := fn_code fs) in *. set (s2 := open_env (f_name fn) (f_env fn) (e_frame (env_at s (f_env fn))) s).
  assert (W2 : wf_state s2) by apply open_env_wf, W1. assert (K2 : keeps [] s s2) by apply keeps_open, W1.
  assert (Nle : ~ In le X). { intros I. specialize (HX1 _ I). unfold handed_out, le in HX1. lia. }
  assert (Ng : le <> s_global s). { assert (Q := ready_global G s W1 R1). unfold le. lia. }
  assert (Ng2 : le <> s_global s2) by (rewrite (k_global _ _ _ K2); exact Ng).
  assert (He := open_env_at (f_name fn) (f_env fn) (e_frame (env_at s (f_env fn))) s). fold le in He. fold s2 in He.
  assert (M2 := keeps_moves (le :: X) [] s s2 ltac:(intros ? []) K2). assert (Fm := fresh_moves X s W1). fold le in Fm.
  assert (S2 : seesX (le :: X) s2 env ns) by exact (sees_moved _ _ _ _ M2 _ _ (sees_moved _ _ _ _ Fm _ _ S1)).
  assert (Sn2 : seesX (le :: X) s2 (f_env fn) ns') by exact (sees_moved _ _ _ _ M2 _ _ (sees_moved _ _ _ _ Fm _ _ Sn)).
  assert (HK2 := fun d v => holds_kept _ _ (k_cells _ _ _ K2) (k_strs _ _ _ K2) (k_bytes _ _ _ K2) d v).
  assert (HL : forall l, In l (le :: X) -> handed_out s2 l).
  { intros y [<-|I]; [|exact (handed_later _ _ _ (k_next _ _ _ K2) (HX1 y I))]. unfold handed_out, s2. rewrite open_next. assert (Q := ready_global G s W1 R1). unfold le. lia. }
  destruct (pass_all G ns es vs F Pe X s2 env d cs (f_params fn) xs le (Env (f_name fn) (Some (f_env fn)) (e_frame (env_at s (f_env fn))) [] (e_restricted (env_at s (f_env fn)))) [] Len Px Nd W2 (ready_still _ _ _ K2 R1) HL Ng2 S2 (is_list_kept _ _ _ _ (k_cells _ _ _ K2) Ld)) as (s3 & K3 & W3 & (e3 & He3 & Q1 & Q2 & B3) & C).
  - eapply Forall2_impl; [exact Fc|]. intros x y. apply HK2.
  - apply HK2, Hps.
  - exact He.
  - constructor.
  - cbn [e_parent e_frame app] in Q1, Q2, B3. destruct (seen_frame G X s (f_env fn) ns' R1 Sn) as (Frn & _ & _). rewrite Frn in Q2.
    destruct (inner_scope G X s2 s3 le e3 (f_env fn) _ ns' Nle ltac:(rewrite (k_global _ _ _ K3); exact Ng2) He3 Q1 Q2 B3 K3 Sn2 (ready_still _ _ _ K2 R1) Ng2) as [S3 R3].
    assert (K03 : keeps [] s s3) by (apply (keeps_fresh le s s2 s3); [exact (next_free s W1)|exact K2|exact K3]).
    assert (K13 := keeps_trans _ _ _ _ (keeps_more [] [le] _ _ ltac:(intros ? []) K2) K3).
    destruct (Ib Pb X s3 le bc W3 R3) as (w & s4 & Ev2 & K4 & Sw2).
    + intros y Hy. exact (handed_later _ _ _ (k_next _ _ _ K03) (HX1 y Hy)).
    + exact S3.
    + apply (holds_kept _ _ (k_cells _ _ _ K13) (k_strs _ _ _ K13) (k_bytes _ _ _ K13)). exact Hbc.
    + exists w, s4. split; [|split; [exact (keeps_trans _ _ _ _ K03 K4)|exact Sw2]].
      assert (Fi := fun_is _ _ _ Hfs). destruct (seen_frame G X s env ns R1 S1) as (Fr1 & Sf1 & Ne1).
      assert (Rc : receiver_of s fl env = None) by (unfold receiver_of; rewrite Fr1; destruct (fn_slot (fun_at s fl)); reflexivity).
      assert (Pc : plain_call s fl env) by (split; [right; split; [exact Fr1|exact Sf1]|rewrite Fi; exact Hp]). assert (Nn : env <> s_next s) by (assert (Q := env_below s env W1 Ne1); lia).
      pose proof (fun o s' => proj2 (calls_plain fl (evaluated env) d (length cs) env s o s' Pc Nn)) as A.
      rewrite Rc in A. apply A. clear A.
      * cbv zeta. rewrite Fi. fold fn. rewrite Hv, Hr. unfold enough. rewrite (Forall2_length _ _ _ Fc), map_length, (Forall2_length _ _ _ F), Len, Z.eqb_refl.
        apply C. exact (body_value le s3 bc (f_body fn) w s4 fn (is_list_kept _ _ _ _ (k_cells _ _ _ K13) Lb) eq_refl Ev2 K4).
Qed.
Lemma good_call G ns f es fv xs body ns' vs v : good G ns f fv -> parts fv = Some (xs, body, ns') -> Forall2 (good G ns) es vs -> length xs = length vs ->
  means G ns f fv -> good G (combine xs vs ++ ns') body v -> good G ns (SpecCore.Call f es) v.
Proof.
  intros If Ep F Len Mf Ib P X s env c W R HX S Hc. inversion P as [| | | | | |? ? Pf Pe| | | | | | | |]; subst. cbn [written] in Hc.
  destruct (holds_list_inv _ _ _ Hc) as (cs & L & Fc). apply Forall2_cons_inv_r in Fc.
  destruct Fc as (h & cs' & Hh & Fc & ->). destruct (list_head _ _ _ _ L) as (l & d & -> & E & N & Ld).
  destruct (If Pf X s env h W R HX S Hh) as (w & s1 & Ev & K & Sw). assert (W1 := wf_evals _ _ _ _ _ W Ev).
  assert (Ph : plain_head h /\ forall n, h = VSym n -> has_suffix ":" n = false).
  { inversion Pf as [| | | |x Px| | | | | | | | | |]; subst; cbn [written] in Hh;
      try (destruct (holds_nonempty _ _ _ _ Hh) as (lh & ->); split; [exact Logic.I|discriminate]).
    - inversion Mf; subst; discriminate.
    - inversion Mf; subst; discriminate.
    - inversion Mf; subst; discriminate.
    - apply holds_sym_inv in Hh. subst h. destruct Px as (Q & _). split; [exact Q|]. intros n [= <-]. apply Q. }
  destruct Ph as [Ph Ps]. destruct (seen_frame G X s env ns R S) as (Fr & _ & _).
  assert (R1 := ready_still _ _ _ K R). assert (M1 := keeps_moves X [] s s1 ltac:(intros ? []) K). assert (S1 := sees_moved _ _ _ _ M1 _ _ S).
  assert (HX1 : forall l, In l X -> handed_out s1 l) by (intros y Hy; exact (handed_later _ _ _ (k_next _ _ _ K) (HX y Hy))).
  destruct (stands_parts _ _ _ _ _ _ _ Sw Ep) as (fl & fs & bc & -> & Hfs & _ & _ & _ & Hps & _).
  assert (Ld1 := is_list_kept _ _ _ _ (k_cells _ _ _ K) Ld).
  destruct (function_value G X s1 env ns fl fv xs body ns' d cs' es vs v W1 R1 HX1 S1 Sw Ep F Pe Len Ib Ld1) as (w & s4 & C & K4 & Sw2).
  { eapply Forall2_impl; [exact Fc|]. intros x y. apply (holds_kept _ _ (k_cells _ _ _ K) (k_strs _ _ _ K) (k_bytes _ _ _ K)). }
  exists w, s4. split; [|split; [exact (keeps_trans _ _ _ _ K K4)|exact Sw2]].
  apply call_expression; [exact (cell_end _ _ _ _ E N)|cbn [head_of]; rewrite (cell_some _ _ _ E); exact Ph|].
  exists (Done (Ok (VFun fl))), s1. split; [cbn [head_of]; rewrite (cell_some _ _ _ E); exact (operator_frame _ _ _ _ _ Fr Ps Ev)|].
  cbn [nilb rest_of]. rewrite (cell_some _ _ _ (k_cells _ _ _ K _ _ E)). cbn [snd].
  destruct (seen_frame G X s1 env ns R1 S1) as (Fr1 & _ & _). destruct (holds_list_inv _ _ _ Hps) as (pcs & Lp & _).
  apply (function_called_any fl d cs' env s1); [exact Ld1|rewrite (fun_is _ _ _ Hfs); exact (list_not_symbol _ _ _ Lp)|].
  rewrite Fr1. destruct (fn_slot (fun_at s1 fl)); exact C.
Qed.
(** *** Named let *)
Lemma bind_at_is s (l : loc) e : s_binds s !! l = Some e -> bind_at s l = e.
Proof. intros H. unfold bind_at. rewrite H. reflexivity. Qed.
Lemma written_full e : written e <> XList [].
Proof. destruct e; discriminate. Qed.
Lemma assign_keeps s s1 (b : loc) v : wf_state s -> keeps [] s s1 -> (s_next s <= b)%positive -> keeps [] s (assign b v s1).
Proof.
  intros W K Le. constructor; try apply K. intros l e He. cbn. unfold put. assert (Hb := k_binds _ _ _ K _ _ He).
  destruct (s_binds s1 !! b); [|exact Hb]. rewrite lookup_insert_ne; [exact Hb|]. intros <-. destruct (wf_binds _ W _ _ He). lia.
Qed.
Lemma add_env (le : loc) n v s e : s_envs s !! le = Some e ->
  s_envs (add_binding le (VSym n) v s) !! le = Some (Env (e_name e) (e_parent e) (e_frame e) (aset n (s_next s) (e_binds e)) (e_restricted e)).
Proof. intros He. unfold add_binding. rewrite (env_is _ _ _ He). cbn. unfold put. rewrite He. apply lookup_insert. Qed.
Lemma syms_hold s xs : Forall2 (holds s) (map VSym xs) (map XSym xs).
Proof. induction xs; cbn [map]; [constructor|]. constructor; [constructor|assumption]. Qed.
Lemma assign_at (b : loc) v s e : s_binds s !! b = Some e -> s_binds (assign b v s) !! b = Some (Binding (b_sym e) v (b_prot e)).
Proof. intros He. unfold assign. rewrite (bind_at_is _ _ _ He). cbn. unfold put. rewrite He. apply lookup_insert. Qed.
(** The loop function is made and about to be called with the initial expressions. *)
Lemma loop_opens G ns x bs body : proper (Loop x bs body) -> forall X s env c, wf_state s -> ready G s -> (forall l, In l X -> handed_out s l) -> seesX X s env ns ->
  holds s c (written (Loop x bs body)) -> exists (fl : loc) il es s9, wf_state s9 /\ keeps [] s s9 /\ standsX X s9 (VFun fl) (Looping x (map fst bs) body ns) /\
    is_list s9 il es /\ Forall2 (holds s9) es (map written (map snd bs)) /\
    forall o s', calls_function fl None (evaluated env) il (length es) env s9 o s' -> evals c env s o s'.
Proof.
  intros P X s env c W R HX S Hc. inversion P as [| | | | | | | | | | | | | |? ? ? Px Pxs Nd Pe Pb]; subst. cbn [written] in Hc.
  destruct (form_call G X s env ns "let" [AtLeast 1] c _ special_let ltac:(cbn; tauto) W R S Hc ltac:(eexists; split; [left; reflexivity|cbn; lia])) as (us & s1 & W1 & K & Fu & N & C).
  apply Forall2_cons_inv_r in Fu. destruct Fu as (xw & us0 & Hx & Fu & ->). apply holds_sym_inv in Hx. subst xw.
  apply Forall2_cons_inv_r in Fu. destruct Fu as (bv & us1 & Hbv & Fu & ->). apply Forall2_cons_inv_r in Fu. destruct Fu as (b & us2 & Hb & Fu & ->). apply Forall2_nil_inv_r in Fu. subst us2.
  apply (proj1 (List.Forall_cons_iff _ _ _)) in N. destruct N as [_ N]. apply (proj1 (List.Forall_cons_iff _ _ _)) in N. destruct N as [_ N].
  destruct (holds_list_inv _ _ _ Hbv) as (bcs & Lb & Fb).
  assert (Q : exists es, Forall2 (fun b n => head_of s1 b = VSym n) bcs (map fst bs) /\ Forall2 (fun b e => head_of s1 (rest_of s1 b) = e /\ e <> VNil) bcs es /\ Forall2 (holds s1) es (map written (map snd bs))).
  { clear -Fb. revert bs Fb. induction bcs as [|bc bcs IH]; intros bs Fb; destruct bs as [|[y e] bs]; try (inversion Fb; fail); [exists []; repeat split; constructor|].
    cbn [map fst snd] in Fb. inversion Fb as [|? ? ? ? H1 H2]; subst. destruct (IH bs H2) as (es & A & B & D).
    destruct (holds_list_inv _ _ _ H1) as (zs & Lz & Fz). apply Forall2_cons_inv_r in Fz. destruct Fz as (z & zs' & Hz & Fz & ->). apply holds_sym_inv in Hz. subst z.
    apply Forall2_cons_inv_r in Fz. destruct Fz as (z & zs2 & Hz & Fz & ->).
    destruct (list_head _ _ _ _ Lz) as (l & d & -> & E & _ & Ld). destruct (list_head _ _ _ _ Ld) as (l2 & d2 & -> & E2 & _ & _).
    exists (z :: es). cbn [map fst snd]. split; [constructor; [cbn [head_of]; rewrite (cell_some _ _ _ E); reflexivity|exact A]|]. split; [|constructor; [exact Hz|exact D]].
    constructor; [|exact B]. cbn [rest_of]. rewrite (cell_some _ _ _ E). cbn [snd head_of]. rewrite (cell_some _ _ _ E2). split; [reflexivity|].
    intros ->. inversion Hz as [| | | | |? zs0 ? L0 F0| |]; subst; try discriminate. inversion L0; subst. inversion F0; subst.
    match goal with K : XList [] = written _ |- _ => exact (written_full _ (eq_sym K)) end. }
  destruct Q as (es & F1 & F2 & F3).
  pose proof (fun o s' => proj2 (named_let_iff x bv [b] env (map fst bs) es s1 o s' W1 (ex_intro _ bcs (conj Lb (conj F1 F2))))) as A. cbv zeta in A.
  set (s2 := entering "let" env s1) in *. assert (W2 : wf_state s2) by (apply wf_entering, W1). assert (K2 : keeps [] s s2) by exact (keeps_trans _ _ _ _ K (keeps_entering "let" env s1)).
  assert (N1 : no_nils (map VSym (map fst bs))) by (apply List.Forall_forall; intros y I; apply in_map_iff in I; destruct I as (z & <- & _); discriminate).
  assert (N2 : no_nils es) by (clear -F2; induction F2 as [|? ? ? ? [_ ?]]; constructor; assumption).
  pose proof (new_list_is _ s2 W2 N1) as L1. destruct (new_list_grows (map VSym (map fst bs)) s2 W2) as [G3 W3].
  destruct (new_list (map VSym (map fst bs)) s2) as [vl s3]. cbn [fst snd] in *.
  pose proof (new_list_is _ s3 W3 N2) as L2. destruct (new_list_grows es s3 W3) as [G4 W4].
  destruct (new_list es s3) as [il s4]. cbn [fst snd] in *.
  assert (K3 := grows_keeps _ _ G3). assert (K4 := grows_keeps _ _ G4). assert (K24 := keeps_trans _ _ _ _ K3 K4). assert (K04 := keeps_trans _ _ _ _ K2 K24).
  set (le := s_next s4) in *. set (s5 := open_env x env (e_frame (env_at s4 env)) s4) in *.
  assert (W5 : wf_state s5) by apply open_env_wf, W4. assert (K5 : keeps [] s4 s5) by apply keeps_open, W4. assert (K05 := keeps_trans _ _ _ _ K04 K5).
  assert (R4 := ready_still _ _ _ K04 R). assert (S4 := sees_moved _ _ _ _ (keeps_moves X [] _ _ ltac:(intros ? []) K04) _ _ S).
  assert (HX4 : forall l, In l X -> handed_out s4 l) by (intros y Hy; exact (handed_later _ _ _ (k_next _ _ _ K04) (HX y Hy))).
  assert (Nle : ~ In le X). { intros I. specialize (HX4 _ I). unfold handed_out, le in HX4. lia. }
  assert (Ng : le <> s_global s4). { assert (Q := ready_global G s4 W4 R4). unfold le. lia. }
  assert (He := open_env_at x env (e_frame (env_at s4 env)) s4). fold le in He. fold s5 in He.
  destruct (seen_frame G X s4 env ns R4 S4) as (Fr4 & _ & _).
  clearbody s5.
  set (bd := s_next s5). set (s6 := add_binding le (VSym x) VNil s5).
  assert (B6 : bind_here le (VSym x) VNil s5 = Some s6).
  { unfold bind_here. cbn [name_of]. unfold local_binding. rewrite (env_is _ _ _ He). reflexivity. }
  assert (W6 : wf_state s6). { pose proof (bind_locally_run le (VSym x) VNil s5) as Rn. rewrite B6 in Rn. exact (wf_runs _ _ _ _ _ W5 Rn). }
  assert (K6 : keeps [le] s5 s6) by apply keeps_add, W5.
  assert (He6 : s_envs s6 !! le = Some (Env x (Some env) (e_frame (env_at s4 env)) [(x, bd)] (e_restricted (env_at s4 env)))).
  { exact (add_env le x VNil s5 _ He). }
  assert (Hb6 : s_binds s6 !! bd = Some (Binding (VSym x) VNil false)) by (unfold s6, add_binding; cbn; apply lookup_insert).
  unfold then_bind at 1 in A. rewrite B6 in A.
  assert (Lbd := new_tail_is [b] s6 W6 N). destruct (new_tail_grows [b] VNil s6 W6) as [G7 W7].
  destruct (new_tail [b] VNil s6) as [bl s7]. cbn [fst snd] in *. unfold fresh_function in A. cbv beta iota zeta in A.
  assert (K7 := grows_keeps _ _ G7).
  set (fl := s_next s7) in *. set (f := Fn x vl false (Z.of_nat (length (map fst bs))) bl le) in *. set (s8 := set_funs _ _) in *.
  assert (K8 : keeps [] s7 s8).
  { apply grows_keeps. unfold s8. constructor; try reflexivity; try (intros l y H; exact H).
    - cbn. lia.
    - intros l g Hg. cbn. rewrite lookup_insert_ne; [exact Hg|]. intros <-. destruct (wf_funs _ W7 _ _ Hg). unfold fl in *. lia.
    - exists []. split; [reflexivity|constructor]. }
  assert (K68 := keeps_trans _ _ _ _ K7 K8). assert (K58 := keeps_trans _ _ _ _ K6 (keeps_more [] [le] _ _ ltac:(intros ? []) K68)).
  assert (He8 := k_envs _ _ _ K68 _ _ ltac:(intros []) He6). assert (Hb8 := k_binds _ _ _ K68 _ _ Hb6).
  assert (W8 : wf_state s8). { pose proof (make_function_run x vl (length (map fst bs)) false bl le s7) as Q. unfold fresh_function in Q. fold f in Q. fold s8 in Q.
    refine (wf_runs _ _ _ _ _ W7 (Q _)). replace (length (map fst bs)) with (length (map VSym (map fst bs))) by apply map_length. apply list_parameters.
    apply (is_list_kept s3); [|exact L1]. exact (k_cells _ _ _ (keeps_trans _ _ _ _ (keeps_more [] [le] _ _ ltac:(intros ? []) (keeps_trans _ _ _ _ K4 K5)) (keeps_trans _ _ _ _ K6 (keeps_more [] [le] _ _ ltac:(intros ? []) K7)))). }
  set (s9 := assign bd (VFun fl) s8).
  assert (B9 : bind_here le (VSym x) (VFun fl) s8 = Some s9).
  { unfold bind_here. cbn [name_of]. unfold local_binding. rewrite (env_is _ _ _ He8). cbn [e_binds alookup]. rewrite str_eqb_refl. rewrite (bind_at_is _ _ _ Hb8). reflexivity. }
  unfold then_bind in A. rewrite B9 in A.
  assert (W9 : wf_state s9). { pose proof (bind_locally_run le (VSym x) (VFun fl) s8) as Rn. rewrite B9 in Rn. exact (wf_runs _ _ _ _ _ W8 Rn). }
  assert (K08 : keeps [] s s8).
  { apply (keeps_fresh le s s5 s8); [|exact K05|exact K58]. destruct (s_envs s !! le) eqn:E'; [|exact E']. exfalso.
    assert (Q : (le < s_next s)%positive) by (apply env_below; [exact W|intros Q0; discriminate (eq_trans (eq_sym E') Q0)]). assert (Q' := k_next _ _ _ K04). unfold le in Q. lia. }
  assert (K09 : keeps [] s s9) by (apply assign_keeps; [exact W|exact K08|exact (k_next _ _ _ K05)]).
  assert (R9 := ready_still _ _ _ K09 R). assert (S9 := sees_moved _ _ _ _ (keeps_moves X [] _ _ ltac:(intros ? []) K09) _ _ S).
  assert (C49 : kept (s_cells s4) (s_cells s9)) by exact (k_cells _ _ _ (keeps_trans _ _ _ _ (keeps_more [] [le] _ _ ltac:(intros ? []) K5) K58)).
  assert (K48 := keeps_trans _ _ _ _ (keeps_more [] [le] _ _ ltac:(intros ? []) K5) K58).
  assert (K18 := keeps_trans _ _ _ _ (keeps_more [] [le] _ _ ltac:(intros ? []) (keeps_trans _ _ _ _ (keeps_entering "let" env s1) K24)) K48).
  assert (HK := fun d v => holds_kept s1 s9 (k_cells _ _ _ K18) (k_strs _ _ _ K18) (k_bytes _ _ _ K18) d v).
  assert (Sf : standsX X s9 (VFun fl) (Looping x (map fst bs) body ns)).
  { apply (sx_loop X s9 fl (FnState f false None) x (map fst bs) body ns bl b le (Env x (Some env) (e_frame (env_at s4 env)) [(x, bd)] (e_restricted (env_at s4 env))) env bd (Binding (VSym x) (VFun fl) false)); try reflexivity.
    - unfold s9, s8. cbn. apply lookup_insert.
    - cbn. econstructor; [apply (is_list_kept s4); [exact C49|exact (is_list_kept _ _ _ _ (k_cells _ _ _ K4) L1)]|]. apply syms_hold.
    - exact Pxs.
    - exact Nd.
    - apply (is_list_kept s7 s9 bl [b]); [exact (k_cells _ _ _ K8)|exact Lbd].
    - apply HK, Hb.
    - exact Pb.
    - exact Nle.
    - exact He8.
    - change (s_global s9) with (s_global s8). rewrite (k_global _ _ _ K48). exact Ng.
    - exact Fr4.
    - exact Px.
    - exact (assign_at bd (VFun fl) s8 _ Hb8).
    - exact S9. }
  exists fl, il, es, s9. split; [exact W9|]. split; [exact K09|]. split; [exact Sf|]. split; [exact (is_list_kept _ _ _ _ C49 L2)|].
  split; [eapply Forall2_impl; [exact F3|]; intros y z; apply HK|]. intros o s' Cf. apply C, A. exact Cf.
Qed.
Lemma good_loop G ns x bs body vs v : Forall2 (good G ns) (map snd bs) vs -> good G (combine (map fst bs) vs ++ (x, Looping x (map fst bs) body ns) :: ns) body v ->
  good G ns (Loop x bs body) v.
Proof.
  intros F Ib P X s env c W R HX S Hc. destruct (loop_opens G ns x bs body P X s env c W R HX S Hc) as (fl & il & es & s9 & W9 & K09 & Sf & L9 & F9 & C).
  inversion P as [| | | | | | | | | | | | | |? ? ? Px Pxs Nd Pe Pb]; subst. assert (R9 := ready_still _ _ _ K09 R). assert (S9 := sees_moved _ _ _ _ (keeps_moves X [] _ _ ltac:(intros ? []) K09) _ _ S).
  assert (Le : length (map fst bs) = length vs) by (rewrite <- (Forall2_length _ _ _ F), !map_length; reflexivity).
  destruct (function_value G X s9 env ns fl _ (map fst bs) body _ il es (map snd bs) vs v W9 R9 ltac:(intros y Hy; exact (handed_later _ _ _ (k_next _ _ _ K09) (HX y Hy))) S9 Sf eq_refl F) as (w & s10 & Cf & K10 & Sw).
  - intros e I. apply in_map_iff in I. destruct I as (b0 & <- & I). exact (Pe b0 I).
  - exact Le.
  - exact Ib.
  - exact L9.
  - exact F9.
  - exists w, s10. split; [apply C; exact Cf|]. split; [exact (keeps_trans _ _ _ _ K09 K10)|exact Sw].
Qed.
(** *** Sequences: and, or, begin, cond *)
Lemma eval_text G ns t : good G ns (Text t) (Characters t).
Proof.
  intros P X s env c W R HX S Hc. cbn [written] in Hc. inversion Hc; subst. eexists _, s. split; [apply eval_self; [exact Logic.I|split; reflexivity]|].
  split; [apply keeps_refl|constructor; assumption].
Qed.
Lemma quoted_stands X s : forall d c v, holds s c d -> quoted_value d = Some v -> standsX X s c v.
Proof.
  induction d as [z|b|t|t|bs|ds IH|ds y IH IHy] using tree_ind2; intros c v H Q; cbn [quoted_value] in Q; try discriminate.
  - injection Q as <-. inversion H; constructor.
  - injection Q as <-. inversion H; constructor.
  - injection Q as <-. inversion H; subst. constructor. assumption.
  - injection Q as <-. inversion H; constructor.
  - destruct (fold_right _ _ _) as [vs|] eqn:E in Q; [|discriminate]. injection Q as <-. destruct (holds_list_inv _ _ _ H) as (xs & L & F).
    econstructor; [exact L|]. clear H L. revert xs vs F E. induction IH as [|d ds Hd _ IHds]; intros xs vs F E; cbn [fold_right] in E.
    + injection E as <-. apply Forall2_nil_inv_r in F. subst. constructor.
    + apply Forall2_cons_inv_r in F. destruct F as (x & xs' & Hx & F & ->). destruct (quoted_value d) as [v|] eqn:Qd; [|discriminate].
      destruct (fold_right _ _ _) as [vs'|] eqn:E' in E; [|discriminate]. injection E as <-. constructor; [exact (Hd _ _ Hx eq_refl)|]. apply (IHds _ _ F E').
Qed.
Lemma special_quote : special_here "quote" [Exactly 1].
Proof.
  destruct (table "quote") as [p|] eqn:T; [|discriminate]. exists p. destruct (table_in _ _ T) as [I1 I2]. injection T as <-.
  repeat apply conj; try assumption; try reflexivity. repeat constructor; unfold sane, int64_max, two63; lia.
Qed.
Lemma special_any n : In n ["and"; "or"; "cond"; "begin"] -> special_here n [AnyCount].
Proof.
  intros [<-|[<-|[<-|[<-|[]]]]]; (match goal with |- special_here ?m _ => destruct (table m) as [p|] eqn:T; [|discriminate]; exists p; destruct (table_in _ _ T) as [I1 I2]; injection T as <- end;
  repeat apply conj; try assumption; try reflexivity; repeat constructor).
Qed.
Lemma good_quote G ns d v : quoted_value d = Some v -> good G ns (Quote d) v.
Proof.
  intros Q P X s env c W R HX S Hc. cbn [written] in Hc.
  destruct (form_call G X s env ns "quote" [Exactly 1] c _ special_quote ltac:(cbn; tauto) W R S Hc ltac:(eexists; split; [left; reflexivity|reflexivity])) as (us & s1 & W1 & K & F & N & C).
  apply Forall2_cons_inv_r in F. destruct F as (a & us1 & Ha & F & ->). apply Forall2_nil_inv_r in F. subst us1.
  assert (K2 := keeps_entering "quote" env s1). exists a, (entering "quote" env s1). split; [apply C; applies; unfold quote_impl; cbn [arg nth]; assert (Na := Forall_inv N); destruct a; try (exfalso; apply Na; reflexivity); apply runs_ret|]. split; [exact (keeps_trans _ _ _ _ K K2)|].
  apply (quoted_stands X _ d); [|exact Q]. apply (holds_kept _ _ (k_cells _ _ _ K2) (k_strs _ _ _ K2) (k_bytes _ _ _ K2)). exact Ha.
Qed.
(** [es] evaluated one after the other, giving values that represent [vs] (and count as true when these do). *)
Inductive in_sequence (env : loc) : list val -> list value -> state -> state -> Prop :=
| seq_none s : in_sequence env [] [] s s
| seq_more c cs w v vs s s1 s2 : evals c env s (Done (Ok w)) s1 -> truthy s1 w = counts_true v -> in_sequence env cs vs s1 s2 -> in_sequence env (c :: cs) (v :: vs) s s2.
Lemma sequence_all G ns es vs : Forall2 (good G ns) es vs -> (forall e, In e es -> proper e) -> forall X s env cs,
  wf_state s -> ready G s -> (forall l, In l X -> handed_out s l) -> seesX X s env ns -> Forall2 (holds s) cs (map written es) ->
  exists s', in_sequence env cs vs s s' /\ keeps [] s s' /\ wf_state s'.
Proof.
  induction 1 as [|e v es vs He _ IH]; intros P X s env cs W R HX S F.
  - apply Forall2_nil_inv_r in F. subst. exists s. split; [constructor|]. split; [apply keeps_refl|exact W].
  - cbn [map] in F. apply Forall2_cons_inv_r in F. destruct F as (c & cs' & Hc & F & ->).
    destruct (He (P e (or_introl eq_refl)) X s env c W R HX S Hc) as (w & s1 & Ev & K & Sw). assert (W1 := wf_evals _ _ _ _ _ W Ev).
    destruct (IH (fun e' I => P e' (or_intror I)) X s1 env cs' W1 (ready_still _ _ _ K R)) as (s2 & Q & K2 & W2).
    + intros y Hy. exact (handed_later _ _ _ (k_next _ _ _ K) (HX y Hy)).
    + exact (sees_moved _ _ _ _ (keeps_moves X [] s s1 ltac:(intros ? []) K) _ _ S).
    + eapply Forall2_impl; [exact F|]. intros x y. apply (holds_kept s s1 (k_cells _ _ _ K) (k_strs _ _ _ K) (k_bytes _ _ _ K)).
    + exists s2. split; [econstructor; [exact Ev|exact (truthy_stands _ _ _ _ Sw)|exact Q]|]. split; [exact (keeps_trans _ _ _ _ K K2)|exact W2].
Qed.
Lemma and_sequence env cs vs s s1 r o s2 : in_sequence env cs vs s s1 -> Forall (fun v => counts_true v = true) vs ->
  (forall last, and_of r env last s1 o s2) -> forall last, and_of (cs ++ r) env last s o s2.
Proof.
  induction 1 as [s|c cs w v vs s s1 s3 Ev T _ IH]; intros F H last; [apply H|]. apply (proj1 (List.Forall_cons_iff _ _ _)) in F. destruct F as [F1 F2].
  cbn [app and_of]. exists (Done (Ok w)), s1. split; [exact Ev|]. rewrite T, F1. apply IH; assumption.
Qed.
Lemma or_sequence env cs vs s s1 r o s2 : in_sequence env cs vs s s1 -> Forall (fun v => counts_true v = false) vs ->
  (forall last, or_of r env last s1 o s2) -> forall last, or_of (cs ++ r) env last s o s2.
Proof.
  induction 1 as [s|c cs w v vs s s1 s3 Ev T _ IH]; intros F H last; [apply H|]. apply (proj1 (List.Forall_cons_iff _ _ _)) in F. destruct F as [F1 F2].
  cbn [app or_of]. exists (Done (Ok w)), s1. split; [exact Ev|]. rewrite T, F1. apply IH; assumption.
Qed.
Lemma begin_sequence env cs vs s s1 r o s2 : in_sequence env cs vs s s1 ->
  (forall last, eval_each r env last s1 o s2) -> forall last, eval_each (cs ++ r) env last s o s2.
Proof.
  induction 1 as [s|c cs w v vs s s1 s3 Ev T _ IH]; intros H last; [apply H|]. cbn [app eval_each]. exists (Done (Ok w)), s1. split; [exact Ev|]. apply IH; assumption.
Qed.
(** A form whose operands are expressions: those before the last that counts are evaluated, then that one. *)
Lemma good_sequence G ns n es vs e rest v : In n ["and"; "or"; "begin"] -> Forall2 (good G ns) es vs -> good G ns e v ->
  (forall e', In e' (es ++ e :: rest) -> proper e') -> forall X s env c, wf_state s -> ready G s -> (forall l, In l X -> handed_out s l) -> seesX X s env ns ->
  holds s c (XList (XSym n :: map written (es ++ e :: rest))) ->
  exists cs1 a cs2 s1 s2 w s3, in_sequence env cs1 vs (entering n env s1) s2 /\ evals a env s2 (Done (Ok w)) s3 /\ standsX X s3 w v /\ keeps [] s s3 /\
    (rest = [] -> cs2 = []) /\ forall o s', applies n (cs1 ++ a :: cs2) env s1 o s' -> evals c env s o s'.
Proof.
  intros In_ F Ge P X s env c W R HX S Hc.
  destruct (form_call G X s env ns n [AnyCount] c _ (special_any n ltac:(cbn in *; tauto)) ltac:(destruct In_ as [<-|[<-|[<-|[]]]]; cbn; tauto) W R S Hc ltac:(eexists; split; [left; reflexivity|exact Logic.I])) as (us & s1 & W1 & K & Fu & N & C).
  rewrite map_app in Fu. cbn [map] in Fu. apply Forall2_app_inv_r in Fu. destruct Fu as (cs1 & r & F1 & F2 & ->). apply Forall2_cons_inv_r in F2. destruct F2 as (a & cs2 & Ha & F2 & ->).
  assert (K1 := keeps_entering n env s1). assert (K01 := keeps_trans _ _ _ _ K K1). assert (W2 := wf_entering n env s1 W1).
  assert (HK := fun d v => holds_kept _ _ (k_cells _ _ _ K1) (k_strs _ _ _ K1) (k_bytes _ _ _ K1) d v).
  destruct (sequence_all G ns es vs F (fun e' I => P e' (in_or_app _ _ _ (or_introl I))) X (entering n env s1) env cs1 W2 (ready_still _ _ _ K01 R)) as (s2 & Q & K2 & W3).
  - intros y Hy. exact (handed_later _ _ _ (k_next _ _ _ K01) (HX y Hy)).
  - exact (sees_moved _ _ _ _ (keeps_moves X [] _ _ ltac:(intros ? []) K01) _ _ S).
  - eapply Forall2_impl; [exact F1|]. intros x y. apply HK.
  - assert (K02 := keeps_trans _ _ _ _ K01 K2).
    destruct (Ge (P e (in_elt _ _ _)) X s2 env a W3 (ready_still _ _ _ K02 R)) as (w & s3 & Ev & K3 & Sw).
    + intros y Hy. exact (handed_later _ _ _ (k_next _ _ _ K02) (HX y Hy)).
    + exact (sees_moved _ _ _ _ (keeps_moves X [] _ _ ltac:(intros ? []) K02) _ _ S).
    + apply (holds_kept _ _ (k_cells _ _ _ K2) (k_strs _ _ _ K2) (k_bytes _ _ _ K2)). apply HK, Ha.
    + exists cs1, a, cs2, s1, s2, w, s3. split; [exact Q|]. split; [exact Ev|]. split; [exact Sw|]. split; [exact (keeps_trans _ _ _ _ K02 K3)|]. split; [|exact C].
      intros ->. apply Forall2_nil_inv_r in F2. exact F2.
Qed.
Lemma good_and G ns es vs e rest v : Forall2 (good G ns) es vs -> Forall (fun v => counts_true v = true) vs -> good G ns e v -> rest = [] \/ counts_true v = false -> good G ns (And (es ++ e :: rest)) v.
Proof.
  intros F T Ge D P X s env c W R HX S Hc. inversion P as [| | | | | | | | |? Pe| | | | |]; subst.
  destruct (good_sequence G ns "and" es vs e rest v ltac:(cbn; tauto) F Ge Pe X s env c W R HX S Hc) as (cs1 & a & cs2 & s1 & s2 & w & s3 & Q & Ev & Sw & K & Hr & C).
  exists w, s3. split; [|split; assumption]. apply C. apply and_iff. apply (and_sequence _ _ _ _ _ _ _ _ Q T). intros last. cbn [and_of]. exists (Done (Ok w)), s3. split; [exact Ev|].
  rewrite (truthy_stands _ _ _ _ Sw). destruct D as [D|D]; [rewrite (Hr D)|rewrite D; split; reflexivity]. destruct (counts_true v); split; reflexivity.
Qed.
Lemma good_or G ns es vs e rest v : Forall2 (good G ns) es vs -> Forall (fun v => counts_true v = false) vs -> good G ns e v -> rest = [] \/ counts_true v = true -> good G ns (Or (es ++ e :: rest)) v.
Proof.
  intros F T Ge D P X s env c W R HX S Hc. inversion P as [| | | | | | | | | |? Pe| | | |]; subst.
  destruct (good_sequence G ns "or" es vs e rest v ltac:(cbn; tauto) F Ge Pe X s env c W R HX S Hc) as (cs1 & a & cs2 & s1 & s2 & w & s3 & Q & Ev & Sw & K & Hr & C).
  exists w, s3. split; [|split; assumption]. apply C. apply or_iff. apply (or_sequence _ _ _ _ _ _ _ _ Q T). intros last. cbn [or_of]. exists (Done (Ok w)), s3. split; [exact Ev|].
  rewrite (truthy_stands _ _ _ _ Sw). destruct D as [D|D]; [rewrite (Hr D)|rewrite D; split; reflexivity]. destruct (counts_true v); split; reflexivity.
Qed.
Lemma good_begin G ns es vs e v : Forall2 (good G ns) es vs -> good G ns e v -> good G ns (Begin (es ++ [e])) v.
Proof.
  intros F Ge P X s env c W R HX S Hc. inversion P as [| | | | | | | | | | |? Pe| | |]; subst.
  destruct (good_sequence G ns "begin" es vs e [] v ltac:(cbn; tauto) F Ge Pe X s env c W R HX S Hc) as (cs1 & a & cs2 & s1 & s2 & w & s3 & Q & Ev & Sw & K & Hr & C).
  exists w, s3. split; [|split; assumption]. apply C. apply begin_iff. apply (begin_sequence _ _ _ _ _ _ _ _ Q). intros last. rewrite (Hr eq_refl). cbn [eval_each]. exists (Done (Ok w)), s3. split; [exact Ev|split; reflexivity].
Qed.
(** cond *)
Lemma one_cell_value env s b c w s' : is_list s b [c] -> evals c env s (Done (Ok w)) s' -> keeps [] s s' -> eval_cells env b VNil s (Done (Ok w)) s'.
Proof.
  intros L Ev K. destruct (list_head _ _ _ _ L) as (l & d & -> & E & N & Ld).
  eapply cells_next; [exact (cell_end _ _ _ _ E N)|cbn [head_of]; rewrite (cell_some _ _ _ E); exact Ev|].
  cbn [rest_of]. rewrite (cell_some _ _ _ (k_cells _ _ _ K _ _ E)). cbn [snd]. apply cells_end. apply list_end. exact (is_list_kept _ _ _ _ (k_cells _ _ _ K) Ld).
Qed.
Lemma clause_parts s c t e : holds s c (XList [t; e]) -> exists ct ce, is_pair c = true /\ head_of s c = ct /\ holds s ct t /\ is_list s (rest_of s c) [ce] /\ holds s ce e.
Proof.
  intros H. destruct (holds_list_inv _ _ _ H) as (xs & L & F). apply Forall2_cons_inv_r in F. destruct F as (ct & xs1 & Ht & F & ->). apply Forall2_cons_inv_r in F. destruct F as (ce & xs2 & He & F & ->).
  apply Forall2_nil_inv_r in F. subst xs2. destruct (list_head _ _ _ _ L) as (l & d & -> & E & N & Ld). exists ct, ce. cbn [head_of rest_of is_pair]. rewrite (cell_some _ _ _ E). auto.
Qed.
Lemma not_else s ct t : holds s ct (written t) -> t <> Name "else" -> is_symbol "else" ct = false.
Proof.
  intros H N. destruct t; cbn [written] in H; inversion H; subst; try reflexivity; cbn [is_symbol]; try (destruct (str_eqb_spec x "else") as [->|]; [congruence|reflexivity]);
  match goal with L : is_list _ _ _ |- _ => inversion L; reflexivity end.
Qed.
Definition clause (c : expr * expr) : tree := XList [written (fst c); written (snd c)].
Definition proper_clause (c : expr * expr) : Prop := fst c <> Name "else" /\ proper (fst c) /\ proper (snd c).
Lemma cond_skips G ns cs bs : Forall2 (good G ns) (map fst cs) bs -> Forall (fun b => counts_true b = false) bs -> (forall c, In c cs -> proper_clause c) -> forall X s env us,
  wf_state s -> ready G s -> (forall l, In l X -> handed_out s l) -> seesX X s env ns -> Forall2 (holds s) us (map clause cs) ->
  exists s', keeps [] s s' /\ wf_state s' /\ forall r o s2, cond_of r env s' o s2 -> cond_of (us ++ r) env s o s2.
Proof.
  revert bs. induction cs as [|[t e] cs IH]; intros bs Fb T P X s env us W R HX S F.
  - apply Forall2_nil_inv_r in F. subst. exists s. split; [apply keeps_refl|]. split; [exact W|]. intros r o s2 H. exact H.
  - cbn [map fst] in *. inversion Fb as [|? b ? bs' He Fb']; subst. apply (proj1 (List.Forall_cons_iff _ _ _)) in T. destruct T as [T1 T2].
    apply Forall2_cons_inv_r in F. destruct F as (u & us' & Hu & F & ->). destruct (clause_parts _ _ _ _ Hu) as (ct & ce & Hp & Hh & Ht & Lr & Hce). cbn [fst snd] in *.
    destruct (P (t, e) (or_introl eq_refl)) as (Ne & Pt & _). cbn [fst] in *.
    destruct (He Pt X s env ct W R HX S Ht) as (w & s1 & Ev & K & Sw). assert (W1 := wf_evals _ _ _ _ _ W Ev).
    destruct (IH bs' Fb' T2 (fun c I => P c (or_intror I)) X s1 env us' W1 (ready_still _ _ _ K R)) as (s2 & K2 & W2 & Q).
    + intros y Hy. exact (handed_later _ _ _ (k_next _ _ _ K) (HX y Hy)).
    + exact (sees_moved _ _ _ _ (keeps_moves X [] s s1 ltac:(intros ? []) K) _ _ S).
    + eapply Forall2_impl; [exact F|]. intros x y. apply (holds_kept s s1 (k_cells _ _ _ K) (k_strs _ _ _ K) (k_bytes _ _ _ K)).
    + exists s2. split; [exact (keeps_trans _ _ _ _ K K2)|]. split; [exact W2|]. intros r o s3 H. cbn [app cond_of]. rewrite Hp, Hh, (not_else _ _ _ Ht Ne).
      exists (Done (Ok w)), s1. split; [exact Ev|]. rewrite (truthy_stands _ _ _ _ Sw), T1. apply Q, H.
Qed.
Definition else_clause (o : option expr) : list tree := match o with Some e => [XList [XSym "else"; written e]] | None => [] end.
(** Up to the clause that decides. *)
Lemma good_cond_start G ns cs bs rest o : Forall2 (good G ns) (map fst cs) bs -> Forall (fun b => counts_true b = false) bs -> (forall c, In c (cs ++ rest) -> proper_clause c) ->
  forall X s env c, wf_state s -> ready G s -> (forall l, In l X -> handed_out s l) -> seesX X s env ns ->
  holds s c (XList (XSym "cond" :: map clause (cs ++ rest) ++ else_clause o)) ->
  exists us s', keeps [] s s' /\ wf_state s' /\ Forall2 (holds s') us (map clause rest ++ else_clause o) /\ forall o s2, cond_of us env s' o s2 -> evals c env s o s2.
Proof.
  intros Fb T P X s env c W R HX S Hc.
  destruct (form_call G X s env ns "cond" [AnyCount] c _ (special_any "cond" ltac:(cbn in *; tauto)) ltac:(cbn; tauto) W R S Hc ltac:(eexists; split; [left; reflexivity|exact Logic.I])) as (us & s1 & W1 & K & Fu & N & C).
  rewrite map_app, <- app_assoc in Fu. apply Forall2_app_inv_r in Fu. destruct Fu as (us1 & us2 & F1 & F2 & ->).
  assert (K1 := keeps_entering "cond" env s1). assert (K01 := keeps_trans _ _ _ _ K K1). assert (W2 := wf_entering "cond" env s1 W1).
  assert (HK := fun d v => holds_kept _ _ (k_cells _ _ _ K1) (k_strs _ _ _ K1) (k_bytes _ _ _ K1) d v).
  destruct (cond_skips G ns cs bs Fb T (fun c I => P c (in_or_app _ _ _ (or_introl I))) X (entering "cond" env s1) env us1 W2 (ready_still _ _ _ K01 R)) as (s2 & K2 & W3 & Q).
  - intros y Hy. exact (handed_later _ _ _ (k_next _ _ _ K01) (HX y Hy)).
  - exact (sees_moved _ _ _ _ (keeps_moves X [] _ _ ltac:(intros ? []) K01) _ _ S).
  - eapply Forall2_impl; [exact F1|]. intros x y. apply HK.
  - exists us2, s2. split; [exact (keeps_trans _ _ _ _ K01 K2)|]. split; [exact W3|]. split.
    + eapply Forall2_impl; [exact F2|]. intros x y H. apply (holds_kept _ _ (k_cells _ _ _ K2) (k_strs _ _ _ K2) (k_bytes _ _ _ K2)). apply HK, H.
    + intros o' s3 H. apply C. apply cond_iff. apply Q, H.
Qed.
Lemma good_cond G ns cs bs t e b rest o v : Forall2 (good G ns) (map fst cs) bs -> Forall (fun b => counts_true b = false) bs -> good G ns t b -> counts_true b = true -> good G ns e v ->
  good G ns (Cond (cs ++ (t, e) :: rest) o) v.
Proof.
  intros Fb T Gt Tb Ge P X s env c W R HX S Hc. inversion P as [| | | | | | | |? ? Pc Po| | | | | |]; subst.
  destruct (good_cond_start G ns cs bs ((t, e) :: rest) o Fb T Pc X s env c W R HX S Hc) as (us & s1 & K & W1 & F & C).
  cbn [map app] in F. apply Forall2_cons_inv_r in F. destruct F as (u & us' & Hu & F & ->). destruct (clause_parts _ _ _ _ Hu) as (ct & ce & Hp & Hh & Ht & Lr & Hce). cbn [fst snd] in *.
  destruct (Pc (t, e) (in_elt _ _ _)) as (Ne & Pt & Pe). cbn [fst snd] in *.
  destruct (Gt Pt X s1 env ct W1 (ready_still _ _ _ K R)) as (w & s2 & Ev & K2 & Sw).
  { intros y Hy. exact (handed_later _ _ _ (k_next _ _ _ K) (HX y Hy)). }
  { exact (sees_moved _ _ _ _ (keeps_moves X [] _ _ ltac:(intros ? []) K) _ _ S). }
  { exact Ht. }
  assert (W2 := wf_evals _ _ _ _ _ W1 Ev). assert (K02 := keeps_trans _ _ _ _ K K2).
  destruct (Ge Pe X s2 env ce W2 (ready_still _ _ _ K02 R)) as (w2 & s3 & Ev2 & K3 & Sw2).
  { intros y Hy. exact (handed_later _ _ _ (k_next _ _ _ K02) (HX y Hy)). }
  { exact (sees_moved _ _ _ _ (keeps_moves X [] _ _ ltac:(intros ? []) K02) _ _ S). }
  { apply (holds_kept _ _ (k_cells _ _ _ K2) (k_strs _ _ _ K2) (k_bytes _ _ _ K2)). exact Hce. }
  exists w2, s3. split; [|split; [exact (keeps_trans _ _ _ _ K02 K3)|exact Sw2]]. apply C. cbn [cond_of]. rewrite Hp, Hh, (not_else _ _ _ Ht Ne).
  exists (Done (Ok w)), s2. split; [exact Ev|]. rewrite (truthy_stands _ _ _ _ Sw), Tb.
  replace (rest_of s2 u) with (rest_of s1 u). { apply (one_cell_value env s2 _ ce); [exact (is_list_kept _ _ _ _ (k_cells _ _ _ K2) Lr)|exact Ev2|exact K3]. }
  destruct (holds_nonempty _ _ _ _ Hu) as (lu & ->). destruct (holds_list_inv _ _ _ Hu) as (xs & L & Fx). apply Forall2_cons_inv_r in Fx. destruct Fx as (x1 & xs1 & _ & _ & ->).
  destruct (list_head _ _ _ _ L) as (l0 & d & [= <-] & E & _ & _). cbn [rest_of]. rewrite (cell_some _ _ _ E), (cell_some _ _ _ (k_cells _ _ _ K2 _ _ E)). reflexivity.
Qed.
Lemma good_cond_else G ns cs bs e v : Forall2 (good G ns) (map fst cs) bs -> Forall (fun b => counts_true b = false) bs -> good G ns e v -> good G ns (Cond cs (Some e)) v.
Proof.
  intros Fb T Ge P X s env c W R HX S Hc. inversion P as [| | | | | | | |? ? Pc Po| | | | | |]; subst.
  destruct (good_cond_start G ns cs bs [] (Some e) Fb T ltac:(rewrite (app_nil_r cs); exact Pc) X s env c W R HX S ltac:(rewrite (app_nil_r cs); exact Hc)) as (us & s1 & K & W1 & F & C).
  cbn [map app else_clause] in F. apply Forall2_cons_inv_r in F. destruct F as (u & us' & Hu & F & ->). destruct (clause_parts _ _ _ _ Hu) as (ct & ce & Hp & Hh & Ht & Lr & Hce).
  apply holds_sym_inv in Ht. subst ct.
  destruct (Ge (Po e eq_refl) X s1 env ce W1 (ready_still _ _ _ K R)) as (w & s2 & Ev & K2 & Sw).
  { intros y Hy. exact (handed_later _ _ _ (k_next _ _ _ K) (HX y Hy)). }
  { exact (sees_moved _ _ _ _ (keeps_moves X [] _ _ ltac:(intros ? []) K) _ _ S). }
  { exact Hce. }
  exists w, s2. split; [|split; [exact (keeps_trans _ _ _ _ K K2)|exact Sw]]. apply C. cbn [cond_of]. rewrite Hp, Ht. cbn [is_symbol]. exact (one_cell_value env s1 _ ce w s2 Lr Ev K2).
Qed.
Lemma good_cond_none G ns cs bs : Forall2 (good G ns) (map fst cs) bs -> Forall (fun b => counts_true b = false) bs -> good G ns (Cond cs None) (Items []).
Proof.
  intros Fb T P X s env c W R HX S Hc. inversion P as [| | | | | | | |? ? Pc Po| | | | | |]; subst.
  destruct (good_cond_start G ns cs bs [] None Fb T ltac:(rewrite (app_nil_r cs); exact Pc) X s env c W R HX S ltac:(rewrite (app_nil_r cs); exact Hc)) as (us & s1 & K & W1 & F & C).
  cbn [map app else_clause] in F. apply Forall2_nil_inv_r in F. subst us. exists VNil, s1. split; [apply C; cbn [cond_of]; split; reflexivity|]. split; [exact K|]. econstructor; [constructor|constructor].
Qed.
(** *** Functions called by built-ins *)
Lemma pass_values G vs : forall X s args ws ps xs le e ns0,
  length xs = length vs -> Forall plain_name xs -> List.NoDup (map fst ns0 ++ xs) ->
  wf_state s -> ready G s -> (forall l, In l (le :: X) -> handed_out s l) -> le <> s_global s ->
  is_list s args ws -> standX (le :: X) s ws vs -> holds s ps (XList (map XSym xs)) ->
  s_envs s !! le = Some e -> boundX (le :: X) s (e_binds e) ns0 ->
  exists s', keeps [le] s s' /\ wf_state s' /\
    (exists e', s_envs s' !! le = Some e' /\ e_parent e' = e_parent e /\ e_frame e' = e_frame e /\ boundX (le :: X) s' (e_binds e') (ns0 ++ combine xs vs)) /\
    forall (k : state -> behaviour) o s2, k s' o s2 -> passes as_it_is le k ps args s o s2.
Proof.
  induction vs as [|v vs IH]; intros X s args ws ps xs le e ns0 Len Px Nd W R HX Ng L Sw Hp Hle B.
  - destruct xs; [|discriminate]. inversion Sw; subst. exists s. split; [apply keeps_refl|]. split; [exact W|].
    split; [exists e; rewrite app_nil_r; auto|]. intros k o s2 H. destruct (holds_list_inv _ _ _ Hp) as (us & Lp & _).
    apply pass_end; [apply list_end, L| |exact H]. inversion Lp; reflexivity.
  - destruct xs as [|x xs]; [discriminate|]. cbn [map] in Hp. inversion Sw as [|w ? ws' ? Sw1 Sws]; subst. destruct (list_head _ _ _ _ L) as (l & d & -> & E & N & L').
    destruct (holds_list_inv _ _ _ Hp) as (us & Lp & Fp). apply Forall2_cons_inv_r in Fp. destruct Fp as (px & us' & Hx & Fp & ->). apply holds_sym_inv in Hx. subst px.
    destruct (list_head _ _ _ _ Lp) as (lp & dp & -> & Ep & Np & Lp').
    apply (proj1 (List.Forall_cons_iff _ _ _)) in Px. destruct Px as [Px Pxs].
    assert (Nx : ~ In x (map fst ns0)). { intros I. apply NoDup_remove_2 in Nd. apply Nd, in_or_app. left. exact I. }
    destruct (bind_next X s le e (e_binds e) ns0 x w v W Ng Hle eq_refl B Px Nx Sw1) as (s2 & Bh & W2 & K2 & e2 & He2 & Q1 & Q2 & B2).
    assert (M2 := keeps_moves (le :: X) [le] s s2 ltac:(intros l0 [<-|[]]; left; reflexivity) K2).
    destruct (IH X s2 d ws' dp xs le e2 (ns0 ++ [(x, v)])) as (s3 & K3 & W3 & (e3 & He3 & Q3 & Q4 & B3) & C).
    + cbn in Len. congruence.
    + exact Pxs.
    + rewrite map_app. cbn [map fst]. rewrite <- app_assoc. exact Nd.
    + exact W2.
    + apply (ready_other G le s s2 Ng K2 R).
    + intros y Hy. exact (handed_later _ _ _ (k_next _ _ _ K2) (HX y Hy)).
    + rewrite (k_global _ _ _ K2). exact Ng.
    + exact (is_list_kept _ _ _ _ (k_cells _ _ _ K2) L').
    + exact (stand_moved _ _ _ _ M2 _ _ Sws).
    + apply (holds_kept s s2 (k_cells _ _ _ K2) (k_strs _ _ _ K2) (k_bytes _ _ _ K2)). econstructor; [exact Lp'|exact Fp].
    + exact He2.
    + exact B2.
    + exists s3. split; [exact (keeps_trans _ _ _ _ K2 K3)|]. split; [exact W3|]. split; [exists e3; rewrite Q3, Q4; rewrite <- app_assoc in B3; auto|].
      intros k o s4 H. eapply pass_next; [exact (cell_end _ _ _ _ E N)|reflexivity|cbn [head_of]; rewrite (cell_some _ _ _ E); split; reflexivity| |].
      * cbn [head_of fst]. rewrite (cell_some _ _ _ Ep). exact Bh.
      * cbn [rest_of]. rewrite (cell_some _ _ _ (k_cells _ _ _ K2 _ _ E)), (cell_some _ _ _ (k_cells _ _ _ K2 _ _ Ep)). cbn [snd]. apply C, H.
Qed.
Lemma call_closure G X s env ns fw xs body ns' ws vs v : wf_state s -> ready G s -> (forall l, In l X -> handed_out s l) -> seesX X s env ns ->
  standsX X s fw (Closure xs body ns') -> standX X s ws vs -> length xs = length vs -> good G (combine xs vs ++ ns') body v ->
  exists w s', call_on fw ws env s (Done (Ok w)) s' /\ keeps [] s s' /\ standsX X s' w v /\ wf_state s'.
Proof.
  intros W R HX S Sf Sv Len Ib. unfold call_on. destruct (new_list_list_of ws s W) as ((ys & Fy & L) & Gr). assert (W1 := proj2 (new_list_grows ws s W)).
  destruct (new_list ws s) as [al s1]. cbn [fst snd] in *. assert (K := grows_keeps _ _ Gr).
  assert (R1 := ready_still _ _ _ K R). assert (M1 := keeps_moves X [] s s1 ltac:(intros ? []) K). assert (S1 := sees_moved _ _ _ _ M1 _ _ S).
  assert (Sy := elem_stands _ _ _ _ Fy _ (stand_moved _ _ _ _ M1 _ _ Sv)). assert (Sw := stands_moved _ _ _ _ M1 _ _ Sf).
  assert (HX1 : forall l, In l X -> handed_out s1 l) by (intros y Hy; exact (handed_later _ _ _ (k_next _ _ _ K) (HX y Hy))).
  inversion Sw as [| | | | |fl fs ? ? ? b bc Hfs Hp Hv Hr Hps Px Nd Hbody Lb Hbc Pb Sn |]; subst.
  set (le := s_next s1). set (fn := fn_code fs) in *. set (s2 := open_env (f_name fn) (f_env fn) (e_frame (env_at s1 (f_env fn))) s1).
  assert (W2 : wf_state s2) by apply open_env_wf, W1. assert (K2 : keeps [] s1 s2) by apply keeps_open, W1. assert (K02 := keeps_trans _ _ _ _ K K2).
  assert (Nle : ~ In le X). { intros I. specialize (HX1 _ I). unfold handed_out, le in HX1. lia. }
  assert (Ng : le <> s_global s1). { assert (Q := ready_global G s1 W1 R1). unfold le. lia. }
  assert (Ng2 : le <> s_global s2) by (rewrite (k_global _ _ _ K2); exact Ng).
  assert (He := open_env_at (f_name fn) (f_env fn) (e_frame (env_at s1 (f_env fn))) s1). fold le in He. fold s2 in He.
  assert (M2 := keeps_moves (le :: X) [] s1 s2 ltac:(intros ? []) K2). assert (Fm := fresh_moves X s1 W1). fold le in Fm.
  assert (Sy2 := stand_moved _ _ _ _ M2 _ _ (stand_moved _ _ _ _ Fm _ _ Sy)).
  assert (Sn2 : seesX (le :: X) s2 (f_env fn) ns') by exact (sees_moved _ _ _ _ M2 _ _ (sees_moved _ _ _ _ Fm _ _ Sn)).
  assert (HK2 := fun d v => holds_kept _ _ (k_cells _ _ _ K2) (k_strs _ _ _ K2) (k_bytes _ _ _ K2) d v).
  assert (HL : forall l, In l (le :: X) -> handed_out s2 l).
  { intros y [<-|I]; [|exact (handed_later _ _ _ (k_next _ _ _ K2) (HX1 y I))]. unfold handed_out, s2. rewrite open_next. assert (Q := ready_global G s1 W1 R1). unfold le. lia. }
  destruct (pass_values G vs X s2 al ys (f_params fn) xs le (Env (f_name fn) (Some (f_env fn)) (e_frame (env_at s1 (f_env fn))) [] (e_restricted (env_at s1 (f_env fn)))) [] Len Px Nd W2 (ready_still _ _ _ K02 R) HL Ng2 (is_list_kept _ _ _ _ (k_cells _ _ _ K2) L) Sy2 (HK2 _ _ Hps) He ltac:(constructor)) as (s3 & K3 & W3 & (e3 & He3 & Q1 & Q2 & B3) & C).
  cbn [e_parent e_frame app] in Q1, Q2, B3. destruct (seen_frame G X s1 (f_env fn) ns' R1 Sn) as (Frn & _ & _). rewrite Frn in Q2.
  destruct (inner_scope G X s2 s3 le e3 (f_env fn) _ ns' Nle ltac:(rewrite (k_global _ _ _ K3); exact Ng2) He3 Q1 Q2 B3 K3 Sn2 (ready_still _ _ _ K02 R) Ng2) as [S3 R3].
  assert (K03 : keeps [] s s3).
  { apply (keeps_fresh le s s2 s3); [|exact K02|exact K3]. destruct (s_envs s !! le) eqn:E'; [|exact E']. exfalso.
    assert (Q : (le < s_next s)%positive) by (apply env_below; [exact W|intros Q0; discriminate (eq_trans (eq_sym E') Q0)]). assert (Q' := k_next _ _ _ K). unfold le in Q. lia. }
  assert (K13 := keeps_trans _ _ _ _ (keeps_more [] [le] _ _ ltac:(intros ? []) K2) K3).
  destruct (Ib Pb X s3 le bc W3 R3) as (w & s4 & Ev2 & K4 & Sw2).
  { intros y Hy. exact (handed_later _ _ _ (k_next _ _ _ K03) (HX y Hy)). }
  { exact S3. }
  { apply (holds_kept _ _ (k_cells _ _ _ K13) (k_strs _ _ _ K13) (k_bytes _ _ _ K13)). exact Hbc. }
  exists w, s4. split; [|split; [exact (keeps_trans _ _ _ _ K03 K4)|split; [exact Sw2|exact (wf_evals _ _ _ _ _ W3 Ev2)]]].
  assert (Fi := fun_is _ _ _ Hfs). destruct (holds_list_inv _ _ _ Hps) as (pcs & Lp & _). destruct (seen_frame G X s1 env ns R1 S1) as (Fr1 & Sf1 & Ne1).
  unfold applied_values. apply (apply_fun_iff false fl al ys env s1 _ _ L); [rewrite Fi; exact (list_not_symbol _ _ _ Lp)|].
  apply (calls_plain fl _ al (length ys) env s1 _ _).
  - split; [right; split; [exact Fr1|exact Sf1]|]. rewrite Fi. exact Hp.
  - assert (Q := env_below s1 env W1 Ne1). lia.
  - cbv zeta. rewrite Fi. fold fn. rewrite Hv, Hr. unfold enough. rewrite (stand_length _ _ _ _ Sy), Len, Z.eqb_refl.
    apply C. exact (body_value le s3 bc (f_body fn) w s4 fn (is_list_kept _ _ _ _ (k_cells _ _ _ K13) Lb) eq_refl Ev2 K4).
Qed.
(** One call after the other. *)
Lemma each_called G X env ns fw x body ns' vs ws : Forall2 (fun v w => good G ((x, v) :: ns') body w) vs ws -> forall s s0 l xs us,
  wf_state s -> ready G s -> (forall l, In l X -> handed_out s l) -> seesX X s env ns -> standsX X s fw (Closure [x] body ns') -> standX X s us vs ->
  is_list s0 l xs -> keeps [] s0 s ->
  exists rs s', standX X s' rs ws /\ keeps [] s s' /\ wf_state s' /\ undisturbed fw env s0 [l] (map (fun u => [u]) us) s /\
    (forall acc o s2, gives_list (acc ++ rs) s' o s2 -> map_over fw env (map (fun u => [u]) us) acc s o s2) /\
    (forall bs found o s2, ws = map Boolean bs -> gives_list (found ++ map fst (List.filter snd (combine us bs))) s' o s2 -> select_over "filter" true fw env us found s o s2).
Proof.
  assert (Same : forall s0 s l xs, is_list s0 l xs -> keeps [] s0 s -> Forall (same_list s0 s) [l]).
  { intros s0 s l xs L K. constructor; [|constructor]. intros k I. clear -L K I. revert xs L. induction I as [t l|t l k I IH]; intros xs L.
    - inversion L as [| |? E|? a d ? E]; subst; rewrite E; exact (k_cells _ _ _ K _ _ E).
    - inversion L as [| |? E|? a d ? E N L']; subst; cbn [rest_of] in *; rewrite (cell_some _ _ _ E) in *; cbn [snd] in *; [inversion I|exact (IH _ L')]. }
  induction 1 as [|v w vs ws Hv _ IH]; intros s s0 l xs us W R HX S Sf Su L K0.
  - inversion Su; subst. exists [], s. split; [constructor|]. split; [apply keeps_refl|]. split; [exact W|]. split; [split; [exact (Same _ _ _ _ L K0)|exact Logic.I]|].
    split; [intros acc o s2 H; rewrite app_nil_r in H; exact H|]. intros bs found o s2 E H. destruct bs; [|discriminate]. cbn in H. rewrite app_nil_r in H. exact H.
  - inversion Su as [|u ? us' ? Su1 Sus]; subst.
    destruct (call_closure G X s env ns fw [x] body ns' [u] [v] w W R HX S Sf ltac:(constructor; [exact Su1|constructor]) eq_refl Hv) as (r & s1 & C & K & Sr & W1).
    assert (M := keeps_moves X [] s s1 ltac:(intros ? []) K).
    destruct (IH s1 s0 l xs us' W1 (ready_still _ _ _ K R)) as (rs & s2 & Srs & K2 & W2 & U & Cm & Cf).
    + intros y Hy. exact (handed_later _ _ _ (k_next _ _ _ K) (HX y Hy)).
    + exact (sees_moved _ _ _ _ M _ _ S).
    + exact (stands_moved _ _ _ _ M _ _ Sf).
    + exact (stand_moved _ _ _ _ M _ _ Sus).
    + exact L.
    + exact (keeps_trans _ _ _ _ K0 K).
    + exists (r :: rs), s2. split; [constructor; [exact (stands_moved _ _ _ _ (keeps_moves X [] s1 s2 ltac:(intros ? []) K2) _ _ Sr)|exact Srs]|]. split; [exact (keeps_trans _ _ _ _ K K2)|]. split; [exact W2|].
      split; [|split].
      * cbn [map undisturbed]. split; [exact (Same _ _ _ _ L K0)|]. intros v1 s3 C1.
        assert (E : s3 = s1). { unfold call_on in *. destruct (new_list [u] s) as [al sa]. unfold applied_values in *. destruct (runs_det _ _ _ _ _ _ _ _ C C1) as [_ E]. congruence. }
        subst s3. exact U.
      * intros acc o s3 H. cbn [map map_over]. exists (Done (Ok r)), s1. split; [exact C|]. apply Cm. rewrite <- app_assoc. exact H.
      * intros bs found o s3 E H. destruct bs as [|b bs]; [discriminate|]. injection E as -> ->. cbn [select_over]. exists (Done (Ok r)), s1. split; [exact C|].
        inversion Sr; subst. apply (Cf bs); [reflexivity|]. cbn [combine List.filter snd] in H. destruct b; cbn [Bool.eqb]; [|exact H]. cbn [map fst] in H. rewrite <- app_assoc. exact H.
Qed.
Lemma table_function n k ts : (exists p, table n = Some p /\ p_spec p = counts_text ts /\ p_special p = false /\ p_restricted p = false) -> Forall sane ts -> accepts ts k -> function_here n k.
Proof. intros (p & T & H1 & H2 & H3) Hs Ha. exists p, ts. destruct (table_in _ _ T) as [I1 I2]. repeat apply conj; assumption. Qed.
Lemma rows_one us : rows [us] = map (fun u => [u]) us.
Proof.
  unfold rows. cbn [least_length]. unfold row. cbn [map]. induction us as [|u us IH]; [reflexivity|]. cbn [length seq map nth]. f_equal. rewrite <- seq_shift, map_map. exact IH.
Qed.
Lemma closure_function X s w xs body ns : standsX X s w (Closure xs body ns) -> function_or_primp w = true.
Proof. intros H. inversion H; reflexivity. Qed.
Lemma listed X s1 rs ws : wf_state s1 -> standX X s1 rs ws -> exists v s2, (forall o s', gives v s2 o s' -> gives_list rs s1 o s') /\ keeps [] s1 s2 /\ standsX X s2 v (Items ws).
Proof.
  intros W S. destruct (new_list_list_of rs s1 W) as ((ys & F & L) & Gr). unfold gives_list. destruct (new_list rs s1) as [v s2]. cbn [fst snd] in *. assert (K := grows_keeps _ _ Gr).
  exists v, s2. split; [auto|]. split; [exact K|]. econstructor; [exact L|]. apply (elem_stands X s2 rs ys F). exact (stand_moved _ _ _ _ (keeps_moves X [] s1 s2 ltac:(intros ? []) K) _ _ S).
Qed.
Lemma good_map G ns f l x body ns' vs ws : Forall2 (good G ns) [f; l] [Closure [x] body ns'; Items vs] -> fits vs -> Forall2 (fun v w => good G ((x, v) :: ns') body w) vs ws ->
  good G ns (Builtin "map" [f; l]) (Items ws).
Proof.
  intros F Fit Fe. apply (good_applies G ns "map" [f; l] _ _ F).
  { apply (table_function "map" _ [AtLeast 2]); [eexists; split; [reflexivity|repeat apply conj; reflexivity]|constructor; [unfold sane, int64_max, two63; lia|constructor]|eexists; split; [left; reflexivity|cbn; lia]]. }
  intros X env s xs W R HX S Sx N. destruct (stand_two _ _ _ _ _ Sx) as (fw & lw & -> & Hf & Hl). destruct (stands_items _ _ _ _ Hl) as (us & L & Su).
  assert (K0 := keeps_entering "map" env s). assert (M := keeps_moves X [] _ _ ltac:(intros ? []) K0).
  destruct (each_called G X env ns fw x body ns' vs ws Fe (entering "map" env s) (entering "map" env s) lw us us (wf_entering _ _ _ W) (ready_still _ _ _ K0 R) HX
    (sees_moved _ _ _ _ M _ _ S) (stands_moved _ _ _ _ M _ _ Hf) (stand_moved _ _ _ _ M _ _ Su) (is_list_kept _ _ _ _ (k_cells _ _ _ K0) L) (keeps_refl _ _)) as (rs & s1 & Sr & K1 & W1 & U & Cm & _).
  assert (Len := stand_length _ _ _ _ Su). pose proof (fun o s' => proj2 (map_iff fw [lw] [us] env s o s' (closure_function _ _ _ _ _ _ Hf) ltac:(discriminate) ltac:(constructor; [exact L|constructor]) ltac:(cbn [least_length]; rewrite Len; exact Fit) ltac:(rewrite rows_one; exact U))) as A.
  rewrite rows_one in A. cbn [least_length] in A. destruct us as [|u us].
  - inversion Su; subst. inversion Fe; subst. exists VNil, (entering "map" env s). split; [apply A; split; reflexivity|]. split; [exact K0|]. econstructor; [constructor|constructor].
  - destruct (listed X s1 rs ws W1 Sr) as (v & s2 & Hg & K2 & Sv). exists v, s2. split; [apply A; apply (Cm []); apply Hg; split; reflexivity|]. split; [exact (keeps_trans _ _ _ _ K0 (keeps_trans _ _ _ _ K1 K2))|exact Sv].
Qed.
Lemma good_filter G ns f l x body ns' vs bs : Forall2 (good G ns) [f; l] [Closure [x] body ns'; Items vs] -> Forall (fun v => v <> Items []) vs ->
  Forall2 (fun v w => good G ((x, v) :: ns') body w) vs (map Boolean bs) ->
  good G ns (Builtin "filter" [f; l]) (Items (map fst (List.filter snd (combine vs bs)))).
Proof.
  intros F Ne Fe. apply (good_applies G ns "filter" [f; l] _ _ F).
  { apply (table_function "filter" _ [Exactly 2]); [eexists; split; [reflexivity|repeat apply conj; reflexivity]|constructor; [unfold sane, int64_max, two63; lia|constructor]|eexists; split; [left; reflexivity|reflexivity]]. }
  intros X env s xs W R HX S Sx N. destruct (stand_two _ _ _ _ _ Sx) as (fw & lw & -> & Hf & Hl). destruct (stands_items _ _ _ _ Hl) as (us & L & Su).
  assert (K0 := keeps_entering "filter" env s). assert (M := keeps_moves X [] _ _ ltac:(intros ? []) K0).
  destruct (each_called G X env ns fw x body ns' vs _ Fe (entering "filter" env s) (entering "filter" env s) lw us us (wf_entering _ _ _ W) (ready_still _ _ _ K0 R) HX
    (sees_moved _ _ _ _ M _ _ S) (stands_moved _ _ _ _ M _ _ Hf) (stand_moved _ _ _ _ M _ _ Su) (is_list_kept _ _ _ _ (k_cells _ _ _ K0) L) (keeps_refl _ _)) as (rs & s1 & Sr & K1 & W1 & U & _ & Cf).
  assert (Nu : no_nils us). { clear -Su Ne. unfold no_nils. induction Su as [|u v us vs H _ IH]; [constructor|]. apply (proj1 (List.Forall_cons_iff _ _ _)) in Ne. destruct Ne as [N1 N2]. constructor; [|apply IH, N2].
    intros ->. inversion H as [| | | |? ? ? L' S'| |]; subst. inversion L'; subst. inversion S'; subst. congruence. }
  pose proof (fun o s' => proj2 (select_iff "filter" "filter" true fw lw us env s o s' eq_refl (closure_function _ _ _ _ _ _ Hf) L Nu U)) as A.
  assert (Sk : standX X s1 (map fst (List.filter snd (combine us bs))) (map fst (List.filter snd (combine vs bs)))).
  { assert (Q := stand_moved _ _ _ _ (keeps_moves X [] _ _ ltac:(intros ? []) (keeps_trans _ _ _ _ K0 K1)) _ _ Su). clear -Q. revert bs. induction Q as [|u v us vs H _ IH]; intros bs; [constructor|].
    destruct bs as [|b bs]; [constructor|]. cbn [combine List.filter snd]. destruct b; [cbn [map fst]; constructor; [exact H|apply IH]|apply IH]. }
  destruct (listed X s1 _ _ W1 Sk) as (v & s2 & Hg & K2 & Sv). exists v, s2. split; [apply A; apply (Cf bs [] _ _ eq_refl); apply Hg; split; reflexivity|].
  split; [exact (keeps_trans _ _ _ _ K0 (keeps_trans _ _ _ _ K1 K2))|exact Sv].
Qed.
Inductive good_steps (G : globals) (x y : string) (body : expr) (ns : list (string * value)) : value -> list value -> value -> Prop :=
| gs_none a : good_steps G x y body ns a [] a
| gs_more a v vs b r : good G ((x, a) :: (y, v) :: ns) body b -> good_steps G x y body ns b vs r -> good_steps G x y body ns a (v :: vs) r.
Lemma fold_called G X env ns fw x y body ns' a vs r : good_steps G x y body ns' a vs r -> forall s us aw,
  wf_state s -> ready G s -> (forall l, In l X -> handed_out s l) -> seesX X s env ns -> standsX X s fw (Closure [x; y] body ns') -> standX X s us vs -> standsX X s aw a ->
  exists rw s', standsX X s' rw r /\ keeps [] s s' /\ left_nested fw env aw us s (Done (Ok rw)) s'.
Proof.
  induction 1 as [a|a v vs b r Hv _ IH]; intros s us aw W R HX S Sf Su Sa.
  - inversion Su; subst. exists aw, s. split; [exact Sa|]. split; [apply keeps_refl|split; reflexivity].
  - inversion Su as [|u ? us' ? Su1 Sus]; subst.
    destruct (call_closure G X s env ns fw [x; y] body ns' [aw; u] [a; v] b W R HX S Sf ltac:(constructor; [exact Sa|constructor; [exact Su1|constructor]]) eq_refl Hv) as (bw & s1 & C & K & Sb & W1).
    assert (M := keeps_moves X [] s s1 ltac:(intros ? []) K).
    destruct (IH s1 us' bw W1 (ready_still _ _ _ K R)) as (rw & s2 & Sr & K2 & C2).
    + intros z Hz. exact (handed_later _ _ _ (k_next _ _ _ K) (HX z Hz)).
    + exact (sees_moved _ _ _ _ M _ _ S).
    + exact (stands_moved _ _ _ _ M _ _ Sf).
    + exact (stand_moved _ _ _ _ M _ _ Sus).
    + exact Sb.
    + exists rw, s2. split; [exact Sr|]. split; [exact (keeps_trans _ _ _ _ K K2)|]. cbn [left_nested]. exists (Done (Ok bw)), s1. split; [exact C|exact C2].
Qed.
Lemma good_fold G ns f i l x y body ns' a vs v : Forall2 (good G ns) [f; i; l] [Closure [x; y] body ns'; a; Items vs] -> good_steps G x y body ns' a vs v ->
  good G ns (Builtin "fold-left" [f; i; l]) v.
Proof.
  intros F Fe. apply (good_applies G ns "fold-left" [f; i; l] _ _ F).
  { apply (table_function "fold-left" _ [Exactly 3]); [eexists; split; [reflexivity|repeat apply conj; reflexivity]|constructor; [unfold sane, int64_max, two63; lia|constructor]|eexists; split; [left; reflexivity|reflexivity]]. }
  intros X env s xs W R HX S Sx N. inversion Sx as [|fw ? xs1 ? Hf Sx1]; subst. destruct (stand_two _ _ _ _ _ Sx1) as (iw & lw & -> & Hi & Hl). destruct (stands_items _ _ _ _ Hl) as (us & L & Su).
  assert (K0 := keeps_entering "fold-left" env s). assert (M := keeps_moves X [] _ _ ltac:(intros ? []) K0).
  destruct (fold_called G X env ns fw x y body ns' a vs v Fe (entering "fold-left" env s) us iw (wf_entering _ _ _ W) (ready_still _ _ _ K0 R) HX
    (sees_moved _ _ _ _ M _ _ S) (stands_moved _ _ _ _ M _ _ Hf) (stand_moved _ _ _ _ M _ _ Su) (stands_moved _ _ _ _ M _ _ Hi)) as (rw & s1 & Sr & K1 & C).
  exists rw, s1. split; [apply (fold_left_iff fw iw lw us env s _ _ (closure_function _ _ _ _ _ _ Hf) L); exact C|]. split; [exact (keeps_trans _ _ _ _ K0 K1)|exact Sr].
Qed.
Lemma all_good G : (forall ns e v, means G ns e v -> good G ns e v) /\ (forall ns es vs, means_all G ns es vs -> Forall2 (good G ns) es vs) /\
  (forall x body ns vs ws, means_each G x body ns vs ws -> Forall2 (fun v w => good G ((x, v) :: ns) body w) vs ws) /\
  (forall x y body ns a vs r, means_fold G x y body ns a vs r -> good_steps G x y body ns a vs r).
Proof.
  apply (means_both G (fun ns e v _ => good G ns e v) (fun ns es vs _ => Forall2 (good G ns) es vs) (fun x body ns vs ws _ => Forall2 (fun v w => good G ((x, v) :: ns) body w) vs ws)
    (fun x y body ns a vs r _ => good_steps G x y body ns a vs r)).
  - intros ns z Hz P X s env c W R HX S Hc. cbn [written] in Hc. inversion Hc; subst. exists (VInt z), s. split; [|split; [apply keeps_refl|constructor]].
    apply eval_self; [exact Logic.I|split; reflexivity].
  - intros ns b P X s env c W R HX S Hc. cbn [written] in Hc. inversion Hc; subst. exists (VBool b), s. split; [|split; [apply keeps_refl|constructor]].
    apply eval_self; [exact Logic.I|split; reflexivity].
  - intros ns t. apply eval_text.
  - intros ns d v H. apply good_quote, H.
  - intros ns x v H. apply good_name. left. exact H.
  - intros ns x xs body H HG. apply good_name. right. split; [exact H|]. eauto.
  - intros ns xs body. apply good_lambda.
  - intros ns f es xs body ns' vs v Mf If Ma Ia Len Mb Ib. exact (good_call G ns f es _ xs body ns' vs v If eq_refl Ia Len Mf Ib).
  - intros ns c t e b v Mc Ic Mb Ib. exact (good_if G ns c t e b v Ic Ib).
  - intros ns cs bs t e b rest o v Ma Ia T Mt It Tb Me Ie. exact (good_cond G ns cs bs t e b rest o v Ia T It Tb Ie).
  - intros ns cs bs e v Ma Ia T Me Ie. exact (good_cond_else G ns cs bs e v Ia T Ie).
  - intros ns cs bs Ma Ia T. exact (good_cond_none G ns cs bs Ia T).
  - intros ns es vs e rest v Ma Ia T Me Ie D. exact (good_and G ns es vs e rest v Ia T Ie D).
  - intros ns es vs e rest v Ma Ia T Me Ie D. exact (good_or G ns es vs e rest v Ia T Ie D).
  - intros ns es vs e v Ma Ia Me Ie. exact (good_begin G ns es vs e v Ia Ie).
  - intros ns bs body vs v Ma Ia Mb Ib. exact (good_let G ns bs body vs v Ia Ib).
  - intros ns n es vs v Ma Ia Cv. exact (good_builtin G ns n es vs v Ia Cv).
  - intros ns f l x body ns' vs ws Ma Ia Fit Me Ie. exact (good_map G ns f l x body ns' vs ws Ia Fit Ie).
  - intros ns f l x body ns' vs bs Ma Ia Ne Me Ie. exact (good_filter G ns f l x body ns' vs bs Ia Ne Ie).
  - intros ns f i l x y body ns' a vs v Ma Ia Mf If. exact (good_fold G ns f i l x y body ns' a vs v Ia If).
  - intros ns x bs body vs v Ma Ia Mb Ib. exact (good_loop G ns x bs body vs v Ia Ib).
  - intros ns f es x xs body ns' vs v Mf If Ma Ia Len Mb Ib. exact (good_call G ns f es _ xs body _ vs v If eq_refl Ia Len Mf Ib).
  - intros ns. constructor.
  - intros ns e v es vs M I Ma Ia. constructor; assumption.
  - intros. constructor.
  - intros. constructor; assumption.
  - intros. constructor.
  - intros. econstructor; eassumption.
Qed.
(** *** C67: the value of an expression *)
Lemma expression_value G ns e v c env s : means G ns e v -> proper e -> wf_state s -> ready G s -> sees s env ns -> holds s c (written e) ->
  comes_to G (evals c env s) s v.
Proof.
  intros M P W R S H. destruct (proj1 (all_good G) ns e v M P [] s env c W R ltac:(intros ? []) (proj1 (proj2 (proj2 (to_X s))) _ _ S) H) as (w & s' & Ev & K & Sw).
  split; [exists w, s'; exact Ev|]. intros o s2 Ev2. destruct (runs_det _ _ _ _ _ _ _ _ Ev Ev2) as [<- <-]. exists w. split; [reflexivity|].
  split; [exact (proj1 (from_X [] s') _ _ Sw)|]. split; [exact K|exact (ready_still _ _ _ K R)].
Qed.
(** *** Programs *)
Lemma special_define : special_here "define" [AtLeast 1].
Proof.
  destruct (table "define") as [p|] eqn:T; [|discriminate]. exists p. destruct (table_in _ _ T) as [I1 I2]. injection T as <-.
  repeat apply conj; try assumption; try reflexivity. repeat constructor; unfold sane, int64_max, two63; lia.
Qed.
(** One definition. *)
Lemma define_step_full G s c x xs body : wf_state s -> ready G s -> plain_name x -> Forall plain_name xs -> List.NoDup xs -> proper body ->
  local_binding s (s_global s) x = None -> alookup x G = None -> holds s c (definition (x, (xs, body))) ->
  exists w s', evals c (s_global s) s (Done (Ok w)) s' /\ wf_state s' /\ ready (G ++ [(x, (xs, body))]) s' /\ s_global s' = s_global s /\ s_uni s' = s_uni s /\
    (forall y, y <> x -> local_binding s' (s_global s') y = local_binding s (s_global s) y) /\ keeps [s_global s] s s' /\
    exists b l, local_binding s' (s_global s') x = Some b /\ s_binds s' !! b = Some (Binding (VSym x) (VFun l) false).
Proof.
  intros W R Px Pxs Nd Pb U UG H. unfold definition in H. cbn [fst snd map] in H. set (env := s_global s) in *.
  assert (S : seesX [] s env []) by constructor.
  destruct (form_call G [] s env [] "define" [AtLeast 1] c _ special_define ltac:(cbn; tauto) W R S H ltac:(eexists; split; [left; reflexivity|cbn; lia])) as (us & s1 & W1 & K & F & N & C).
  apply Forall2_cons_inv_r in F. destruct F as (hd & us1 & Hhd & F & ->). apply Forall2_cons_inv_r in F. destruct F as (b & us2 & Hb & F & ->). apply Forall2_nil_inv_r in F. subst us2.
  apply (proj1 (List.Forall_cons_iff _ _ _)) in N. destruct N as [N1 N2].
  destruct (holds_list_inv _ _ _ Hhd) as (hcs & Lh & Fh). apply Forall2_cons_inv_r in Fh. destruct Fh as (hx & pcs & Hx & Fp & ->). apply holds_sym_inv in Hx. subst hx.
  destruct (list_head _ _ _ _ Lh) as (lh & ps & -> & Eh & Nh & Lp). assert (R1 := ready_still _ _ _ K R).
  pose proof R1 as [(ge & He & H1 & H2 & H3 & H4) _]. rewrite (k_global _ _ _ K) in He. fold env in He.
  assert (U1 : local_binding s1 env x = None).
  { pose proof R as [(ge0 & He0 & _) _]. fold env in He0. assert (Q := k_envs _ _ _ K _ _ ltac:(intros []) He0). unfold local_binding in *. rewrite (env_is _ _ _ Q). rewrite (env_is _ _ _ He0) in U. exact U. }
  assert (V : visible s1 x env None). { apply visible_nowhere; [exact U1|]. rewrite (env_is _ _ _ He). exact H1. }
  assert (A := fun o s' => define_fun_iff (VCell TCons lh) x ps [b] env None s1 (length pcs) false o s' W1 ltac:(rewrite (env_is _ _ _ He); exact H2) eq_refl
    ltac:(cbn [head_of]; rewrite (cell_some _ _ _ Eh); reflexivity) ltac:(cbn [rest_of]; rewrite (cell_some _ _ _ Eh); reflexivity) (list_parameters _ _ _ Lp) V).
  cbv zeta in A. cbn [is_builtin after_lookup] in A. set (s2 := entering "define" env s1) in *. assert (W2 : wf_state s2) by apply wf_entering, W1.
  assert (G3 := grows_new_cell s2 VNil VNil W2). assert (W3 := wf_new_cell s2 VNil VNil W2). set (s3 := snd (fresh_cell VNil VNil s2)) in *.
  assert (Lb := new_tail_is [b] s3 W3 N2). destruct (new_tail_grows [b] VNil s3 W3) as [Gr W4].
  destruct (new_tail [b] VNil s3) as [bd s4]. unfold fresh_function in A. cbn [fst snd] in *.
  set (f := Fn x ps false (Z.of_nat (length pcs)) bd env) in *. set (s5 := set_funs _ _) in *.
  assert (G5 : grows s4 s5).
  { unfold s5. constructor; try reflexivity; try (intros l y Hy; exact Hy).
    - cbn. lia.
    - intros l g Hg. cbn. rewrite lookup_insert_ne; [exact Hg|]. intros <-. destruct (wf_funs _ W4 _ _ Hg). lia.
    - exists []. split; [reflexivity|constructor]. }
  assert (K15 : keeps [] s1 s5) by (apply grows_keeps; exact (grows_trans _ _ _ (grows_entering "define" env s1) (grows_trans _ _ _ G3 (grows_trans _ _ _ Gr G5)))).
  assert (K05 := keeps_trans _ _ _ _ K K15). assert (R5 := ready_still _ _ _ K05 R).
  assert (He5 := k_envs _ _ _ K15 _ _ ltac:(intros []) He).
  assert (U5 : local_binding s5 env x = None). { unfold local_binding in *. rewrite (env_is _ _ _ He5). rewrite (env_is _ _ _ He) in U1. exact U1. }
  assert (Bh : bind_here env (VSym x) (VFun (s_next s4)) s5 = Some (add_binding env (VSym x) (VFun (s_next s4)) s5)) by (unfold bind_here; cbn [name_of]; rewrite U5; reflexivity).
  set (s6 := add_binding env (VSym x) (VFun (s_next s4)) s5) in *.
  assert (W5 : wf_state s5).
  { pose proof (make_function_run x ps (length pcs) false bd env s4) as Q. unfold fresh_function in Q. fold f in Q. fold s5 in Q.
    refine (wf_runs _ _ _ _ _ W4 (Q _)). apply list_parameters. exact (is_list_grows _ _ _ _ (grows_trans _ _ _ (grows_entering "define" env s1) (grows_trans _ _ _ G3 Gr)) Lp). }
  assert (Ev : evals c env s (Done (Ok (VFun (s_next s4)))) s6). { apply C, A. unfold then_bind. rewrite Bh. split; reflexivity. }
  assert (W6 := wf_evals _ _ _ _ _ W Ev). assert (K6 : keeps [env] s5 s6) by apply keeps_add, W5.
  assert (Eg : s_global s5 = env) by exact (k_global _ _ _ K05).
  assert (He6 : s_envs s6 !! env = Some (Env (e_name ge) (e_parent ge) (e_frame ge) (aset x (s_next s5) (e_binds ge)) (e_restricted ge))).
  { unfold s6, add_binding. cbn [name_of]. rewrite (env_is _ _ _ He5). cbn. unfold put. change (s_envs s4 !! env) with (s_envs s5 !! env). rewrite He5. apply lookup_insert. }
  assert (Lo : forall y, y <> x -> local_binding s6 env y = local_binding s5 env y).
  { intros y Ny. unfold local_binding. rewrite (env_is _ _ _ He6), (env_is _ _ _ He5). cbn [e_binds]. apply alookup_aset_other. congruence. }
  assert (Lx : local_binding s6 env x = Some (s_next s5)).
  { unfold local_binding. rewrite (env_is _ _ _ He6). cbn [e_binds]. apply alookup_aset_same. }
  assert (Eg6 : s_global s6 = env) by (rewrite (k_global _ _ _ K6); exact Eg).
  assert (L01 : forall y, local_binding s5 env y = local_binding s env y).
  { intros y. pose proof R as [(ge0 & He0 & _) _]. fold env in He0. assert (Q := k_envs _ _ _ K05 _ _ ltac:(intros []) He0). unfold local_binding. rewrite (env_is _ _ _ Q), (env_is _ _ _ He0). reflexivity. }
  exists (VFun (s_next s4)), s6. split; [exact Ev|]. split; [exact W6|]. split; [|split; [exact Eg6|split; [rewrite (k_uni _ _ _ K6), (k_uni _ _ _ K05); reflexivity|]]].
  2:{ split; [intros y Ny; rewrite Eg6, (Lo y Ny); apply L01|]. split; [exact (keeps_trans _ _ _ _ (keeps_more [] [env] _ _ ltac:(intros ? []) K05) K6)|].
    exists (s_next s5), (s_next s4). rewrite Eg6. split; [exact Lx|unfold s6, add_binding; cbn; apply lookup_insert]. }
  assert (HK := fun d v => holds_kept _ _ (k_cells _ _ _ (keeps_trans _ _ _ _ (keeps_more [] [env] _ _ ltac:(intros ? []) K15) K6)) (k_strs _ _ _ (keeps_trans _ _ _ _ (keeps_more [] [env] _ _ ltac:(intros ? []) K15) K6)) (k_bytes _ _ _ (keeps_trans _ _ _ _ (keeps_more [] [env] _ _ ltac:(intros ? []) K15) K6)) d v).
  destruct Px as (Px1 & Px2 & Px3). split.
  - eexists. rewrite Eg6. split; [exact He6|]. cbn [e_parent e_frame e_binds]. split; [exact H1|]. split; [exact H2|]. split; [rewrite alookup_aset_other by congruence; exact H3|].
    intros n I. destruct (H4 n I) as (bn & be & B1 & B2 & B3). exists bn, be. assert (n <> x) by (intros ->; exact (Px3 I)). rewrite alookup_aset_other by congruence.
    split; [exact B1|]. split; [apply K6, K15, B2|exact B3].
  - intros y ys bd' E. rewrite alookup_app in E. destruct (alookup y G) as [q|] eqn:Ey.
    + injection E as ->. assert (Ny : y <> x) by congruence. destruct (proj2 R5 y ys bd' Ey) as (b' & be & l & g & A1 & B1 & C1 & D1 & F1 & I1).
      rewrite Eg in A1, F1. destruct (k_funs _ _ _ K6 _ _ D1) as (g' & E1 & E2 & E3). exists b', be, l, g'. rewrite Eg6, (Lo y Ny). split; [exact A1|].
      split; [apply K6, B1|]. split; [exact C1|]. split; [exact E1|]. split; [rewrite E2; exact F1|].
      inversion I1 as [| | | | |l' g0 xs' body' ns c' d' Q1 Q2 Q3 Q4 Q5 Q6 Q7 Q8 Q9 Q10 Q11 Q12 |]; subst. rewrite D1 in Q1. injection Q1 as <-.
      assert (HK6 := holds_kept s5 s6 (k_cells _ _ _ K6) (k_strs _ _ _ K6) (k_bytes _ _ _ K6)).
      apply (sf_closure s6 l g' ys bd' [] (f_body (fn_code g)) d'); rewrite ?E2; auto; [congruence|exact (is_list_kept s5 s6 _ _ (k_cells _ _ _ K6) Q9)|].
      rewrite F1, <- Eg6. constructor.
    + cbn [alookup] in E. destruct (str_eqb y x) eqn:Q; [|discriminate]. apply str_eqb_eq in Q. subst y. injection E as <- <-.
      assert (Hf5 : s_funs s5 !! s_next s4 = Some (FnState f false None)) by (unfold s5; cbn; apply lookup_insert).
      destruct (k_funs _ _ _ K6 _ _ Hf5) as (g & E1 & E2 & E3). cbn [fn_code fn_proc] in E2, E3.
      exists (s_next s5), (Binding (VSym x) (VFun (s_next s4)) false), (s_next s4), g. rewrite Eg6. split; [exact Lx|].
      split; [unfold s6, add_binding; cbn; apply lookup_insert|]. split; [reflexivity|]. split; [exact E1|]. split; [rewrite E2; reflexivity|].
      apply (sf_closure s6 (s_next s4) g xs body [] bd b); rewrite ?E2; try assumption; try reflexivity.
      * cbn. rewrite (Forall2_length _ _ _ Fp), map_length. reflexivity.
      * apply HK. econstructor; [exact Lp|exact Fp].
      * exact (is_list_kept _ _ _ _ (k_cells _ _ _ K6) (is_list_grows _ _ _ _ G5 Lb)).
      * apply HK, Hb.
      * assert (Q := sees_global s6). rewrite Eg6 in Q. exact Q.
Qed.
Lemma define_step_keeps G s c x xs body : wf_state s -> ready G s -> plain_name x -> Forall plain_name xs -> List.NoDup xs -> proper body ->
  local_binding s (s_global s) x = None -> alookup x G = None -> holds s c (definition (x, (xs, body))) ->
  exists w s', evals c (s_global s) s (Done (Ok w)) s' /\ wf_state s' /\ ready (G ++ [(x, (xs, body))]) s' /\ s_global s' = s_global s /\ s_uni s' = s_uni s /\
    (forall y, y <> x -> local_binding s' (s_global s') y = local_binding s (s_global s) y) /\ keeps [s_global s] s s'.
Proof.
  intros W R Px Pxs Nd Pb U UG H. destruct (define_step_full G s c x xs body W R Px Pxs Nd Pb U UG H) as (w & s' & A & B & C & D & E & F & K & _). exists w, s'. auto 10.
Qed.
Lemma define_step G s c x xs body : wf_state s -> ready G s -> plain_name x -> Forall plain_name xs -> List.NoDup xs -> proper body ->
  local_binding s (s_global s) x = None -> alookup x G = None -> holds s c (definition (x, (xs, body))) ->
  exists w s', evals c (s_global s) s (Done (Ok w)) s' /\ wf_state s' /\ ready (G ++ [(x, (xs, body))]) s' /\ s_global s' = s_global s /\ s_uni s' = s_uni s /\
    forall y, y <> x -> local_binding s' (s_global s') y = local_binding s (s_global s) y.
Proof.
  intros W R Px Pxs Nd Pb U UG H. destruct (define_step_keeps G s c x xs body W R Px Pxs Nd Pb U UG H) as (w & s' & A & B & C & D & E & F & _). exists w, s'. auto 10.
Qed.
Lemma in_turn_next env finish d put r last s o s' : d <> XList [] ->
  after (evals (fst (put s)) env (snd (put s))) (in_turn env finish r) o s' -> in_turn env finish ((d, put) :: r) last s o s'.
Proof. intros N H. destruct d as [| | | | |[|]|]; try exact H. destruct (N eq_refl). Qed.
Lemma written_not_empty e : written e <> XList [].
Proof. destruct e; discriminate. Qed.
Lemma alookup_fst {A} x (l : list (string * A)) v : alookup x l = Some v -> In (x, v) l.
Proof. induction l as [|[y w] l IH]; intros H; [discriminate|]. cbn [alookup] in H. destruct (str_eqb x y) eqn:E; [|right; auto]. injection H as ->. apply str_eqb_eq in E. subst. left. reflexivity. Qed.
Lemma program_runs e v : forall rest done puts s last, means (done ++ rest) [] e v -> proper e -> proper_globals (done ++ rest) ->
  Forall2 plants (map definition rest ++ [written e]) puts -> wf_state s -> ready done s -> (forall x, In x (map fst rest) -> local_binding s (s_global s) x = None) ->
  exists w s', in_turn (s_global s) gives (combine (map definition rest ++ [written e]) puts) last s (Done (Ok w)) s' /\ stands_for s' w v /\ ready (done ++ rest) s'.
Proof.
  induction rest as [|[x [xs body]] rest IH]; intros done puts s last M P PG F W R U.
  - rewrite app_nil_r in *. cbn [map app] in *. inversion F as [|? put ? puts' Pl F']; subst. inversion F'; subst. destruct (Pl s W) as (G1 & W1 & H1). assert (K := grows_keeps _ _ G1).
    assert (Eg : s_global (snd (put s)) = s_global s) by exact (k_global _ _ _ K).
    assert (Sg : sees (snd (put s)) (s_global s) []) by (rewrite <- Eg; constructor).
    destruct (expression_value done [] e v (fst (put s)) (s_global s) (snd (put s)) M P W1 (ready_still _ _ _ K R) Sg H1) as ((w & s' & Ev) & Q).
    exists w, s'. destruct (Q _ _ Ev) as (w' & [= <-] & Sw & _ & R'). split; [|split; [exact Sw|exact R']].
    cbn [combine]. apply in_turn_next; [apply written_not_empty|]. exists (Done (Ok w)), s'. split; [exact Ev|]. split; reflexivity.
  - cbn [map app] in *. inversion F as [|? put ? puts' Pl F']; subst. destruct (Pl s W) as (G1 & W1 & H1). assert (K := grows_keeps _ _ G1).
    assert (Eg : s_global (snd (put s)) = s_global s) by exact (k_global _ _ _ K).
    assert (Lb : forall y, local_binding (snd (put s)) (s_global s) y = local_binding s (s_global s) y).
    { intros y. pose proof R as [(ge & He & _) _]. assert (Q := k_envs _ _ _ K _ _ ltac:(intros []) He). unfold local_binding. rewrite (env_is _ _ _ Q), (env_is _ _ _ He). reflexivity. }
    pose proof PG as [Nd Pr]. destruct (Pr x xs body) as (Px & Pxs & Ndx & Pb); [apply in_or_app; right; left; reflexivity|].
    rewrite map_app in Nd. cbn [map fst] in Nd. assert (Nx := NoDup_remove_2 _ _ _ Nd).
    destruct (define_step done (snd (put s)) (fst (put s)) x xs body W1 (ready_still _ _ _ K R) Px Pxs Ndx Pb) as (w & s1 & Ev & W2 & R2 & Eg2 & _ & Lo).
    + rewrite Eg, Lb. apply U. left. reflexivity.
    + apply alookup_not_in. intros I. apply Nx, in_or_app. left. exact I.
    + exact H1.
    + assert (EG : (done ++ [(x, (xs, body))]) ++ rest = done ++ (x, (xs, body)) :: rest) by (rewrite <- app_assoc; reflexivity).
      rewrite <- EG in M, PG. destruct (IH _ puts' s1 w M P PG F' W2 R2) as (w' & s' & T & Sw & R').
      * intros y Hy. assert (y <> x) by (intros ->; apply Nx, in_or_app; right; exact Hy). rewrite Lo by assumption. rewrite Eg, Lb. apply U. right. exact Hy.
      * exists w', s'. split; [|split; [exact Sw|rewrite <- EG; exact R']]. cbn [combine]. apply in_turn_next; [discriminate|]. exists (Done (Ok w)), s1.
        rewrite Eg in Ev. split; [exact Ev|]. rewrite Eg2, Eg in T. exact T.
Qed.
Lemma program_value u G e v src : program u (map definition G ++ [written e]) src -> proper_globals G -> proper e -> means G [] e v ->
  forall s, wf_state s -> s_uni s = u -> has_builtins s -> (forall x, In x (map fst G) -> local_binding s (s_global s) x = None) ->
  (exists w s', run_text src (s_global s) s (Done (Ok w)) s') /\
  forall o s', run_text src (s_global s) s o s' -> exists w, o = Done (Ok w) /\ stands_for s' w v /\ ready G s'.
Proof.
  intros P PG Pe M s W Eu B U. destruct (run_program u _ src P) as (puts & F & H).
  assert (R : ready [] s) by (split; [exact B|intros x xs body E; discriminate]).
  destruct (program_runs e v G [] puts s VNil M Pe PG F W R U) as (w & s' & T & Sw & R'). apply (H (s_global s) s Eu) in T.
  split; [exists w, s'; exact T|]. intros o s2 T2. destruct (runs_det _ _ _ _ _ _ _ _ T T2) as [<- <-]. exists w. split; [reflexivity|]. split; [exact Sw|exact R'].
Qed.
