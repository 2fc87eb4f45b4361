(** Proof of C20 for all templates: what is evaluated when. *)
From Verif Require Import ProofEval ProofCall ProofForm ProofList ProofQuasi ProofReach.
From Verif Require Import SpecQuasi Data.
Local Open Scope string_scope.
Local Open Scope list_scope.
Local Open Scope Z_scope.

Lemma run_runs {A} m (p : prog A) s o s' : run denote m p s = Some (o, s') -> runs denote p s o s'.
Proof. intros H. exists m. exact H. Qed.
Lemma run_bind_inv {A B} m (p : prog A) (f : A -> prog B) s o s' : run denote m (bind p f) s = Some (o, s') ->
  exists o1 s1, run denote m p s = Some (o1, s1) /\ match o1 with Done x => run denote m (f x) s1 = Some (o, s') | Panicked w => o = Panicked w /\ s' = s1 end.
Proof.
  rewrite run_bind. destruct (run denote m p s) as [[[x|w] s1]|]; [| |discriminate]; intros H; [exists (Done x), s1; auto|]. exists (Panicked w), s1. split; [reflexivity|]. split; congruence.
Qed.
Lemma run_then {A B} m (p : prog A) (f : A -> prog B) s a s1 o s' : runs denote p s (Done a) s1 -> run denote m (bind p f) s = Some (o, s') -> run denote m (f a) s1 = Some (o, s').
Proof.
  intros R H. apply run_bind_inv in H as (o1 & s2 & H1 & H2). pose proof (runs_det _ _ _ _ _ _ _ _ R (run_runs _ _ _ _ _ H1)) as [<- <-]. exact H2.
Qed.
Lemma run_bind_ok_inv {A B} m (p : prog (res A)) (f : A -> prog (res B)) s o s' : run denote m (bind_ok p f) s = Some (o, s') ->
  exists o1 s1, run denote m p s = Some (o1, s1) /\ ((exists x, o1 = Done (Ok x) /\ run denote m (f x) s1 = Some (o, s')) \/ (stops o1 o /\ s' = s1)).
Proof.
  intros H. apply run_bind_inv in H as (o1 & s1 & H1 & H2). exists o1, s1. split; [exact H1|]. destruct o1 as [[x|e]|w].
  - left. eauto.
  - right. unfold fail in H2. rewrite run_ret in H2. split; [|congruence]. cbn. congruence.
  - right. destruct H2 as [-> ->]. split; reflexivity.
Qed.
(** ** Walks *)
Lemma to_array_elements v s o s' : runs denote (to_array v) s o s' -> exists vs, walked s v vs /\ o = Done vs /\ s' = s.
Proof.
  unfold to_array. intros H. apply bind_iff in H as (o1 & s1 & H & K).
  assert (L : exists vs, walked s v vs /\ o1 = Done (rev vs ++ []) /\ s1 = s).
  { unfold for_cells in H. revert H. generalize (@nil val). intros acc H.
    refine (loop_ind _ (fun st s o s' => exists vs, walked s (fst st) vs /\ o = Done (rev vs ++ snd st) /\ s' = s) _ _ _ (v, acc) s o1 s1 H).
    - intros [c a] t r t1 R. apply bind_iff in R as (ob & sb & Rb & R). pose proof (runs_det _ _ _ _ _ _ _ _ Rb (runs_nilp _ _)) as [-> ->]. destruct (nilb t c) eqn:E.
      + apply bind_iff in R as (o2 & s2 & R2 & R). pose proof (runs_det _ _ _ _ _ _ _ _ R2 (runs_ret _ _ _ _)) as [-> ->]. pose proof (runs_det _ _ _ _ _ _ _ _ R (runs_ret _ _ _ _)) as [Q ->]. injection Q as ->.
        exists []. split; [apply el_end, at_end_nilb, E|split; reflexivity].
      + exfalso. apply bind_iff in R as (o2 & s2 & R2 & R). apply car_iff in R2. pose proof (runs_det _ _ _ _ _ _ _ _ R2 (runs_ret _ _ _ _)) as [-> ->]. apply cdr_iff in R. pose proof (runs_det _ _ _ _ _ _ _ _ R (runs_ret _ _ _ _)) as [Q _]. discriminate Q.
    - intros [c a] t w t1 R. exfalso. apply bind_iff in R as (ob & sb & Rb & R). pose proof (runs_det _ _ _ _ _ _ _ _ Rb (runs_nilp _ _)) as [-> ->]. destruct (nilb t c) eqn:E.
      + apply bind_iff in R as (o2 & s2 & R2 & R). pose proof (runs_det _ _ _ _ _ _ _ _ R2 (runs_ret _ _ _ _)) as [-> ->]. pose proof (runs_det _ _ _ _ _ _ _ _ R (runs_ret _ _ _ _)) as [Q ->]. discriminate Q.
      + apply bind_iff in R as (o2 & s2 & R2 & R). apply car_iff in R2. pose proof (runs_det _ _ _ _ _ _ _ _ R2 (runs_ret _ _ _ _)) as [-> ->]. apply cdr_iff in R. pose proof (runs_det _ _ _ _ _ _ _ _ R (runs_ret _ _ _ _)) as [Q _]. discriminate Q.
    - intros [c a] t [c1 a1] t1 o2 t2 R _ (vs & E1 & E2 & E3). apply bind_iff in R as (ob & sb & Rb & R). pose proof (runs_det _ _ _ _ _ _ _ _ Rb (runs_nilp _ _)) as [-> ->]. destruct (nilb t c) eqn:E.
      + apply bind_iff in R as (o3 & s2 & R2 & R). pose proof (runs_det _ _ _ _ _ _ _ _ R2 (runs_ret _ _ _ _)) as [-> ->]. pose proof (runs_det _ _ _ _ _ _ _ _ R (runs_ret _ _ _ _)) as [Q ->]. discriminate Q.
      + apply bind_iff in R as (o3 & s2 & R2 & R). apply car_iff in R2. pose proof (runs_det _ _ _ _ _ _ _ _ R2 (runs_ret _ _ _ _)) as [-> ->]. apply cdr_iff in R. pose proof (runs_det _ _ _ _ _ _ _ _ R (runs_ret _ _ _ _)) as [Q ->]. injection Q as -> ->.
        cbn [fst snd] in *. exists (head_of t c :: vs). split; [apply el_more; [rewrite at_end_nilb; congruence|exact E1]|]. split; [|exact E3]. rewrite E2. cbn [rev]. rewrite <- app_assoc. reflexivity. }
  destruct L as (vs & E & -> & ->). pose proof (runs_det _ _ _ _ _ _ _ _ K (runs_ret _ _ _ _)) as [-> ->]. exists vs. rewrite app_nil_r, rev_involutive. auto.
Qed.
Definition push : list val -> val -> prog (list val) := fun acc i => x <- car i ;; Ret (x :: acc).
Lemma ptrs_strung v acc s o s' : runs denote (for_ptrs push v acc) s o s' -> exists vs, strung s v vs /\ o = Done (rev vs ++ acc) /\ s' = s.
Proof.
  intros H. refine (loop_ind _ (fun st s o s' => exists vs, strung s (fst st) vs /\ o = Done (rev vs ++ snd st) /\ s' = s) _ _ _ (v, acc) s o s' H).
  - intros [c a] t r t1 R. destruct (is_nil c) eqn:E.
    + pose proof (runs_det _ _ _ _ _ _ _ _ R (runs_ret _ _ _ _)) as [Q ->]. injection Q as ->. destruct c; try discriminate E. exists []. split; [constructor|split; reflexivity].
    + exfalso. apply bind_iff in R as (o2 & s2 & R2 & R). apply car_iff in R2. pose proof (runs_det _ _ _ _ _ _ _ _ R2 (runs_ret _ _ _ _)) as [-> ->]. apply cdr_iff in R. pose proof (runs_det _ _ _ _ _ _ _ _ R (runs_ret _ _ _ _)) as [Q _]. discriminate Q.
  - intros [c a] t w t1 R. exfalso. destruct (is_nil c) eqn:E.
    + pose proof (runs_det _ _ _ _ _ _ _ _ R (runs_ret _ _ _ _)) as [Q _]. discriminate Q.
    + apply bind_iff in R as (o2 & s2 & R2 & R). apply car_iff in R2. pose proof (runs_det _ _ _ _ _ _ _ _ R2 (runs_ret _ _ _ _)) as [-> ->]. apply cdr_iff in R. pose proof (runs_det _ _ _ _ _ _ _ _ R (runs_ret _ _ _ _)) as [Q _]. discriminate Q.
  - intros [c a] t [c1 a1] t1 o2 t2 R _ (vs & E1 & E2 & E3). destruct (is_nil c) eqn:E.
    + pose proof (runs_det _ _ _ _ _ _ _ _ R (runs_ret _ _ _ _)) as [Q _]. discriminate Q.
    + apply bind_iff in R as (o3 & s2 & R2 & R). apply car_iff in R2. pose proof (runs_det _ _ _ _ _ _ _ _ R2 (runs_ret _ _ _ _)) as [-> ->]. apply cdr_iff in R. pose proof (runs_det _ _ _ _ _ _ _ _ R (runs_ret _ _ _ _)) as [Q ->]. injection Q as -> ->.
      cbn [fst snd] in *. exists (head_of t c :: vs). split; [apply str_more; [intros ->; discriminate E|exact E1]|]. split; [|exact E3]. rewrite E2. cbn [rev]. rewrite <- app_assoc. reflexivity.
Qed.
(** ** Pieces in memory *)
Definition deliv (s : state) (p : val) (pc : piece) : Prop :=
  match pc with One v => exists c, p = VCell TCons c /\ s_cells s !! c = Some (v, VNil) | Many r => p = r /\ r <> VNil | Nothing => p = VNil end.
Inductive delivered (s : state) : list val -> list piece -> Prop :=
| dl_end : delivered s [] []
| dl_more p pc ps pcs : deliv s p pc -> p <> VNil -> delivered s ps pcs -> delivered s (p :: ps) (pc :: pcs)
| dl_skip ps pcs : delivered s ps pcs -> delivered s ps (Nothing :: pcs).
Lemma delivered_grows s s' ps pcs : grows s s' -> delivered s ps pcs -> delivered s' ps pcs.
Proof.
  intros G H. induction H; econstructor; try eassumption. destruct pc; try assumption. destruct H as (c & E & Hc). exists c. split; [exact E|apply (g_cells _ _ G), Hc].
Qed.
Lemma delivered_nils s ps pcs : delivered s ps pcs -> no_nils ps.
Proof. intros H. induction H; [constructor|constructor; assumption|assumption]. Qed.
Lemma flatten_inv s ps pcs : delivered s ps pcs -> forall v acc o s', is_list s v ps ->
  runs denote (for_cells (fun acc c => a <- car c ;; if listp a then acc' <- for_ptrs (fun acc i => x <- car i ;; Ret (x :: acc)) a acc ;; Ret (inl acc') else Ret (inl (a :: acc)))
         (fun acc => Ret acc) v acc) s o s' -> exists ws, assembled s pcs ws /\ o = Done (rev ws ++ acc) /\ s' = s.
Proof.
  intros D. induction D as [|p pc ps pcs Dp N D IH|ps pcs D IH]; intros v acc o s' L H.
  - exists []. split; [constructor|]. apply loop_iff in H as (o1 & s1 & H & K). apply bind_iff in H as (ob & sb & Rb & H). pose proof (runs_det _ _ _ _ _ _ _ _ Rb (runs_nilp _ _)) as [-> ->]. rewrite (is_list_nil_inv _ _ L) in H.
    apply bind_iff in H as (o2 & s2 & R2 & H). pose proof (runs_det _ _ _ _ _ _ _ _ R2 (runs_ret _ _ _ _)) as [-> ->]. pose proof (runs_det _ _ _ _ _ _ _ _ H (runs_ret _ _ _ _)) as [-> ->]. exact K.
  - destruct (is_list_cons_inv _ _ _ _ L) as (E1 & E2 & E3 & l & ->). apply loop_iff in H as (o1 & s1 & H & K). apply bind_iff in H as (ob & sb & Rb & H). pose proof (runs_det _ _ _ _ _ _ _ _ Rb (runs_nilp _ _)) as [-> ->]. rewrite E1 in H.
    apply bind_iff in H as (o2 & s2 & R2 & H). apply car_iff in R2. change (head_of s (VCell TCons l)) with (car_of s (VCell TCons l)) in R2. rewrite E2 in R2.
    assert (X : exists w, o2 = Done (inl (rev w ++ acc)) /\ s2 = s /\ forall ws, assembled s pcs ws -> assembled s (pc :: pcs) (w ++ ws)).
    { destruct (listp p) eqn:Lp.
      - apply bind_iff in R2 as (o3 & s3 & R3 & R2). apply ptrs_strung in R3 as (vs & T & -> & ->). pose proof (runs_det _ _ _ _ _ _ _ _ R2 (runs_ret _ _ _ _)) as [-> ->]. exists vs. split; [reflexivity|]. split; [reflexivity|]. intros ws A.
        destruct pc as [x|x|]; [| |congruence].
        + destruct Dp as (c & -> & Ec). inversion T as [|? ? N1 T1]; subst. cbn [head_of rest_of] in *. rewrite (cell_some _ _ _ Ec) in *. cbn [fst snd] in *. inversion T1; subst; [|congruence]. apply as_one, A.
        + destruct Dp as [-> _]. apply as_many; assumption.
      - pose proof (runs_det _ _ _ _ _ _ _ _ R2 (runs_ret _ _ _ _)) as [-> ->]. exists [p]. split; [reflexivity|]. split; [reflexivity|]. intros ws A. destruct pc as [x|x|]; [| |congruence].
        + destruct Dp as (c & -> & Ec). discriminate Lp.
        + destruct Dp as [-> _]. apply as_atom; assumption. }
    destruct X as (w & -> & -> & X). cbv beta iota in H. apply cdr_iff in H. pose proof (runs_det _ _ _ _ _ _ _ _ H (runs_ret _ _ _ _)) as [-> ->]. apply (IH _ _ _ _ E3) in K as (ws & A & -> & ->).
    exists (w ++ ws). split; [apply X, A|]. split; [|reflexivity]. rewrite rev_app_distr, app_assoc. reflexivity.
  - destruct (IH _ _ _ _ L H) as (ws & A & E). exists ws. split; [apply as_nothing, A|exact E].
Qed.
(** ** Hiding cells *)
Definition hid (H : list loc) : loc -> Prop := fun l => ~ In l H.
Definition isolated (s : state) (c : loc) : Prop := (forall k, ~ refers s k c) /\ ~ In c (shared_roots s) /\ Forall (req_in (hid [c])) (s_pending s).
Definition hides (H : list loc) (s : state) : Prop := wf_state s /\ closed s /\ heap_fine False (hid H) (hid H) False any s /\ Forall (fun c => (1 < c < s_next s)%positive) H.
Lemma hides_none s : wf_state s -> closed s -> hides [] s.
Proof.
  intros W C. split; [exact W|]. split; [exact C|]. split; [|constructor]. apply heap_of_refs; try (intros; intros []).
  - apply List.Forall_forall. intros x _ [].
  - apply List.Forall_forall. intros [a b c d|a b c d] _; (split; [intros []|split; [intros []|split; [apply fine_by_addr; intros k _ []|intros []]]]).
Qed.
Lemma hides_more H c s : hides H s -> isolated s c -> (1 < c < s_next s)%positive -> hides (c :: H) s.
Proof.
  intros (W & C & F & B) (I1 & I2 & I3) L. split; [exact W|]. split; [exact C|]. split; [|constructor; assumption]. destruct (roots_of_heap _ _ _ F) as [F1 F2]. apply heap_of_refs.
  - intros [E|E]; [lia|]. pose proof (proj1 (List.Forall_forall _ _) B _ E). cbn in *. lia.
  - intros l k Hl Hk [E|E]; [subst; exact (I1 _ Hk)|]. apply (refs_of_heap _ _ _ F l k); [intros E'; apply Hl; right; exact E'|exact Hk|exact E].
  - apply List.Forall_forall. intros l Hl [E|E]; [subst; contradiction|]. exact (proj1 (List.Forall_forall _ _) F1 _ Hl E).
  - apply List.Forall_forall. intros r Hr. pose proof (proj1 (List.Forall_forall _ _) F2 _ Hr) as A. pose proof (proj1 (List.Forall_forall _ _) I3 _ Hr) as A'.
    assert (K : forall l, hid [c] l -> hid H l -> hid (c :: H) l) by (intros l X Y [E|E]; [apply X; left; exact E|exact (Y E)]).
    destruct r as [a b d e|a b d e]; destruct A as (A1 & A2 & A3 & A4); destruct A' as (B1 & B2 & B3 & B4); (split; [apply K; assumption|split; [apply K; assumption|split; [apply fine_by_addr; intros k Hk; apply K; [exact (addr_fine _ _ _ B3 Hk)|exact (addr_fine _ _ _ A3 Hk)]|apply K; assumption]]]).
  - intros l Hl _ [E|E]; [subst; lia|]. pose proof (proj1 (List.Forall_forall _ _) B _ E). cbn in *. lia.
Qed.
Lemma isolated_new s a d : closed s -> below s a -> below s d -> isolated (set_cells (<[s_next s := (a, d)]> (s_cells s)) (bump s)) (s_next s).
Proof.
  intros [[C G] P] Ba Bd. set (s1 := set_cells _ _). assert (Cc : forall k, cell_at s1 k = (a, d) \/ cell_at s1 k = cell_at s k).
  { intros k. unfold cell_at, s1. cbn. destruct (decide (k = s_next s)) as [->|N]; [rewrite lookup_insert; left; reflexivity|rewrite lookup_insert_ne by congruence; right; reflexivity]. }
  split; [|split].
  - intros k H. assert (K0 : forall k c, refers s1 k c -> refers s k c \/ addr a = Some c \/ addr d = Some c).
    { clear k H. intros k c H. destruct H as [k1 H|k1 H|k1 H|k1 H|r H|k1 H|k1 H|k1 H|r H|k1 H|k1 H|n k1 H|k1 H|k1 H|n v k1 Hi H|v k1 Hi H|t v k1 Hi H|t v b k1 Hi H|v k1 Hi H];
        [destruct (Cc k) as [E|E]; rewrite E in H; [right; left; exact H|left; exact (ref_car s k _ H)]|destruct (Cc k) as [E|E]; rewrite E in H; [right; right; exact H|left; exact (ref_cdr s k _ H)]|left; exact (ref_params s k _ H)|left; exact (ref_body s k _ H)|left; exact (ref_closure s k _ H)|left; exact (ref_process s k _ H)|left; exact (ref_mparams s k _ H)|left; exact (ref_mbody s k _ H)|left; exact (ref_mclosure s k _ H)|left; exact (ref_parent s k _ H)|left; exact (ref_object s k _ H)|left; exact (ref_binding s k _ _ H)|left; exact (ref_bsym s k _ H)|left; exact (ref_bval s k _ H)|left; exact (ref_slot s k _ _ _ Hi H)|left; exact (ref_buffer s k _ _ Hi H)|left; exact (ref_sender s k _ _ _ Hi H)|left; exact (ref_received s k _ _ _ _ Hi H)|left; exact (ref_result s k _ _ Hi H)]. }
    destruct (K0 _ _ H) as [K|[K|K]]; [specialize (C _ _ K); lia|specialize (Ba _ K); lia|specialize (Bd _ K); lia].
  - intros H. pose proof (proj1 (List.Forall_forall _ _) G _ H) as K. cbn in K. lia.
  - apply (List.Forall_impl (P := req_in (ProofReach.bounded s (s_next s)))); [|exact P]. unfold ProofReach.bounded, hid. intros [b0 b1 b2 b3|b0 b1 b2 b3] (A1 & A2 & A3 & A4); (split; [intros [E|[]]; lia|split; [intros [E|[]]; lia|split; [apply fine_by_addr; intros k Hk [E|[]]; pose proof (addr_fine _ _ _ A3 Hk) as K; cbn in K; lia|intros [E|[]]; lia]]]).
Qed.

(** ** Closedness *)
Lemma below_more s s' v : (s_next s <= s_next s')%positive -> below s v -> below s' v.
Proof. intros L B k Hk. specialize (B k Hk). lia. Qed.
Lemma fine_bounded s s' v : (s_next s <= s_next s')%positive -> below s v -> @fine _ (fine_val False (ProofReach.bounded s (s_next s'))) v.
Proof. intros L B. apply fine_by_addr. intros k Hk. specialize (B k Hk). unfold ProofReach.bounded. lia. Qed.
Lemma quasi_closed v n env s o s' : wf_state s -> closed s -> below s v -> (env < s_next s)%positive -> runs denote (call (RQuasi v n env)) s o s' ->
  wf_state s' /\ closed s' /\ (s_next s <= s_next s')%positive /\ forall p, o = Done (Ok p) -> below s' p.
Proof.
  intros W C B Bn H. pose proof (next_runs _ _ _ _ _ H) as L. split; [exact (wf_runs _ _ _ _ _ W H)|].
  destruct (closed_runs (res val) (fun R => @fine_res _ (fine_val False R)) (call (RQuasi v n env)) s o s' W C) as [C' V]; [|exact H|].
  - split; [|intros x Hx; exact Hx]. split; [apply fine_bounded; assumption|unfold ProofReach.bounded; lia].
  - split; [exact C'|]. split; [exact L|]. intros p ->. apply below_fine. exact V.
Qed.
Lemma atl_closed ps s o s' : wf_state s -> closed s -> Forall (below s) ps -> runs denote (array_to_list ps) s o s' ->
  wf_state s' /\ closed s' /\ (s_next s <= s_next s')%positive /\ forall p, o = Done p -> below s' p.
Proof.
  intros W C B H. pose proof (next_runs _ _ _ _ _ H) as L. split; [exact (wf_runs _ _ _ _ _ W H)|].
  destruct (closed_runs val (fine_val False) (array_to_list ps) s o s' W C) as [C' V]; [|exact H|].
  - apply safe_array_to_list; [auto|]. refine (List.Forall_impl _ _ B). intros a. apply fine_bounded, L.
  - split; [exact C'|]. split; [exact L|]. intros p ->. apply below_fine. exact V.
Qed.
Lemma flatten_closed v s o s' : wf_state s -> closed s -> below s v -> runs denote (flatten v) s o s' ->
  wf_state s' /\ closed s' /\ (s_next s <= s_next s')%positive /\ forall p, o = Done p -> below s' p.
Proof.
  intros W C B H. pose proof (next_runs _ _ _ _ _ H) as L. split; [exact (wf_runs _ _ _ _ _ W H)|].
  destruct (closed_runs val (fine_val False) (flatten v) s o s' W C) as [C' V]; [|exact H|].
  - apply safe_flatten; [auto|]. apply fine_bounded; assumption.
  - split; [exact C'|]. split; [exact L|]. intros p ->. apply below_fine. exact V.
Qed.
Lemma cons_closed a d s : wf_state s -> closed s -> below s a -> below s d -> let s' := set_cells (<[s_next s := (a, d)]> (s_cells s)) (bump s) in wf_state s' /\ closed s' /\ below s' (VCell TCons (s_next s)).
Proof.
  intros W C Ba Bd s'. assert (R : runs denote (cons a d) s (Done (VCell TCons (s_next s))) s') by apply (runs_cons TCons). split; [exact (wf_runs _ _ _ _ _ W R)|].
  destruct (closed_runs val (fine_val False) (cons a d) s (Done (VCell TCons (s_next s))) s' W C) as [C' V]; [|exact R|].
  - apply safe_cons; [auto| |]; apply fine_bounded; try assumption; cbn; lia.
  - split; [exact C'|]. apply below_fine. exact V.
Qed.
Lemma head_below s v : closed s -> below s (head_of s v).
Proof. intros [[C _] _] k Hk. destruct v; try discriminate Hk. cbn [head_of] in Hk. apply (C l). apply ref_car, Hk. Qed.
Lemma rest_below s v : closed s -> below s (rest_of s v).
Proof. intros [[C _] _] k Hk. destruct v; try discriminate Hk. cbn [rest_of] in Hk. apply (C l). apply ref_cdr, Hk. Qed.
Lemma walked_below s v vs : closed s -> walked s v vs -> Forall (below s) vs.
Proof. intros C H. induction H; constructor; [apply head_below, C|assumption]. Qed.
Lemma hides_run H v n env s o s' : hides H s -> below s v -> (forall k, addr v = Some k -> hid H k) -> hid H env -> (env < s_next s)%positive -> runs denote (call (RQuasi v n env)) s o s' ->
  hides H s' /\ forall c, In c H -> s_cells s' !! c = s_cells s !! c.
Proof.
  intros (W & C & F & B) Bv Fv Fe Be R. destruct (quasi_closed _ _ _ _ _ _ W C Bv Be R) as (W' & C' & L & _).
  destruct (within_runs (hid H) any (res val) (@fine_res _ (fine_val False (hid H))) (call (RQuasi v n env)) s o s' W F (fun _ _ => Logic.I)) as (F' & K & _); [|exact R|].
  - split; [|intros x Hx; exact Hx]. split; [apply fine_by_addr, Fv|exact Fe].
  - split; [|intros c Hc; apply K; intros N; exact (N Hc)]. split; [exact W'|]. split; [exact C'|]. split; [exact F'|]. refine (List.Forall_impl _ _ B). cbn. lia.
Qed.

(** ** The template is filled *)
Section Fill.
  Variable env : loc.
  Definition gave (s : state) (o : outcome (res val)) (o1 : outcome (res piece)) (s' : state) : Prop :=
    match o1 with
    | Done (Ok pc) => exists p, o = Done (Ok p) /\ deliv s' p pc /\ forall v, pc = One v -> exists c, p = VCell TCons c /\ (s_next s <= c < s_next s')%positive /\ isolated s' c
    | Done (Err e) => o = Done (Err e)
    | Panicked w => o = Panicked w
    end.
  Definition filled (m : nat) : Prop := forall v n s o s', run denote m (call (RQuasi v n env)) s = Some (o, s') -> wf_state s -> closed s -> below s v -> (env < s_next s)%positive ->
    exists o1, fills env n v s o1 s' /\ gave s o o1 s'.
  Definition recast {A B} (o : outcome (res A)) (b : B) : outcome (res B) := match o with Done (Ok _) => Done (Ok b) | Done (Err e) => Done (Err e) | Panicked w => Panicked w end.
  Lemma parts_filled m n : filled m -> forall vs H s o s', run denote m (quasi_parts vs n env) s = Some (o, s') -> hides H s -> Forall (below s) vs ->
    Forall (fun v => forall k, addr v = Some k -> hid H k) vs -> hid H env -> (env < s_next s)%positive ->
    (forall c, In c H -> s_cells s' !! c = s_cells s !! c) /\
    ((exists o1, stops o o1 /\ forall pcs, fills_each env n vs pcs s o1 s') \/
     (exists ps pcs, o = Done (Ok ps) /\ delivered s' ps pcs /\ Forall (below s') ps /\ wf_state s' /\ closed s' /\ (s_next s <= s_next s')%positive /\
        forall pcs0 o2 s2, fills_each env n [] (pcs0 ++ pcs) s' o2 s2 -> fills_each env n vs pcs0 s o2 s2)).
  Proof.
    intros F. induction vs as [|v vs IH]; intros H s o s' R Hd Bv Fv Fe Be.
    - cbn [quasi_parts] in R. unfold ok in R. rewrite run_ret in R. injection R as <- <-. split; [auto|]. right. exists [], []. destruct Hd as (W & C & _). split; [reflexivity|]. split; [constructor|]. split; [constructor|]. split; [exact W|]. split; [exact C|]. split; [lia|].
      intros pcs0 o2 s2. rewrite app_nil_r. auto.
    - cbn [quasi_parts] in R. apply Forall_cons_1 in Bv as [Bv Bvs]. apply Forall_cons_1 in Fv as [Fv Fvs]. apply run_bind_ok_inv in R as (o1 & s1 & R1 & R). pose proof (run_runs _ _ _ _ _ R1) as R1'.
      pose proof Hd as Hd'. destruct Hd as (W & C & Hh & Hb). destruct (hides_run _ _ _ _ _ _ _ Hd' Bv Fv Fe Be R1') as [Hd1 K1]. destruct (quasi_closed _ _ _ _ _ _ W C Bv Be R1') as (W1 & C1 & L1 & B1).
      destruct (F v n s o1 s1 R1 W C Bv Be) as (oc & Fl & Gv). destruct R as [(p & -> & R)|[St ->]].
      + apply run_bind_ok_inv in R as (o2 & s2 & R2 & R). destruct oc as [[pc|e]|w]; cbn in Gv; try discriminate Gv. destruct Gv as (p' & Q & Dp & Is). injection Q as <-.
        set (H2 := match pc, p with One _, VCell TCons c => c :: H | _, _ => H end).
        assert (Hd2 : hides H2 s1 /\ hid H2 env /\ Forall (fun v => forall k, addr v = Some k -> hid H2 k) vs /\ incl H H2 /\ forall v, pc = One v -> exists c, p = VCell TCons c /\ In c H2).
        { destruct pc as [x|x|]; try (split; [exact Hd1|]; split; [exact Fe|]; split; [exact Fvs|]; split; [intros c Hc; exact Hc|discriminate]).
          destruct (Is x eq_refl) as (c & -> & Lc & Ic). unfold H2. pose proof (wf_next _ W) as Nx. split; [apply hides_more; [exact Hd1|exact Ic|lia]|]. split; [intros [E|E]; [lia|exact (Fe E)]|]. split.
          - apply List.Forall_forall. intros u Hu k Hk [E|E]; [|exact (proj1 (List.Forall_forall _ _) Fvs u Hu k Hk E)]. pose proof (proj1 (List.Forall_forall _ _) Bvs u Hu k Hk). lia.
          - split; [intros c' Hc; right; exact Hc|]. intros v' _. exists c. split; [reflexivity|left; reflexivity]. }
        destruct Hd2 as (Hd2 & Fe2 & Fvs2 & Inc & Own).
        destruct (IH H2 s1 o2 s2 R2 Hd2) as (K2 & X); [refine (List.Forall_impl _ _ Bvs); intros a; apply below_more, L1|exact Fvs2|exact Fe2|lia|].
        destruct R as [(ps & -> & R)|[St ->]].
        * unfold ok in R. rewrite run_ret in R. injection R as <- <-. split; [intros c Hc; rewrite (K2 c (Inc c Hc)); apply K1, Hc|]. right. destruct X as [(o3 & St & _)|(ps' & pcs & Q & D & Bp & W2 & C2 & L2 & X)]; [destruct St|]. injection Q as <-.
          exists (if is_nil p then ps else p :: ps), (pc :: pcs). split; [reflexivity|].
          assert (Dp2 : deliv s2 p pc). { destruct pc as [x|x|]; try exact Dp. destruct Dp as (c & -> & Ec). exists c. split; [reflexivity|]. destruct (Own x eq_refl) as (c' & Q & Hc). injection Q as <-. rewrite (K2 c Hc). exact Ec. }
          split; [destruct pc as [x|x|]; [destruct Dp as (c & -> & _); apply dl_more; [exact Dp2|discriminate|exact D]|destruct Dp as [-> N]; destruct x; try congruence; apply dl_more; (exact Dp2 || discriminate || exact D)|cbn in Dp; subst p; apply dl_skip, D]|].
          assert (Bp' : below s2 p) by (eapply below_more; [exact L2|apply B1; reflexivity]). split; [destruct (is_nil p); [exact Bp|constructor; assumption]|]. split; [exact W2|]. split; [exact C2|]. split; [lia|].
          intros pcs0 o3 s3 Fe3. eapply fe_next; [exact Fl|]. apply X. rewrite <- app_assoc. exact Fe3.
        * split; [intros c Hc; rewrite (K2 c (Inc c Hc)); apply K1, Hc|]. left. destruct X as [(o3 & St3 & X)|(ps' & pcs & -> & _)]; [|destruct St]. exists o3. split; [|intros pcs; eapply fe_next; [exact Fl|apply X]].
          destruct o2 as [[|]|]; cbn in St, St3 |- *; [destruct St| |]; subst; reflexivity.
      + split; [exact K1|]. left.
        exists (recast o1 Nothing). split; [|intros pcs; eapply fe_stop; [exact Fl|]].
        * destruct o1 as [[|]|]; cbn in St |- *; [destruct St| |]; subst; reflexivity.
        * destruct o1 as [[x|e]|w]; cbn in St; [destruct St| |]; destruct oc as [[pc|e']|w']; cbn in Gv; try (destruct Gv as (p' & Gv & _); discriminate Gv); try discriminate Gv; injection Gv as ->; reflexivity.
  Qed.
  Lemma one_run m x s o s' : run denote m (c <- cons x VNil ;; ok c) s = Some (o, s') -> wf_state s -> closed s -> below s x ->
    s' = set_cells (<[s_next s := (x, VNil)]> (s_cells s)) (bump s) /\ grows s s' /\ forall s0, (s_next s0 <= s_next s)%positive -> gave s0 o (Done (Ok (One x))) s'.
  Proof.
    intros R W C B. assert (R' : runs denote (c <- cons x VNil ;; ok c) s (Done (Ok (VCell TCons (s_next s)))) (set_cells (<[s_next s := (x, VNil)]> (s_cells s)) (bump s))) by (eapply runs_bind; [apply (runs_cons TCons)|apply runs_ret]).
    pose proof (runs_det _ _ _ _ _ _ _ _ (run_runs _ _ _ _ _ R) R') as [-> ->]. split; [reflexivity|]. split; [apply grows_new_cell, W|]. intros s0 L. exists (VCell TCons (s_next s)). split; [reflexivity|].
    split; [exists (s_next s); split; [reflexivity|apply cell_new]|]. intros v [= <-]. exists (s_next s). split; [reflexivity|]. split; [cbn; lia|]. apply isolated_new; [exact C|exact B|discriminate].
  Qed.
  Lemma gave_stop (o1 : outcome (res val)) oc s s' (o : outcome (res val)) : gave s o1 oc s' -> stops o1 o -> exists oc', stops oc oc' /\ gave s o oc' s'.
  Proof.
    destruct o1 as [[x|e]|w]; cbn; [intros _ []| |]; intros G ->; destruct oc as [[pc|e']|w']; cbn in G; try (destruct G as (p' & G & _); discriminate G); try discriminate G; injection G as ->.
    - exists (Done (Err e')). split; reflexivity.
    - exists (Panicked w'). split; reflexivity.
  Qed.
  Lemma eval_stop (o1 : outcome (res val)) s s' (o : outcome (res val)) : stops o1 o -> exists oc : outcome (res piece), stops o1 oc /\ gave s o oc s'.
  Proof.
    destruct o1 as [[x|e]|w]; cbn; [intros []| |]; intros ->.
    - exists (Done (Err e)). split; reflexivity.
    - exists (Panicked w). split; reflexivity.
  Qed.
  Lemma gave_head s o pc p s' : gave s o (Done (Ok pc)) s' -> o = Done (Ok p) -> head_of s' p = value_of_piece s' pc.
  Proof.
    intros (p' & -> & D & _) [= ->]. destruct pc as [x|x|]; cbn in D.
    - destruct D as (c & -> & E). cbn [head_of value_of_piece]. rewrite (cell_some _ _ _ E). reflexivity.
    - destruct D as [-> _]. reflexivity.
    - subst. reflexivity.
  Qed.
  Lemma wrap_filled m name k v e n s o s' : filled m -> run denote m (quasi_wrap name v k env) s = Some (o, s') -> wf_state s -> closed s -> (env < s_next s)%positive ->
    marked s v name e -> (name = "quasiquote" /\ k = n + 1) \/ (In name ["unquote"; "unquote-splicing"] /\ n <> 1 /\ k = n - 1) ->
    exists o1, fills env n v s o1 s' /\ gave s o o1 s'.
  Proof.
    intros F R W C Be M K. unfold quasi_wrap in R. apply (run_then _ _ _ _ _ _ _ _ (cadr_run _ _)) in R. assert (Bx : below s (head_of s (rest_of s v))) by apply head_below, C. assert (Ee : e = head_of s (rest_of s v)) by (destruct M as (_ & _ & M); exact M). rewrite <- Ee in R, Bx.
    apply run_bind_ok_inv in R as (o1 & s1 & R1 & R). destruct (F _ _ _ _ _ R1 W C Bx Be) as (oc & Fl & Gv). destruct (quasi_closed _ _ _ _ _ _ W C Bx Be (run_runs _ _ _ _ _ R1)) as (W1 & C1 & L1 & B1). destruct R as [(p & -> & R)|[St ->]].
    - pose proof (B1 p eq_refl) as Bp. apply (run_then _ _ _ _ _ _ _ _ (runs_cons TCons _ _ _)) in R. destruct (cons_closed (VSym name) p s1 W1 C1 ltac:(discriminate) Bp) as (W2 & C2 & B2). pose proof (grows_new_cell s1 (VSym name) p W1) as G2. set (s2 := set_cells _ _) in *.
      destruct (one_run _ _ _ _ _ R W2 C2 B2) as (Es & G3 & Gv3). destruct oc as [[pc|e']|w']; cbn in Gv; try discriminate Gv. destruct Gv as (p' & Q & Dp & _). injection Q as <-.
      exists (Done (Ok (One (VCell TCons (s_next s1))))). split; [|apply Gv3; cbn; lia]. eapply (fl_wrap env n k); [exact M|exact K|exact Fl|exact (grows_trans _ _ _ G2 G3)|].
      exists (s_next s1). split; [reflexivity|]. assert (Ec : s_cells s' !! s_next s1 = Some (VSym name, p)) by (apply (g_cells _ _ G3), cell_new). destruct pc as [x|x|]; cbn in Dp.
      + destruct Dp as (d & -> & Ed). exists d. split; [exact Ec|]. apply (g_cells _ _ G3), (g_cells _ _ G2), Ed.
      + destruct Dp as [-> _]. exact Ec.
      + subst. exact Ec.
    - destruct (gave_stop _ _ _ _ _ Gv St) as (oc' & St' & Gv'). exists oc'. split; [|exact Gv']. eapply (fl_wrap_stop env n k); eassumption.
  Qed.
  Theorem fill_run m : filled m.
  Proof.
    induction m as [|m F]; intros v n s o s' R W C Bv Be; [discriminate R|].
    unfold call in R. rewrite run_call in R. destruct (run denote m (denote _ (RQuasi v n env)) s) as [[ob sb]|] eqn:Rb; [|discriminate R]. assert (Q : o = ob /\ s' = sb) by (destruct ob; [rewrite run_ret in R|]; split; congruence). destruct Q as [-> ->]. clear R. rename ob into o, sb into s', Rb into R.
    cbn [denote] in R. unfold quasi_body in R. destruct (listp v) eqn:Lv; cbn [negb] in R.
    2:{ destruct (one_run _ _ _ _ _ R W C Bv) as (-> & G & Gv). eexists. split; [apply fl_atom; [exact Lv|exact G]|apply Gv; lia]. }
    apply (run_then _ _ _ _ _ _ _ _ (runs_car _ _)) in R. change (car_of s v) with (head_of s v) in R.
    match type of R with context [match head_sym _ with Some _ => _ | None => ?q end] => assert (Plain : run denote m q s = Some (o, s') -> (forall t, head_of s v = VSym t -> ~ In t markers) -> exists o1, fills env n v s o1 s' /\ gave s o o1 s') end.
    { clear R. intros R M. apply run_bind_inv in R as (oa & sa & Ra & R). apply run_runs, to_array_elements in Ra as (vs & Wk & -> & ->).
      apply run_bind_ok_inv in R as (o1 & s1 & R1 & R). destruct (parts_filled m n F vs [] s o1 s1 R1 (hides_none s W C) (walked_below _ _ _ C Wk)) as (_ & X).
      - apply List.Forall_forall. intros x _ k _ [].
      - intros [].
      - exact Be.
      - destruct R as [(ps & -> & R)|[St ->]].
        + destruct X as [(o2 & [] & _)|(ps' & pcs & Q & D & Bp & W1 & C1 & L1 & X)]. injection Q as <-.
          destruct (runs_array_to_list ps s1 W1) as (pl & ys & s2 & R2 & G2 & E2 & Lp & Np & _). rewrite (elems_no_nil _ _ _ E2 (delivered_nils _ _ _ D)) in Lp. destruct (atl_closed _ _ _ _ W1 C1 Bp R2) as (W2 & C2 & L2 & B2).
          apply (run_then _ _ _ _ _ _ _ _ R2) in R. apply run_bind_inv in R as (o3 & s3 & R3 & R). apply run_runs in R3. destruct (flatten_closed _ _ _ _ W2 C2 (B2 pl eq_refl) R3) as (W3 & C3 & L3 & B3).
          pose proof R3 as R3'. unfold flatten in R3. destruct (is_nil pl) eqn:En; [destruct pl; try discriminate En; congruence|]. rewrite (is_list_listp _ _ _ Lp) in R3. cbn [negb] in R3.
          apply bind_iff in R3 as (o4 & s4 & R4 & R3). destruct (flatten_inv _ _ _ (delivered_grows _ _ _ _ G2 D) _ _ _ _ Lp R4) as (ws & A & -> & ->). rewrite app_nil_r, rev_involutive in R3.
          destruct (runs_array_list_of ws s2 W2) as (r & s5 & R5 & G5 & L5). pose proof (runs_det _ _ _ _ _ _ _ _ R3 R5) as [-> ->].
          destruct (one_run _ _ _ _ _ R W3 C3 (B3 r eq_refl)) as (-> & G6 & Gv). exists (Done (Ok (One r))). split; [|apply Gv; lia]. eapply fl_list; [exact Lv|exact M|exact Wk|]. apply (X []).
          eapply fe_done; [exact G2|exact A|exact (grows_trans _ _ _ G5 G6)|]. eapply list_of_grows; [exact G6|exact L5].
        + destruct X as [(o2 & St2 & X)|(ps' & pcs & -> & _)]; [|destruct St]. exists o2. split; [eapply fl_list; [exact Lv|exact M|exact Wk|apply X]|].
          destruct o1 as [[|]|]; cbn in St, St2; [destruct St| |]; subst; reflexivity. }
    assert (Ms : forall t, head_of s v = VSym t -> marked s v t (head_of s (rest_of s v))) by (intros t E; split; [exact Lv|split; [exact E|reflexivity]]).
    assert (Ex : forall t, head_of s v = VSym t -> In t ["unquote"; "unquote-splicing"] -> n = 1 -> forall K, run denote m (x <- cadr v ;; p <-? call (RQuasi x n env) ;; y <- car p ;; r <-? eval y env ;; K r) s = Some (o, s') ->
      (forall p s1 r s2, fills env 1 (head_of s (rest_of s v)) s (Done (Ok p)) s1 -> evals (value_of_piece s1 p) env s1 (Done (Ok r)) s2 -> wf_state s2 -> closed s2 -> (s_next s <= s_next s2)%positive -> below s2 r -> run denote m (K r) s2 = Some (o, s') -> exists o1, fills env 1 v s o1 s' /\ gave s o o1 s') ->
      exists o1, fills env 1 v s o1 s' /\ gave s o o1 s').
    { clear R Plain. intros t Et It -> K R Next. apply (run_then _ _ _ _ _ _ _ _ (cadr_run _ _)) in R. assert (Bx : below s (head_of s (rest_of s v))) by apply head_below, C.
      apply run_bind_ok_inv in R as (o1 & s1 & R1 & R). destruct (F _ _ _ _ _ R1 W C Bx Be) as (oc & Fl & Gv). destruct (quasi_closed _ _ _ _ _ _ W C Bx Be (run_runs _ _ _ _ _ R1)) as (W1 & C1 & L1 & B1). destruct R as [(p & -> & R)|[St ->]].
      - apply (run_then _ _ _ _ _ _ _ _ (runs_car _ _)) in R. change (car_of s1 p) with (head_of s1 p) in R. destruct oc as [[pc|e']|w']; cbn in Gv; try discriminate Gv. rewrite (gave_head _ _ _ p _ Gv eq_refl) in R.
        assert (Bp : below s1 (value_of_piece s1 pc)) by (rewrite <- (gave_head _ _ _ p _ Gv eq_refl); apply head_below, C1).
        apply run_bind_ok_inv in R as (o2 & s2 & R2 & R). apply run_runs in R2. change (evals (value_of_piece s1 pc) env s1 o2 s2) in R2. assert (Be1 : (env < s_next s1)%positive) by lia. destruct (evals_closed _ _ _ _ _ W1 C1 Bp Be1 R2) as (C2 & B2). pose proof (next_runs _ _ _ _ _ R2) as L2. pose proof (wf_runs _ _ _ _ _ W1 R2) as W2. destruct R as [(r & -> & R)|[St ->]].
        + eapply Next; try eassumption; [lia|]. apply B2. reflexivity.
        + destruct (eval_stop _ s s2 _ St) as (oc & St' & Gv'). exists oc. split; [|exact Gv']. eapply fl_eval_stop; [exact It|apply Ms, Et|exact Fl|exact R2|exact St'].
      - destruct (gave_stop _ _ _ _ _ Gv St) as (oc' & St' & Gv'). exists oc'. split; [|exact Gv']. eapply fl_operand_stop; [exact It|apply Ms, Et|exact Fl|exact St']. }
    destruct (head_of s v) as [] eqn:Eh; try (apply Plain; [exact R|discriminate]). cbn [head_sym] in R.
    destruct (String.eqb_spec s0 "quasiquote") as [->|N1]; [|destruct (String.eqb_spec s0 "unquote") as [->|N2]; [|destruct (String.eqb_spec s0 "unquote-splicing") as [->|N3]]].
    - eapply wrap_filled; [exact F|exact R|exact W|exact C|exact Be|apply Ms; reflexivity|left; split; reflexivity].
    - destruct (Z.eqb_spec n 1) as [En|Nn].
      + rewrite En in *. eapply (Ex "unquote" eq_refl ltac:(cbn; auto) eq_refl); [exact R|]. intros p s1 r s2 Fl Ev W2 C2 L2 B2 R2. destruct (one_run _ _ _ _ _ R2 W2 C2 B2) as (-> & G & Gv).
        eexists. split; [eapply fl_unquote; [apply Ms; reflexivity|exact Fl|exact Ev|exact G]|apply Gv, L2].
      + eapply wrap_filled; [exact F|exact R|exact W|exact C|exact Be|apply Ms; reflexivity|right]. split; [cbn; auto|]. split; [exact Nn|reflexivity].
    - destruct (Z.eqb_spec n 1) as [En|Nn].
      + rewrite En in *. eapply (Ex "unquote-splicing" eq_refl ltac:(cbn; auto) eq_refl); [exact R|]. intros p s1 r s2 Fl Ev W2 C2 L2 B2 R2. apply (run_then _ _ _ _ _ _ _ _ (runs_nilp _ _)) in R2. destruct (nilb s2 r) eqn:En2; unfold ok in R2; rewrite run_ret in R2; injection R2 as <- <-.
        * exists (Done (Ok Nothing)). split; [eapply fl_splice_none; [apply Ms; reflexivity|exact Fl|exact Ev|apply at_end_nilb, En2]|]. exists VNil. split; [reflexivity|]. split; [reflexivity|discriminate].
        * exists (Done (Ok (Many r))). split; [eapply fl_splice; [apply Ms; reflexivity|exact Fl|exact Ev|rewrite at_end_nilb; congruence]|]. exists r. split; [reflexivity|]. split; [split; [reflexivity|intros ->; discriminate En2]|discriminate].
      + eapply wrap_filled; [exact F|exact R|exact W|exact C|exact Be|apply Ms; reflexivity|right]. split; [cbn; auto|]. split; [exact Nn|reflexivity].
    - rewrite not_marked in R by (cbn; intuition congruence). apply Plain; [exact R|]. intros t [= <-]. cbn. intuition congruence.
  Qed.
End Fill.
Lemma entering_closed name env s : wf_state s -> closed s -> closed (entering name env s).
Proof.
  intros W C. assert (R : runs denote (do_op (OEvent (EPrim name env))) s (Done tt) (entering name env s)) by (apply runs_op; reflexivity).
  refine (proj1 (closed_runs unit (fun _ => fine_unit) (do_op (OEvent (EPrim name env))) s (Done tt) (entering name env s) W C _ R)).
  split; [intros []|]. intros x _. exact Logic.I.
Qed.
Lemma template_filled v env s o s' : wf_state s -> no_dangling s -> s_pending s = [] -> below s v -> (env < s_next s)%positive -> applies "quasiquote" [v] env s o s' ->
  exists o1, fills env 1 v (entering "quasiquote" env s) o1 s' /\
    match o1 with Done (Ok p) => o = Done (Ok (value_of_piece s' p)) | Done (Err e) => o = Done (Err e) | Panicked w => o = Panicked w end.
Proof.
  intros W D P B Be H. assert (C : closed (entering "quasiquote" env s)) by (apply entering_closed; [exact W|split; [exact D|rewrite P; constructor]]).
  eapply applies_inv in H; [|reflexivity]. cbn [p_body special func rspecial rfunc] in H. destruct H as [m H]. unfold quasiquote_impl in H. cbn [arg nth] in H.
  apply run_bind_ok_inv in H as (o1 & s1 & R1 & R). destruct (fill_run env m v 1 _ o1 s1 R1 (wf_entering _ _ _ W) C B Be) as (oc & Fl & Gv). destruct R as [(p & -> & R)|[St ->]].
  - apply (run_then _ _ _ _ _ _ _ _ (runs_car _ _)) in R. unfold ok in R. rewrite run_ret in R. injection R as <- <-. destruct oc as [[pc|e']|w']; cbn in Gv; try discriminate Gv. exists (Done (Ok pc)). split; [exact Fl|]. change (car_of s1 p) with (head_of s1 p). rewrite (gave_head _ _ _ p _ Gv eq_refl). reflexivity.
  - exists oc. split; [exact Fl|]. destruct o1 as [[x|e]|w]; cbn in St; [destruct St| |]; destruct oc as [[pc|e']|w']; cbn in Gv; try (destruct Gv as (p' & Gv & _); discriminate Gv); try discriminate Gv; injection Gv as ->; exact St.
Qed.
