(** What the concurrency built-ins do, action by action. *)
From Verif Require Import ProofCall ProofConc ProofProc.
From stdpp Require Import list.
From Verif Require Import Data.
From Verif Require Export SpecConc.
Local Open Scope string_scope.
Local Open Scope list_scope.
Local Open Scope Z_scope.

Lemma performs_inv name p vs env h o : performs name vs env h o -> table name = Some p ->
  exists q, prog_path (p_body p vs env) h q /\ finished q = Some o.
Proof.
  intros (p' & q & I & N & P & F) T. pose proof (table_of _ _ I N) as T'. rewrite T in T'. injection T' as <-. eauto.
Qed.
Definition goes {A} (p : prog A) (h : list act) (o : outcome A) : Prop := exists q, prog_path p h q /\ finished q = Some o.
Lemma goes_ret A (a : A) h o : goes (Ret a) h o -> h = [] /\ o = Done a.
Proof. intros (q & P & F). destruct (path_finished _ (Ret a) _ _ _ eq_refl P) as [-> ->]. injection F as <-. auto. Qed.
Lemma goes_panic A w h o : goes (Panic w : prog A) h o -> h = [] /\ o = Panicked w.
Proof. intros (q & P & F). destruct (path_finished _ (Panic w) _ _ _ eq_refl P) as [-> ->]. injection F as <-. auto. Qed.
Lemma goes_vis A X (d : op X) (k : X -> prog A) h o : goes (Vis d k) h o -> exists x h2 s s1, step_op d s = Some (x, s1) /\ h = Did d x :: h2 /\ goes (k x) h2 o.
Proof.
  intros (q & P & F). destruct (path_vis _ _ _ _ _ _ P) as [[_ ->]|(s & x & s1 & h2 & E & -> & P2)]; [discriminate F|].
  exists x, h2, s, s1. split; [exact E|]. split; [reflexivity|]. exists q. auto.
Qed.
Lemma goes_bind A B (p : prog A) (k : A -> prog B) h o : goes (bind p k) h o ->
  (exists a h1 h2, h = h1 ++ h2 /\ goes p h1 (Done a) /\ goes (k a) h2 o) \/ (exists w, goes p h (Panicked w) /\ o = Panicked w).
Proof.
  intros (q & P & F). destruct (path_bind _ _ _ _ _ _ P) as [(q' & P2 & Sm)|(r & h3 & h4 & r' & -> & P2 & P3 & Sm)].
  - rewrite (same_finished _ _ _ Sm) in F. destruct (finished_bind _ _ _ _ _ F) as [(a & -> & F')|(w & F' & ->)].
    + left. exists a, h, []. split; [symmetry; apply app_nil_r|]. split; [exists (Ret a); auto|]. exists (k a). split; [constructor|exact F'].
    + right. exists w. split; [exists q'; auto|reflexivity].
  - left. exists r, h3, h4. split; [reflexivity|]. split; [exists (Ret r); auto|]. exists r'. split; [exact P3|]. rewrite <- (same_finished _ _ _ Sm). exact F.
Qed.

Lemma goes_call A X (r : req X) (k : X -> prog A) h o : goes (Call r k) h o -> goes (bind (denote X r) k) h o.
Proof.
  intros (q & P & F). destruct (path_first _ _ _ _ P) as [[_ ->]|(s & p1 & s1 & h2 & E & -> & P2)]; [discriminate F|].
  cbn in E. injection E as <- <-. exists q. auto.
Qed.

(** *** Programs that leave processes alone *)
Definition still {X} (o : op X) : Prop := match o with OProcJoin _ | OProcTakeRet _ | OSpawn _ _ _ _ => False | _ => True end.
Definition slot_search {X} (r : req X) : Prop := match r with RHasSlot _ _ _ | RGetSlot _ _ _ => True | _ => False end.
Inductive calm : forall A, prog A -> Prop :=
| calm_ret A (a : A) : calm A (Ret a)
| calm_panic A w : calm A (Panic w)
| calm_vis A X (o : op X) (k : X -> prog A) : still o -> (forall x, calm A (k x)) -> calm A (Vis o k)
| calm_call A X (r : req X) (k : X -> prog A) : slot_search r -> (forall x, calm A (k x)) -> calm A (Call r k)
| calm_iter A S R (body : S -> prog (S + R)) s0 (k : R -> prog A) : (forall s, calm _ (body s)) -> (forall r, calm A (k r)) -> calm A (Iter body s0 k).
Arguments calm {A} p.
Lemma calm_bind A B (p : prog A) (k : A -> prog B) : calm p -> (forall a, calm (k a)) -> calm (bind p k).
Proof. intros H K. induction H; cbn; try constructor; auto. Qed.
Ltac calm_walk := repeat first
  [ assumption | apply calm_ret | apply calm_panic | apply calm_vis; [exact I|intros ?] | apply calm_call; [exact I|intros ?]
  | apply calm_iter; [intros ?|intros ?] | apply calm_bind; [|intros ?]
  | progress unfold do_op, call, loop, ok, fail
  | match goal with |- calm (match ?x with _ => _ end) => destruct x end
  | match goal with |- calm (if ?x then _ else _) => destruct x end ].
Lemma calm_has_parents key ps : forall vis, calm (has_slot_parents key ps vis).
Proof. induction ps as [|v ps IH]; intros vis; cbn; [constructor|]. destruct v; calm_walk; apply IH. Qed.
Lemma calm_get_parents key ps : forall vis, calm (get_slot_parents key ps vis).
Proof. induction ps as [|v ps IH]; intros vis; cbn; [constructor|]. destruct v; calm_walk; apply IH. Qed.
Lemma calm_pick {A} n : forall l : list A, calm (permute n l).
Proof. induction n as [|n IH]; intros l; cbn [permute]; [constructor|]. calm_walk; apply IH. Qed.
Lemma calm_range {A} (l : list A) : calm (range_map l).
Proof. apply calm_pick. Qed.
Lemma calm_parents f : calm (parents_of f).
Proof. unfold parents_of. calm_walk. apply calm_range. Qed.
Lemma calm_denote X (r : req X) : slot_search r -> calm (denote X r).
Proof.
  destruct r; intros []; cbn [denote].
  - unfold has_slot_body. calm_walk; first [apply calm_range|apply calm_has_parents].
  - unfold get_slot_body. calm_walk; first [apply calm_range|apply calm_get_parents].
Qed.
Lemma calm_step A (p : prog A) : calm p -> forall s p' s', step_prog p s = Some (p', s') -> calm p' /\ forall l, joins l (prog_act p s) = [] /\ delivered l (prog_act p s) = [] /\ starts (prog_act p s) = [].
Proof.
  intros H s p' s' E. destruct H as [A a|A w|A X o k Ho Hk|A X r k Hr Hk|A S R body s0 k Hb Hk]; cbn in E; try discriminate.
  - cbn [prog_act]. destruct (step_op o s) as [[x s1]|]; [|discriminate]. injection E as <- <-. split; [apply Hk|]. intros l. destruct o; destruct Ho; repeat split; reflexivity.
  - injection E as <- <-. split; [|intros l; repeat split; reflexivity]. apply calm_bind; [apply calm_denote, Hr|exact Hk].
  - injection E as <- <-. split; [|intros l; repeat split; reflexivity]. apply calm_bind; [apply Hb|]. intros [x|x]; [|apply Hk]. apply calm_iter; assumption.
Qed.
Lemma calm_path A (p : prog A) h q : prog_path p h q -> calm p -> calm q /\ forall l, joins l h = [] /\ delivered l h = [] /\ starts h = [].
Proof.
  intros H C. induction H as [|h q s q2 s' H IH Hs]; [split; [exact C|intros l; repeat split; reflexivity]|]. destruct IH as [C1 J1].
  destruct (calm_step _ _ C1 _ _ _ Hs) as [C2 J2]. split; [exact C2|]. intros l. rewrite joins_app, delivered_app, starts_app. destruct (J1 l) as (-> & -> & ->). destruct (J2 l) as (-> & -> & ->). auto.
Qed.
Lemma calm_value_of env sym b : calm (value_of env sym b).
Proof. unfold value_of, find_local, find_binding, lookup_chain, find_binding, string_value, mark_slot, has_slot, get_slot, empty_cons, cons. calm_walk. Qed.

Lemma goes_calm A (p : prog A) h o : goes p h o -> calm p -> forall l, joins l h = [] /\ delivered l h = [] /\ starts h = [].
Proof. intros (q & P & _) C. exact (proj2 (calm_path _ _ _ _ P C)). Qed.

(** *** Opening up a call *)
Ltac call_of H :=
  let q := fresh "q" in let P := fresh "P" in let F := fresh "F" in
  destruct (performs_inv _ _ _ _ _ _ H eq_refl) as (q & P & F);
  assert (G := ex_intro (fun q => prog_path _ _ q /\ finished q = Some _) q (conj P F)); clear P F q;
  match type of G with ex (fun q => prog_path ?p ?h q /\ finished q = Some ?o) => change (goes p h o) in G end.

Lemma atomic_load_acts l env h o : performs "atomic-load" [VAtomic l] env h o -> exists r, on_atom l h = [ALoad r] /\ o = Done (Ok (VInt r)).
Proof.
  intros H. call_of H. destruct (goes_vis _ _ _ _ _ _ G) as (x & h2 & s & s1 & _ & -> & G2). destruct (goes_ret _ _ _ _ G2) as [-> ->].
  exists x. unfold on_atom. cbn. rewrite on_here. auto.
Qed.
Lemma atomic_store_acts l z env h o : performs "atomic-store!" [VAtomic l; VInt z] env h o -> on_atom l h = [AStore z] /\ o = Done (Ok VNil).
Proof.
  intros H. call_of H. destruct (goes_vis _ _ _ _ _ _ G) as (x & h2 & s & s1 & _ & -> & G2). destruct (goes_ret _ _ _ _ G2) as [-> ->].
  unfold on_atom. cbn. rewrite on_here. auto.
Qed.
Lemma atomic_add_acts l z env h o : performs "atomic-add!" [VAtomic l; VInt z] env h o -> exists r, on_atom l h = [AAdd z r] /\ o = Done (Ok (VInt r)).
Proof.
  intros H. call_of H. destruct (goes_vis _ _ _ _ _ _ G) as (x & h2 & s & s1 & _ & -> & G2). destruct (goes_ret _ _ _ _ G2) as [-> ->].
  exists x. unfold on_atom. cbn. rewrite on_here. auto.
Qed.
Lemma atomic_swap_acts l z env h o : performs "atomic-swap!" [VAtomic l; VInt z] env h o -> exists r, on_atom l h = [ASwap z r] /\ o = Done (Ok (VInt r)).
Proof.
  intros H. call_of H. destruct (goes_vis _ _ _ _ _ _ G) as (x & h2 & s & s1 & _ & -> & G2). destruct (goes_ret _ _ _ _ G2) as [-> ->].
  exists x. unfold on_atom. cbn. rewrite on_here. auto.
Qed.
Lemma atomic_cas_acts l e z env h o : performs "atomic-compare-and-swap!" [VAtomic l; VInt e; VInt z] env h o -> exists r, on_atom l h = [ACas e z r] /\ o = Done (Ok (VBool r)).
Proof.
  intros H. call_of H. destruct (goes_vis _ _ _ _ _ _ G) as (x & h2 & s & s1 & _ & -> & G2). destruct (goes_ret _ _ _ _ G2) as [-> ->].
  exists x. unfold on_atom. cbn. rewrite on_here. auto.
Qed.
(** *** Channels *)
Lemma channel_write_acts l v env h o : performs "channel-write" [VChan l; v] env h o ->
  (exists b, on_chan l h = [CWrite v true (Some (inl b))] /\ o = write_outcome b) \/
  (exists t b, on_chan l h = [CWrite v true (Some (inr t)); CWriteEnd t b] /\ o = write_outcome b).
Proof.
  intros H. call_of H. destruct (goes_vis _ _ _ _ _ _ G) as (x & h2 & s & s1 & Hs & -> & G2). unfold on_chan. cbn [flat_map chan_of]. rewrite on_here. cbn [arg nth] in *.
  destruct x as [[b|t]|].
  - left. exists b. cbn in G2. destruct b; destruct (goes_ret _ _ _ _ G2) as [-> ->]; split; reflexivity.
  - right. destruct (goes_vis _ _ _ _ _ _ G2) as (b & h3 & s2 & s3 & _ & -> & G3). exists t, b. cbn [flat_map chan_of]. rewrite on_here.
    destruct b; destruct (goes_ret _ _ _ _ G3) as [-> ->]; split; reflexivity.
  - exfalso. cbn in Hs. destruct (chan_send (chan_at s l) v true (s_next s)) as [r c] eqn:E. injection Hs as -> _. unfold chan_send in E.
    destruct (ch_closed _); [discriminate|]. destruct (ch_recvq _); [|discriminate]. destruct (_ <? _); discriminate.
Qed.
Lemma made_goes x more h o : goes (v <- array_to_list [x; VBool more] ;; ok v) h o -> exists r, pair_made x more h r /\ o = Done (Ok r).
Proof.
  intros G. destruct (is_nil x) eqn:N.
  - assert (x = VNil) as -> by (destruct x; try discriminate; reflexivity). cbn in G.
    destruct (goes_vis _ _ _ _ _ _ G) as (l1 & h1 & _ & _ & _ & -> & G1). destruct (goes_vis _ _ _ _ _ _ G1) as (l0 & h2 & _ & _ & _ & -> & G2).
    destruct (goes_vis _ _ _ _ _ _ G2) as (l2 & h3 & _ & _ & _ & -> & G3). destruct (goes_ret _ _ _ _ G3) as [-> ->]. eexists. split; [|reflexivity]. constructor. reflexivity.
  - assert (x <> VNil) as Hx by (intros ->; discriminate). cbn in G. rewrite N in G.
    destruct (goes_vis _ _ _ _ _ _ G) as (l1 & h1 & _ & _ & _ & -> & G1). destruct (goes_vis _ _ _ _ _ _ G1) as (l2 & h2 & _ & _ & _ & -> & G2).
    destruct (goes_ret _ _ _ _ G2) as [-> ->]. eexists. split; [|reflexivity]. constructor. exact Hx.
Qed.
Lemma made3_goes got x more h o : goes (v <- array_to_list [VBool got; x; VBool more] ;; ok v) h o -> exists r, triple_made got x more h r /\ o = Done (Ok r).
Proof.
  intros G. destruct (is_nil x) eqn:N.
  - assert (x = VNil) as -> by (destruct x; try discriminate; reflexivity). cbn in G.
    destruct (goes_vis _ _ _ _ _ _ G) as (l1 & h1 & _ & _ & _ & -> & G1). destruct (goes_vis _ _ _ _ _ _ G1) as (l0 & h2 & _ & _ & _ & -> & G2).
    destruct (goes_vis _ _ _ _ _ _ G2) as (l2 & h3 & _ & _ & _ & -> & G3). destruct (goes_vis _ _ _ _ _ _ G3) as (l3 & h4 & _ & _ & _ & -> & G4).
    destruct (goes_ret _ _ _ _ G4) as [-> ->]. eexists. split; [|reflexivity].
    match goal with |- triple_made _ _ _ [?a; ?b; ?c; ?d] _ => change [a; b; c; d] with ([a; b; c] ++ [d]) end. constructor. constructor. reflexivity.
  - assert (x <> VNil) as Hx by (intros ->; discriminate). cbn in G. rewrite N in G.
    destruct (goes_vis _ _ _ _ _ _ G) as (l1 & h1 & _ & _ & _ & -> & G1). destruct (goes_vis _ _ _ _ _ _ G1) as (l2 & h2 & _ & _ & _ & -> & G2).
    destruct (goes_vis _ _ _ _ _ _ G2) as (l3 & h3 & _ & _ & _ & -> & G3).
    destruct (goes_ret _ _ _ _ G3) as [-> ->]. eexists. split; [|reflexivity].
    match goal with |- triple_made _ _ _ [?a; ?b; ?c] _ => change [a; b; c] with ([a; b] ++ [c]) end. constructor. constructor. exact Hx.
Qed.
Lemma channel_read_acts l env h o : performs "channel-read" [VChan l] env h o ->
  exists x more r h', pair_made x more h' r /\ o = Done (Ok r) /\
   (h = Did (OChanRecv l true) (Some (inl (x, more))) :: h' \/
    exists t, h = Did (OChanRecv l true) (Some (inr t)) :: Did (OChanRecvWait l t) (x, more) :: h').
Proof.
  intros H. call_of H. destruct (goes_vis _ _ _ _ _ _ G) as (a & h2 & s & s1 & Hs & -> & G2). destruct a as [[[x more]|t]|].
  - destruct (made_goes _ _ _ _ G2) as (r & M & ->). exists x, more, r, h2. auto.
  - destruct (goes_vis _ _ _ _ _ _ G2) as ([x more] & h3 & s2 & s3 & _ & -> & G3). destruct (made_goes _ _ _ _ G3) as (r & M & ->). exists x, more, r, h3. eauto.
  - exfalso. cbn in Hs. destruct (chan_recv (chan_at s l) true (s_next s)) as [r c] eqn:E. injection Hs as -> _. unfold chan_recv in E.
    destruct (ch_buf _), (ch_sendq _) as [|[]]; try discriminate; destruct (ch_closed _); discriminate.
Qed.
Lemma channel_try_write_acts l v env h o : performs "channel-try-write" [VChan l; v] env h o ->
  (on_chan l h = [CWrite v false (Some (inl true))] /\ o = Done (Ok (VBool true))) \/
  (on_chan l h = [CWrite v false None] /\ o = Done (Ok (VBool false))) \/
  (on_chan l h = [CWrite v false (Some (inl false))] /\ o = Done (Err "channel-try-write tried to write to a closed channel.")).
Proof.
  intros H. call_of H. destruct (goes_vis _ _ _ _ _ _ G) as (x & h2 & s & s1 & Hs & -> & G2). unfold on_chan. cbn [flat_map chan_of]. rewrite on_here. cbn [arg nth] in *.
  destruct x as [[[]|t]|].
  - destruct (goes_ret _ _ _ _ G2) as [-> ->]. auto.
  - destruct (goes_ret _ _ _ _ G2) as [-> ->]. auto.
  - exfalso. cbn in Hs. destruct (chan_send (chan_at s l) v false (s_next s)) as [r c] eqn:E. injection Hs as -> _. unfold chan_send in E.
    destruct (ch_closed _); [discriminate|]. destruct (ch_recvq _); [|discriminate]. destruct (_ <? _); discriminate.
  - destruct (goes_ret _ _ _ _ G2) as [-> ->]. auto.
Qed.
Lemma channel_try_read_acts l env h o : performs "channel-try-read" [VChan l] env h o ->
  exists got x more r h', triple_made got x more h' r /\ o = Done (Ok r) /\
   ((got = true /\ h = Did (OChanRecv l false) (Some (inl (x, more))) :: h') \/
    (got = false /\ x = VNil /\ more = true /\ h = Did (OChanRecv l false) None :: h')).
Proof.
  intros H. call_of H. destruct (goes_vis _ _ _ _ _ _ G) as (a & h2 & s & s1 & Hs & -> & G2). destruct a as [[[x more]|t]|].
  - destruct (made3_goes _ _ _ _ _ G2) as (r & M & ->). exists true, x, more, r, h2. auto.
  - exfalso. cbn in Hs. destruct (chan_recv (chan_at s l) false (s_next s)) as [r c] eqn:E. injection Hs as -> _. unfold chan_recv in E.
    destruct (ch_buf _), (ch_sendq _) as [|[]]; try discriminate; destruct (ch_closed _); discriminate.
  - destruct (made3_goes _ _ _ _ _ G2) as (r & M & ->). exists false, VNil, true, r, h2. split; [exact M|]. split; [reflexivity|]. right. auto.
Qed.
Lemma channel_close_acts l env h o : performs "close-channel" [VChan l] env h o ->
  exists b, on_chan l h = [CClose b] /\ o = Done (if b then Ok VNil else Err "channel-close tried to close a channel twice.").
Proof.
  intros H. call_of H. destruct (goes_vis _ _ _ _ _ _ G) as (b & h2 & s & s1 & Hs & -> & G2). exists b. unfold on_chan. cbn [flat_map chan_of]. rewrite on_here.
  destruct b; destruct (goes_ret _ _ _ _ G2) as [-> ->]; split; reflexivity.
Qed.
Lemma make_channel_acts n env h o : 0 <= n <= max_chan -> performs "make-channel" [VInt n] env h o -> exists l, h = [Did (OChanNew n) l] /\ o = Done (Ok (VChan l)).
Proof.
  intros L H. call_of H. cbn [p_body func] in G. unfold make_channel_impl in G.
  replace (n <? 0) with false in G by lia. replace (max_chan <? n) with false in G by lia.
  destruct (goes_vis _ _ _ _ _ _ G) as (l & h2 & s & s1 & Hs & -> & G2). destruct (goes_ret _ _ _ _ G2) as [-> ->]. eauto.
Qed.
Lemma make_channel_default env h o : performs "make-channel" [] env h o -> exists l, h = [Did (OChanNew 0) l] /\ o = Done (Ok (VChan l)).
Proof. intros H. call_of H. destruct (goes_vis _ _ _ _ _ _ G) as (l & h2 & s & s1 & Hs & -> & G2). destruct (goes_ret _ _ _ _ G2) as [-> ->]. eauto. Qed.
Lemma new_channel_fresh cap s l s' : step_op (OChanNew (Z.of_nat cap)) s = Some (l, s') -> fresh_channel s' l cap.
Proof. cbn. intros [= <- <-]. unfold fresh_channel. flat. apply lookup_insert. Qed.
(** *** Symbols *)
Lemma gensym_acts (naked : bool) vs env h v : performs (if naked then "gensym-naked" else "gensym") vs env h (Done (Ok v)) ->
  exists a, on_gensym h = [a] /\ v = VSym (symbol_name naked a).
Proof.
  intros H. assert (G : goes (gensym_impl (if naked then "gensym-naked" else "gensym") naked vs env) h (Done (Ok v))) by (destruct naked; call_of H; exact G). clear H.
  assert (Fin : forall p h, goes (n <- do_op (OGensym p) ;; ok (VSym (gensym_name p n +++ (if naked then ":" else "")))) h (Done (Ok v)) -> exists a, on_gensym h = [a] /\ v = VSym (symbol_name naked a)).
  { intros p h' G'. destruct (goes_vis _ _ _ _ _ _ G') as (n & h2 & _ & _ & _ & -> & G2). destruct (goes_ret _ _ _ _ G2) as [-> E]. injection E as ->.
    exists (p, n). split; [reflexivity|]. unfold symbol_name, gensym_name. cbn [fst snd]. rewrite !str_app_assoc. reflexivity. }
  destruct vs as [|v0 [|v1 vs]].
  - exact (Fin _ _ G).
  - cbn in G. destruct (stringp v0 || symbolp v0) eqn:E.
    + destruct v0; try discriminate E.
      * destruct (goes_vis _ _ _ _ _ _ G) as (x & h2 & _ & _ & _ & -> & G2). destruct (Fin _ _ G2) as (a & Ha & ->). exists a. split; [exact Ha|reflexivity].
      * exact (Fin _ _ G).
    + exfalso. destruct (goes_bind _ _ _ _ _ _ G) as [(a & h1 & h2 & _ & G1 & G2)|(w & _ & E2)]; [|discriminate].
      apply goes_call in G1. destruct (goes_bind _ _ _ _ _ _ G1) as [(a' & h3 & h4 & _ & _ & G4)|(w & _ & E2)]; [|discriminate].
      destruct (goes_ret _ _ _ _ G4) as [_ E4]. injection E4 as ->. destruct (goes_ret _ _ _ _ G2) as [_ E5]. discriminate.
  - destruct (goes_ret _ _ _ _ G) as [_ E]. discriminate.
Qed.
(** *** Processes *)
Lemma join_acts p env h o : performs "join" [VProc p] env h o ->
  (joins p h = [] /\ delivered p h = [] /\ (o = Done (Ok VNil) \/ exists w, o = Panicked w)) \/
  (joins p h = [false] /\ delivered p h = [] /\ o = Done (Err "tried to join on a task twice")) \/
  (exists v, joins p h = [true] /\ delivered p h = [v] /\ o = Done (Ok v)).
Proof.
  intros H. call_of H. cbn [p_body func] in G. unfold join_impl, need_process in G. cbn [arg nth] in G.
  destruct (goes_bind _ _ _ _ _ _ G) as [(pp & h1 & h2 & -> & G1 & G2)|(w & G1 & ->)].
  - destruct (goes_calm _ _ _ _ G1 (calm_value_of _ _ _) p) as (J1 & D1 & _). rewrite joins_app, delivered_app, J1, D1.
    destruct (match pp with VProc q => Pos.eqb p q | _ => false end).
    + destruct (goes_ret _ _ _ _ G2) as [-> ->]. left. auto.
    + destruct (goes_vis _ _ _ _ _ _ G2) as (b & h3 & _ & _ & _ & -> & G3). destruct b.
      * destruct (goes_vis _ _ _ _ _ _ G3) as (v & h4 & _ & _ & _ & -> & G4). destruct (goes_ret _ _ _ _ G4) as [-> ->].
        right; right. exists v. unfold joins, delivered. cbn. rewrite !on_here. auto.
      * destruct (goes_ret _ _ _ _ G3) as [-> ->]. right; left. unfold joins, delivered. cbn. rewrite !on_here. auto.
  - destruct (goes_calm _ _ _ _ G1 (calm_value_of _ _ _) p) as (J1 & D1 & _). left. rewrite J1, D1. eauto.
Qed.
Lemma calm_tail n args : calm (tail_list n args).
Proof. unfold tail_list. generalize (skipn n args). intros l. induction l as [|x l IH]; cbn; unfold empty_cons, cons; calm_walk. Qed.
Lemma calm_length v : calm (length_of v).
Proof. unfold length_of, for_cells, nilp, cdr. calm_walk. Qed.
Lemma start_acts who sched f rest env h v : goes (start_process who sched f rest env) h (Done (Ok v)) ->
  exists p, v = VProc p /\ starts h = [if sched then SpawnSched p f rest env else SpawnFork p f rest env].
Proof.
  intros G. unfold start_process in G. destruct (goes_bind _ _ _ _ _ _ G) as [(n & h1 & h2 & -> & G1 & G2)|(w & _ & E)]; [|discriminate].
  destruct (goes_calm _ _ _ _ G1 (calm_length _) 1%positive) as (_ & _ & S1). rewrite starts_app, S1.
  destruct (goes_vis _ _ _ _ _ _ G2) as (fn & h3 & _ & _ & _ & -> & G3). destruct (arity_fits who fn (n + 1)) as [u|m]; [|destruct (goes_ret _ _ _ _ G3) as [_ E]; discriminate].
  destruct (goes_vis _ _ _ _ _ _ G3) as (p & h4 & _ & _ & _ & -> & G4). destruct (goes_ret _ _ _ _ G4) as [-> E]. injection E as ->. exists p. split; reflexivity.
Qed.
Lemma fork_acts f args env h v : performs "fork" (VFun f :: args) env h (Done (Ok v)) ->
  exists p rest, v = VProc p /\ starts h = [SpawnFork p f rest env].
Proof.
  intros H. call_of H. cbn [p_body func] in G. unfold fork_impl in G. cbn [arg nth] in G.
  destruct (goes_bind _ _ _ _ _ _ G) as [(rest & h1 & h2 & -> & G1 & G2)|(w & _ & E)]; [|discriminate].
  destruct (goes_calm _ _ _ _ G1 (calm_tail _ _) 1%positive) as (_ & _ & S1). rewrite starts_app, S1. destruct (start_acts _ _ _ _ _ _ _ G2) as (p & -> & ->). exists p, rest. auto.
Qed.
Lemma schedule_acts n f args env h v : performs "schedule" (VInt n :: VFun f :: args) env h (Done (Ok v)) ->
  exists p rest, v = VProc p /\ starts h = [SpawnSched p f rest env].
Proof.
  intros H. call_of H. cbn [p_body func] in G. unfold schedule_impl in G. cbn [arg nth] in G.
  destruct (goes_bind _ _ _ _ _ _ G) as [(rest & h1 & h2 & -> & G1 & G2)|(w & _ & E)]; [|discriminate].
  destruct (goes_calm _ _ _ _ G1 (calm_tail _ _) 1%positive) as (_ & _ & S1). rewrite starts_app, S1. destruct (start_acts _ _ _ _ _ _ _ G2) as (p & -> & ->). exists p, rest. auto.
Qed.
Lemma wake_acts p env h o : performs "wake" [VProc p] env h o -> on_proc p h = [Sent Wake] /\ exists l, o = Done (Ok (VStr l)).
Proof.
  intros H. call_of H. destruct (goes_vis _ _ _ _ _ _ G) as (b & h2 & _ & _ & _ & -> & G2). destruct (goes_vis _ _ _ _ _ _ G2) as (l & h3 & _ & _ & _ & -> & G3).
  destruct (goes_ret _ _ _ _ G3) as [-> ->]. unfold on_proc. cbn. rewrite on_here. eauto.
Qed.
Lemma sleep_acts p n env h o : performs "proc-sleep" [VProc p; VInt n] env h o ->
  exists b : bool, on_proc p h = (if b then [Got Wake] else []) /\ o = Done (Ok (VBool b)).
Proof.
  intros H. call_of H. destruct (goes_vis _ _ _ _ _ _ G) as (b & h2 & _ & _ & _ & -> & G2). destruct (goes_ret _ _ _ _ G2) as [-> ->].
  exists b. unfold on_proc. cbn. destruct b; rewrite ?on_here; auto.
Qed.
Lemma abandon_acts p env h o : performs "abandon" [VProc p] env h o ->
  (on_proc p h = [Sent Abandon] /\ exists l, o = Done (Ok (VStr l))) \/ (on_proc p h = [] /\ o = Done (Err "tried to adandon a Process that isn't scheduled")).
Proof.
  intros H. call_of H. destruct (goes_vis _ _ _ _ _ _ G) as (b & h2 & _ & _ & _ & -> & G2). destruct b.
  - destruct (goes_vis _ _ _ _ _ _ G2) as (u & h3 & _ & _ & _ & -> & G3). destruct (goes_vis _ _ _ _ _ _ G3) as (l & h4 & _ & _ & _ & -> & G4).
    destruct (goes_ret _ _ _ _ G4) as [-> ->]. left. unfold on_proc. cbn. rewrite on_here. eauto.
  - destruct (goes_ret _ _ _ _ G2) as [-> ->]. right. auto.
Qed.
