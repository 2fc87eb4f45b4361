(** Proofs of C07, C08, C09. *)
From Verif Require Export SpecHigher ProofApply.
From stdpp Require Import list.
From Verif Require Import Data.
Local Open Scope string_scope.
Local Open Scope list_scope.
Local Open Scope Z_scope.

(** *** Calls *)
Lemma call_on_iff {B} f xs env (k : res val -> prog B) s o s' :
  runs denote (al <- array_to_list xs ;; r <- apply_noeval f al env ;; k r) s o s' <->
  exists o1 s1, call_on f xs env s o1 s1 /\ match o1 with Done r => runs denote (k r) s1 o s' | Panicked w => o = Panicked w /\ s' = s1 end.
Proof.
  rewrite (then_iff _ _ _ _ _ _ _ (new_list_run xs s)). unfold call_on. destruct (new_list xs s) as [al s0]. cbn [fst snd]. apply bind_iff.
Qed.
Lemma after_call f xs env (k : val -> prog (res val)) s o s' :
  runs denote (al <- array_to_list xs ;; v <-? apply_noeval f al env ;; k v) s o s' <->
  after (call_on f xs env s) (fun v s1 => runs denote (k v) s1) o s'.
Proof.
  unfold bind_ok. rewrite call_on_iff. unfold after. split; intros (o1 & s1 & C & H); exists o1, s1; (split; [exact C|]); destruct o1 as [[v|m]|w]; try exact H; apply ret_iff, H.
Qed.
Lemma gives_list_run xs s o s' : runs denote (r <- array_to_list xs ;; ok r) s o s' <-> gives_list xs s o s'.
Proof. rewrite (then_iff _ _ _ _ _ _ _ (new_list_run xs s)). unfold gives_list. destruct (new_list xs s). apply ok_iff. Qed.

(** *** Lists that are not disturbed *)
Lemma same_rest s0 s v : same_list s0 s v -> same_list s0 s (rest_of s0 v).
Proof. intros H l Hl. apply H. destruct v; try (cbn in Hl; inversion Hl; fail). apply spine_next, Hl. Qed.
Lemma same_cell s0 s v : same_list s0 s v -> head_of s v = head_of s0 v /\ rest_of s v = rest_of s0 v /\ nilb s v = nilb s0 v.
Proof.
  intros H. destruct v; try (repeat apply conj; reflexivity). cbn [head_of rest_of nilb]. unfold cell_at. rewrite (H l (spine_here _ _ _)). repeat apply conj; reflexivity.
Qed.
Lemma same_is_list s0 s v xs : is_list s0 v xs -> same_list s0 s v -> is_list s v xs.
Proof.
  induction 1 as [| |l E|l a d xs E N _ IH]; intros S; [constructor|constructor|apply il_empty; rewrite (S l (spine_here _ _ _)); exact E|].
  eapply il_cons; [rewrite (S l (spine_here _ _ _)); exact E|exact N|]. apply IH. apply same_rest in S. cbn [rest_of] in S. rewrite (cell_some _ _ _ E) in S. exact S.
Qed.
Lemma same_grows s0 s v xs : is_list s0 v xs -> grows s0 s -> same_list s0 s v.
Proof.
  intros L G. induction L as [| |l E|l a d xs E N _ IH]; intros k K.
  - inversion K.
  - inversion K.
  - inversion K as [? ?|? ? ? K']; subst; [rewrite E; apply (g_cells _ _ G), E|]. cbn [rest_of] in K'. rewrite (cell_some _ _ _ E) in K'. inversion K'.
  - inversion K as [? ?|? ? ? K']; subst; [rewrite E; apply (g_cells _ _ G), E|]. apply IH. cbn [rest_of] in K'. rewrite (cell_some _ _ _ E) in K'. exact K'.
Qed.
Lemma is_list_step s v x xs : is_list s v (x :: xs) -> nilb s v = false /\ head_of s v = x /\ is_list s (rest_of s v) xs.
Proof.
  intros H. inversion H as [| | |l a d xs' E N T]; subst. split; [eapply nilb_not; eassumption|]. cbn [head_of rest_of]. rewrite (cell_some _ _ _ E). split; [reflexivity|exact T].
Qed.
Lemma undisturbed_now f env s0 vs todo s : undisturbed f env s0 vs todo s -> Forall (same_list s0 s) vs.
Proof. destruct todo; intros [H _]; exact H. Qed.

(** *** One list, walked cell by cell *)
Section Walk.
  Context {S R : Type} (body : S -> val -> prog (S + R)) (fin : S -> prog R) (next : S -> val -> val -> res val -> state -> S + R).
  Context (f : val) (env : loc).
  Fixpoint walk (items : list (val * val)) (st : S) (s : state) (o : outcome R) (s' : state) : Prop :=
    match items with
    | [] => runs denote (fin st) s o s'
    | (x, c) :: r => exists o1 s1, call_on f [x] env s o1 s1 /\
        match o1 with
        | Done v => match next st x c v s1 with inl st' => walk r st' s1 o s' | inr z => o = Done z /\ s' = s1 end
        | Panicked w => o = Panicked w /\ s' = s1
        end
    end.
  Fixpoint items (s0 : state) (c : val) (xs : list val) : list (val * val) :=
    match xs with [] => [] | x :: r => (x, c) :: items s0 (rest_of s0 c) r end.
  Lemma walk_iff s0 v : forall xs c st s o s',
    (forall st c x s o s', In x xs -> head_of s c = x -> runs denote (body st c) s o s' <->
      exists o1 s1, call_on f [x] env s o1 s1 /\
        match o1 with Done r => o = Done (next st (head_of s1 c) c r s1) /\ s' = s1 | Panicked w => o = Panicked w /\ s' = s1 end) ->
    (forall st x y c m s1, next st x c (Err m) s1 = next st y c (Err m) s1) ->
    (forall st x c m s1, exists z, next st x c (Err m) s1 = inr z) ->
    is_list s0 c xs -> (forall s, same_list s0 s v -> same_list s0 s c) -> undisturbed f env s0 [v] (map (fun x => [x]) xs) s ->
    runs denote (for_cells body fin c st) s o s' <-> walk (items s0 c xs) st s o s'.
  Proof.
    intros xs. induction xs as [|x xs IH]; intros c st s o s' Hb Herr Hstop L K U.
    - cbn [items walk]. assert (N : nilb s c = true).
      { apply undisturbed_now, Forall_inv, K in U. destruct (same_cell _ _ _ U) as (_ & _ & ->). apply is_list_nil_inv, L. }
      split; [|intros H; apply for_cells_end; assumption]. intros H.
      refine (for_cells_ind body fin (fun c' st' s2 o' s3 => nilb s2 c' = true -> runs denote (fin st') s2 o' s3) _ _ _ _ c st s o s' H N); intros; congruence.
    - assert (C := K _ (Forall_inv (undisturbed_now _ _ _ _ _ _ U))). destruct (is_list_step _ _ _ _ L) as (N & Hd & T). destruct (same_cell _ _ _ C) as (C1 & C2 & C3). rewrite N in C3. rewrite Hd in C1.
      destruct U as [_ U]. cbn [map] in U. fold (map (A:=val) (fun x => [x]) xs) in U.
      assert (Step : forall v1 s1, call_on f [x] env s (Done (Ok v1)) s1 -> head_of s1 c = x /\ rest_of s1 c = rest_of s0 c /\ forall st1 o s', 
        runs denote (for_cells body fin (rest_of s0 c) st1) s1 o s' <-> walk (items s0 (rest_of s0 c) xs) st1 s1 o s').
      { intros v1 s1 H1. specialize (U _ _ H1). assert (C' := K _ (Forall_inv (undisturbed_now _ _ _ _ _ _ U))). destruct (same_cell _ _ _ C') as (D1 & D2 & _). split; [congruence|]. split; [exact D2|].
        intros st1 o1 s2. apply IH; auto; [|intros s3 H3; apply same_rest, K, H3]. intros st2 c2 x2 s3 o2 s4 Ix. apply Hb. right. exact Ix. }
      cbn [items walk]. split.
      + intros H. assert (H' : exists o1 s1, runs denote (body st c) s o1 s1 /\ match o1 with
          | Done (inl st1) => runs denote (for_cells body fin (rest_of s1 c) st1) s1 o s' | Done (inr z) => o = Done z /\ s' = s1 | Panicked w => o = Panicked w /\ s' = s1 end).
        { unfold for_cells in H. apply loop_iff in H. destruct H as (o1 & s1 & H1 & H2). apply (then_iff _ _ _ _ _ _ _ (runs_nilp c s)) in H1. rewrite C3 in H1.
          apply bind_iff in H1. destruct H1 as (o2 & s2 & H1 & H3). exists o2, s2. split; [exact H1|]. destruct o2 as [[st1|z]|w].
          - apply (then_iff _ _ _ _ _ _ _ (runs_cdr c s2)) in H3. apply ret_iff in H3. destruct H3 as [-> ->]. exact H2.
          - apply ret_iff in H3. destruct H3 as [-> ->]. exact H2.
          - destruct H3 as [-> ->]. exact H2. }
        destruct H' as (o1 & s1 & H1 & H2). apply (Hb st c x s o1 s1 (or_introl eq_refl) C1) in H1. destruct H1 as (o2 & s2 & H1 & H3). exists o2, s2. split; [exact H1|].
        destruct o2 as [[v1|m]|w]; destruct H3 as [-> ->]; [| |exact H2].
        * destruct (Step _ _ H1) as (E1 & E2 & E3). rewrite E1 in H2. destruct (next st x c (Ok v1) s2); [|exact H2]. rewrite E2 in H2. apply E3, H2.
        * rewrite (Herr _ x (head_of s2 c)). destruct (Hstop st (head_of s2 c) c m s2) as [z Ez]. rewrite Ez in *. exact H2.
      + intros (o1 & s1 & H1 & H2).
        assert (B : forall oo, match o1 with Done r => oo = Done (next st (head_of s1 c) c r s1) | Panicked w => oo = Panicked w end -> runs denote (body st c) s oo s1).
        { intros oo Ho. apply (Hb st c x s oo s1 (or_introl eq_refl) C1). exists o1, s1. split; [exact H1|]. destruct o1; auto. }
        destruct o1 as [[v1|m]|w]; specialize (B _ eq_refl).
        * destruct (Step _ _ H1) as (E1 & E2 & E3). rewrite E1 in B. destruct (next st x c (Ok v1) s1) as [st1|z].
          -- eapply for_cells_next; [exact C3|exact B|]. rewrite E2. apply E3, H2.
          -- destruct H2 as [-> ->]. apply for_cells_stop; assumption.
        * rewrite (Herr _ (head_of s1 c) x) in B. destruct (Hstop st x c m s1) as [z Ez]. rewrite Ez in *. destruct H2 as [-> ->]. apply for_cells_stop; assumption.
        * destruct H2 as [-> ->]. apply for_cells_crash; assumption.
  Qed.
End Walk.

Lemma one_cell a s : a <> VNil -> runs denote (cons a VNil) s (Done (fst (new_list [a] s))) (snd (new_list [a] s)).
Proof. intros N. unfold new_list. cbn [new_tail]. assert (E : stored a s = (a, s)) by (destruct a; try reflexivity; congruence). rewrite E. apply runs_cons. Qed.
Lemma call_one_iff {B} f x env (k : res val -> prog B) s o s' : x <> VNil ->
  runs denote (al <- cons x VNil ;; r <- apply_noeval f al env ;; k r) s o s' <->
  exists o1 s1, call_on f [x] env s o1 s1 /\ match o1 with Done r => runs denote (k r) s1 o s' | Panicked w => o = Panicked w /\ s' = s1 end.
Proof.
  intros N. rewrite <- call_on_iff. rewrite (then_iff _ _ _ _ _ _ _ (one_cell x s N)). rewrite (then_iff _ _ _ _ _ _ _ (new_list_run [x] s)). reflexivity.
Qed.

(** *** filter, remove *)
Lemma select_iff name who keep f l xs env s o s' :
  table name = Some (func name "2" (filter_impl who keep)) ->
  let s0 := entering name env s in
  function_or_primp f = true -> is_list s l xs -> no_nils xs -> undisturbed f env s0 [l] (map (fun x => [x]) xs) s0 ->
  applies name [f; l] env s o s' <-> select_over who keep f env xs [] s0 o s'.
Proof.
  intros T s0 F L N U. etransitivity; [apply applies_iff, T|]. cbn [p_body func]. fold s0. unfold filter_impl, needs_fun. cbn [arg nth]. rewrite F. cbn [negb].
  rewrite (is_list_listp _ _ _ L). cbn [negb]. assert (L0 : is_list s0 l xs) by exact (is_list_cells s s0 _ _ eq_refl L).
  rewrite (then_iff _ _ _ _ _ _ _ (runs_length _ _ _ L0)).
  set (next := fun (acc : list val) (x c : val) (r : res val) (s1 : state) => match r with
    | Err m => inr (Err m) | Ok (VBool b) => inl (if Bool.eqb b keep then x :: acc else acc)
    | Ok _ => inr (Err (who +++ " needs a predicate function as its first argument.")) end : list val + res val).
  rewrite (walk_iff _ _ next f env s0 l xs l [] s0 o s').
  - clear U. generalize s0 at 2 3. assert (E : forall acc c xs s2, walk (fun acc => r <- array_to_list (rev acc) ;; ok r) next f env (items s0 c xs) acc s2 o s' <-> select_over who keep f env xs (rev acc) s2 o s'); [|intros s2; apply (E [])].
    clear. intros acc c xs. revert acc c. induction xs as [|x xs IH]; intros acc c s2; cbn [items walk select_over]; [apply gives_list_run|].
    unfold after. split; intros (o1 & s1 & C & H); exists o1, s1; (split; [exact C|]); destruct o1 as [[v|m]|w]; cbn [next] in *; try exact H.
    + destruct v as [| | | | |b| | | | | | | | | | | |]; try exact H. apply IH in H. destruct (Bool.eqb b keep); exact H.
    + destruct v as [| | | | |b| | | | | | | | | | | |]; try exact H. apply IH. destruct (Bool.eqb b keep); exact H.
  - intros st c x s1 o1 s2 Ix Hc. assert (Nx : x <> VNil) by (pose proof (proj1 (List.Forall_forall _ _) N x Ix) as Q; exact Q).
    rewrite car_iff, Hc. rewrite (call_one_iff f x env _ s1 o1 s2 Nx).
    split; intros (o2 & s3 & C & H); exists o2, s3; (split; [exact C|]); destruct o2 as [[v|m]|w]; cbn [next]; try exact H; try (apply ret_iff; exact H).
    + destruct v as [| | | | |b| | | | | | | | | | | |]; cbn [booleanp negb] in H; try (apply ret_iff; exact H). apply truth_iff in H. cbn [truthy] in H.
      destruct (Bool.eqb b keep); [apply car_iff in H|]; apply ret_iff; exact H.
    + destruct v as [| | | | |b| | | | | | | | | | | |]; cbn [booleanp negb next] in *; try (apply ret_iff; exact H). apply truth_iff. cbn [truthy].
      destruct (Bool.eqb b keep); [apply car_iff|]; apply ret_iff; exact H.
  - reflexivity.
  - intros. eexists. reflexivity.
  - exact L0.
  - auto.
  - exact U.
Qed.
(** *** find, find-tail, memp *)
Definition find_next (tail : bool) (who : string) (_ : unit) (x c : val) (r : res val) (_ : state) : unit + res val :=
  match r with
  | Ok (VBool true) => inr (Ok (if tail then c else x))
  | Ok (VBool false) => inl tt
  | _ => inr (Err (who +++ " needs a predicate function as its first argument."))
  end.
Lemma find_walk (tail : bool) f l xs env s0 o s' (who := if tail then "find-tail" else "find") :
  function_or_primp f = true -> is_list s0 l xs -> undisturbed f env s0 [l] (map (fun x => [x]) xs) s0 ->
  runs denote (find_impl tail [f; l] env) s0 o s' <-> find_over who f env (map (fun '(x, c) => (x, if tail then c else x)) (items s0 l xs)) s0 o s'.
Proof.
  intros F L U. unfold find_impl. cbn [arg nth]. rewrite F. cbn [negb]. fold who.
  rewrite (is_list_listp _ _ _ L). cbn [negb].
  rewrite (walk_iff _ _ (find_next tail who) f env s0 l xs l tt s0 o s').
  - clear U L. generalize s0 at 2 4. assert (E : forall c xs s2, walk (fun _ : unit => lisp_bool false) (find_next tail who) f env (items s0 c xs) tt s2 o s' <->
      find_over who f env (map (fun '(x, c) => (x, if tail then c else x)) (items s0 c xs)) s2 o s'); [|intros s2; apply E].
    clear. intros c xs. revert c. induction xs as [|x xs IH]; intros c s2; cbn [items walk find_over map]; [apply ret_iff|].
    split; intros (o1 & s1 & C & H); exists o1, s1; (split; [exact C|]); destruct o1 as [[v|m]|w]; cbn [find_next] in *; try exact H;
      destruct v as [| | | | |[]| | | | | | | | | | | |]; try exact H; apply IH; exact H.
  - intros st c x s1 o1 s2 Ix Hc. rewrite car_iff, Hc. rewrite call_on_iff.
    split; intros (o2 & s3 & C & H); exists o2, s3; (split; [exact C|]); destruct o2 as [[v|m]|w]; cbn [find_next] in *; try exact H; try (apply ret_iff; exact H).
    + destruct v as [| | | | |[]| | | | | | | | | | | |]; try (apply ret_iff; exact H). destruct tail; [|apply car_iff in H]; apply ret_iff; exact H.
    + destruct v as [| | | | |[]| | | | | | | | | | | |]; try (apply ret_iff; exact H). destruct tail; [|apply car_iff]; apply ret_iff; exact H.
  - reflexivity.
  - intros. eexists. reflexivity.
  - exact L.
  - auto.
  - exact U.
Qed.
Lemma items_elems s0 xs : forall c, map (fun '(x, _) => (x, x)) (items s0 c xs) = map (fun x => (x, x)) xs.
Proof. induction xs as [|x xs IH]; intros c; [reflexivity|]. cbn [items map]. rewrite IH. reflexivity. Qed.
Lemma tail_at_next s v k : tail_at s v (S k) = tail_at s (rest_of s v) k.
Proof. unfold tail_at. apply Nat.iter_succ_r. Qed.
Lemma items_tails s0 xs : forall c, items s0 c xs = map (fun k => (nth k xs VNil, tail_at s0 c k)) (seq 0 (length xs)).
Proof.
  induction xs as [|x xs IH]; intros c; [reflexivity|]. cbn [items length seq map]. f_equal. rewrite IH, <- seq_shift, map_map.
  apply map_ext. intros k. cbn [nth]. rewrite tail_at_next. reflexivity.
Qed.
Lemma find_iff f l xs env s o s' : let s0 := entering "find" env s in
  function_or_primp f = true -> is_list s l xs -> undisturbed f env s0 [l] (map (fun x => [x]) xs) s0 ->
  applies "find" [f; l] env s o s' <-> find_over "find" f env (map (fun x => (x, x)) xs) s0 o s'.
Proof.
  intros s0 F L U. body_of. fold s0. rewrite (find_walk false f l xs env s0 o s' F (is_list_cells s s0 _ _ eq_refl L) U). 
  rewrite <- (items_elems s0 xs l). reflexivity.
Qed.
Lemma find_tail_iff name f l xs env s o s' : In name ["find-tail"; "memp"] -> let s0 := entering name env s in
  function_or_primp f = true -> is_list s l xs -> undisturbed f env s0 [l] (map (fun x => [x]) xs) s0 ->
  applies name [f; l] env s o s' <-> find_over "find-tail" f env (map (fun k => (nth k xs VNil, tail_at s l k)) (seq 0 (length xs))) s0 o s'.
Proof.
  intros I s0 F L U. etransitivity; [apply (applies_iff name (func name "2" (find_impl true))); destruct I as [<-|[<-|[]]]; reflexivity|]. cbn [p_body func]. fold s0.
  rewrite (find_walk true f l xs env s0 o s' F (is_list_cells s s0 _ _ eq_refl L) U). rewrite <- (items_tails s xs l). 
  assert (E : map (fun '(x, c) => (x, if true then c else x)) (items s0 l xs) = items s l xs).
  { rewrite items_tails. change (fun k => (nth k xs VNil, tail_at s0 l k)) with (fun k => (nth k xs VNil, tail_at s l k)). rewrite <- items_tails. clear. generalize (items s l xs). intros i. induction i as [|[x c] i IH]; [reflexivity|]. cbn [map]. rewrite IH. reflexivity. }
  rewrite E. reflexivity.
Qed.
(** *** partition by a predicate *)
Lemma split_iff f l xs env s o s' : let s0 := entering "partition" env s in
  function_or_primp f = true -> is_list s l xs -> undisturbed f env s0 [l] (map (fun x => [x]) xs) s0 ->
  applies "partition" [f; l] env s o s' <-> split_over f env xs [] [] s0 o s'.
Proof.
  intros s0 F L U. body_of. fold s0. unfold partition_impl. cbn [arg nth]. rewrite F, (is_list_listp _ _ _ L). cbn [negb andb]. rewrite andb_false_r.
  assert (L0 : is_list s0 l xs) by exact (is_list_cells s s0 _ _ eq_refl L).
  assert (E : runs denote (partition_by_predicate f l env) s0 o s' <-> split_over f env xs [] [] s0 o s').
  2: { destruct f; try exact E; discriminate F. }
  unfold partition_by_predicate. unfold bind_ok at 1. rewrite bind_iff.
  set (next := fun (st : list val * list val) (x c : val) (r : res val) (s1 : state) => match r with
    | Err m => inr (Err m) | Ok v => inl (if truthy s1 v then (x :: fst st, snd st) else (fst st, x :: snd st)) end : (list val * list val) + res (list val * list val)).
  assert (W : forall o1 s1, runs denote (for_cells (fun st c => let '(ts, fs) := st in
            a <- car c ;; al <- array_to_list [a] ;;
            r <- apply_noeval f al env ;;
            match r with
            | Err m => Ret (inr (Err m))
            | Ok v =>
                b <- boolean_value v ;; x <- car c ;;
                if b : bool then Ret (inl (x :: ts, fs)) else Ret (inl (ts, x :: fs))
            end) (fun st => ok st) l ([], [])) s0 o1 s1 <-> walk (fun st => ok st) next f env (items s0 l xs) ([], []) s0 o1 s1).
  { intros o1 s1. apply (walk_iff _ _ next f env s0 l xs l ([], []) s0 o1 s1).
    - intros [ts fs] c x s2 o2 s3 Ix Hc. rewrite car_iff, Hc. rewrite call_on_iff.
      split; intros (o3 & s4 & C & H); exists o3, s4; (split; [exact C|]); destruct o3 as [[v|m]|w]; cbn [next fst snd] in *; try exact H; try (apply ret_iff; exact H).
      + apply truth_iff, car_iff in H. destruct (truthy s4 v); apply ret_iff in H; exact H.
      + apply truth_iff, car_iff. destruct (truthy s4 v); apply ret_iff; exact H.
    - reflexivity.
    - intros. eexists. reflexivity.
    - exact L0.
    - auto.
    - exact U. }
  setoid_rewrite W. clear W U L L0 F.
  assert (E : forall xs c ts fs s2, (exists o1 s1, walk (fun st => ok st) next f env (items s0 c xs) (ts, fs) s2 o1 s1 /\
    match o1 with
    | Done (Ok x) => runs denote (let '(ts0, fs0) := x in tl <- array_to_list (rev ts0);; fl <- array_to_list (rev fs0);; r <- array_to_list [tl; fl];; ok r) s1 o s'
    | Done (Err m) => runs denote (Ret (Err m)) s1 o s'
    | Panicked w => o = Panicked w /\ s' = s1 end) <-> split_over f env xs (rev ts) (rev fs) s2 o s').
  { clear. induction xs as [|x xs IH]; intros c ts fs s2; cbn [items walk split_over].
    - split.
      + intros (o1 & s1 & H1 & H2). apply ret_iff in H1. destruct H1 as [-> ->]. apply (then_iff _ _ _ _ _ _ _ (new_list_run (rev ts) s2)) in H2. destruct (new_list (rev ts) s2) as [l1 s3]. cbn [fst snd] in H2.
        apply (then_iff _ _ _ _ _ _ _ (new_list_run (rev fs) s3)) in H2. destruct (new_list (rev fs) s3) as [l2 s4]. apply gives_list_run. exact H2.
      + intros H. eexists _, _. split; [apply ret_iff; split; reflexivity|]. apply (then_iff _ _ _ _ _ _ _ (new_list_run (rev ts) s2)). destruct (new_list (rev ts) s2) as [l1 s3]. cbn [fst snd].
        apply (then_iff _ _ _ _ _ _ _ (new_list_run (rev fs) s3)). destruct (new_list (rev fs) s3) as [l2 s4]. apply gives_list_run. exact H.
    - unfold after. split.
      + intros (o1 & s1 & (o2 & s3 & C & H1) & H2). exists o2, s3. split; [exact C|]. destruct o2 as [[v|m]|w]; cbn [next fst snd] in H1.
        * destruct (truthy s3 v); [apply (IH (rest_of s0 c) (x :: ts) fs)|apply (IH (rest_of s0 c) ts (x :: fs))]; exists o1, s1; auto.
        * destruct H1 as [-> ->]. apply ret_iff in H2. exact H2.
        * destruct H1 as [-> ->]. exact H2.
      + intros (o2 & s3 & C & H). destruct o2 as [[v|m]|w].
        * assert (K : exists o1 s1, walk (fun st => ok st) next f env (items s0 (rest_of s0 c) xs) (if truthy s3 v then (x :: ts, fs) else (ts, x :: fs)) s3 o1 s1 /\
    match o1 with
    | Done (Ok x) => runs denote (let '(ts0, fs0) := x in tl <- array_to_list (rev ts0);; fl <- array_to_list (rev fs0);; r <- array_to_list [tl; fl];; ok r) s1 o s'
    | Done (Err m) => runs denote (Ret (Err m)) s1 o s'
    | Panicked w => o = Panicked w /\ s' = s1 end) by (destruct (truthy s3 v); apply IH; exact H).
          destruct K as (o1 & s1 & K1 & K2). exists o1, s1. split; [|exact K2]. exists (Done (Ok v)), s3. split; [exact C|]. exact K1.
        * exists (Done (Err m)), s3. split; [exists (Done (Err m)), s3; split; [exact C|split; reflexivity]|apply ret_iff; exact H].
        * exists (Panicked w), s3. split; [exists (Panicked w), s3; split; [exact C|split; reflexivity]|exact H]. }
  rewrite <- (E xs l [] [] s0). split; intros (o1 & s1 & H1 & H2); exists o1, s1; (split; [exact H1|destruct o1 as [[[]|]|]; exact H2]).
Qed.
(** *** Several lists *)
Lemma next_args_run cols s : runs denote (next_args cols) s (Done (map (head_of s) cols, map (rest_of s) cols)) s.
Proof.
  induction cols as [|c r IH]; [apply runs_ret|]. cbn [next_args map]. apply car_iff, cdr_iff. apply (then_iff _ _ _ _ _ _ _ IH). apply runs_ret.
Qed.
Lemma skipn_cons i : forall (xs : list val) x r, skipn i xs = x :: r -> nth i xs VNil = x /\ skipn (S i) xs = r.
Proof.
  induction i as [|i IH]; intros [|y xs] x r E; try discriminate.
  - change (skipn 0 (y :: xs)) with (y :: xs) in E. injection E as -> ->. split; reflexivity.
  - exact (IH xs x r E).
Qed.
Section Tuples.
  Context {S R : Type} (f : val) (env : loc) (each : S -> val -> prog (S + R)) (fin : S -> prog R) (onerr : string -> R).
  Context (next : S -> val -> state -> S + R).
  Context (Each : forall st v s, runs denote (each st v) s (Done (next st v s)) s).
  Fixpoint tuple_walk (todo : list (list val)) (st : S) (s : state) (o : outcome R) (s' : state) : Prop :=
    match todo with
    | [] => runs denote (fin st) s o s'
    | t :: r => exists o1 s1, call_on f t env s o1 s1 /\
        match o1 with
        | Done (Ok v) => match next st v s1 with inl st' => tuple_walk r st' s1 o s' | inr z => o = Done z /\ s' = s1 end
        | Done (Err m) => o = Done (onerr m) /\ s' = s1
        | Panicked w => o = Panicked w /\ s' = s1
        end
    end.
  Definition turn (count : Z) : Z * list val * S -> prog ((Z * list val * S) + R) :=
    fun st : Z * list val * S =>
          let '(i, cols, s) := st in
          if i <? count then
            '(xs, cols') <- next_args cols ;;
            al <- array_to_list xs ;;
            r <- apply_noeval f al env ;;
            match r with
            | Err m => Ret (inr (onerr m))
            | Ok v =>
                x <- each s v ;;
                match x with
                | inl s' => Ret (inl (i + 1, cols', s'))
                | inr r => Ret (inr r)
                end
            end
          else r <- fin s ;; Ret (inr r).
  Lemma turns_iff s0 vs (xss : list (list val)) : forall n i cols st s o s' count,
    count = Z.of_nat (i + n) ->
    Forall2 (fun c xs => (i + n <= length xs)%nat /\ is_list s0 c (skipn i xs)) cols xss ->
    (forall s, Forall (same_list s0 s) vs -> Forall (same_list s0 s) cols) ->
    undisturbed f env s0 vs (map (fun k => row k xss) (seq i n)) s ->
    runs denote (loop (turn count) (Z.of_nat i, cols, st)) s o s' <-> tuple_walk (map (fun k => row k xss) (seq i n)) st s o s'.
  Proof.
    induction n as [|n IH]; intros i cols st s o s' count Ec Hc K U.
    - cbn [seq map tuple_walk]. rewrite loop_iff. unfold turn at 1. rewrite (proj2 (Z.ltb_ge _ _)) by lia. setoid_rewrite bind_iff. split.
      + intros (o1 & s1 & (o2 & s2 & H1 & H2) & H3). destruct o2 as [r|w]; [apply ret_iff in H2|]; destruct H2 as [-> ->]; destruct H3 as [-> ->]; exact H1.
      + intros H. destruct o as [r|w]; [exists (Done (inr r)), s'|exists (Panicked w), s'].
        * split; [|auto]. exists (Done r), s'. split; [exact H|apply runs_ret].
        * split; [|auto]. exists (Panicked w), s'. auto.
    - assert (Now := K _ (undisturbed_now _ _ _ _ _ _ U)).
      assert (Hh : map (head_of s) cols = row i xss /\ map (rest_of s) cols = map (rest_of s0) cols).
      { clear -Hc Now. unfold row. induction Hc as [|c xs cols xss [Le L] _ IH]; [split; reflexivity|]. destruct (IH (Forall_inv_tail Now)) as [E1 E2]. destruct (same_cell _ _ _ (Forall_inv Now)) as (C1 & C2 & _).
        cbn [map]. rewrite E1, E2, C1, C2. split; [|reflexivity]. f_equal.
        destruct (skipn i xs) as [|x r] eqn:Es; [apply (f_equal length) in Es; rewrite skipn_length in Es; cbn [length] in Es; lia|].
        destruct (is_list_step _ _ _ _ L) as (_ & -> & _). symmetry. exact (proj1 (skipn_cons _ _ _ _ Es)). }
      destruct Hh as [Hh1 Hh2]. destruct U as [_ U]. cbn [seq map] in U.
      assert (Hc' : Forall2 (fun c xs => (Datatypes.S i + n <= length xs)%nat /\ is_list s0 c (skipn (Datatypes.S i) xs)) (map (rest_of s0) cols) xss).
      { clear -Hc. induction Hc as [|c xs cols xss [Le L] _ IH]; constructor; [|exact IH]. split; [lia|].
        destruct (skipn i xs) as [|x r] eqn:Es; [apply (f_equal length) in Es; rewrite skipn_length in Es; cbn [length] in Es; lia|].
        destruct (is_list_step _ _ _ _ L) as (_ & _ & T). replace (skipn (Datatypes.S i) xs) with r; [exact T|]. symmetry. exact (proj2 (skipn_cons _ _ _ _ Es)). }
      assert (K' : forall s, Forall (same_list s0 s) vs -> Forall (same_list s0 s) (map (rest_of s0) cols)).
      { intros s2 H2. apply K in H2. clear -H2. induction H2; constructor; [apply same_rest|]; assumption. }
      assert (Step : forall v s1, call_on f (row i xss) env s (Done (Ok v)) s1 -> forall st1 o s', runs denote (loop (turn count) (Z.of_nat (Datatypes.S i), map (rest_of s0) cols, st1)) s1 o s' <-> tuple_walk (map (fun k => row k xss) (seq (Datatypes.S i) n)) st1 s1 o s').
      { intros v s1 H1 st1 o1 s2. apply IH; [lia|exact Hc'|exact K'|apply (U _ _ H1)]. }
      cbn [seq map tuple_walk]. rewrite loop_iff. unfold turn at 1. rewrite (proj2 (Z.ltb_lt _ _)) by lia.
      setoid_rewrite (then_iff _ _ _ _ _ _ _ (next_args_run cols s)). cbv beta iota. rewrite Hh1, Hh2. setoid_rewrite call_on_iff.
      replace (Z.of_nat i + 1) with (Z.of_nat (Datatypes.S i)) by lia. split.
      + intros (o1 & s1 & (o2 & s2 & C & H1) & H2). exists o2, s2. split; [exact C|]. destruct o2 as [[v|m]|w].
        * apply (then_iff _ _ _ _ _ _ _ (Each st v s2)) in H1. destruct (next st v s2); apply ret_iff in H1; destruct H1 as [-> ->]; [apply (Step _ _ C), H2|exact H2].
        * apply ret_iff in H1. destruct H1 as [-> ->]. exact H2.
        * destruct H1 as [-> ->]. exact H2.
      + intros (o2 & s2 & C & H). destruct o2 as [[v|m]|w].
        * destruct (next st v s2) as [st1|z] eqn:Ex.
          -- exists (Done (inl (Z.of_nat (Datatypes.S i), map (rest_of s0) cols, st1))), s2. split; [|apply (Step _ _ C), H]. exists (Done (Ok v)), s2. split; [exact C|].
             apply (then_iff _ _ _ _ _ _ _ (Each st v s2)). rewrite Ex. apply runs_ret.
          -- exists (Done (inr z)), s2. split; [|exact H]. exists (Done (Ok v)), s2. split; [exact C|]. apply (then_iff _ _ _ _ _ _ _ (Each st v s2)). rewrite Ex. apply runs_ret.
        * exists (Done (inr (onerr m))), s2. split; [|exact H]. exists (Done (Err m)), s2. split; [exact C|apply runs_ret].
        * exists (Panicked w), s2. split; [|exact H]. exists (Panicked w), s2. auto.
  Qed.
End Tuples.
Lemma shortest_le xss : Forall (fun xs => (least_length xss <= length xs)%nat) xss.
Proof.
  induction xss as [|xs r IH]; [constructor|]. destruct r as [|ys r]; [constructor; [reflexivity|constructor]|].
  change (least_length (xs :: ys :: r)) with (Nat.min (length xs) (least_length (ys :: r))). constructor; [lia|]. refine (List.Forall_impl _ _ IH). cbv beta. intros. lia.
Qed.
Lemma collections_run who stop s ls xss : forall acc count, Forall2 (is_list s) ls xss -> (stop = true -> Forall (fun xs => xs <> []) xss) ->
  runs denote (collections who stop ls acc count) s (Done (Ok (Some (rev acc ++ ls, fold_left (fun c xs => Z.min c (Z.of_nat (length xs))) xss count)))) s.
Proof.
  intros acc count F. revert acc count. induction F as [|l xs ls xss L _ IH]; intros acc count Ne; cbn [collections].
  - rewrite app_nil_r. apply runs_ret.
  - rewrite (is_list_listp _ _ _ L). cbn [negb].
    assert (R : runs denote (if stop then nilp l else Ret false) s (Done false) s).
    { destruct stop; [|apply runs_ret]. replace false with (nilb s l); [apply runs_nilp|]. destruct xs as [|x xs]; [exfalso; apply (Forall_inv (Ne eq_refl)); reflexivity|]. exact (proj1 (is_list_step _ _ _ _ L)). }
    apply (then_iff _ _ _ _ _ _ _ R). apply (then_iff _ _ _ _ _ _ _ (runs_length _ _ _ L)). cbn [fold_left].
    replace (rev acc ++ l :: ls) with (rev (l :: acc) ++ ls) by (cbn [rev]; rewrite <- app_assoc; reflexivity).
    apply IH. intros E. exact (Forall_inv_tail (Ne E)).
Qed.
Lemma collections_none who s ls xss : forall acc count, Forall2 (is_list s) ls xss -> In [] xss ->
  runs denote (collections who true ls acc count) s (Done (Ok None)) s.
Proof.
  intros acc count F. revert acc count. induction F as [|l xs ls xss L _ IH]; intros acc count I; [destruct I|]. cbn [collections].
  rewrite (is_list_listp _ _ _ L). cbn [negb]. apply (then_iff _ _ _ _ _ _ _ (runs_nilp l s)). destruct xs as [|x xs].
  - rewrite (is_list_nil_inv _ _ L). apply runs_ret.
  - destruct (is_list_step _ _ _ _ L) as (-> & _). apply (then_iff _ _ _ _ _ _ _ (runs_length _ _ _ L)). apply IH. destruct I as [I|I]; [discriminate|exact I].
Qed.
Lemma min_count xss count : xss <> [] -> fold_left (fun c xs => Z.min c (Z.of_nat (length xs))) xss count = Z.min count (Z.of_nat (least_length xss)).
Proof.
  revert count. induction xss as [|xs r IH]; intros count N; [congruence|]. cbn [fold_left]. destruct r as [|ys r]; [reflexivity|].
  rewrite IH by discriminate. change (least_length (xs :: ys :: r)) with (Nat.min (length xs) (least_length (ys :: r))). lia.
Qed.
Lemma shortest_zero xss : xss <> [] -> least_length xss = 0%nat -> In [] xss.
Proof.
  induction xss as [|xs r IH]; intros N E; [congruence|]. destruct r as [|ys r].
  - left. destruct xs; [reflexivity|discriminate].
  - change (least_length (xs :: ys :: r)) with (Nat.min (length xs) (least_length (ys :: r))) in E. destruct xs as [|x xs]; [left; reflexivity|right]. apply IH; [discriminate|]. cbn [length] in E. lia.
Qed.
Lemma shortest_pos xss : least_length xss <> 0%nat -> Forall (fun xs => xs <> []) xss.
Proof. intros N. refine (List.Forall_impl _ _ (shortest_le xss)). cbv beta. intros xs L ->. cbn [length] in L. lia. Qed.
Lemma call_tuples_iff {S R} f env (each : S -> val -> prog (S + R)) fin onerr next s0 ls xss st o s' :
  (forall st v s, runs denote (each st v) s (Done (next st v s)) s) ->
  Forall2 (is_list s0) ls xss -> undisturbed f env s0 ls (rows xss) s0 ->
  runs denote (call_tuples f env each fin onerr (Z.of_nat (least_length xss)) ls st) s0 o s' <-> tuple_walk f env fin onerr next (rows xss) st s0 o s'.
Proof.
  intros E F U. unfold call_tuples, rows. apply (turns_iff f env each fin onerr next E s0 ls xss (least_length xss) 0 ls st s0 o s'); [reflexivity| |auto|exact U].
  pose proof (shortest_le xss) as Le. clear U. revert Le. generalize (least_length xss). intros n. induction F as [|l xs ls xss L _ IH]; intros Le; constructor; [|apply IH, (Forall_inv_tail Le)].
  split; [exact (Forall_inv Le)|exact L].
Qed.

Ltac tuple_prim s0 F L0 Ne :=
  unfold map_impl, for_each_impl, any_impl, every_impl, needs_fun; cbn [arg nth tl]; rewrite F; cbn [negb]; unfold bind_ok at 1.
Lemma count_small xss : xss <> [] -> Z.of_nat (least_length xss) < int64_max ->
  fold_left (fun c xs => Z.min c (Z.of_nat (length xs))) xss int64_max = Z.of_nat (least_length xss) /\ (Z.of_nat (least_length xss) =? int64_max) = false.
Proof. intros N Lt. rewrite (min_count _ _ N). split; lia. Qed.
Lemma lists_given {A B} (P : A -> B -> Prop) ls xss : Forall2 P ls xss -> ls <> [] -> xss <> [].
Proof. intros F N ->. inversion F; subst; congruence. Qed.
Lemma map_iff f ls xss env s o s' : let s0 := entering "map" env s in
  function_or_primp f = true -> ls <> [] -> Forall2 (is_list s) ls xss -> Z.of_nat (least_length xss) < int64_max ->
  undisturbed f env s0 ls (rows xss) s0 ->
  applies "map" (f :: ls) env s o s' <-> (if least_length xss then gives VNil s0 else map_over f env (rows xss) [] s0) o s'.
Proof.
  intros s0 F N L Lt U. body_of. fold s0. tuple_prim s0 F L N.
  assert (L0 : Forall2 (is_list s0) ls xss) by (eapply Forall2_impl; [exact L|]; intros v xs Hv; exact (is_list_cells s s0 _ _ eq_refl Hv)).
  assert (Nx := lists_given _ _ _ L N). destruct (count_small xss Nx Lt) as [C1 C2].
  destruct (least_length xss) as [|n] eqn:E.
  - rewrite (then_iff _ _ _ _ _ _ _ (collections_none "map" s0 ls xss [] int64_max L0 (shortest_zero _ Nx E))). apply ok_iff.
  - assert (Ne : Forall (fun xs => xs <> []) xss) by (apply shortest_pos; rewrite E; discriminate).
    rewrite (then_iff _ _ _ _ _ _ _ (collections_run "map" true s0 ls xss [] int64_max L0 (fun _ => Ne))). cbv beta iota. cbn [rev app]. rewrite C1, C2, <- E.
    rewrite (call_tuples_iff f env _ _ _ (fun acc v _ => inl (v :: acc)) s0 ls xss [] o s'); [|intros; apply runs_ret|exact L0|exact U].
    clear U. generalize (rows xss). clear. intros todo. generalize s0. clear s0.
    assert (E : forall todo acc s0, tuple_walk f env (fun acc => r <- array_to_list (rev acc) ;; ok r) Err (fun acc v _ => inl (v :: acc)) todo acc s0 o s' <-> map_over f env todo (rev acc) s0 o s').
    2: { intros s0. apply (E todo []). }
    clear. induction todo as [|t r IH]; intros acc s0; cbn [tuple_walk map_over]; [apply gives_list_run|].
    unfold after. split; intros (o1 & s1 & C & H); exists o1, s1; (split; [exact C|]); destruct o1 as [[v|m]|w]; try exact H; apply (IH (v :: acc)); exact H.
Qed.
Lemma for_each_iff f ls xss env s o s' : let s0 := entering "for-each" env s in
  function_or_primp f = true -> ls <> [] -> Forall2 (is_list s) ls xss -> Z.of_nat (least_length xss) < int64_max ->
  undisturbed f env s0 ls (rows xss) s0 ->
  applies "for-each" (f :: ls) env s o s' <-> each_over f env (rows xss) s0 o s'.
Proof.
  intros s0 F N L Lt U. body_of. fold s0. tuple_prim s0 F L N.
  assert (L0 : Forall2 (is_list s0) ls xss) by (eapply Forall2_impl; [exact L|]; intros v xs Hv; exact (is_list_cells s s0 _ _ eq_refl Hv)).
  assert (Nx := lists_given _ _ _ L N). destruct (count_small xss Nx Lt) as [C1 C2].
  rewrite (then_iff _ _ _ _ _ _ _ (collections_run "foreach" false s0 ls xss [] int64_max L0 (fun H => False_ind _ (Bool.diff_false_true H)))). cbv beta iota. cbn [rev app]. rewrite C1, C2.
  rewrite (call_tuples_iff f env _ _ _ (fun _ v _ => inl tt) s0 ls xss tt o s'); [|intros; apply runs_ret|exact L0|exact U].
  clear U. generalize (rows xss). clear. intros todo. generalize s0. clear s0.
  induction todo as [|t r IH]; intros s0; cbn [tuple_walk each_over]; [apply ok_iff|].
  unfold after. split; intros (o1 & s1 & C & H); exists o1, s1; (split; [exact C|]); destruct o1 as [[v|m]|w]; try exact H; apply IH; exact H.
Qed.
Lemma any_iff f ls xss env s o s' : let s0 := entering "any" env s in
  function_or_primp f = true -> ls <> [] -> Forall2 (is_list s) ls xss -> Z.of_nat (least_length xss) < int64_max ->
  undisturbed f env s0 ls (rows xss) s0 ->
  applies "any" (f :: ls) env s o s' <-> any_over f env (rows xss) s0 o s'.
Proof.
  intros s0 F N L Lt U. body_of. fold s0. tuple_prim s0 F L N.
  assert (L0 : Forall2 (is_list s0) ls xss) by (eapply Forall2_impl; [exact L|]; intros v xs Hv; exact (is_list_cells s s0 _ _ eq_refl Hv)).
  assert (Nx := lists_given _ _ _ L N). destruct (count_small xss Nx Lt) as [C1 C2].
  rewrite (then_iff _ _ _ _ _ _ _ (collections_run "any" false s0 ls xss [] int64_max L0 (fun H => False_ind _ (Bool.diff_false_true H)))). cbv beta iota. cbn [rev app]. rewrite C1, C2.
  rewrite (call_tuples_iff f env _ _ _ (fun _ v s => if truthy s v then inr (Ok (VBool true)) else inl tt) s0 ls xss tt o s'); [|intros st v s1; apply truth_iff; destruct (truthy s1 v); apply runs_ret|exact L0|exact U].
  clear U. generalize (rows xss). clear. intros todo. generalize s0. clear s0.
  induction todo as [|t r IH]; intros s0; cbn [tuple_walk any_over]; [apply ret_iff|].
  unfold after. split; intros (o1 & s1 & C & H); exists o1, s1; (split; [exact C|]); destruct o1 as [[v|m]|w]; try exact H; (destruct (truthy s1 v); [exact H|apply IH; exact H]).
Qed.
Lemma every_iff f ls xss env s o s' : let s0 := entering "every" env s in
  function_or_primp f = true -> ls <> [] -> Forall2 (is_list s) ls xss -> Z.of_nat (least_length xss) < int64_max ->
  undisturbed f env s0 ls (rows xss) s0 ->
  applies "every" (f :: ls) env s o s' <-> every_over f env (rows xss) s0 o s'.
Proof.
  intros s0 F N L Lt U. body_of. fold s0. tuple_prim s0 F L N.
  assert (L0 : Forall2 (is_list s0) ls xss) by (eapply Forall2_impl; [exact L|]; intros v xs Hv; exact (is_list_cells s s0 _ _ eq_refl Hv)).
  assert (Nx := lists_given _ _ _ L N). destruct (count_small xss Nx Lt) as [C1 C2].
  rewrite (then_iff _ _ _ _ _ _ _ (collections_run "every" false s0 ls xss [] int64_max L0 (fun H => False_ind _ (Bool.diff_false_true H)))). cbv beta iota. cbn [rev app]. rewrite C1, C2.
  rewrite (call_tuples_iff f env _ _ _ (fun _ v s => if truthy s v then inl tt else inr (Ok (VBool false))) s0 ls xss tt o s'); [|intros st v s1; apply truth_iff; destruct (truthy s1 v); apply runs_ret|exact L0|exact U].
  clear U. generalize (rows xss). clear. intros todo. generalize s0. clear s0.
  induction todo as [|t r IH]; intros s0; cbn [tuple_walk every_over]; [apply ret_iff|].
  unfold after. split; intros (o1 & s1 & C & H); exists o1, s1; (split; [exact C|]); destruct o1 as [[v|m]|w]; try exact H; (destruct (truthy s1 v); [apply IH; exact H|exact H]).
Qed.
(** *** Folds *)
Lemma left_fold_iff f env : forall xs acc s o s', runs denote (reduce_fold false f env acc xs) s o s' <-> left_nested f env acc xs s o s'.
Proof.
  induction xs as [|x xs IH]; intros acc s o s'; cbn [reduce_fold left_nested]; [apply ok_iff|]. rewrite after_call. apply after_iff. intros. apply IH.
Qed.
Lemma after_assoc b k1 k2 o s' : after (after b k1) k2 o s' <-> after b (fun v s1 => after (k1 v s1) k2) o s'.
Proof.
  unfold after. split.
  - intros (o1 & s1 & (o2 & s2 & H1 & H2) & H3). exists o2, s2. split; [exact H1|]. destruct o2 as [[v|m]|w]; [exists o1, s1; auto| |]; destruct H2 as [-> ->]; exact H3.
  - intros (o1 & s1 & H1 & H2). destruct o1 as [[v|m]|w].
    + destruct H2 as (o2 & s2 & H2 & H3). exists o2, s2. split; [exists (Done (Ok v)), s1; auto|exact H3].
    + exists (Done (Err m)), s1. split; [exists (Done (Err m)), s1; split; [exact H1|split; reflexivity]|exact H2].
    + exists (Panicked w), s1. split; [exists (Panicked w), s1; split; [exact H1|split; reflexivity]|exact H2].
Qed.
Lemma after_gives v s k o s' : after (gives v s) k o s' <-> k v s o s'.
Proof. unfold after. split; [intros (o1 & s1 & [-> ->] & H); exact H|intros H; exists (Done (Ok v)), s; split; [split; reflexivity|exact H]]. Qed.
Lemma after_ret b o s' : after b gives o s' <-> b o s'.
Proof.
  unfold after. split; [intros (o1 & s1 & H & K); destruct o1 as [[v|m]|w]; destruct K as [-> ->]; exact H|].
  intros H. exists o, s'. split; [exact H|]. destruct o as [[v|m]|w]; split; reflexivity.
Qed.
Lemma after_ext b1 b2 k o s' : (forall o s', b1 o s' <-> b2 o s') -> after b1 k o s' <-> after b2 k o s'.
Proof. intros E. unfold after. split; intros (o1 & s1 & H & K); exists o1, s1; (split; [apply E, H|exact K]). Qed.
Lemma right_nested_snoc f env xs x : forall acc s o s', right_nested f env (xs ++ [x]) acc s o s' <-> after (call_on f [x; acc] env s) (fun v s1 => right_nested f env xs v s1) o s'.
Proof.
  induction xs as [|y xs IH]; intros acc s o s'.
  - cbn [app right_nested]. rewrite after_gives. rewrite <- after_ret. reflexivity.
  - cbn [app right_nested]. rewrite (after_ext _ _ _ o s' (IH acc s)). rewrite after_assoc. reflexivity.
Qed.
Lemma right_fold_iff f env xs : forall acc s o s', runs denote (reduce_fold true f env acc (rev xs)) s o s' <-> right_nested f env xs acc s o s'.
Proof.
  induction xs as [|x xs IH] using rev_ind; intros acc s o s'; [apply ok_iff|]. rewrite rev_app_distr. cbn [rev app reduce_fold]. rewrite after_call, right_nested_snoc.
  apply after_iff. intros. apply IH.
Qed.
Lemma fold_args_iff who f i l xs k s o s' : function_or_primp f = true -> is_list s l xs ->
  runs denote (fold_args who [f; i; l] k) s o s' <-> runs denote (k xs) s o s'.
Proof.
  intros F L. unfold fold_args. cbn [arg nth]. rewrite F, (is_list_listp _ _ _ L). cbn [negb]. apply (then_iff _ _ _ _ _ _ _ (runs_to_array _ _ _ L)).
Qed.
Lemma fold_left_iff f i l xs env s o s' : function_or_primp f = true -> is_list s l xs ->
  applies "fold-left" [f; i; l] env s o s' <-> left_nested f env i xs (entering "fold-left" env s) o s'.
Proof.
  intros F L. body_of. unfold fold_left_impl. rewrite (fold_args_iff _ f i l xs _ _ _ _ F (is_list_cells s (entering "fold-left" env s) _ _ eq_refl L)). apply left_fold_iff.
Qed.
Lemma fold_right_iff f i l xs env s o s' : function_or_primp f = true -> is_list s l xs ->
  applies "fold-right" [f; i; l] env s o s' <-> right_nested f env xs i (entering "fold-right" env s) o s'.
Proof.
  intros F L. body_of. unfold fold_right_impl. rewrite (fold_args_iff _ f i l xs _ _ _ _ F (is_list_cells s (entering "fold-right" env s) _ _ eq_refl L)). apply right_fold_iff.
Qed.
Lemma reduce_left_iff name f i l xs env s o s' : In name ["reduce"; "reduce-left"] -> function_or_primp f = true -> is_list s l xs ->
  applies name [f; i; l] env s o s' <-> match xs with [] => gives i | x :: r => left_nested f env x r end (entering name env s) o s'.
Proof.
  intros I F L. etransitivity; [apply (applies_iff name (func name "3" reduce_left_impl)); destruct I as [<-|[<-|[]]]; reflexivity|]. cbn [p_body func].
  unfold reduce_left_impl. rewrite (fold_args_iff _ f i l xs _ _ _ _ F (is_list_cells s (entering name env s) _ _ eq_refl L)). destruct xs; [apply ok_iff|apply left_fold_iff].
Qed.
Lemma reduce_right_iff f i l xs env s o s' : function_or_primp f = true -> is_list s l xs ->
  applies "reduce-right" [f; i; l] env s o s' <->
  match xs with [] => gives i | _ => right_nested f env (removelast xs) (last xs VNil) end (entering "reduce-right" env s) o s'.
Proof.
  intros F L. body_of. unfold reduce_right_impl. rewrite (fold_args_iff _ f i l xs _ _ _ _ F (is_list_cells s (entering "reduce-right" env s) _ _ eq_refl L)). clear L.
  destruct xs as [|y r]; [apply ok_iff|]. destruct (exists_last (l := y :: r)) as (xs & x & E); [discriminate|]. rewrite E. rewrite rev_app_distr. cbn [rev app].
  rewrite removelast_last, List.last_last. rewrite right_fold_iff. destruct xs; reflexivity.
Qed.
(** *** sort *)
From Coq Require Import Permutation Sorted.
Section Sort.
  Context (less : val) (env : loc).
  Definition compared (a b : val) (s : state) (o : outcome (res bool)) (s' : state) : Prop :=
    exists o1, compares less env a b s o1 s' /\
      o = match o1 with Done (Ok v) => Done (Ok (truthy s' v)) | Done (Err m) => Done (Err m) | Panicked w => Panicked w end.
  Lemma sort_compare_iff a b s o s' : runs denote (sort_compare a b less env) s o s' <-> compared a b s o s'.
  Proof.
    unfold sort_compare, compared, compares, applied_values. rewrite (then_iff _ _ _ _ _ _ _ (new_list_run [a; b] s)). destruct (new_list [a; b] s) as [l s1]. cbn [fst snd].
    unfold bind_ok. rewrite bind_iff.
    assert (E : forall p : prog (res val), (exists o1 s2, runs denote p s1 o1 s2 /\
      match o1 with Done x => runs denote match x with Ok v => t <- boolean_value v ;; ok t | Err m => Ret (Err m) end s2 o s' | Panicked w => o = Panicked w /\ s' = s2 end) <->
      exists o1, runs denote p s1 o1 s' /\ o = match o1 with Done (Ok v) => Done (Ok (truthy s' v)) | Done (Err m) => Done (Err m) | Panicked w => Panicked w end).
    { intros p. split.
      - intros (o1 & s2 & H & K). exists o1. destruct o1 as [[v|m]|w]; [apply truth_iff, ret_iff in K|apply ret_iff in K|]; destruct K as [-> ->]; split; auto.
      - intros (o1 & H & ->). exists o1, s'. split; [exact H|]. destruct o1 as [[v|m]|w]; [apply truth_iff, ret_iff|apply ret_iff|]; split; reflexivity. }
    destruct less; apply E.
  Qed.
  Context (xs : list val) (I : state -> Prop).
  Definition within (ys : list val) : Prop := forall y, In y ys -> In y xs.
  Lemma insert_any x : In x xs -> respects less env xs I -> forall ys s r s', within ys -> wf_state s -> I s -> 
    runs denote (sort_insert x less env ys) s (Done (Ok r)) s' -> Permutation r (x :: ys) /\ I s'.
  Proof.
    intros Ix Rs. induction ys as [|y ys IH]; intros s r s' Wy Ws Is H; cbn [sort_insert] in H.
    - apply ret_iff in H. destruct H as [[= ->] ->]. split; [reflexivity|exact Is].
    - unfold bind_ok in H. apply bind_iff in H. destruct H as (o1 & s1 & C & H). apply sort_compare_iff in C. destruct C as (o2 & C & ->).
      destruct o2 as [[v|m]|w]; [|apply ret_iff in H; destruct H; discriminate|destruct H; discriminate].
      assert (W1 : wf_state s1) by (eapply wf_runs; [exact Ws|apply sort_compare_iff; eexists; split; [exact C|reflexivity]]).
      assert (I1 : I s1) by (eapply Rs; [exact Ix|apply Wy; left; reflexivity|exact Is|exact C]).
      destruct (truthy s1 v).
      + apply bind_iff in H. destruct H as (o2 & s2 & H1 & H2). destruct o2 as [[r'|m]|w]; [|apply ret_iff in H2; destruct H2; discriminate|destruct H2; discriminate].
        apply ret_iff in H2. destruct H2 as [[= ->] ->]. destruct (IH s1 r' s2) as [P I2]; [intros z Hz; apply Wy; right; exact Hz|exact W1|exact I1|exact H1|]. split; [|exact I2].
        rewrite P. apply perm_swap.
      + apply ret_iff in H. destruct H as [[= ->] ->]. split; [reflexivity|exact I1].
  Qed.
  Lemma within_perm ys zs : Permutation ys zs -> within zs -> within ys.
  Proof. intros P W y Hy. apply W. eapply Permutation_in; eassumption. Qed.
  Lemma slice_any : respects less env xs I -> forall l ys s r s', within l -> within ys -> wf_state s -> I s ->
    runs denote (sort_slice l less env ys) s (Done (Ok r)) s' -> Permutation r (ys ++ l) /\ I s'.
  Proof.
    intros Rs. induction l as [|x l IH]; intros ys s r s' Wl Wy Ws Is H; cbn [sort_slice] in H.
    - apply ret_iff in H. destruct H as [[= ->] ->]. rewrite app_nil_r. split; [symmetry; apply Permutation_rev|exact Is].
    - unfold bind_ok in H. apply bind_iff in H. destruct H as (o1 & s1 & H1 & H2). destruct o1 as [[zs|m]|w]; [|apply ret_iff in H2; destruct H2; discriminate|destruct H2; discriminate].
      destruct (insert_any x (Wl x (or_introl eq_refl)) Rs ys s zs s1 Wy Ws Is H1) as [P I1].
      assert (W1 : wf_state s1) by (eapply wf_runs; [exact Ws|exact H1]). destruct (IH zs s1 r s') as [P2 I2]; [intros z Hz; apply Wl; right; exact Hz| |exact W1|exact I1|exact H2|].
      + eapply within_perm; [exact P|]. intros z [<-|Hz]; [apply Wl; left; reflexivity|apply Wy, Hz].
      + split; [|exact I2]. rewrite P2, P. cbn [app]. apply Permutation_middle.
  Qed.
  (** With an order *)
  Context (lt : val -> val -> bool).
  Lemma neg_trans : strict_weak lt xs -> forall a b c, In a xs -> In b xs -> In c xs -> lt a b = false -> lt b c = false -> lt a c = false.
  Proof.
    intros W a b c Ha Hb Hc H1 H2. destruct (lt a c) eqn:E; [|reflexivity]. exfalso.
    destruct (lt b a) eqn:E1; [rewrite (sw_trans _ _ W b a c) in H2; auto; discriminate|].
    destruct (lt c b) eqn:E2; [rewrite (sw_trans _ _ W a c b) in H1; auto; discriminate|].
    rewrite (sw_incomp _ _ W a b c) in E; auto; discriminate.
  Qed.
  Lemma asym : strict_weak lt xs -> forall a b, In a xs -> In b xs -> lt a b = true -> lt b a = false.
  Proof.
    intros W a b Ha Hb H. destruct (lt b a) eqn:E; [|reflexivity]. pose proof (sw_trans _ _ W a b a Ha Hb Ha H E) as K. rewrite (sw_irr _ _ W a Ha) in K. discriminate.
  Qed.
  Let down (a b : val) : Prop := lt a b = false.
  Lemma insert_ordered x : In x xs -> strict_weak lt xs -> decides less env xs I lt -> forall ys s, within ys -> wf_state s -> I s -> StronglySorted down ys ->
    exists r s', runs denote (sort_insert x less env ys) s (Done (Ok r)) s' /\ Permutation r (x :: ys) /\ StronglySorted down r /\ I s'.
  Proof.
    intros Ix W D. induction ys as [|y ys IH]; intros s Wy Ws Is Sy; cbn [sort_insert].
    - exists [x], s. split; [apply runs_ret|]. split; [reflexivity|]. split; [|exact Is]. constructor; constructor.
    - assert (Iy : In y xs) by (apply Wy; left; reflexivity). destruct (D x y s Ix Iy Ws Is) as (v & s1 & C & T & I1).
      assert (R : runs denote (sort_compare x y less env) s (Done (Ok (lt x y))) s1) by (apply sort_compare_iff; exists (Done (Ok v)); rewrite T; auto).
      assert (W1 : wf_state s1) by (eapply wf_runs; [exact Ws|exact R]). inversion Sy as [|? ? Sy' Fy]; subst. destruct (lt x y) eqn:E.
      + destruct (IH s1) as (r & s2 & R2 & P & S2 & I2); [intros z Hz; apply Wy; right; exact Hz|exact W1|exact I1|exact Sy'|].
        exists (y :: r), s2. split; [|split; [|split; [|exact I2]]].
        * unfold bind_ok at 1. apply (then_iff _ _ _ _ _ _ _ R). cbv iota. unfold bind_ok. apply (then_iff _ _ _ _ _ _ _ R2). apply runs_ret.
        * rewrite P. apply perm_swap.
        * constructor; [exact S2|]. apply List.Forall_forall. intros z Hz. apply (Permutation_in _ P) in Hz. destruct Hz as [<-|Hz]; [apply (asym W x y Ix Iy E)|].
          exact (proj1 (List.Forall_forall _ _) Fy z Hz).
      + exists (x :: y :: ys), s1. split; [|split; [reflexivity|split; [|exact I1]]].
        * unfold bind_ok at 1. apply (then_iff _ _ _ _ _ _ _ R). cbv iota. apply runs_ret.
        * constructor; [exact Sy|]. apply List.Forall_forall. intros z [<-|Hz]; [exact E|]. apply (neg_trans W x y z Ix Iy); [apply Wy; right; exact Hz|exact E|].
          exact (proj1 (List.Forall_forall _ _) Fy z Hz).
  Qed.
  Lemma slice_ordered : strict_weak lt xs -> decides less env xs I lt -> forall l ys s, within l -> within ys -> wf_state s -> I s -> StronglySorted down ys ->
    exists r s', runs denote (sort_slice l less env ys) s (Done (Ok (rev r))) s' /\ Permutation r (ys ++ l) /\ StronglySorted down r /\ I s'.
  Proof.
    intros W D. induction l as [|x l IH]; intros ys s Wl Wy Ws Is Sy; cbn [sort_slice].
    - exists ys, s. split; [apply runs_ret|]. rewrite app_nil_r. auto.
    - destruct (insert_ordered x (Wl x (or_introl eq_refl)) W D ys s Wy Ws Is Sy) as (zs & s1 & R & P & Sz & I1).
      assert (W1 : wf_state s1) by (eapply wf_runs; [exact Ws|exact R]). destruct (IH zs s1) as (r & s2 & R2 & P2 & S2 & I2); [intros z Hz; apply Wl; right; exact Hz| |exact W1|exact I1|exact Sz|].
      + eapply within_perm; [exact P|]. intros z [<-|Hz]; [apply Wl; left; reflexivity|apply Wy, Hz].
      + exists r, s2. split; [unfold bind_ok; apply (then_iff _ _ _ _ _ _ _ R); exact R2|]. split; [|auto]. rewrite P2, P. cbn [app]. apply Permutation_middle.
  Qed.
  Lemma down_ordered r : StronglySorted down r -> ordered lt (rev r).
  Proof.
    intros S i j x y Lt Hi Hj. induction S as [|z r Sr IH F] in i, j, Lt, Hi, Hj |- *; [destruct i; discriminate|]. cbn [rev] in *.
    assert (Lj : (j < length (rev r ++ [z]))%nat) by (apply nth_error_Some; congruence). rewrite app_length in Lj. cbn [length] in Lj.
    rewrite nth_error_app1 in Hi by lia. destruct (Nat.eq_dec j (length (rev r))) as [->|N].
    - rewrite nth_error_app2 in Hj by lia. rewrite Nat.sub_diag in Hj. cbn in Hj. injection Hj as <-. apply nth_error_In, in_rev in Hi. exact (proj1 (List.Forall_forall _ _) F x Hi).
    - rewrite nth_error_app1 in Hj by lia. exact (IH i j Lt Hi Hj).
  Qed.
End Sort.
Lemma new_list_list_of ys s : wf_state s -> list_of (snd (new_list ys s)) (fst (new_list ys s)) ys /\ grows s (snd (new_list ys s)).
Proof.
  intros W. destruct (runs_array_to_list ys s W) as (v & zs & s' & R & G & H). destruct (runs_det _ _ _ _ _ _ _ _ R (new_list_run ys s)) as [E ->]. injection E as ->.
  split; [|exact G]. exists zs. tauto.
Qed.
Lemma sort_any l less xs env s v s' I : wf_state s -> is_list s l xs -> function_or_primp less = true -> stable I -> respects less env xs I -> I s ->
  applies "sort" [l; less] env s (Done (Ok v)) s' -> exists ys, Permutation ys xs /\ list_of s' v ys /\ I s'.
Proof.
  intros W L F St Rs Is H. eapply applies_inv in H; [|reflexivity]. cbn [p_body func] in H. set (s0 := entering "sort" env s) in *. assert (W0 : wf_state s0) by apply wf_entering, W.
  assert (L0 : is_list s0 l xs) by exact (is_list_cells s s0 _ _ eq_refl L). unfold sort_impl in H. cbn [arg nth] in H. rewrite (is_list_listp _ _ _ L), F in H. cbn [negb] in H.
  apply (proj1 (then_iff _ _ _ _ _ _ _ (runs_to_array _ _ _ L0))) in H. unfold bind_ok in H. apply bind_iff in H. destruct H as (o1 & s1 & H1 & H2).
  destruct o1 as [[ys|m]|w]; [|apply ret_iff in H2; destruct H2; discriminate|destruct H2; discriminate].
  destruct (slice_any less env xs I Rs xs [] s0 ys s1) as [P I1]; [intros y; auto|intros y []|exact W0|eapply St; [exact Is|exact W0|apply grows_entering]|exact H1|]. cbn [app] in P.
  apply gives_list_run in H2. unfold gives_list in H2. assert (W1 : wf_state s1) by (eapply wf_runs; [exact W0|exact H1]). destruct (new_list_list_of ys s1 W1) as [Ly G]. destruct (new_list_grows ys s1 W1) as [_ W2].
  destruct (new_list ys s1) as [v' s2]. destruct H2 as [[= ->] ->]. exists ys. split; [exact P|]. split; [exact Ly|]. eapply St; eassumption.
Qed.
Lemma sort_ordered l less xs env s I lt : wf_state s -> is_list s l xs -> function_or_primp less = true -> stable I -> I s ->
  strict_weak lt xs -> decides less env xs I lt ->
  exists v ys s', applies "sort" [l; less] env s (Done (Ok v)) s' /\ Permutation ys xs /\ ordered lt ys /\ list_of s' v ys /\ I s'.
Proof.
  intros W L F St Is Sw D. set (s0 := entering "sort" env s) in *. assert (W0 : wf_state s0) by apply wf_entering, W.
  assert (L0 : is_list s0 l xs) by exact (is_list_cells s s0 _ _ eq_refl L).
  destruct (slice_ordered less env xs I lt Sw D xs [] s0) as (r & s1 & R & P & Sr & I1); [intros y; auto|intros y []|exact W0|eapply St; [exact Is|exact W0|apply grows_entering]|constructor|]. cbn [app] in P.
  assert (W1 : wf_state s1) by (eapply wf_runs; [exact W0|exact R]). destruct (new_list_list_of (rev r) s1 W1) as [Ly G]. destruct (new_list_grows (rev r) s1 W1) as [_ W2]. pose proof (new_list_run (rev r) s1) as R2.
  destruct (new_list (rev r) s1) as [v s2]. cbn [fst snd] in *. exists v, (rev r), s2. split; [|split; [|split; [|split]]].
  - applies. unfold sort_impl. cbn [arg nth]. rewrite (is_list_listp _ _ _ L), F. cbn [negb]. apply (then_iff _ _ _ _ _ _ _ (runs_to_array _ _ _ L0)). unfold bind_ok.
    apply (then_iff _ _ _ _ _ _ _ R). apply (then_iff _ _ _ _ _ _ _ R2). apply runs_ret.
  - rewrite <- P. symmetry. apply Permutation_rev.
  - apply down_ordered, Sr.
  - exact Ly.
  - eapply St; eassumption.
Qed.

(** *** Built-ins as callbacks *)
Lemma env_here s env (b : loc) n : local_binding s env n = Some b -> exists e, s_envs s !! env = Some e.
Proof. unfold local_binding, env_at. destruct (s_envs s !! env); [eauto|discriminate]. Qed.
Lemma env_kept s s' (env : loc) e : grows s s' -> s_envs s !! env = Some e -> env_at s' env = env_at s env.
Proof. intros G E. unfold env_at. rewrite E, (g_envs _ _ G _ _ E). reflexivity. Qed.
Lemma visible_grows s s' n env b : grows s s' -> visible s n env (Some b) -> visible s' n env (Some b).
Proof.
  intros G V. remember (Some b) as r eqn:Er. induction V as [env b' L|env p r L P _ IH|env L P]; [| |discriminate].
  - destruct (env_here _ _ _ _ L) as [e E]. apply visible_here. unfold local_binding in *. rewrite (env_kept _ _ _ _ G E). exact L.
  - assert (E : exists e, s_envs s !! env = Some e) by (unfold env_at in P; destruct (s_envs s !! env); [eauto|discriminate]). destruct E as [e E].
    eapply visible_above; [unfold local_binding in *; rewrite (env_kept _ _ _ _ G E); exact L|rewrite (env_kept _ _ _ _ G E); exact P|apply IH, Er].
Qed.
Lemma means_grows s s' env n : grows s s' -> means_builtin env n s -> means_builtin env n s'.
Proof.
  intros G (b & V & Vb & F). exists b. split; [eapply visible_grows; eassumption|].
  assert (Hb : exists x, s_binds s !! b = Some x) by (unfold value_in, bind_at in Vb; destruct (s_binds s !! b); [eauto|discriminate]). destruct Hb as [x Hb].
  split; [unfold value_in, bind_at in *; rewrite Hb in Vb; rewrite (g_binds _ _ G _ _ Hb); exact Vb|].
  assert (E : exists e, s_envs s !! env = Some e).
  { inversion V as [? ? L|? p ? L P|]; subst; [eapply env_here, L|]. unfold env_at in P. destruct (s_envs s !! env); [eauto|discriminate]. }
  destruct E as [e E]. unfold local_binding in *. rewrite (env_kept _ _ _ _ G E). exact F.
Qed.
Lemma call_on_builtin p ts xs env s : In p all_prims -> declared p ts -> p_special p = false -> p_restricted p = false -> wf_state s -> no_nils xs -> xs <> [] ->
  accepts ts (length xs) -> means_builtin env "quote" s ->
  exists s1, grows s s1 /\ forall o s', call_on (VPrim (p_name p)) xs env s o s' <-> applies (p_name p) xs env s1 o s'.
Proof.
  intros I D Sp Rs W N Ne A M. destruct (new_list_grows xs s W) as [G W1]. pose proof (new_tail_nil_ended xs VNil [] s W N (ne_nil _)) as L. rewrite app_nil_r in L.
  assert (E : new_list xs s = new_tail xs VNil s) by (destruct xs; [congruence|reflexivity]). unfold call_on. rewrite E in *. destruct (new_tail xs VNil s) as [l s1]. cbn [fst snd] in *.
  destruct (values_prim p ts l xs env s1 I D Sp W1 L N Ne (means_grows _ _ _ _ G M) (or_introl Rs)) as (s2 & G2 & H).
  exists (Nat.iter (length xs) (entering "quote" env) s2). split; [eapply grows_trans; [exact G|]; eapply grows_trans; [exact G2|apply iter_grows]|].
  intros o s'. rewrite H. split; [intros [(n & _ & K & ->)|[K _]]; [exact K|contradiction]|]. intros K. left. exists (length xs). auto.
Qed.
Lemma call_on_wf f xs env s o s' : wf_state s -> call_on f xs env s o s' -> wf_state s'.
Proof.
  intros W H. destruct (new_list_grows xs s W) as [_ W1]. unfold call_on in H. destruct (new_list xs s) as [l s1]. cbn [snd] in W1. eapply wf_runs; [exact W1|exact H].
Qed.
(** A built-in that only creates objects disturbs nothing. *)
Lemma undisturbed_builtin p ts env s0 ls xss : In p all_prims -> declared p ts -> p_special p = false -> p_restricted p = false ->
  Forall2 (is_list s0) ls xss -> (forall t s v s1, applies (p_name p) t env s (Done (Ok v)) s1 -> grows s s1) ->
  forall todo s, Forall (fun t => no_nils t /\ t <> [] /\ accepts ts (length t)) todo -> wf_state s -> means_builtin env "quote" s -> grows s0 s ->
  undisturbed (VPrim (p_name p)) env s0 ls todo s.
Proof.
  intros I D Sp Rs L P todo. induction todo as [|t r IH]; intros s F W M G; cbn [undisturbed].
  - split; [|exact Logic.I]. clear -L G. induction L; constructor; [eapply same_grows; eassumption|assumption].
  - split; [clear -L G; induction L; constructor; [eapply same_grows; eassumption|assumption]|]. intros v s1 H.
    destruct (Forall_inv F) as (N & Ne & A). destruct (call_on_builtin p ts t env s I D Sp Rs W N Ne A M) as (s2 & G2 & Hc). assert (H' := proj1 (Hc _ _) H).
    assert (G3 : grows s s1) by (eapply grows_trans; [exact G2|apply (P _ _ _ _ H')]).
    apply IH; [exact (Forall_inv_tail F)|eapply call_on_wf; eassumption|eapply means_grows; eassumption|eapply grows_trans; eassumption].
Qed.
(** *** member *)
Lemma member_run name kv l xs k ds env s : In name ["memq"; "memv"; "member"] -> is_list s l xs -> Forall2 (rep s) xs ds -> Forall frameless ds -> rep s kv k -> frameless k ->
  exists r, applies name [kv; l] env s (Done (Ok r)) (entering name env s) /\
    ((~ In k ds /\ r = VBool false) \/
     (exists i, nth_error ds i = Some k /\ (forall j, (j < i)%nat -> nth_error ds j <> Some k) /\ r = tail_at s l i)).
Proof.
  intros I L F Fl Rk Fk. set (s0 := entering name env s).
  assert (E : exists r, runs denote (memq_impl [kv; l] env) s0 (Done (Ok r)) s0 /\ ((~ In k ds /\ r = VBool false) \/
     (exists i, nth_error ds i = Some k /\ (forall j, (j < i)%nat -> nth_error ds j <> Some k) /\ r = tail_at s l i))).
  2: { destruct E as (r & R & H). exists r. split; [|exact H]. apply (applies_iff name (func name "2" memq_impl)); [destruct I as [<-|[<-|[<-|[]]]]; reflexivity|exact R]. }
  unfold memq_impl. cbn [arg nth]. clear I. assert (G : grows s s0) by apply grows_entering. revert l ds L F Fl. induction xs as [|x xs IH]; intros l ds L F Fl.
  - inversion F; subst. exists (VBool false). split; [|left; auto]. apply for_cells_end; [exact (is_list_nil_inv _ _ L)|]. apply runs_ret.
  - inversion F as [|? d ? ds' R F']; subst. destruct (is_list_step _ _ _ _ L) as (N & Hd & T).
    destruct (run_equal s0 k Fk kv x d) as (b & Rb & Hb); [eapply rep_grows; eassumption|eapply rep_grows; eassumption|exact (Forall_inv Fl)|]. destruct b.
    + exists l. split; [|right; exists 0%nat; split; [cbn; f_equal; symmetry; apply Hb; reflexivity|split; [intros; lia|reflexivity]]].
      apply for_cells_stop; [exact N|]. apply car_iff. change (head_of s0 l) with (head_of s l). rewrite Hd. apply (then_iff _ _ _ _ _ _ _ Rb). apply runs_ret.
    + assert (Nk : d <> k) by (intros ->; assert (false = true) by (apply Hb; reflexivity); discriminate).
      destruct (IH (rest_of s l) ds' T F' (Forall_inv_tail Fl)) as (r & Rr & Hr). exists r. split.
      * apply (for_cells_next _ _ l tt s0 tt s0); [exact N| |exact Rr]. apply car_iff. change (head_of s0 l) with (head_of s l). rewrite Hd. apply (then_iff _ _ _ _ _ _ _ Rb). apply runs_ret.
      * destruct Hr as [[H1 H2]|(i & H1 & H2 & H3)]; [left; split; [intros [H|H]; auto|exact H2]|right]. exists (S i). split; [exact H1|]. split; [|rewrite tail_at_next; exact H3].
        intros [|j] Lt; [cbn; congruence|]. apply (H2 j). lia.
Qed.
