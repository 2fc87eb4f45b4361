(** Proofs of C70. *)
From Verif Require Export SpecPort.
From Verif Require Import ProofEval ProofCall RunFacts ProofList ProofData ProofRead ProofPrint ProofText ProofFormat ProofOut ProofWf ProofConc.
From stdpp Require Import list.
From Verif Require Import Data SpecRead SpecData SpecPort.
Local Open Scope string_scope.
Local Open Scope list_scope.
Local Open Scope Z_scope.

(** *** Asking the world *)
Lemma choose_run s : runs denote (do_op OChoose) s (Done (hd 0 (s_oracle s))) (set_oracle (tl (s_oracle s)) s).
Proof. apply runs_op. cbn. unfold next_choice. destruct (s_oracle s) eqn:E; [|reflexivity]. cbn. repeat f_equal. destruct s; cbn in *. rewrite E. reflexivity. Qed.
Lemma refusing_iff s : refusing s <-> Z.odd (hd 0 (s_oracle s)) = true.
Proof. unfold refusing. destruct (s_oracle s) as [|z r]; cbn; split; [intros (? & ? & ? & _); discriminate|discriminate|intros (? & ? & [= <- <-] & E); exact E|eauto]. Qed.
Definition asked (name : string) (s : state) : state := set_oracle (tl (s_oracle s)) (set_log (EExt name :: s_log s) s).
Lemma external_run name args env s : exists o, runs denote (external name args env) s (Done o) (asked name s) /\
  (~ refusing s /\ o = Ok VNil \/ refusing s /\ exists m, o = Err m).
Proof.
  unfold external. destruct (Z.odd (hd 0 (s_oracle s))) eqn:E.
  - eexists. split; [eapply runs_bind; [apply runs_op; reflexivity|]; eapply runs_bind; [apply choose_run|]; cbn [s_oracle set_log]; rewrite E; apply runs_ret|]. right. split; [apply refusing_iff, E|eauto].
  - eexists. split; [eapply runs_bind; [apply runs_op; reflexivity|]; eapply runs_bind; [apply choose_run|]; cbn [s_oracle set_log]; rewrite E; apply runs_ret|]. left. split; [rewrite refusing_iff; congruence|reflexivity].
Qed.
Lemma recorded_trans e1 e2 s1 s2 s3 : recorded e1 s1 s2 -> recorded e2 s2 s3 -> recorded (e2 ++ e1) s1 s3.
Proof.
  intros [L1 G1] [L2 G2]. split; [rewrite L2, L1; apply app_assoc|]. apply (grows_trans _ _ _ G1). destruct G2. split; cbn in *; try assumption. exists []. split; [reflexivity|constructor].
Qed.
Lemma recorded_grows s s' : grows s s' -> s_log s' = s_log s -> recorded [] s s'.
Proof. intros G L. split; [exact L|]. destruct G. split; cbn in *; try assumption. exists []. split; [reflexivity|constructor]. Qed.
Lemma recorded_event e s : recorded [e] s (set_log (e :: s_log s) s).
Proof. split; [reflexivity|]. replace (set_log (s_log s) (set_log (e :: s_log s) s)) with s by (destruct s; reflexivity). apply grows_refl. Qed.
Lemma recorded_oracle r s : recorded [] s (set_oracle r s).
Proof. apply recorded_grows; [|reflexivity]. destruct (grows_refl s). split; cbn; try assumption. Qed.
Lemma recorded_asked name s : recorded [EExt name] s (asked name s).
Proof. unfold asked. apply (recorded_trans [EExt name] [] s (set_log (EExt name :: s_log s) s)); [apply recorded_event|apply recorded_oracle]. Qed.

(** *** Opening and closing *)
Lemma open_runs name msg input more env s (f : loc) t p : table name = Some p -> (forall vs e, p_body p vs e = open_impl name msg input vs e) -> wf_state s -> s_strs s !! f = Some t ->
  let mode := if input then Reading else match more with [w] => if truthy (entering name env s) w then Appending else Replacing | _ => Replacing end in
  exists o s', applies name (VStr f :: more) env s o s' /\
  (~ refusing s /\ (exists l, o = Done (Ok (VPort l)) /\ s_strs s !! (l : loc) = None /\ s_strs s' !! l = Some t /\ recorded [EOpened l t mode; EExt name] (entering name env s) s') \/
   refusing s /\ (exists m, o = Done (Err m)) /\ recorded [EExt name] (entering name env s) s').
Proof.
  intros T B W F mode. set (s0 := entering name env s). destruct (external_run name (VStr f :: more) env s0) as (x & X & C).
  assert (M : runs denote (match VStr f :: more with [_; a] => boolean_value a | _ => Ret false end) s0 (Done (match more with [w] => truthy s0 w | _ => false end)) s0).
  { destruct more as [|w [|]]; [apply runs_ret|apply truthy_value|apply runs_ret]. }
  assert (Rs : refusing s0 <-> refusing s) by reflexivity. rewrite Rs in C.
  destruct C as [[N ->]|[Y [m ->]]].
  - set (s1 := asked name s0) in *. assert (W1 : wf_state s1) by (exact (wf_runs _ _ _ _ _ (wf_entering _ _ _ W) X)).
    set (s2 := set_strs (<[s_next s1 := t]> (s_strs s1)) (bump s1)).
    eexists _, (set_log (EOpened (s_next s1) t mode :: s_log s2) s2). split.
    + eapply applies_of; [exact T|]. rewrite B. unfold open_impl. cbn [arg nth]. eapply runs_bind; [exact M|]. unfold bind_ok. eapply runs_bind; [exact X|]. cbv beta iota.
      eapply runs_bind; [apply (get_text f t), F|]. eapply runs_bind; [apply runs_op; reflexivity|]. fold s2.
      replace (if input then Reading else if match more with [w] => truthy s0 w | _ => false end then Appending else Replacing) with mode by (unfold mode; destruct input; [reflexivity|]; destruct more as [|w [|]]; reflexivity).
      eapply runs_bind; [apply runs_op; reflexivity|]. apply runs_ret.
    + left. split; [exact N|]. exists (s_next s1). split; [reflexivity|]. split; [apply (fresh_str s), W|]. split; [apply lookup_insert|].
      apply (recorded_trans [EExt name] [EOpened (s_next s1) t mode] _ s1); [apply recorded_asked|].
      apply (recorded_trans [] [EOpened (s_next s1) t mode] _ s2); [|apply recorded_event]. apply recorded_grows; [|reflexivity]. apply (grows_new_str s1 t W1).
  - eexists _, _. split.
    + eapply applies_of; [exact T|]. rewrite B. unfold open_impl. cbn [arg nth]. eapply runs_bind; [exact M|]. apply runs_bind_err. exact X.
    + right. split; [exact Y|]. split; [eauto|]. apply recorded_asked.
Qed.
Lemma truthy_same s s' v : s_cells s' = s_cells s -> truthy s' v = truthy s v.
Proof. intros E. destruct v; try reflexivity. cbn [truthy]. unfold cell_at. rewrite E. reflexivity. Qed.
Lemma open_file name v more mode t env s : wf_state s -> is_str s v t -> asks_for s name more mode -> exists o s', applies name (v :: more) env s o s' /\
  (~ refusing s /\ (exists l, o = Done (Ok (VPort l)) /\ s_strs s !! (l : loc) = None /\ s_strs s' !! l = Some t /\ recorded [EOpened l t mode; EExt name] (entering name env s) s') \/
   refusing s /\ (exists m, o = Done (Err m)) /\ recorded [EExt name] (entering name env s) s').
Proof.
  intros W (f & -> & F) A.
  assert (Q : exists o s', applies name (VStr f :: more) env s o s' /\
    (~ refusing s /\ (exists l, o = Done (Ok (VPort l)) /\ s_strs s !! (l : loc) = None /\ s_strs s' !! l = Some t /\ recorded [EOpened l t mode; EExt name] (entering name env s) s') \/
     refusing s /\ (exists m, o = Done (Err m)) /\ recorded [EExt name] (entering name env s) s')).
  { destruct A as [(-> & -> & ->)|[(-> & -> & ->)|(w & -> & -> & ->)]].
    - exact (open_runs "open-input-file" _ true [] env s f t _ eq_refl (fun _ _ => eq_refl) W F).
    - exact (open_runs "open-output-file" _ false [] env s f t _ eq_refl (fun _ _ => eq_refl) W F).
    - rewrite <- (truthy_same s (entering "open-output-file" env s) w eq_refl). exact (open_runs "open-output-file" _ false [w] env s f t _ eq_refl (fun _ _ => eq_refl) W F). }
  exact Q.
Qed.
Lemma open_twice name1 v1 more1 mode1 t1 env1 l1 s1 name2 v2 more2 mode2 t2 env2 l2 s2 events s s3 :
  wf_state s -> is_str s v1 t1 -> asks_for s name1 more1 mode1 -> applies name1 (v1 :: more1) env1 s (Done (Ok (VPort l1))) s1 ->
  recorded events s1 s2 -> wf_state s2 -> is_str s2 v2 t2 -> asks_for s2 name2 more2 mode2 -> applies name2 (v2 :: more2) env2 s2 (Done (Ok (VPort l2))) s3 -> l1 <> l2.
Proof.
  intros W V1 A1 R1 [_ G] W2 V2 A2 R2 E. destruct (open_file _ _ _ _ _ env1 _ W V1 A1) as (o & s' & R & C). destruct (applies_det _ _ _ _ _ _ _ _ R1 R) as [<- <-].
  destruct C as [(_ & l & [= <-] & _ & F & _)|(_ & [m Q] & _)]; [|discriminate]. destruct (open_file _ _ _ _ _ env2 _ W2 V2 A2) as (o & s'' & R' & C). destruct (applies_det _ _ _ _ _ _ _ _ R2 R') as [<- <-].
  destruct C as [(_ & l & [= <-] & N & _)|(_ & [m Q] & _)]; [|discriminate]. subst l2. apply (g_strs _ _ G) in F. cbn in F. congruence.
Qed.
Lemma open_other name vs env s : In name ["open-input-file"; "open-output-file"] -> (forall l, arg 0 vs <> VStr l) ->
  exists p, table name = Some p /\ exists m, runs denote (p_body p vs env) (entering name env s) (Done (Err m)) (entering name env s).
Proof.
  intros I N. assert (Q : forall n msg b, exists m, runs denote (open_impl n msg b vs env) (entering name env s) (Done (Err m)) (entering name env s)).
  { intros n msg b. unfold open_impl. destruct (arg 0 vs) as [|q l| |z|x|b0|l|x|fl|l|x|l|l|l|l|h|l|l]; try (eexists; apply runs_ret). destruct (N _ eq_refl). }
  destruct I as [<-|[<-|[]]]; eexists; (split; [reflexivity|apply Q]).
Qed.
Lemma open_refused name v more env s : (forall l, v <> VStr l) -> In (name, length more) [("open-input-file", 0%nat); ("open-output-file", 0%nat); ("open-output-file", 1%nat)] ->
  exists m, applies name (v :: more) env s (Done (Err m)) (entering name env s).
Proof.
  intros N I. assert (In name ["open-input-file"; "open-output-file"]) as J by (destruct I as [[= <- _]|[[= <- _]|[[= <- _]|[]]]]; cbn; auto).
  destruct (open_other name (v :: more) env s J N) as (p & T & m & R). exists m. eapply applies_of; [exact T|exact R].
Qed.
Lemma close_run p env s : applies "close-port" [VPort p] env s (Done (Ok VNil)) (set_log (EClosed p :: s_log (entering "close-port" env s)) (entering "close-port" env s)).
Proof. applies. unfold close_port_impl. cbn [arg nth]. apply event_run. Qed.
Lemma close_refused v env s : (forall p, v <> VPort p) -> exists m, applies "close-port" [v] env s (Done (Err m)) (entering "close-port" env s).
Proof. intros N. eexists. applies. unfold close_port_impl. cbn [arg nth]. destruct v; try apply runs_ret. destruct (N _ eq_refl). Qed.
Lemma write_bytes_run (l : loc) bs p env s : s_bytes s !! l = Some bs -> exists o s', applies "write-bytes" [VBytes l; VPort p] env s o s' /\
  sent "write-bytes" p (string_of_bytes bs) (entering "write-bytes" env s) o s'.
Proof.
  intros E. destruct (port_write_run "write-bytes" p (string_of_bytes bs) (entering "write-bytes" env s)) as (o & s' & R & S). exists o, s'. split; [|exact S].
  applies. unfold write_bytes_impl. cbn [arg nth]. eapply runs_bind; [apply runs_op; reflexivity|]. unfold bytes_at. change (s_bytes (entering "write-bytes" env s)) with (s_bytes s). rewrite E. exact R.
Qed.
Lemma write_bytes_refused v w env s : (forall l, v <> VBytes l) \/ (forall p, w <> VPort p) -> exists m, applies "write-bytes" [v; w] env s (Done (Err m)) (entering "write-bytes" env s).
Proof.
  intros N. assert (Q : exists m, runs denote (write_bytes_impl [v; w] env) (entering "write-bytes" env s) (Done (Err m)) (entering "write-bytes" env s)).
  { unfold write_bytes_impl. cbn [arg nth]. destruct v; try (eexists; apply runs_ret). destruct w; try (eexists; apply runs_ret). destruct N as [N|N]; destruct (N _ eq_refl). }
  destruct Q as [m Q]. exists m. applies. exact Q.
Qed.
Lemma sent_stream who p q t s o s' : sent who p t s o s' -> stream q (s_log s') = stream q (s_log s) +++ (if Pos.eqb q p then match o with Done (Ok _) => t | _ => "" end else "").
Proof.
  intros [(_ & -> & ->)|(_ & [m ->] & ->)]; cbn [s_log set_oracle set_log stream]; [reflexivity|]. destruct (Pos.eqb q p); symmetry; apply NumText.str_app_nil_r.
Qed.

(** *** Reading *)
Lemma text_run t r s : delivers t r s -> runs denote oracle_text s (Done t) (set_oracle r s).
Proof.
  intros E. unfold oracle_text. eapply runs_bind; [apply choose_run|]. unfold delivers in E. rewrite E. cbn [hd tl]. rewrite Nat2Z.id.
  exact (runs_oracle_bytes t r (set_oracle (bytes_of_string t ++ r) s) eq_refl).
Qed.
Definition fetched (p : loc) (t : string) (r : list Z) (env : loc) (s : state) : state :=
  set_log (EGot p t :: EPrim "read" env :: s_log s) (set_oracle r s).
Lemma reader_reading p log : forall src n, reader_of p log = Some (src, n) <-> reading p src n log.
Proof.
  induction log as [|e log IH]; intros src n; [split; [discriminate|inversion 1]|]. split.
  - destruct e as [name env|t|name|q f m|q t|q t|q|q]; cbn [reader_of]; intros H; try (apply reading_other; [intros []|apply IH, H]).
    + destruct (Pos.eqb_spec p q) as [<-|]; [|discriminate]. injection H as <- <-. constructor.
    + destruct (Pos.eqb_spec p q) as [<-|]; [|discriminate]. destruct (reader_of p log) as [[t k]|] eqn:E; [|discriminate]. injection H as <- <-. constructor. apply IH. reflexivity.
  - intros H. inversion H as [older E|k older K E|k e0 older N K E]; subst.
    + cbn. rewrite Pos.eqb_refl. reflexivity.
    + cbn. rewrite Pos.eqb_refl, (proj2 (IH _ _) K). reflexivity.
    + apply IH in K. destruct e as [name env|t|name|q f m|q t|q t|q|q]; cbn [reader_of]; try exact K; destruct (N Logic.I).
Qed.
Lemma reading_none p log : (forall t k, ~ reading p t k log) <-> reader_of p log = None.
Proof.
  split.
  - intros N. destruct (reader_of p log) as [[t k]|] eqn:E; [|reflexivity]. apply reader_reading in E. destruct (N _ _ E).
  - intros E t k R. apply reader_reading in R. congruence.
Qed.
Lemma reading_kept p src n events log : Forall (fun e => ~ is_read e) events -> reading p src n log -> reading p src n (events ++ log).
Proof. induction 1; intros R; cbn; [exact R|]. apply reading_other; auto. Qed.
Lemma reading_alone p q src src2 n n2 log : reading p src n log -> reading q src2 n2 log -> p = q.
Proof.
  intros R. revert src2 n2. induction R as [older|n older R IH|n e older N R IH]; intros src2 n2 Q; inversion Q; subst; try reflexivity; try (destruct (N Logic.I)).
  - match goal with H : ~ is_read _ |- _ => destruct (H Logic.I) end.
  - match goal with H : ~ is_read _ |- _ => destruct (H Logic.I) end.
  - eauto.
Qed.
Lemma fetched_recorded p t r env s : recorded [EGot p t] (entering "read" env s) (fetched p t r env s).
Proof. apply (recorded_trans [] [EGot p t] _ (set_oracle r (entering "read" env s))); [apply recorded_oracle|apply (recorded_event (EGot p t))]. Qed.
Lemma fetched_wf p t r env s : wf_state s -> delivers t r s -> wf_state (fetched p t r env s).
Proof.
  intros W E. pose proof (text_run t r (entering "read" env s) E) as R. pose proof (wf_runs _ _ _ _ _ (wf_entering "read" env s W) R) as W1.
  assert (R2 : runs denote (do_op (OEvent (EGot p t))) (set_oracle r (entering "read" env s)) (Done tt) (fetched p t r env s)) by (apply runs_op; reflexivity). exact (wf_runs _ _ _ _ _ W1 R2).
Qed.
Lemma place_log x : forall s, s_log (snd (place x s)) = s_log s.
Proof.
  induction x as [| |a IHa d IHd|z|f|t|t|b|l|]; intros s; try reflexivity. cbn [place]. specialize (IHa s). destruct (place a s) as [v s1]. specialize (IHd s1). destruct (place d s1) as [w s2]. cbn [snd s_log set_cells bump set_next] in *. congruence.
Qed.
Lemma fetch_run p t r env s : (forall t' k, ~ reading p t' k (s_log s)) -> delivers t r s ->
  runs denote (port_reader p) (entering "read" env s) (Done (t, 0%nat)) (fetched p t r env s).
Proof.
  intros N D. unfold port_reader. eapply runs_bind; [apply runs_op; reflexivity|]. change (reader_of p (s_log (entering "read" env s))) with (reader_of p (s_log s)).
  rewrite (proj1 (reading_none _ _) N). eapply runs_bind; [apply (text_run t r (entering "read" env s)), D|]. eapply runs_bind; [apply runs_op; reflexivity|]. apply runs_ret.
Qed.
Lemma reader_run p src n env s : next_up p src n s -> exists base, runs denote (port_reader p) (entering "read" env s) (Done (src, n)) base /\
  recorded [taken p src n] (entering "read" env s) base /\ reading p src (S n) (s_log base).
Proof.
  intros [(-> & N & r & D)|R].
  - exists (fetched p src r env s). split; [apply fetch_run; assumption|]. split; [apply fetched_recorded|]. constructor.
  - exists (set_log (EMore p :: s_log (entering "read" env s)) (entering "read" env s)). split; [|split].
    + unfold port_reader. eapply runs_bind; [apply runs_op; reflexivity|]. change (reader_of p (s_log (entering "read" env s))) with (reader_of p (s_log s)).
      rewrite (proj2 (reader_reading _ _ _ _) R). eapply runs_bind; [apply runs_op; reflexivity|]. apply runs_ret.
    + destruct n as [|n]; [exfalso; clear -R; remember 0%nat as k; induction R; [discriminate|discriminate|auto]|]. apply recorded_event.
    + constructor. apply (reading_kept p src n [EPrim "read" env]); [constructor; [intros []|constructor]|exact R].
Qed.
Lemma read_base p src n env s base x : runs denote (port_reader p) (entering "read" env s) (Done (src, n)) base -> s_uni base = s_uni s -> parse_after n (tokenize (s_uni s) src) = x ->
  forall o s', runs denote (match x with PSexp x => v <- alloc_sexp x ;; ok v | PEof => ok (VSym "__EOF__") | PErr m => fail m end) base o s' -> applies "read" [VPort p] env s o s'.
Proof.
  intros B U E o s' R. applies. unfold read_impl. cbn [arg nth]. eapply runs_bind; [exact B|]. eapply runs_bind; [apply runs_op; reflexivity|]. cbn [fst snd]. rewrite U, E. destruct x; exact R.
Qed.
Lemma base_uni p src n env s base : recorded [taken p src n] (entering "read" env s) base -> s_uni base = s_uni s.
Proof. intros [_ G]. exact (g_uni _ _ G). Qed.
Lemma read_sexp p src n env s x : wf_state s -> next_up p src n s -> parse_after n (tokenize (s_uni s) src) = PSexp x ->
  exists base, wf_state base /\ s_uni base = s_uni s /\ applies "read" [VPort p] env s (Done (Ok (fst (place x base)))) (snd (place x base)) /\ recorded [taken p src n] (entering "read" env s) (snd (place x base)) /\ reading p src (S n) (s_log (snd (place x base))).
Proof.
  intros W N P. destruct (reader_run p src n env s N) as (base & B & R & L). pose proof (wf_runs _ _ _ _ _ (wf_entering "read" env s W) B) as Wb. pose proof (base_uni _ _ _ _ _ _ R) as U.
  exists base. split; [exact Wb|]. split; [exact U|]. split; [|split].
  - apply (read_base p src n env s base _ B U P). eapply runs_bind; [apply runs_place|apply runs_ret].
  - apply (recorded_trans [taken p src n] [] _ base); [exact R|]. apply recorded_grows; [apply place_grows, Wb|apply place_log].
  - rewrite place_log. exact L.
Qed.
Lemma after_tokens kss xs : Forall2 parses kss xs -> forall n rest, parse_after n (List.concat kss ++ rest) =
  match nth_error xs n with Some x => PSexp x | None => parse_after (n - length xs) rest end.
Proof.
  induction 1 as [|ks x kss xs P _ IH]; intros n rest; [rewrite Nat.sub_0_r; destruct n; reflexivity|].
  cbn [List.concat]. rewrite <- app_assoc. destruct n as [|n]; cbn [parse_after nth_error length Nat.sub]; rewrite (parses_tokens _ _ _ P); [reflexivity|]. apply IH.
Qed.
Lemma after_nothing n : parse_after n [] = PEof.
Proof. induction n; [reflexivity|]. exact IHn. Qed.
Lemma nth_pair {A B} (P : A -> B -> Prop) xs ys : Forall2 P xs ys -> forall n y, nth_error ys n = Some y -> exists x, nth_error xs n = Some x /\ P x y.
Proof. induction 1 as [|x y xs ys H _ IH]; intros n z E; destruct n as [|n]; try discriminate; [injection E as <-; eauto|]. apply IH, E. Qed.
Lemma read_program u ds src : program u ds src -> forall p n d env s, wf_state s -> s_uni s = u -> next_up p src n s -> nth_error ds n = Some d ->
  exists v s', applies "read" [VPort p] env s (Done (Ok v)) s' /\ holds s' v d /\ recorded [taken p src n] (entering "read" env s) s' /\ reading p src (S n) (s_log s').
Proof.
  intros P p n d env s W U N D. destruct (program_tokens u ds src P) as (xs & kss & K & Pk & M). destruct (nth_pair made xs ds M n d D) as (x & X & Mx).
  assert (E : parse_after n (tokenize (s_uni s) src) = PSexp x) by (rewrite U, K, <- (app_nil_r (List.concat kss)), (after_tokens _ _ Pk), X; reflexivity).
  destruct (read_sexp p src n env s x W N E) as (base & Wb & _ & A & B & L). eexists _, _. split; [exact A|]. split; [apply Mx, Wb|]. split; assumption.
Qed.
Lemma read_nothing u ds src : program u ds src -> forall p n env s, s_uni s = u -> next_up p src n s -> (length ds <= n)%nat ->
  exists s', applies "read" [VPort p] env s (Done (Ok (VSym "__EOF__"))) s' /\ recorded [taken p src n] (entering "read" env s) s' /\ reading p src (S n) (s_log s').
Proof.
  intros P p n env s U N D. destruct (program_tokens u ds src P) as (xs & kss & K & Pk & M). apply Forall2_length in M. rewrite <- M in D.
  assert (E : parse_after n (tokenize (s_uni s) src) = PEof) by (rewrite U, K, <- (app_nil_r (List.concat kss)), (after_tokens _ _ Pk), (proj2 (nth_error_None _ _) D); apply after_nothing).
  destruct (reader_run p src n env s N) as (base & B & R & L). exists base. split; [|split; assumption]. apply (read_base p src n env s base _ B (base_uni _ _ _ _ _ _ R) E). apply runs_ret.
Qed.
Lemma read_broken u ds src : broken_off u ds src -> forall p env s, s_uni s = u -> next_up p src (length ds) s ->
  exists m s', applies "read" [VPort p] env s (Done (Err m)) s' /\ recorded [taken p src (length ds)] (entering "read" env s) s'.
Proof.
  intros P p env s U N. destruct (broken_tokens u ds src P) as (xs & kss & ts & m & K & Pk & M & _ & r' & Er). apply Forall2_length in M.
  assert (E : parse_after (length ds) (tokenize (s_uni s) src) = PErr m).
  { rewrite U, K, (after_tokens _ _ Pk), <- M. rewrite (proj2 (nth_error_None _ _) (le_n _)), Nat.sub_diag. cbn [parse_after]. rewrite Er. reflexivity. }
  destruct (reader_run p src (length ds) env s N) as (base & B & R & L). exists m, base. split; [|exact R]. apply (read_base p src _ env s base _ B (base_uni _ _ _ _ _ _ R) E). apply runs_ret.
Qed.
(** Leaving a port for another one *)
Lemma place_oracle x : forall s, s_oracle (snd (place x s)) = s_oracle s.
Proof.
  induction x as [| |a IHa d IHd|z|f|t|t|b|l|]; intros s; try reflexivity. cbn [place]. specialize (IHa s). destruct (place a s) as [v s1]. specialize (IHd s1). destruct (place d s1) as [w s2]. cbn [snd s_oracle set_cells bump set_next] in *. congruence.
Qed.
Lemma read_fetch u d ds src : program u (d :: ds) src -> forall p r env s, wf_state s -> s_uni s = u -> (forall t k, ~ reading p t k (s_log s)) -> delivers src r s ->
  exists v s', applies "read" [VPort p] env s (Done (Ok v)) s' /\ holds s' v d /\ wf_state s' /\ s_uni s' = u /\ s_oracle s' = r /\ reading p src 1 (s_log s').
Proof.
  intros P p r env s W U N D. destruct (program_tokens u (d :: ds) src P) as (xs & kss & K & Pk & M). inversion M as [|x ? xs' ? Mx M']; subst.
  pose proof (fetch_run p src r env s N D) as B. pose proof (fetched_wf p src r env s W D) as Wb. set (base := fetched p src r env s) in *.
  assert (E : parse_after 0 (tokenize (s_uni s) src) = PSexp x) by (rewrite K, <- (app_nil_r (List.concat kss)), (after_tokens _ _ Pk); reflexivity).
  exists (fst (place x base)), (snd (place x base)). split; [apply (read_base p src 0 env s base _ B eq_refl E); eapply runs_bind; [apply runs_place|apply runs_ret]|].
  split; [apply Mx, Wb|]. split; [apply place_wf, Wb|]. split; [exact (eq_sym (eq_sym (g_uni _ _ (place_grows x base Wb))))|]. split; [apply place_oracle|]. rewrite place_log. constructor.
Qed.
Lemma read_alternate u d ds src d2 ds2 src2 : program u (d :: ds) src -> program u (d2 :: ds2) src2 -> forall p q r env s, p <> q -> wf_state s -> s_uni s = u ->
  (forall x t k, ~ reading x t k (s_log s)) -> s_oracle s = [Z.of_nat (String.length src)] ++ bytes_of_string src ++ [Z.of_nat (String.length src2)] ++ bytes_of_string src2 ++ 0 :: r ->
  exists v s1 w s2 s3, applies "read" [VPort p] env s (Done (Ok v)) s1 /\ holds s1 v d /\ applies "read" [VPort q] env s1 (Done (Ok w)) s2 /\ holds s2 w d2 /\
    applies "read" [VPort p] env s2 (Done (Ok (VSym "__EOF__"))) s3.
Proof.
  intros P P2 p q r env s Npq W U N O. destruct (read_fetch u d ds src P p _ env s W U (N p) O) as (v & s1 & A1 & H1 & W1 & U1 & O1 & L1).
  assert (N1 : forall t k, ~ reading q t k (s_log s1)) by (intros t k Q; exact (Npq (reading_alone _ _ _ _ _ _ _ L1 Q))).
  destruct (read_fetch u d2 ds2 src2 P2 q _ env s1 W1 U1 N1 O1) as (w & s2 & A2 & H2 & W2 & U2 & O2 & L2).
  assert (N2 : forall t k, ~ reading p t k (s_log s2)) by (intros t k Q; exact (Npq (reading_alone _ _ _ _ _ _ _ Q L2))).
  exists v, s1, w, s2, (fetched p "" r env s2). split; [exact A1|]. split; [exact H1|]. split; [exact A2|]. split; [exact H2|].
  apply (read_base p "" 0 env s2 _ PEof (fetch_run p "" r env s2 N2 O2) eq_refl eq_refl). apply runs_ret.
Qed.
Lemma read_refused v env s : (forall p, v <> VPort p) -> exists m, applies "read" [v] env s (Done (Err m)) (entering "read" env s).
Proof. intros N. eexists. applies. unfold read_impl. cbn [arg nth]. destruct v; try apply runs_ret. destruct (N _ eq_refl). Qed.
Lemma write_read d v p env s : readable (s_uni s) d -> holds s v d -> ~ refusing s -> exists t s1,
  applies "write" [v; VPort p] env s (Done (Ok VNil)) s1 /\ s_log s1 = EWritten p t :: s_log (entering "write" env s) /\
  forall q env2 s2, wf_state s2 -> s_uni s2 = s_uni s -> next_up q t 0 s2 ->
  exists v' s', applies "read" [VPort q] env2 s2 (Done (Ok v')) s' /\ holds s' v' d.
Proof.
  intros R H N. assert (P : prints v (entering "write" env s) (render d)).
  { apply run_prints; [eapply readable_dots, R|]. apply (holds_grows d s); [apply grows_entering|exact H]. }
  destruct (write_port v (render d) p env s P) as (o & s1 & A & S). destruct S as [(_ & -> & ->)|(Y & _)]; [|destruct (N Y)].
  exists (render d). eexists. split; [exact A|]. split; [reflexivity|]. intros q env2 s2 W U D.
  assert (E : parse (s_uni s2) (render d) = PSexp (sexp_of d)) by (rewrite U; exact (reads_parse _ _ _ (reads_tree _ _ R))).
  destruct (read_sexp q (render d) 0 env2 s2 (sexp_of d) W D E) as (base & Wb & _ & A2 & _). eexists _, _. split; [exact A2|].
  destruct (build_tree _ d R base Wb) as (v' & s'' & A' & _ & _ & H' & _).
  destruct (runs_det _ _ _ _ _ _ _ _ A' (runs_place (sexp_of d) _)) as [Ev Es]. injection Ev as Ev. rewrite <- Ev, <- Es. exact H'.
Qed.
Lemma eof_decides v env s : exists b, SpecData.decides "eof-object?" [v] env s b /\ (b = true <-> v = VSym "__EOF__").
Proof.
  exists (is_symbol "__EOF__" v). split.
  - assert (A : applies "eof-object?" [v] env s (Done (Ok (VBool (is_symbol "__EOF__" v)))) (entering "eof-object?" env s)).
    { applies. unfold eof_object_impl. cbn [arg nth]. eapply runs_bind; [apply run_equal_sym|]. unfold lisp_bool. apply runs_ret. }
    intros o s'. split; [intros A'; destruct (applies_det _ _ _ _ _ _ _ _ A' A) as [-> ->]; auto|intros [-> ->]; exact A].
  - unfold is_symbol. destruct v; try (split; discriminate). split; [intros E; apply str_eqb_eq in E; congruence|intros [= ->]; apply str_eqb_refl].
Qed.

(** *** Directories, the clock, chance *)
Lemma texts_run ts : forall r s, wf_state s -> s_oracle s = flat_map (fun t => Z.of_nat (String.length t) :: bytes_of_string t) ts ++ r ->
  exists vs s', runs denote (oracle_texts (length ts)) s (Done vs) s' /\ grows s s' /\ s_log s' = s_log s /\ Forall2 (is_str s') vs ts.
Proof.
  induction ts as [|t ts IH]; intros r s W E; cbn [length oracle_texts flat_map] in *.
  - exists [], s. split; [apply runs_ret|]. split; [apply grows_refl|]. split; [reflexivity|constructor].
  - assert (D : delivers t (flat_map (fun t => Z.of_nat (String.length t) :: bytes_of_string t) ts ++ r) s) by (unfold delivers; rewrite E; cbn [app]; rewrite <- app_assoc; reflexivity).
    pose proof (text_run _ _ _ D) as R1. set (s1 := set_oracle _ s) in *. pose proof (wf_runs _ _ _ _ _ W R1) as W1.
    set (s2 := set_strs (<[s_next s1 := t]> (s_strs s1)) (bump s1)). pose proof (runs_new_str t s1) as R2. pose proof (wf_runs _ _ _ _ _ W1 R2) as W2.
    destruct (IH r s2 W2 eq_refl) as (vs & s3 & R3 & G3 & L3 & F3). exists (VStr (s_next s1) :: vs), s3. split; [|split; [|split]].
    + eapply runs_bind; [exact R1|]. eapply runs_bind; [exact R2|]. eapply runs_bind; [exact R3|apply runs_ret].
    + eapply grows_trans; [|exact G3]. eapply grows_trans; [|apply (grows_new_str s1 t W1)]. destruct (grows_refl s). split; cbn; assumption.
    + rewrite L3. reflexivity.
    + constructor; [|exact F3]. eapply is_str_grows; [exact G3|]. apply (new_str_is s1 t).
Qed.
Lemma list_directory_run args ts r env s : wf_state s -> delivers_all ts r s -> (length args = 1 \/ length args = 2)%nat -> exists v vs s',
  applies "list-directory" args env s (Done (Ok v)) s' /\ is_list s' v vs /\ Forall2 (is_str s') vs ts.
Proof.
  intros W D La. unfold delivers_all in D. set (s0 := entering "list-directory" env s). assert (W0 : wf_state s0) by (apply wf_entering, W).
  destruct (external_run "list-directory" args env s0) as (o & X & C). assert (N : ~ refusing s0) by (rewrite refusing_iff; change (s_oracle s0) with (s_oracle s); rewrite D; discriminate).
  destruct C as [[_ ->]|[Y _]]; [|destruct (N Y)]. set (s1 := asked "list-directory" s0) in *. pose proof (wf_runs _ _ _ _ _ W0 X) as W1.
  pose proof (choose_run s1) as R2. assert (O1 : s_oracle s1 = Z.of_nat (length ts) :: flat_map (fun t => Z.of_nat (String.length t) :: bytes_of_string t) ts ++ r) by (cbn; rewrite D; reflexivity).
  pose proof (wf_runs _ _ _ _ _ W1 R2) as W2. destruct (texts_run ts r _ W2) as (vs & s3 & R3 & G3 & L3 & F3); [cbn [s_oracle set_oracle]; rewrite O1; reflexivity|]. pose proof (wf_runs _ _ _ _ _ W2 R3) as W3.
  destruct (runs_array_to_list_exact vs s3 W3) as (l & s4 & R4 & G4 & L4). { clear -F3. induction F3 as [|? ? ? ? (q & -> & _)]; constructor; [discriminate|assumption]. }
  exists l, vs, s4. split; [|split; [exact L4|]].
  - assert (B : runs denote (list_directory_impl args env) s0 (Done (Ok l)) s4).
    { unfold list_directory_impl, bind_ok. eapply runs_bind; [exact X|]. cbv beta iota. eapply runs_bind; [exact R2|]. replace (hd 0 (s_oracle s1)) with (Z.of_nat (length ts)) by (rewrite O1; reflexivity). rewrite Nat2Z.id. eapply runs_bind; [exact R3|]. eapply runs_bind; [exact R4|apply runs_ret]. }
    destruct args as [|a1 [|a2 [|]]]; try (cbn in La; lia); applies; exact B.
  - clear -F3 G4. induction F3; constructor; [eapply is_str_grows; eassumption|assumption].
Qed.
Lemma list_directory_refused args env s : refusing s -> (length args = 1 \/ length args = 2)%nat -> exists m,
  applies "list-directory" args env s (Done (Err m)) (asked "list-directory" (entering "list-directory" env s)).
Proof.
  intros Y La. destruct (external_run "list-directory" args env (entering "list-directory" env s)) as (o & X & C). destruct C as [[N _]|[_ [m ->]]]; [destruct (N Y)|].
  exists m. assert (B : runs denote (list_directory_impl args env) (entering "list-directory" env s) (Done (Err m)) (asked "list-directory" (entering "list-directory" env s))) by (apply runs_bind_err; exact X).
  destruct args as [|a1 [|a2 [|]]]; try (cbn in La; lia); applies; exact B.
Qed.
Lemma random_byte_run env s : exists z, 0 <= z < 256 /\ applies "random-byte" [] env s (Done (Ok (VInt z))) (set_oracle (tl (s_oracle s)) (entering "random-byte" env s)).
Proof.
  exists (hd 0 (s_oracle s) mod 256). split; [apply Z.mod_pos_bound; lia|]. applies. unfold random_byte_impl. eapply runs_bind; [apply choose_run|]. apply runs_ret.
Qed.
Lemma random_byte_any z r env s : 0 <= z < 256 -> s_oracle s = z :: r -> applies "random-byte" [] env s (Done (Ok (VInt z))) (set_oracle r (entering "random-byte" env s)).
Proof.
  intros H E. applies. unfold random_byte_impl. eapply runs_bind; [apply choose_run|]. change (s_oracle (entering "random-byte" env s)) with (s_oracle s). rewrite E. cbn [hd tl]. rewrite Z.mod_small by exact H. apply runs_ret.
Qed.
Lemma millis_run env s : exists z, int64 z /\ applies "millis" [] env s (Done (Ok (VInt z))) (set_oracle (tl (s_oracle s)) (entering "millis" env s)).
Proof.
  exists (wrap64 (hd 0 (s_oracle s))). split; [apply (ProofConc.wrap64_spec (hd 0 (s_oracle s)))|]. applies. unfold millis_impl. eapply runs_bind; [apply choose_run|]. apply runs_ret.
Qed.
Lemma sleep_run z env s : applies "sleep" [VInt z] env s (Done (Ok VNil)) (entering "sleep" env s).
Proof. applies. unfold sleep_impl. cbn [arg nth]. apply runs_ret. Qed.
Lemma quit_run env s : applies "quit" [] env s (Done (Ok VNil)) (entering "quit" env s).
Proof. applies. unfold quit_impl. apply runs_ret. Qed.
Lemma panic_run v t env s : prints v (entering "panic!" env s) t -> applies "panic!" [v] env s (Panicked t) (entering "panic!" env s).
Proof. intros P. applies. unfold panic_impl. cbn [arg nth]. eapply runs_bind; [exact P|apply runs_panic]. Qed.
Lemma profile_run e more env s : (length more <= 1)%nat -> forall o s', applies "profile" (e :: more) env s o s' <->
  evals e env (set_log (EExt "profile" :: s_log (entering "profile" env s)) (entering "profile" env s)) o s'.
Proof.
  intros L o s'. destruct more as [|m [|]]; [| |cbn in L; lia]; body_of; unfold profile_impl; cbn [arg nth]; rewrite (op_iff (OEvent (EExt "profile")) _ _ _ _ _ _ eq_refl); reflexivity.
Qed.

(** *** Examples *)
Definition files (n : nat) (src : string) (s : state) : option (list event) :=
  match run denote n (parse_and_eval_all src (s_global s)) s with
  | Some (_, s') => Some (List.filter (fun e => match e with EPrim _ _ => false | _ => true end) (s_log s'))
  | None => None
  end.
