(** * C70: ports, files and the rest of the system.  Statements only; see SpecPort.v for the vocabulary.  What the outside
    world does (whether a file can be opened, what it contains, the time, chance) is arbitrary: the oracle of the state. *)
From Verif Require Import SpecPort ProofPort ProofOut ProofData ProofList ProofWf ProofText.
From Verif Require Import Data SpecRead SpecData SpecPort.
Local Open Scope string_scope.
Local Open Scope list_scope.
Local Open Scope Z_scope.

(** open-input-file and open-output-file open the named file, for reading, for replacing its contents or (a second argument
    that counts as true) for appending: once, and the result is a new port.  If the world refuses: an error, and no port. *)
Theorem C70_open : forall name v more mode t env s, wf_state s -> is_str s v t -> asks_for s name more mode -> exists o s', applies name (v :: more) env s o s' /\
  (~ refusing s /\ (exists l, o = Done (Ok (VPort l)) /\ s_strs s !! (l : loc) = None /\ s_strs s' !! l = Some t /\ recorded [EOpened l t mode; EExt name] (entering name env s) s') \/
   refusing s /\ (exists m, o = Done (Err m)) /\ recorded [EExt name] (entering name env s) s').
Proof. exact open_file. Qed.
Print Assumptions C70_open.
(** Two ports opened one after the other are different ports, even for the same file. *)
Theorem C70_open_new : forall name1 v1 more1 mode1 t1 env1 l1 s1 name2 v2 more2 mode2 t2 env2 l2 s2 events s s3,
  wf_state s -> is_str s v1 t1 -> asks_for s name1 more1 mode1 -> applies name1 (v1 :: more1) env1 s (Done (Ok (VPort l1))) s1 ->
  recorded events s1 s2 -> wf_state s2 -> is_str s2 v2 t2 -> asks_for s2 name2 more2 mode2 -> applies name2 (v2 :: more2) env2 s2 (Done (Ok (VPort l2))) s3 -> l1 <> l2.
Proof. exact open_twice. Qed.
Print Assumptions C70_open_new.
(** A name that is not a string: an error; the world is not asked. *)
Theorem C70_open_refused : forall name v more env s, (forall l, v <> VStr l) ->
  In (name, length more) [("open-input-file", 0%nat); ("open-output-file", 0%nat); ("open-output-file", 1%nat)] ->
  exists m, applies name (v :: more) env s (Done (Err m)) (entering name env s).
Proof. exact open_refused. Qed.
Print Assumptions C70_open_refused.
(** close-port closes the port; anything else is an error. *)
Theorem C70_close : forall p env s,
  applies "close-port" [VPort p] env s (Done (Ok VNil)) (set_log (EClosed p :: s_log (entering "close-port" env s)) (entering "close-port" env s)).
Proof. exact close_run. Qed.
Print Assumptions C70_close.
Theorem C70_close_refused : forall v env s, (forall p, v <> VPort p) -> exists m, applies "close-port" [v] env s (Done (Err m)) (entering "close-port" env s).
Proof. exact close_refused. Qed.
Print Assumptions C70_close_refused.
(** write-bytes writes exactly the bytes of a bytearray to a port. *)
Theorem C70_write_bytes : forall (l : loc) bs p env s, s_bytes s !! l = Some bs -> exists o s', applies "write-bytes" [VBytes l; VPort p] env s o s' /\
  sent "write-bytes" p (string_of_bytes bs) (entering "write-bytes" env s) o s'.
Proof. exact write_bytes_run. Qed.
Print Assumptions C70_write_bytes.
Theorem C70_write_bytes_refused : forall v w env s, (forall l, v <> VBytes l) \/ (forall p, w <> VPort p) ->
  exists m, applies "write-bytes" [v; w] env s (Done (Err m)) (entering "write-bytes" env s).
Proof. exact write_bytes_refused. Qed.
Print Assumptions C70_write_bytes_refused.
(** Every writer that succeeds ([sent]: write, write-string, newline, format, write-bytes) puts its text at the end of what the
    port has received; one that fails adds nothing; the other ports receive nothing. *)
Theorem C70_stream : forall who p q t s o s', sent who p t s o s' ->
  stream q (s_log s') = stream q (s_log s) +++ (if Pos.eqb q p then match o with Done (Ok _) => t | _ => "" end else "").
Proof. exact sent_stream. Qed.
Print Assumptions C70_stream.

(** Reads from one port give the data of the text that it delivers, one after the other; each read moves on by one. *)
Theorem C70_read : forall u ds src, program u ds src -> forall p n d env s, wf_state s -> s_uni s = u -> next_up p src n s -> nth_error ds n = Some d ->
  exists v s', applies "read" [VPort p] env s (Done (Ok v)) s' /\ holds s' v d /\ recorded [taken p src n] (entering "read" env s) s' /\ reading p src (S n) (s_log s').
Proof. exact read_program. Qed.
Print Assumptions C70_read.
(** Nothing left (only blanks and comments): the end-of-file object, again and again. *)
Theorem C70_read_end : forall u ds src, program u ds src -> forall p n env s, s_uni s = u -> next_up p src n s -> (length ds <= n)%nat ->
  exists s', applies "read" [VPort p] env s (Done (Ok (VSym "__EOF__"))) s' /\ recorded [taken p src n] (entering "read" env s) s' /\ reading p src (S n) (s_log s').
Proof. exact read_nothing. Qed.
Print Assumptions C70_read_end.
(** A text that breaks off inside a list: an error, after the data before it. *)
Theorem C70_read_broken : forall u ds src, broken_off u ds src -> forall p env s, s_uni s = u -> next_up p src (length ds) s ->
  exists m s', applies "read" [VPort p] env s (Done (Err m)) s' /\ recorded [taken p src (length ds)] (entering "read" env s) s'.
Proof. exact read_broken. Qed.
Print Assumptions C70_read_broken.
(** Whatever else happens in between, writing and opening included, does not disturb this: only reads do. *)
Theorem C70_read_kept : forall p src n events log, Forall (fun e => ~ is_read e) events -> reading p src n log -> reading p src n (events ++ log).
Proof. exact reading_kept. Qed.
Print Assumptions C70_read_kept.
(** Reading two ports in turn does not work: the first port delivered "d e ..." of which d was read; after one read of another
    port, the next read of the first port asks for new text, and if the file has no more (all of it was taken), gives
    end-of-file instead of e. *)
Theorem C70_alternate_refuted : forall u d ds src d2 ds2 src2, program u (d :: ds) src -> program u (d2 :: ds2) src2 -> forall p q r env s, p <> q -> wf_state s -> s_uni s = u ->
  (forall x t k, ~ reading x t k (s_log s)) -> s_oracle s = [Z.of_nat (String.length src)] ++ bytes_of_string src ++ [Z.of_nat (String.length src2)] ++ bytes_of_string src2 ++ 0 :: r ->
  exists v s1 w s2 s3, applies "read" [VPort p] env s (Done (Ok v)) s1 /\ holds s1 v d /\ applies "read" [VPort q] env s1 (Done (Ok w)) s2 /\ holds s2 w d2 /\
    applies "read" [VPort p] env s2 (Done (Ok (VSym "__EOF__"))) s3.
Proof. exact read_alternate. Qed.
Print Assumptions C70_alternate_refuted.
Theorem C70_read_refused : forall v env s, (forall p, v <> VPort p) -> exists m, applies "read" [v] env s (Done (Err m)) (entering "read" env s).
Proof. exact read_refused. Qed.
Print Assumptions C70_read_refused.
(** eof-object? holds for the end-of-file object and for nothing else. *)
Theorem C70_eof : forall v env s, exists b, SpecData.decides "eof-object?" [v] env s b /\ (b = true <-> v = VSym "__EOF__").
Proof. exact eof_decides. Qed.
Print Assumptions C70_eof.
(** What write sends to a port, read gives back: data of every depth, written in one state and read in any other whose port
    delivers that text. *)
Theorem C70_write_read : forall d v p env s, readable (s_uni s) d -> holds s v d -> ~ refusing s -> exists t s1,
  applies "write" [v; VPort p] env s (Done (Ok VNil)) s1 /\ s_log s1 = EWritten p t :: s_log (entering "write" env s) /\
  forall q env2 s2, wf_state s2 -> s_uni s2 = s_uni s -> next_up q t 0 s2 ->
  exists v' s', applies "read" [VPort q] env2 s2 (Done (Ok v')) s' /\ holds s' v' d.
Proof. exact write_read. Qed.
Print Assumptions C70_write_read.

(** list-directory gives the names that the world delivers, in that order, as strings; or its refusal as an error. *)
Theorem C70_list_directory : forall args ts r env s, wf_state s -> delivers_all ts r s -> (length args = 1 \/ length args = 2)%nat -> exists v vs s',
  applies "list-directory" args env s (Done (Ok v)) s' /\ is_list s' v vs /\ Forall2 (is_str s') vs ts.
Proof. exact list_directory_run. Qed.
Print Assumptions C70_list_directory.
Theorem C70_list_directory_refused : forall args env s, refusing s -> (length args = 1 \/ length args = 2)%nat -> exists m s',
  applies "list-directory" args env s (Done (Err m)) s'.
Proof. exact (fun args env s R L => let '(ex_intro _ m A) := list_directory_refused args env s R L in ex_intro _ m (ex_intro _ _ A)). Qed.
Print Assumptions C70_list_directory_refused.
(** random-byte is a number from 0 to 255, and each of them can come. *)
Theorem C70_random_byte : forall env s, exists z s', 0 <= z < 256 /\ applies "random-byte" [] env s (Done (Ok (VInt z))) s'.
Proof. exact (fun env s => let '(ex_intro _ z (conj B A)) := random_byte_run env s in ex_intro _ z (ex_intro _ _ (conj B A))). Qed.
Print Assumptions C70_random_byte.
Theorem C70_random_byte_any : forall z r env s, 0 <= z < 256 -> s_oracle s = z :: r ->
  applies "random-byte" [] env s (Done (Ok (VInt z))) (set_oracle r (entering "random-byte" env s)).
Proof. exact random_byte_any. Qed.
Print Assumptions C70_random_byte_any.
(** millis is an integer; sleep and quit answer nil and change nothing in the program's data. *)
Theorem C70_millis : forall env s, exists z, int64 z /\ applies "millis" [] env s (Done (Ok (VInt z))) (set_oracle (tl (s_oracle s)) (entering "millis" env s)).
Proof. exact millis_run. Qed.
Print Assumptions C70_millis.
Theorem C70_sleep : forall z env s, applies "sleep" [VInt z] env s (Done (Ok VNil)) (entering "sleep" env s).
Proof. exact sleep_run. Qed.
Print Assumptions C70_sleep.
Theorem C70_quit : forall env s, applies "quit" [] env s (Done (Ok VNil)) (entering "quit" env s).
Proof. exact quit_run. Qed.
Print Assumptions C70_quit.
(** panic! never returns: it ends the program (or is caught by a recovering caller) with the text of its argument. *)
Theorem C70_panic : forall v t env s, prints v (entering "panic!" env s) t -> applies "panic!" [v] env s (Panicked t) (entering "panic!" env s).
Proof. exact panic_run. Qed.
Print Assumptions C70_panic.
(** profile evaluates its expression once and answers with its value. *)
Theorem C70_profile : forall e more env s, (length more <= 1)%nat -> forall o s', applies "profile" (e :: more) env s o s' <->
  evals e env (set_log (EExt "profile" :: s_log (entering "profile" env s)) (entering "profile" env s)) o s'.
Proof. exact profile_run. Qed.
Print Assumptions C70_profile.

(** The hypotheses are met: files written, appended to and read by a program, with a world that delivers "(1) 7" and then
    refuses; and the hypotheses of the theorems above. *)
Example C70_cases :
  (exists p q, p <> q /\ files 60 "(define p (open-output-file ""f"" #t)) (define q (open-output-file ""g"")) (write '(1 ""a"") p) (write-bytes [65 66] q) (newline p) (close-port q)" start
    = Some [EClosed q; EWritten p (string_of_bytes [10]); EWritten q "AB"; EWritten p "(1 ""a"")"; EOpened q "g" Replacing; EExt "open-output-file"; EOpened p "f" Appending; EExt "open-output-file"] /\
    stream p [EClosed q; EWritten p (string_of_bytes [10]); EWritten q "AB"; EWritten p "(1 ""a"")"] = "(1 ""a"")" +++ string_of_bytes [10]) /\
  show 60 "(define p (open-input-file ""f"")) (list (read p) (read p) (eof-object? (read p)) (on-error (open-input-file ""g"") (lambda (m) 'refused)))" (initial ascii_uni [0; 5; 40; 49; 41; 32; 55; 1])
    = Some (Done (Ok "((1) 7 #t refused)")) /\
  show 60 "(define p (open-input-file ""f"")) (define q (open-input-file ""g"")) (list (read p) (read q) (eof-object? (read p)))" (initial ascii_uni [0; 0; 3; 49; 32; 50; 1; 55; 0])
    = Some (Done (Ok "(1 7 #t)")) /\
  show 60 "(list (list-directory ""d"") (random-byte))" (initial ascii_uni [0; 2; 1; 97; 2; 98; 99; 300]) = Some (Done (Ok "((""a"" ""bc"") 44)")) /\
  show 60 "(panic! '(1))" start = Some (Panicked "(1)") /\
  delivers "(1)" [7] (set_oracle [3; 40; 49; 41; 7] start) /\ delivers_all ["a"; "bc"] [300] (set_oracle [0; 2; 1; 97; 2; 98; 99; 300] start) /\
  refusing (set_oracle [1] start) /\ ~ refusing (set_oracle [0] start) /\
  asks_for start "open-output-file" [VBool true] Appending /\ (forall u, program u sample_trees sample_text) /\ (forall u, program u [] " ") /\
  next_up 5%positive "(1)" 0 (set_oracle [3; 40; 49; 41; 7] start) /\ next_up 5%positive "1 2" 1 (set_log [EOut "x"; EGot 5%positive "1 2"] start) /\ (forall x t k, ~ reading x t k []).
Proof.
  split; [|split; [vm_compute; reflexivity|split; [vm_compute; reflexivity|split; [vm_compute; reflexivity|split; [vm_compute; reflexivity|split; [|split; [|split; [|split; [|split; [|split; [|split; [|split; [|split]]]]]]]]]]]]].
  - exists 374%positive, 382%positive. split; [discriminate|]. split; [vm_compute; reflexivity|reflexivity].
  - reflexivity.
  - reflexivity.
  - exists 1, []. split; reflexivity.
  - intros (z & r & E & O). injection E as <- <-. discriminate.
  - right. right. exists (VBool true). split; [reflexivity|]. split; reflexivity.
  - exact sample_program.
  - intros u. exists " ", "". split; [constructor; apply blank_gap|]. split; [reflexivity|left; reflexivity].
  - left. split; [reflexivity|]. split; [apply reading_none; vm_compute; reflexivity|]. exists [7]. reflexivity.
  - right. apply reading_other; [intros []|]. constructor.
  - intros x t k R. inversion R.
Qed.
