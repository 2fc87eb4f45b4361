(** C54, C55: when a goroutine can panic; bytearrays hold bytes.  Statements only; see SpecCrash.v for the vocabulary. *)
From Verif Require Import ProofCrash ProofList.
Local Open Scope string_scope.
Local Open Scope list_scope.
Local Open Scope Z_scope.

(** * C54 *)
(** [psteps_within (calm s)]: after every step, none of the built-ins of [may_crash] has been entered since [s], and parent slots hold
    frames or nothing. *)
Theorem C54_no_crash : forall ts s ts' s', wf_state s -> genuine s -> bytes_in_range s -> Forall genuine_thread ts ->
  psteps_within (calm s) (ts, s) (ts', s') -> Forall (fun t => ~ crashed t) ts'.
Proof. exact no_crash. Qed.
Print Assumptions C54_no_crash.
Definition C54_text : string :=
  "(define (f n) (if (eqv? n 0) 0 (+ 1 (f (- n 1))))) (define p (fork (lambda (p) (f 3)))) (define o {a*: {b: 5} c: [1 2]}) (join p) (car 5) ((on-error (error 'no) (lambda (m) 1)))".
Example C54_cases : wf_state start /\ genuine start /\ bytes_in_range start /\ Forall genuine_thread (texts [C54_text; "(map car 7)"] start) /\
  psteps_within (calm start) (texts [C54_text; "(map car 7)"] start, start) (sched (rounds 40 3 20) (texts [C54_text; "(map car 7)"] start, start)) /\
  length (fst (sched (rounds 40 3 20) (texts [C54_text; "(map car 7)"] start, start))) = 3%nat.
Proof.
  destruct (genuineb_spec start) as [G B]; [vm_compute; reflexivity|].
  split; [exact wf_start|]. split; [exact G|]. split; [exact B|]. split; [repeat constructor|].
  split; [apply sched_within; vm_compute; reflexivity|vm_compute; reflexivity].
Qed.
(** Each built-in of the list except union does bring a goroutine down. *)
Theorem C54_each : forall n, In n may_crash -> n <> "union" -> brings_down start n.
Proof. apply samples_down; vm_compute; reflexivity. Qed.
(** A parent slot that holds something else brings down built-ins that are not in the list. *)
Theorem C54_parent_refuted : exists ts' s', psteps (texts ["(has-slot? {a*: 3} 'b:)"] start, start) (ts', s') /\
  (forall n, In n may_crash -> ~ entered start s' n) /\ Exists crashed ts'.
Proof. apply (parent_crash start); vm_compute; reflexivity. Qed.
Print Assumptions C54_each. Print Assumptions C54_parent_refuted.

(** * C55 *)
Theorem C55_bytes : forall ts s ts' s', wf_state s -> genuine s -> bytes_in_range s -> Forall genuine_thread ts ->
  psteps (ts, s) (ts', s') -> bytes_in_range s'.
Proof. intros ts s ts' s' W G B Ht Hs. exact (proj2 (genuine_kept ts s ts' s' W G B Ht Hs)). Qed.
(** No built-in that is not in the table ever appears. *)
Theorem C55_genuine : forall ts s ts' s', wf_state s -> genuine s -> bytes_in_range s -> Forall genuine_thread ts ->
  psteps (ts, s) (ts', s') -> genuine s'.
Proof. intros ts s ts' s' W G B Ht Hs. exact (proj1 (genuine_kept ts s ts' s' W G B Ht Hs)). Qed.
Print Assumptions C55_bytes. Print Assumptions C55_genuine.
Example C55_cases : wf_state start /\ genuine start /\ bytes_in_range start /\
  show 60 "(define b (list->bytearray '(1 255))) (replace-byte! b 0 7) (append-bytes b 0 [3 4] b)" start = Some (Done (Ok "[7 255 0 3 4 7 255]")) /\
  show 60 "(append-bytes [1] 256)" start = Some (Done (Err "Byte arrays can only contain bytes, but found 256.")).
Proof.
  destruct (genuineb_spec start) as [G B]; [vm_compute; reflexivity|].
  split; [exact wf_start|]. split; [exact G|]. split; [exact B|]. split; vm_compute; reflexivity.
Qed.
