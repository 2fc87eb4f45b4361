(** C10 set operations, C11 equality, C12 copy. *)
From Verif Require Import ProofSet ProofList.
From stdpp Require Import list.
From Verif Require Import Data.
Local Open Scope string_scope.
Local Open Scope list_scope.
Local Open Scope Z_scope.

(** * C10.  Arguments are lists of trees without frames; [grows s s'] says everything that existed is unchanged. *)
Theorem C10_union : forall cols dss env s, wf_state s -> Forall2 (set_arg s) cols dss -> exists v ds s',
  applies "union" cols env s (Done (Ok v)) s' /\ grows s s' /\ set_arg s' v ds /\ firsts [] (List.concat dss) ds.
Proof. exact run_union. Qed.
(** The relation [firsts] means: nothing twice, and the same elements. *)
Theorem C10_firsts : forall (xs : list datum) seen ys, firsts seen xs ys ->
  List.NoDup ys /\ (forall x, In x ys -> In x xs /\ ~ In x seen) /\ (forall x, In x xs -> In x seen \/ In x ys).
Proof. exact firsts_spec. Qed.
Theorem C10_intersection : forall col ds cols dss env s, wf_state s -> set_arg s col ds -> Forall2 (set_arg s) cols dss -> exists v ds' s',
  applies "intersection" (col :: cols) env s (Done (Ok v)) s' /\ grows s s' /\ set_arg s' v ds' /\
  keeps (fun d => Forall (In d) dss) ds ds'.
Proof. exact run_intersection. Qed.
Theorem C10_complement : forall col ds cols dss env s, wf_state s -> set_arg s col ds -> Forall2 (set_arg s) cols dss -> exists v ds' s',
  applies "complement" (col :: cols) env s (Done (Ok v)) s' /\ grows s s' /\ set_arg s' v ds' /\
  keeps (fun d => Forall (fun other => ~ In d other) dss) ds ds'.
Proof. exact run_complement. Qed.
(** A value that is not equal to itself is not removed by intersection although the other list lacks it (finding). *)
Theorem C10_nan_refuted :
  show 80 "(let ((inf (* 100000000000000000000.0 100000000000000000000.0))) (length (intersection (list (- inf inf) 1) '(1))))" start = Some (Done (Ok "2")).
Proof. vm_compute. reflexivity. Qed.
Print Assumptions C10_union. Print Assumptions C10_firsts. Print Assumptions C10_intersection.
Print Assumptions C10_complement. Print Assumptions C10_nan_refuted.
Example C10_cases :
  show 80 "(list (union '(1 2 1) '(2 (3) 4) '((3))) (intersection '(1 2 (3) 2) '(2 (3)) '((3) 2 5)) (complement '(1 2 3 2 4) '(2) '(4)))" start
    = Some (Done (Ok "((1 2 (3) 4) (2 (3) 2) (1 3))")) /\
  (exists v w s, wf_state s /\ set_arg s v [DInt 1; DInt 2; DInt 1] /\ set_arg s w [DInt 2; DSym "a"]).
Proof.
  split; [vm_compute; reflexivity|].
  destruct (two_lists_exist [VInt 1; VInt 2; VInt 1] [VInt 2; VSym "a"]) as (v & w & s & _ & W & L1 & L2).
  - repeat constructor; discriminate.
  - repeat constructor; discriminate.
  - exists v, w, s. split; [exact W|]. split; eexists; (split; [eassumption|]); repeat constructor; discriminate.
Qed.

(** * C11 *)
Theorem C11_equal : forall name v1 v2 d1 d2 env s, In name ["=="; "eqv?"; "eq?"; "equal?"] ->
  frameless d1 -> frameless d2 -> rep s v1 d1 -> rep s v2 d2 -> exists b,
  applies name [v1; v2] env s (Done (Ok (VBool b))) (entering name env s) /\ (b = true <-> d1 = d2).
Proof. exact run_equal_prim. Qed.
Theorem C11_not_equal : forall name v1 v2 d1 d2 env s, In name ["!="; "neq?"] ->
  frameless d1 -> frameless d2 -> rep s v1 d1 -> rep s v2 d2 -> exists b,
  applies name [v1; v2] env s (Done (Ok (VBool b))) (entering name env s) /\ (b = true <-> d1 <> d2).
Proof. exact run_not_equal_prim. Qed.
(** Outside this fragment: the tail of an improper list is ignored; an association list is compared in one
    direction only (findings). *)
Theorem C11_improper_refuted :
  show 60 "(list (eq? (cons 1 2) (cons 1 3)) (eq? (list 1 '()) (cons 1 5)))" start = Some (Done (Ok "(#t #t)")).
Proof. vm_compute. reflexivity. Qed.
Theorem C11_symmetric_refuted :
  show 90 "(let ((a (alist '((x . 1)))) (b (cons (cons 'x 1) '()))) (list (eq? a b) (eq? b a)))" start = Some (Done (Ok "(#t #f)")).
Proof. vm_compute. reflexivity. Qed.
Print Assumptions C11_equal. Print Assumptions C11_not_equal. Print Assumptions C11_improper_refuted. Print Assumptions C11_symmetric_refuted.
Example C11_cases :
  show 80 "(list (eq? '(1 (a ""s"") [1 2]) (list 1 (list 'a ""s"") [1 2])) (eq? '(1 2) '(1 2 3)) (neq? '(1) '(2)) (== nil '()) (equal? ""a"" 'a))" start
    = Some (Done (Ok "(#t #f #t #t #f)")) /\
  (exists v w s, wf_state s /\ rep s v (DList [DInt 1; DInt 2]) /\ rep s w (DList [DSym "a"]) /\ frameless (DList [DInt 1; DInt 2])).
Proof.
  split; [vm_compute; reflexivity|].
  destruct (two_lists_exist [VInt 1; VInt 2] [VSym "a"]) as (v & w & s & _ & W & L1 & L2).
  - repeat constructor; discriminate.
  - repeat constructor; discriminate.
  - exists v, w, s. split; [exact W|]. split; [|split]; [econstructor; [exact L1|repeat constructor]|econstructor; [exact L2|repeat constructor]|repeat constructor].
Qed.

(** * C12.  Trees of any kind, frames included. *)
(** The copy represents the same tree, and the only list cells, bytearrays and frames it shares with the
    original are empty list cells. *)
Theorem C12_copy : forall v d env s, wf_state s -> rep s v d -> exists v' s',
  applies "copy" [v] env s (Done (Ok v')) s' /\ grows s s' /\ rep s' v' d /\
  (forall k, part s' v k -> part s' v' k -> s_cells s' !! k = Some (VNil, VNil)) /\
  (** whatever happens to the original's cells, bytearrays and frames, the copy stays the same tree *)
  (forall s2, s_strs s2 = s_strs s' -> (forall k, ~ part s' v k \/ s_cells s' !! k = Some (VNil, VNil) -> same_at s' s2 k) -> rep s2 v' d) /\
  (** and the other way round *)
  (forall s2, s_strs s2 = s_strs s' -> (forall k, ~ part s' v' k \/ s_cells s' !! k = Some (VNil, VNil) -> same_at s' s2 k) -> rep s2 v d).
Proof. exact run_copy. Qed.
(** Strings are shared, and so is the cell of an empty list (findings). *)
Theorem C12_strings_refuted :
  show 80 "(let ((a (list ""ab""))) (let ((b (copy a))) (string-upcase! (car b)) a))" start = Some (Done (Ok "(""AB"")")).
Proof. vm_compute. reflexivity. Qed.
Theorem C12_empty_refuted :
  show 80 "(let ((a (list '()))) (let ((b (copy a))) (set-car! (car b) 1) (list a b)))" start = Some (Done (Ok "(((1)) ((1)))")).
Proof. vm_compute. reflexivity. Qed.
(** The copy of an association list has its pairs in the opposite order (finding). *)
Theorem C12_alist_refuted :
  show 80 "(copy (alist '((a . 1) (b . 2))))" start = Some (Done (Ok "((b . 2) (a . 1))")).
Proof. vm_compute. reflexivity. Qed.
Print Assumptions C12_copy. Print Assumptions C12_strings_refuted. Print Assumptions C12_empty_refuted. Print Assumptions C12_alist_refuted.
Definition c12_state : state :=
  set_frames (<[s_next start := [("a:", VInt 1); ("b:", VInt 2)]]> (s_frames start)) (bump start).
Example C12_cases :
  show 90 "(let ((a (list 1 (list 2) [3] {x: (list 4)}))) (let ((b (copy a))) (set-car! (cadr a) 9) (replace-byte! (caddr a) 0 9) (set-slot! (cadddr a) x: 9) (list a b)))" start
    = Some (Done (Ok "((1 (9) [9] {x: 9}) (1 (2) [3] {x: (4)}))")) /\
  wf_state c12_state /\ rep c12_state (VFrame (s_next start)) (DFrame [("b:", DInt 2); ("a:", DInt 1)]).
Proof.
  split; [vm_compute; reflexivity|]. split.
  - exact (wf_frames_new start [("a:", VInt 1); ("b:", VInt 2)] wf_start).
  - econstructor; [vm_compute; reflexivity|repeat constructor; cbn; intuition discriminate|apply perm_swap|repeat constructor].
Qed.
