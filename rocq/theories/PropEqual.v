(** C65 equality of data with floats and frames. *)
From Coq Require Import SpecFloat.
From Verif Require Import SpecEqual ProofEqual ProofOut ProofData ProofList ProofWf.
From stdpp Require Import list.
From Verif Require Import Data.
Local Open Scope string_scope.
Local Open Scope list_scope.
Local Open Scope Z_scope.

(** * C65.  [stands s v n]: in state [s] the value [v] represents the tree [n] of numbers, texts, bytes, lists and frames. *)
Theorem C65_equal : forall name v1 v2 n1 n2 env s, In name ["=="; "eqv?"; "eq?"; "equal?"] ->
  clear n1 -> clear n2 -> stands s v1 n1 -> stands s v2 n2 -> exists b s',
  applies name [v1; v2] env s (Done (Ok (VBool b))) s' /\ only_choices (entering name env s) s' /\ (b = true <-> same n1 n2).
Proof. exact run_same. Qed.
Theorem C65_not_equal : forall name v1 v2 n1 n2 env s, In name ["!="; "neq?"] ->
  clear n1 -> clear n2 -> stands s v1 n1 -> stands s v2 n2 -> exists b s',
  applies name [v1; v2] env s (Done (Ok (VBool b))) s' /\ only_choices (entering name env s) s' /\ (b = true <-> ~ same n1 n2).
Proof. exact run_different. Qed.
(** The relation is an equivalence on the trees that values represent. *)
Theorem C65_reflexive : forall s v n, clear n -> stands s v n -> same n n.
Proof. exact same_refl. Qed.
Theorem C65_symmetric : forall a b, same a b -> same b a.
Proof. exact same_sym. Qed.
Theorem C65_transitive : forall a b c, same a b -> same b c -> same a c.
Proof. exact same_trans. Qed.
(** A value determines its tree up to sameness. *)
Theorem C65_one_tree : forall s n1, clear n1 -> forall v n2, stands s v n1 -> stands s v n2 -> same n1 n2.
Proof. exact stands_same. Qed.
(** A slot holding the empty list equals a missing slot, so that equality is not symmetric; NaN equals nothing, but a list holding it equals itself
    (findings). *)
Theorem C65_empty_slot_refuted :
  show 60 "(list (eq? {a: ()} {b: ()}) (eq? {a: () b: 1} {b: 1 c: 2}) (eq? {b: 1 c: 2} {a: () b: 1}))" start = Some (Done (Ok "(#t #t #f)")).
Proof. vm_compute. reflexivity. Qed.
Theorem C65_nan_refuted :
  show 80 "(let* ((inf (* 100000000000000000000.0 100000000000000000000.0)) (nan (- inf inf)) (l (list nan))) (list (eq? nan nan) (eq? l l) (eq? l (list nan))))" start
    = Some (Done (Ok "(#f #t #f)")).
Proof. vm_compute. reflexivity. Qed.
(** Comparing two frames that each hold themselves never ends; in Go the stack overflows and the process dies
    (finding). *)
Theorem C65_cyclic_refuted : forall name (f g : loc) k env s, In name ["=="; "eqv?"; "eq?"; "equal?"] -> f <> g ->
  s_frames s !! f = Some [(k, VFrame f)] -> s_frames s !! g = Some [(k, VFrame g)] -> forall o s', ~ applies name [VFrame f; VFrame g] env s o s'.
Proof. exact never_equal. Qed.
Print Assumptions C65_equal. Print Assumptions C65_not_equal. Print Assumptions C65_reflexive. Print Assumptions C65_symmetric.
Print Assumptions C65_transitive. Print Assumptions C65_one_tree. Print Assumptions C65_empty_slot_refuted. Print Assumptions C65_nan_refuted.
Print Assumptions C65_cyclic_refuted.
Example C65_cases :
  show 80 "(list (eq? {a: 1.5 b: '(2 {c: ""x""})} {b: '(2 {c: ""x""}) a: 1.5}) (eq? {a: 1} {a: 2}) (eq? {a: 1} {a: 1 b: 2}) (neq? {a: 1} {b: 1}) (== 0.0 (- 0.0 0.0)) (eq? 1 1.0))" start
    = Some (Done (Ok "(#t #f #f #t #t #f)")) /\
  (exists s, let n1 := NFrame [("a:", NInt 1); ("b:", NList [NFloat (S754_zero true)])] in let n2 := NFrame [("b:", NList [NFloat (S754_zero false)]); ("a:", NInt 1)] in
    clear n1 /\ clear n2 /\ stands s (VFrame 1%positive) n1 /\ stands s (VFrame 2%positive) n2 /\ same n1 n2) /\
  (exists s k, s_frames s !! 1%positive = Some [(k, VFrame 1%positive)] /\ s_frames s !! 2%positive = Some [(k, VFrame 2%positive)]).
Proof.
  split; [vm_compute; reflexivity|]. split.
  - exists (set_cells (<[3%positive := (VFloat (S754_zero true), VNil)]> (<[4%positive := (VFloat (S754_zero false), VNil)]> (s_cells start)))
      (set_frames (<[1%positive := [("a:", VInt 1); ("b:", VCell TCons 3%positive)]]> (<[2%positive := [("b:", VCell TCons 4%positive); ("a:", VInt 1)]]> (s_frames start))) start)).
    cbv zeta. split; [|split; [|split; [|split]]].
    + constructor. repeat (constructor; [split; [|discriminate]|]); repeat constructor; discriminate.
    + constructor. repeat (constructor; [split; [|discriminate]|]); repeat constructor; discriminate.
    + eapply st_frame; [cbn [s_frames set_frames set_cells]; apply lookup_insert|repeat constructor; cbn; intuition discriminate|].
      constructor; [split; [reflexivity|constructor]|]. constructor; [split; [reflexivity|]|constructor]. cbn [snd].
      eapply st_list; [|constructor; [constructor|constructor]]. eapply il_cons; [cbn [s_cells set_cells]; apply lookup_insert|left; discriminate|apply il_nil].
    + eapply st_frame; [cbn [s_frames set_frames set_cells]; rewrite lookup_insert_ne by discriminate; apply lookup_insert|repeat constructor; cbn; intuition discriminate|].
      constructor; [split; [reflexivity|]|constructor; [split; [reflexivity|constructor]|constructor]]. cbn [snd].
      eapply st_list; [|constructor; [constructor|constructor]]. eapply il_cons; [cbn [s_cells set_cells]; rewrite lookup_insert_ne by discriminate; apply lookup_insert|left; discriminate|apply il_nil].
    + constructor.
      * intros k. cbn. tauto.
      * intros k x y [[= <- <-]|[[= <- <-]|[]]] [[= <-]|[[= <-]|[]]]; constructor. constructor; [|constructor]. constructor. right. eauto.
  - exists (set_frames (<[1%positive := [("k:", VFrame 1%positive)]]> (<[2%positive := [("k:", VFrame 2%positive)]]> (s_frames start))) start), "k:".
    split; cbn [s_frames set_frames]; [apply lookup_insert|]. rewrite lookup_insert_ne by discriminate. apply lookup_insert.
Qed.
