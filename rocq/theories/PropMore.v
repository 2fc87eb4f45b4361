(** * C62: flattening, access paths, looking up by value, building and listing frames.  Statements only; see SpecMore.v
    for the vocabulary. *)
From Verif Require Import SpecMore ProofMore ProofList ProofWf.
From Verif Require Import Data.
Local Open Scope string_scope.
Local Open Scope list_scope.
Local Open Scope Z_scope.

(** general-car-cdr with the number of a path follows the path, like the accessor with those letters, and changes nothing;
    every positive number is the number of a path. *)
Theorem C62_path : forall p n v env s, path_code p n ->
  applies "general-car-cdr" [v; VInt n] env s (Done (Ok (follow s p v))) (entering "general-car-cdr" env s).
Proof. exact path_run. Qed.
Theorem C62_path_total : forall n, 0 < n -> exists p, path_code p n.
Proof. exact path_total. Qed.
(** Zero, and what is not a number, is refused. *)
Theorem C62_path_zero : forall v env s,
  applies "general-car-cdr" [v; VInt 0] env s (Done (Err "general-car-cdr requires a non-zero path specifier")) (entering "general-car-cdr" env s).
Proof. exact path_zero. Qed.
Theorem C62_path_only_numbers : forall v w env s, (forall n, w <> VInt n) -> (forall f, w <> VFloat f) ->
  applies "general-car-cdr" [v; w] env s (Done (Err "general-car-cdr requires a non-zero path specifier")) (entering "general-car-cdr" env s).
Proof. exact path_not_number. Qed.
(** A negative number is not refused: the call never ends (finding). *)
Theorem C62_path_negative_refuted : forall v n env s o s', n < 0 -> ~ applies "general-car-cdr" [v; VInt n] env s o s'.
Proof. exact path_negative. Qed.

(** flatten: a new list of what the elements contribute, in order; nothing else changes. *)
Theorem C62_flatten : forall v xs yss env s, wf_state s -> v <> VNil -> is_list s v xs -> Forall2 (contributes s) xs yss -> exists r s',
  applies "flatten" [v] env s (Done (Ok r)) s' /\ grows s s' /\ list_of s' r (List.concat yss).
Proof. exact flatten_applies. Qed.
(** A proper list that ends in the Go nil (all those list, append, map and the reader make) contributes its elements. *)
Theorem C62_flatten_proper : forall s v vs, nil_ended s v vs -> contributes s v vs.
Proof. exact contributes_proper. Qed.
(** flatten*: a new list of the atoms at any depth, in order; nothing else changes. *)
Theorem C62_flatten_deep : forall v xs yss env s, wf_state s -> v <> VNil -> is_list s v xs -> Forall2 (spreads s) xs yss -> exists r s',
  applies "flatten*" [v] env s (Done (Ok r)) s' /\ grows s s' /\ list_of s' r (List.concat yss).
Proof. exact flatten_star_run. Qed.
(** What is not a list is given back. *)
Theorem C62_flatten_atom : forall name v env s, In name ["flatten"; "flatten*"] -> v = VNil \/ ~ list_typed v ->
  applies name [v] env s (Done (Ok v)) (entering name env s).
Proof. exact flatten_atom. Qed.
(** Empty lists do not vanish, a list whose last tail is an empty list cell adds a (), and the end of a dotted list is lost
    (finding). *)
Theorem C62_flatten_refuted :
  show 80 "(list (flatten (list 1 '() (cons 2 '()))) (flatten '((1 . 2))) (flatten* '(1 (2 (3 () 4) 5))) (flatten* '((1 (2 . 3)))))" start
    = Some (Done (Ok "((1 () 2 ()) (1 ()) (1 2 3 () 4 5) (1 2))")).
Proof. vm_compute. reflexivity. Qed.

(** rassoc gives the first pair whose value is equal to the given one, or nil if there is none. *)
Theorem C62_rassoc : forall x d v es ds env s, rep s x d -> frameless d -> is_alist s v es ->
  Forall2 (fun e d' => rep s (e_val e) d' /\ frameless d') es ds ->
  (exists pre e post before after tp, es = pre ++ e :: post /\ ds = before ++ d :: after /\ length pre = length before /\ ~ In d before /\
     (tp = TCons \/ tp = TAlistCell) /\ applies "rassoc" [x; v] env s (Done (Ok (VCell tp (e_pair e)))) (entering "rassoc" env s)) \/
  (~ In d ds /\ applies "rassoc" [x; v] env s (Done (Ok VNil)) (entering "rassoc" env s)).
Proof. exact rassoc_run. Qed.

(** make-frame makes a new frame with exactly the given slots; of several values for a key the last counts. *)
Theorem C62_make_frame : forall args ps env s, wf_state s -> keyed args ps -> exists (f : loc) s',
  applies "make-frame" args env s (Done (Ok (VFrame f))) s' /\ grows s s' /\ s_frames s !! f = None /\
  forall k v, slot s' f k = Some v <-> given_last ps k v.
Proof. exact make_frame_run. Qed.
(** A key without its value, or something else where a key is expected: an error, and no frame is made. *)
Theorem C62_make_frame_odd : forall args env s, Nat.odd (length args) = true ->
  applies "make-frame" args env s (Done (Err "Frames must be initialized with an even number of arguments.")) (entering "make-frame" env s).
Proof. exact make_frame_odd. Qed.
Theorem C62_make_frame_keys : forall args ps k v post t env s, keyed args ps -> (forall n, k = VSym n -> ~ naked n) ->
  SpecRead.prints k (entering "make-frame" env s) t ->
  exists m, applies "make-frame" (args ++ k :: v :: post) env s (Done (Err m)) (entering "make-frame" env s).
Proof. exact make_frame_bad. Qed.
(** frame-keys and frame-values: the names (as symbols) and the values of the frame's own slots, each once, in some order. *)
Theorem C62_frame_keys : forall (f : loc) env s, wf_state s -> exists ps r s', applies "frame-keys" [VFrame f] env s (Done (Ok r)) s' /\ grows s s' /\
  Permutation ps (map fst (frame_at s f)) /\ is_list s' r (map VSym ps).
Proof. exact frame_keys_run. Qed.
Theorem C62_frame_values : forall (f : loc) env s, wf_state s -> exists vs r s', applies "frame-values" [VFrame f] env s (Done (Ok r)) s' /\ grows s s' /\
  Permutation vs (map snd (frame_at s f)) /\ list_of s' r vs.
Proof. exact frame_values_run. Qed.
Print Assumptions C62_path. Print Assumptions C62_path_total. Print Assumptions C62_path_zero. Print Assumptions C62_path_only_numbers.
Print Assumptions C62_path_negative_refuted. Print Assumptions C62_flatten. Print Assumptions C62_flatten_proper. Print Assumptions C62_flatten_deep.
Print Assumptions C62_flatten_atom. Print Assumptions C62_flatten_refuted. Print Assumptions C62_rassoc. Print Assumptions C62_make_frame.
Print Assumptions C62_make_frame_odd. Print Assumptions C62_make_frame_keys. Print Assumptions C62_frame_keys. Print Assumptions C62_frame_values.
Example C62_cases :
  show 80 "(list (general-car-cdr '((1 2) 3) 6) (cadr '((1 2) 3)) (flatten '((1 2) 3 (4 (5)))) (flatten* '((1 2) 3 (4 (5)))) (rassoc 2 '((a . 1) (b . 2) (c . 2)))
    (rassoc 3 '((a . 1))) (make-frame a: 1 b: 2 a: 3) (frame-keys {a: 1}) (frame-values {a: 1}) (on-error (make-frame a: 1 b: ) (lambda (m) 'odd)))" start
    = Some (Done (Ok "(3 3 (1 2 3 4 (5)) (1 2 3 4 5) (b . 2) () {a: 3 b: 2} (a:) (1) odd)")) /\
  path_code ["a"; "d"]%char 6 /\ keyed [VSym "a:"; VInt 1; VSym "b:"; VInt 2] [("a:", VInt 1); ("b:", VInt 2)] /\
  given_last [("a:", VInt 1); ("a:", VInt 3)] "a:" (VInt 3) /\
  exists s v w r, wf_state s /\ nil_ended s v [VInt 1; VInt 2] /\ nil_ended s w [VInt 3] /\ is_list s r [v; w; VInt 7].
Proof.
  split; [vm_compute; reflexivity|]. split; [exact (code_cdr ["a"%char] 3 (code_car [] 1 code_here))|]. split.
  { constructor; [exists "a"; reflexivity|]. constructor; [exists "b"; reflexivity|constructor]. }
  split; [exists [("a:", VInt 1)], []; split; [reflexivity|intros []]|]. exact (nested_exist start wf_start).
Qed.
