(** * C05-C06: lists.  Statements only; see SpecCall.v and SpecList.v for the vocabulary. *)
From Verif Require Import ProofList.
Local Open Scope string_scope.
Local Open Scope list_scope.
Local Open Scope Z_scope.

(** ** C05 List constructors and selectors *)
(** cons makes a new cell with the two parts; nothing that existed changes. *)
Theorem C05_cons : forall a d env s, wf_state s -> exists l s',
  applies "cons" [a; d] env s (Done (Ok (VCell TCons l))) s' /\ grows s s' /\
  s_cells s !! l = None /\ s_cells s' !! l = Some (a, d).
Proof. exact run_cons. Qed.
(** car, cdr, caar ... cddddr follow their letters from the last to the first and change nothing. *)
Theorem C05_accessors : forall letters v env s, accessor_letters letters ->
  applies (String "c" (string_of_list_ascii letters +++ "r")) [v] env s (Done (Ok (follow s letters v)))
    (entering (String "c" (string_of_list_ascii letters +++ "r")) env s).
Proof. exact run_accessor. Qed.
Theorem C05_list : forall vs env s, wf_state s -> exists v s',
  applies "list" vs env s (Done (Ok v)) s' /\ grows s s' /\ list_of s' v vs.
Proof. exact run_list. Qed.
Theorem C05_length : forall v xs env s, is_list s v xs ->
  applies "length" [v] env s (Done (Ok (VInt (Z.of_nat (length xs))))) (entering "length" env s).
Proof. exact run_length. Qed.
(** append of any number of lists has all their elements, in order, and leaves them as they were. *)
Theorem C05_append : forall vs xss env s, wf_state s -> vs <> [] -> Forall2 (is_list s) vs xss -> exists v s',
  applies "append" vs env s (Done (Ok v)) s' /\ grows s s' /\ list_of s' v (List.concat xss).
Proof. exact run_append. Qed.
Theorem C05_append_none : forall env s, applies "append" [] env s (Done (Ok VNil)) (entering "append" env s).
Proof. exact run_append_none. Qed.
Theorem C05_append_associative : forall a b c xs ys zs env s,
  wf_state s -> is_list s a xs -> is_list s b ys -> is_list s c zs -> no_nils xs -> no_nils ys -> no_nils zs ->
  exists ab s1 abc s2 bc s3 abc' s4,
    applies "append" [a; b] env s (Done (Ok ab)) s1 /\ applies "append" [ab; c] env s1 (Done (Ok abc)) s2 /\
    applies "append" [b; c] env s2 (Done (Ok bc)) s3 /\ applies "append" [a; bc] env s3 (Done (Ok abc')) s4 /\
    is_list s4 abc ((xs ++ ys) ++ zs) /\ is_list s4 abc' (xs ++ (ys ++ zs)) /\
    exists us, is_list s4 abc us /\ is_list s4 abc' us.
Proof. exact append_laws. Qed.
Theorem C05_reverse : forall v xs env s, wf_state s -> is_list s v xs -> no_nils xs -> exists r s',
  applies "reverse" [v] env s (Done (Ok r)) s' /\ grows s s' /\ is_list s' r (rev xs).
Proof. exact run_reverse. Qed.
Theorem C05_reverse_twice : forall v xs env s, wf_state s -> is_list s v xs -> no_nils xs -> exists r s1 r' s2,
  applies "reverse" [v] env s (Done (Ok r)) s1 /\ applies "reverse" [r] env s1 (Done (Ok r')) s2 /\
  is_list s2 r' xs /\ is_list s2 v xs.
Proof. exact reverse_twice. Qed.
(** nth counts from 1, list-ref from 0, and first ... tenth are nth 1 ... nth 10; nil beyond either end. *)
Theorem C05_nth : forall v xs n env s, is_list s v xs ->
  applies "nth" [v; VInt n] env s (Done (Ok (element xs n))) (entering "nth" env s).
Proof. exact run_nth. Qed.
Theorem C05_list_ref : forall v xs n env s, is_list s v xs -> - 2 ^ 63 <= n < 2 ^ 63 - 1 ->
  applies "list-ref" [v; VInt n] env s (Done (Ok (element xs (n + 1)))) (entering "list-ref" env s).
Proof. exact run_list_ref. Qed.
Theorem C05_ordinals : forall name n v xs env s, In (name, n) ordinals -> is_list s v xs ->
  applies name [v] env s (Done (Ok (element xs n))) (entering name env s).
Proof. exact run_ordinal. Qed.
Print Assumptions C05_cons. Print Assumptions C05_accessors. Print Assumptions C05_list. Print Assumptions C05_length.
Print Assumptions C05_append. Print Assumptions C05_append_none. Print Assumptions C05_append_associative.
Print Assumptions C05_reverse. Print Assumptions C05_reverse_twice. Print Assumptions C05_nth.
Print Assumptions C05_list_ref. Print Assumptions C05_ordinals.
Example C05_cases :
  show 80 "(list (append '(1 2) '() '(3)) (reverse '(1 (2 3) 4)) (cadr '(1 2 3)) (cdar '((1 2) 3)) (nth '(a b c) 2) (list-ref '(a b c) 2) (third '(1 2 3)) (fourth '(1 2 3)) (length '(1 2 3)))" start
    = Some (Done (Ok "((1 2 3) (4 (2 3) 1) 2 (2) b c 3 () 3)")) /\
  accessor_letters ["a"; "d"]%char /\ element (map VInt [7; 8; 9]) 3 = VInt 9 /\ In ("third", 3) ordinals /\
  exists v w s, grows start s /\ wf_state s /\ is_list s v [VInt 1; VSym "x"; VBool true] /\ is_list s w [VInt 5].
Proof.
  split; [vm_compute; reflexivity|]. split; [split; [cbn; lia|apply List.Forall_cons; [auto|apply List.Forall_cons; [auto|constructor]]]|]. split; [reflexivity|].
  split; [cbn; auto|]. apply two_lists_exist; repeat constructor; discriminate.
Qed.

(** ** C06 Splitting lists and bytearrays *)
Theorem C06_take : forall n v xs env s, wf_state s -> is_list s v xs -> exists r s',
  applies "take" [VInt n; v] env s (Done (Ok r)) s' /\ grows s s' /\ list_of s' r (firstn (Z.to_nat n) xs).
Proof. exact run_take. Qed.
Theorem C06_drop : forall n v xs env s, is_list s v xs -> exists r,
  applies "drop" [VInt n; v] env s (Done (Ok r)) (entering "drop" env s) /\ is_list s r (skipn (Z.to_nat n) xs).
Proof. exact run_drop. Qed.
Theorem C06_take_drop : forall n v xs env s, wf_state s -> is_list s v xs -> no_nils xs -> exists a s1 b s2 r s3,
  applies "take" [VInt n; v] env s (Done (Ok a)) s1 /\ applies "drop" [VInt n; v] env s1 (Done (Ok b)) s2 /\
  applies "append" [a; b] env s2 (Done (Ok r)) s3 /\ is_list s3 r xs.
Proof. exact take_drop_append. Qed.
Theorem C06_list_head : forall v xs n env s, wf_state s -> is_list s v xs -> exists r s',
  applies "list-head" [v; VInt n] env s (Done (Ok r)) s' /\ grows s s' /\ list_of s' r (firstn (Z.to_nat n) xs).
Proof. exact run_list_head. Qed.
Theorem C06_list_tail : forall v xs n env s, is_list s v xs -> exists r,
  applies "list-tail" [v; VInt n] env s (Done (Ok r)) (entering "list-tail" env s) /\
  is_list s r (skipn (Z.to_nat n) xs).
Proof. exact run_list_tail. Qed.
(** sublist: from position [first] (counting from 1) up to but not including position [last]. *)
Theorem C06_sublist : forall v xs first last env s, wf_state s -> is_list s v xs -> 1 <= first < last -> exists r s',
  applies "sublist" [v; VInt first; VInt last] env s (Done (Ok r)) s' /\ grows s s' /\
  list_of s' r (firstn (Z.to_nat (last - first)) (skipn (Z.to_nat (first - 1)) xs)).
Proof. exact run_sublist. Qed.
Theorem C06_sublist_empty : forall v xs first last env s, is_list s v xs -> 1 <= last <= first ->
  applies "sublist" [v; VInt first; VInt last] env s (Done (Ok VNil)) (entering "sublist" env s).
Proof. exact run_sublist_empty. Qed.
Theorem C06_sublist_error : forall v xs first last env s, is_list s v xs -> first <= 0 \/ last <= 0 -> exists m,
  applies "sublist" [v; VInt first; VInt last] env s (Done (Err m)) (entering "sublist" env s).
Proof. exact run_sublist_bad. Qed.
(** last-pair returns the cell holding the last element. *)
Theorem C06_last_pair : forall v xs x env s, is_list s v (xs ++ [x]) -> exists c,
  applies "last-pair" [v] env s (Done (Ok c)) (entering "last-pair" env s) /\ is_list s c [x].
Proof. exact run_last_pair. Qed.
Theorem C06_last_pair_empty : forall v env s, empty_list s v -> exists m,
  applies "last-pair" [v] env s (Done (Err m)) (entering "last-pair" env s).
Proof. exact run_last_pair_empty. Qed.
(** Bytearrays: the result is a new bytearray. *)
Theorem C06_take_bytes : forall n l bs env s, wf_state s -> s_bytes s !! (l : loc) = Some bs -> 0 <= n -> exists l' s',
  applies "take" [VInt n; VBytes l] env s (Done (Ok (VBytes l'))) s' /\ grows s s' /\
  s_bytes s !! l' = None /\ s_bytes s' !! l' = Some (firstn (Z.to_nat n) bs).
Proof. exact run_take_bytes. Qed.
Theorem C06_drop_bytes : forall n l bs env s, wf_state s -> s_bytes s !! (l : loc) = Some bs -> 0 <= n -> exists l' s',
  applies "drop" [VInt n; VBytes l] env s (Done (Ok (VBytes l'))) s' /\ grows s s' /\
  s_bytes s !! l' = None /\ s_bytes s' !! l' = Some (skipn (Z.to_nat n) bs).
Proof. exact run_drop_bytes. Qed.
(** A negative count crashes on a bytearray (on a list it means 0) (finding). *)
Theorem C06_negative_bytes_refuted : forall name n l bs env s,
  In name ["take"; "drop"] -> s_bytes s !! (l : loc) = Some bs -> n < 0 -> exists w,
  applies name [VInt n; VBytes l] env s (Panicked w) (entering name env s).
Proof. exact run_take_bytes_negative. Qed.
Print Assumptions C06_take. Print Assumptions C06_drop. Print Assumptions C06_take_drop. Print Assumptions C06_list_head.
Print Assumptions C06_list_tail. Print Assumptions C06_sublist. Print Assumptions C06_sublist_empty.
Print Assumptions C06_sublist_error. Print Assumptions C06_last_pair. Print Assumptions C06_last_pair_empty.
Print Assumptions C06_take_bytes. Print Assumptions C06_drop_bytes. Print Assumptions C06_negative_bytes_refuted.
Definition c06_bytes : state := set_bytes (<[s_next start := [1; 2; 3]]> (s_bytes start)) (bump start).
Example C06_cases :
  show 80 "(list (take 2 '(1 2 3)) (drop 2 '(1 2 3)) (take 9 '(1 2)) (list-head '(1 2 3) 2) (list-tail '(1 2 3) 1) (sublist '(a b c d) 2 4) (last-pair '(1 2 3)) (take 2 [1 2 3]) (drop 2 [1 2 3]))" start
    = Some (Done (Ok "((1 2) (3) (1 2) (1 2) (2 3) (b c) (3) [1 2] [3])")) /\
  (exists v s, grows start s /\ wf_state s /\ is_list s v ([VInt 1; VInt 2] ++ [VInt 3])) /\
  wf_state c06_bytes /\ s_bytes c06_bytes !! s_next start = Some [1; 2; 3].
Proof.
  split; [vm_compute; reflexivity|]. split; [apply lists_exist; repeat constructor; discriminate|].
  split; [|vm_compute; reflexivity].
  exact (wf_bytes_new start [1; 2; 3] wf_start).
Qed.
