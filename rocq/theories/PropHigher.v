(** C07, C08, C09: partition, the functions that call a function on the elements of lists, sort.
    [call_on f xs env s] is the callback called on the values [xs]; nothing is assumed about what it does.  The
    hypothesis [undisturbed] only says that the callback does not itself change the cells of the lists being walked. *)
From Verif Require Import ProofSort ProofHigher ProofMath ProofFloat.
From Verif Require SpecList ProofList.
From Coq Require Import Permutation Sorted.
From stdpp Require Import list.
From Verif Require Import Data SpecHigher.
Local Open Scope string_scope.
Local Open Scope list_scope.
Local Open Scope Z_scope.

(** * C07 *)
Theorem C07_size : forall n v xs env s, wf_state s -> is_list s v xs -> 1 <= n -> exists r vs groups s',
  applies "partition" [VInt n; v] env s (Done (Ok r)) s' /\ grows s s' /\
  is_list s' r vs /\ Forall2 (list_of s') vs groups /\ SpecList.chunks_of (Z.to_nat n) xs groups.
Proof. exact ProofList.run_partition_size. Qed.
Theorem C07_bad_size : forall n v xs env s, is_list s v xs -> n < 1 -> exists m,
  applies "partition" [VInt n; v] env s (Done (Err m)) (entering "partition" env s).
Proof. exact ProofList.run_partition_bad. Qed.
Theorem C07_predicate : forall f l xs env s o s', let s0 := entering "partition" env s in
  function_or_primp f = true -> is_list s l xs -> undisturbed f env s0 [l] (map (fun x => [x]) xs) s0 ->
  applies "partition" [f; l] env s o s' <-> split_over f env xs [] [] s0 o s'.
Proof. exact split_iff. Qed.
Print Assumptions C07_size. Print Assumptions C07_bad_size. Print Assumptions C07_predicate.

Example C07_cases :
  show 200 "(list (partition 2 '(1 2 3 4 5)) (partition odd? '(1 2 3 4 5)) (on-error (partition 0 '(1 2)) (lambda (e) 'bad)))" start
    = Some (Done (Ok "(((1 2) (3 4) (5)) ((1 3 5) (2 4)) bad)")) /\
  exists l s, wf_state s /\ is_list s l [VInt 1; VInt 2; VInt 3].
Proof.
  split; [vm_compute; reflexivity|]. destruct (ProofList.lists_exist [VInt 1; VInt 2; VInt 3]) as (l & s & _ & W & L); [repeat constructor; discriminate|].
  exists l, s. split; assumption.
Qed.

(** * C08 *)
(** Tuples of elements at the same position ([rows]), as many as the shortest list has.  map with an empty list
    answers nil. *)
Theorem C08_map : forall f ls xss env s o s', let s0 := entering "map" env s in
  function_or_primp f = true -> ls <> [] -> Forall2 (is_list s) ls xss -> Z.of_nat (least_length xss) < int64_max ->
  undisturbed f env s0 ls (rows xss) s0 ->
  applies "map" (f :: ls) env s o s' <-> (if least_length xss then gives VNil s0 else map_over f env (rows xss) [] s0) o s'.
Proof. exact map_iff. Qed.
Theorem C08_for_each : forall f ls xss env s o s', let s0 := entering "for-each" env s in
  function_or_primp f = true -> ls <> [] -> Forall2 (is_list s) ls xss -> Z.of_nat (least_length xss) < int64_max ->
  undisturbed f env s0 ls (rows xss) s0 ->
  applies "for-each" (f :: ls) env s o s' <-> each_over f env (rows xss) s0 o s'.
Proof. exact for_each_iff. Qed.
Theorem C08_any : forall f ls xss env s o s', let s0 := entering "any" env s in
  function_or_primp f = true -> ls <> [] -> Forall2 (is_list s) ls xss -> Z.of_nat (least_length xss) < int64_max ->
  undisturbed f env s0 ls (rows xss) s0 ->
  applies "any" (f :: ls) env s o s' <-> any_over f env (rows xss) s0 o s'.
Proof. exact any_iff. Qed.
Theorem C08_every : forall f ls xss env s o s', let s0 := entering "every" env s in
  function_or_primp f = true -> ls <> [] -> Forall2 (is_list s) ls xss -> Z.of_nat (least_length xss) < int64_max ->
  undisturbed f env s0 ls (rows xss) s0 ->
  applies "every" (f :: ls) env s o s' <-> every_over f env (rows xss) s0 o s'.
Proof. exact every_iff. Qed.
(** filter keeps the elements whose test is #t, remove those whose test is #f. *)
Theorem C08_filter : forall f l xs env s o s', let s0 := entering "filter" env s in
  function_or_primp f = true -> is_list s l xs -> no_nils xs -> undisturbed f env s0 [l] (map (fun x => [x]) xs) s0 ->
  applies "filter" [f; l] env s o s' <-> select_over "filter" true f env xs [] s0 o s'.
Proof. intros f l xs env s o s'. exact (select_iff "filter" "filter" true f l xs env s o s' eq_refl). Qed.
Theorem C08_remove : forall f l xs env s o s', let s0 := entering "remove" env s in
  function_or_primp f = true -> is_list s l xs -> no_nils xs -> undisturbed f env s0 [l] (map (fun x => [x]) xs) s0 ->
  applies "remove" [f; l] env s o s' <-> select_over "remove" false f env xs [] s0 o s'.
Proof. intros f l xs env s o s'. exact (select_iff "remove" "remove" false f l xs env s o s' eq_refl). Qed.
Theorem C08_find : forall f l xs env s o s', let s0 := entering "find" env s in
  function_or_primp f = true -> is_list s l xs -> undisturbed f env s0 [l] (map (fun x => [x]) xs) s0 ->
  applies "find" [f; l] env s o s' <-> find_over "find" f env (map (fun x => (x, x)) xs) s0 o s'.
Proof. exact find_iff. Qed.
Theorem C08_find_tail : forall name f l xs env s o s', In name ["find-tail"; "memp"] -> let s0 := entering name env s in
  function_or_primp f = true -> is_list s l xs -> undisturbed f env s0 [l] (map (fun x => [x]) xs) s0 ->
  applies name [f; l] env s o s' <-> find_over "find-tail" f env (map (fun k => (nth k xs VNil, tail_at s l k)) (seq 0 (length xs))) s0 o s'.
Proof. exact find_tail_iff. Qed.
(** The list from the first element equal to the key on, or #f. *)
Theorem C08_member : forall name kv l xs k ds env s, In name ["memq"; "memv"; "member"] ->
  is_list s l xs -> Forall2 (rep s) xs ds -> Forall frameless ds -> rep s kv k -> frameless k ->
  exists r, applies name [kv; l] env s (Done (Ok r)) (entering name env s) /\
    ((~ In k ds /\ r = VBool false) \/
     (exists i, nth_error ds i = Some k /\ (forall j, (j < i)%nat -> nth_error ds j <> Some k) /\ r = tail_at s l i)).
Proof. exact member_run. Qed.
(** The folds read the list before the first call, so the callback may even change it. *)
Theorem C08_fold_left : forall f i l xs env s o s', function_or_primp f = true -> is_list s l xs ->
  applies "fold-left" [f; i; l] env s o s' <-> left_nested f env i xs (entering "fold-left" env s) o s'.
Proof. exact fold_left_iff. Qed.
Theorem C08_fold_right : forall f i l xs env s o s', function_or_primp f = true -> is_list s l xs ->
  applies "fold-right" [f; i; l] env s o s' <-> right_nested f env xs i (entering "fold-right" env s) o s'.
Proof. exact fold_right_iff. Qed.
Theorem C08_reduce_left : forall name f i l xs env s o s', In name ["reduce"; "reduce-left"] -> function_or_primp f = true -> is_list s l xs ->
  applies name [f; i; l] env s o s' <-> match xs with [] => gives i | x :: r => left_nested f env x r end (entering name env s) o s'.
Proof. exact reduce_left_iff. Qed.
Theorem C08_reduce_right : forall f i l xs env s o s', function_or_primp f = true -> is_list s l xs ->
  applies "reduce-right" [f; i; l] env s o s' <->
  match xs with [] => gives i | _ => right_nested f env (removelast xs) (List.last xs VNil) end (entering "reduce-right" env s) o s'.
Proof. exact reduce_right_iff. Qed.
(** What the words used above give. *)
Theorem C08_new_list : forall xs s, wf_state s ->
  list_of (snd (new_list xs s)) (fst (new_list xs s)) xs /\ grows s (snd (new_list xs s)).
Proof. exact new_list_list_of. Qed.
(** A callback that only creates objects disturbs no list: for instance a built-in called where quote means quote. *)
Theorem C08_undisturbed : forall p ts env s0 ls xss, In p all_prims -> declared p ts -> p_special p = false -> p_restricted p = false ->
  Forall2 (is_list s0) ls xss -> (forall t s v s1, applies (p_name p) t env s (Done (Ok v)) s1 -> grows s s1) ->
  forall todo s, Forall (fun t => no_nils t /\ t <> [] /\ accepts ts (length t)) todo -> wf_state s -> means_builtin env "quote" s -> grows s0 s ->
  undisturbed (VPrim (p_name p)) env s0 ls todo s.
Proof. exact undisturbed_builtin. Qed.
(** find and find-tail replace the error of the test by their own (finding); a test of filter that meets a Go nil
    element (a JSON null) is called without arguments (finding). *)
Theorem C08_error_refuted :
  show 80 "(find (lambda (x) (error 'mine)) '(1 2))" start
    = Some (Done (Err "find needs a predicate function as its first argument.")) /\
  show 80 "(map (lambda (x) (nil? x)) (json->lisp ""[2,null,1]""))" start = Some (Done (Ok "(#f #t #f)")) /\
  (exists m, show 80 "(filter (lambda (x) (nil? x)) (json->lisp ""[2,null,1]""))" start = Some (Done (Err m))).
Proof. split; [vm_compute; reflexivity|]. split; [vm_compute; reflexivity|]. eexists. vm_compute. reflexivity. Qed.
Print Assumptions C08_map. Print Assumptions C08_for_each. Print Assumptions C08_any. Print Assumptions C08_every.
Print Assumptions C08_filter. Print Assumptions C08_remove. Print Assumptions C08_find. Print Assumptions C08_find_tail.
Print Assumptions C08_member. Print Assumptions C08_fold_left. Print Assumptions C08_fold_right. Print Assumptions C08_reduce_left.
Print Assumptions C08_reduce_right. Print Assumptions C08_new_list. Print Assumptions C08_undisturbed. Print Assumptions C08_error_refuted.
Example C08_cases :
  show 200 "(define seen '()) (define (note x) (set! seen (cons x seen)) x) (list (map + '(1 2 3) '(10 20)) (begin (map (lambda (x) (note (* x x))) '(1 2 3)) seen) (filter odd? '(1 2 3 4 5)) (remove odd? '(1 2 3 4 5)) (find even? '(1 4 6)) (find-tail even? '(1 4 6)) (any even? '(1 3)) (every odd? '(1 3)) (fold-left list 0 '(1 2 3)) (fold-right list 0 '(1 2 3)) (reduce-left - 0 '(10 2 3)) (reduce-right list 0 '(1 2 3)) (member ""b"" '(""a"" ""b"" 3)) (partition 2 '(1 2 3 4 5)) (partition odd? '(1 2 3 4 5)))" start
    = Some (Done (Ok "((11 22) (9 4 1) (1 3 5) (2 4) 4 (4 6) #f #t (((0 1) 2) 3) (1 (2 (3 0))) 5 (1 (2 3)) (""b"" 3) ((1 2) (3 4) (5)) ((1 3 5) (2 4)))")) /\
  rows [[VInt 1; VInt 2; VInt 3]; [VInt 40; VInt 50]] = [[VInt 1; VInt 40]; [VInt 2; VInt 50]] /\
  exists l1 l2 s, grows start s /\ wf_state s /\ Forall2 (is_list s) [l1; l2] [[VInt 1; VInt 2; VInt 3]; [VInt 40; VInt 50]] /\
  undisturbed (VPrim "<") (s_global start) (entering "map" (s_global start) s) [l1; l2] (rows [[VInt 1; VInt 2; VInt 3]; [VInt 40; VInt 50]]) (entering "map" (s_global start) s).
Proof. split; [vm_compute; reflexivity|]. split; [reflexivity|]. exact concrete_run. Qed.

(** * C09 *)
(** Whatever the comparisons answer and do, the result holds the elements of the list, each as often as the list. *)
Theorem C09_permutation : forall l less xs env s v s' I, wf_state s -> is_list s l xs -> function_or_primp less = true ->
  stable I -> respects less env xs I -> I s ->
  applies "sort" [l; less] env s (Done (Ok v)) s' -> exists ys, Permutation ys xs /\ list_of s' v ys /\ I s'.
Proof. exact sort_any. Qed.
(** If they answer as a strict weak order, sort succeeds and the result is in order.  Everything [I] that the comparisons
    keep true stays true: taking for I that l is a list of xs, l is left alone. *)
Theorem C09_ordered : forall l less xs env s I lt, wf_state s -> is_list s l xs -> function_or_primp less = true -> stable I -> I s ->
  strict_weak lt xs -> decides less env xs I lt ->
  exists v ys s', applies "sort" [l; less] env s (Done (Ok v)) s' /\ Permutation ys xs /\ ordered lt ys /\ list_of s' v ys /\ I s'.
Proof. exact sort_ordered. Qed.
(** For instance integers up to 2^24 in absolute value with < (beyond, < does not tell all integers apart: C27). *)
Theorem C09_integers : forall l zs env s, wf_state s -> is_list s l (map VInt zs) -> Forall (fun z => Z.abs z <= 2 ^ 24) zs ->
  means_builtin env "quote" s -> exists v ys s',
  applies "sort" [l; VPrim "<"] env s (Done (Ok v)) s' /\ Permutation ys zs /\ Sorted Z.le ys /\
  is_list s' v (map VInt ys) /\ is_list s' l (map VInt zs).
Proof. exact sort_integers. Qed.
Print Assumptions C09_permutation. Print Assumptions C09_ordered. Print Assumptions C09_integers.
Example C09_cases :
  show 200 "(list (sort '(3 1 2 3 -5) <) (sort (list ""b"" ""a"") string<?) (sort '((2 x) (1 y) (2 z)) (lambda (a b) (> (car a) (car b)))))" start
    = Some (Done (Ok "((-5 1 2 3 3) (""a"" ""b"") ((2 x) (2 z) (1 y)))")) /\
  exists l s, wf_state s /\ is_list s l (map VInt [3; 1; 2; 3; -5]) /\ means_builtin (s_global start) "quote" s.
Proof.
  split; [vm_compute; reflexivity|]. destruct (ProofList.lists_exist (map VInt [3; 1; 2; 3; -5])) as (l & s & G & W & L); [repeat constructor; discriminate|].
  exists l, s. split; [exact W|]. split; [exact L|]. eapply means_grows; [exact G|]. exact (start_quote start (grows_refl _) eq_refl eq_refl).
Qed.
