(** * C67: the functional core.  Statements only; see SpecCore.v for the vocabulary. *)
From Coq Require Import Permutation Sorted.
From Verif Require Import SpecCore ProofCore ProofCoreRun ProofList ProofWf.
From Verif Require Import Data SpecCore.
Local Open Scope string_scope.
Local Open Scope list_scope.
Local Open Scope Z_scope.

(** Whenever the rules of the language give an expression a value, the interpreter computes that value: in every state that
    has the built-ins and the global functions, in every environment that has the local names, wherever the expression
    lies in memory.  Nothing that was there before is changed. *)
Theorem C67_value : forall G ns e v c env s, means G ns e v -> proper e -> wf_state s -> ready G s -> sees s env ns -> holds s c (written e) ->
  comes_to G (evals c env s) s v.
Proof. exact expression_value. Qed.
(** The text of a program: definitions of global functions, which may call themselves and each other, and an expression. *)
Theorem C67_program : forall u G e v src, program u (map definition G ++ [written e]) src -> proper_globals G -> proper e -> means G [] e v ->
  forall s, wf_state s -> s_uni s = u -> has_builtins s -> (forall x, In x (map fst G) -> local_binding s (s_global s) x = None) ->
  (exists w s', run_text src (s_global s) s (Done (Ok w)) s') /\
  forall o s', run_text src (s_global s) s o s' -> exists w, o = Done (Ok w) /\ stands_for s' w v /\ ready G s'.
Proof. exact program_value. Qed.
(** The rules give an expression at most one value. *)
Theorem C67_one_meaning : forall G ns e v v', means G ns e v -> means G ns e v' -> v = v'.
Proof. exact means_unique. Qed.
(** The recursive factorial program gives n! modulo 2^64, for every n up to 2^24, however it is laid out. *)
Theorem C67_factorial : forall u n r src, small (Z.of_nat n) -> mod64 r (Z.of_nat (fact n)) ->
  program u (map definition factorial ++ [written (Call (Name "fact") [Num (Z.of_nat n)])]) src ->
  forall s, wf_state s -> s_uni s = u -> has_builtins s -> local_binding s (s_global s) "fact" = None ->
  (exists s', run_text src (s_global s) s (Done (Ok (VInt r))) s') /\ forall o s', run_text src (s_global s) s o s' -> o = Done (Ok (VInt r)).
Proof. exact factorial_runs. Qed.
(** A map function written in Lisp, given a function that uses a local variable of the place where it was made, multiplies
    every element of every list: a parameter of the map function with the same name does not get in the way. *)
Theorem C67_closures : forall u c zs ws src, int64 c -> Forall int64 zs -> Forall2 (fun z w => mod64 w (z * c)) zs ws ->
  program u (map definition mapping ++ [written (scaled c zs)]) src ->
  forall s, wf_state s -> s_uni s = u -> has_builtins s -> local_binding s (s_global s) "each" = None ->
  (exists w s', run_text src (s_global s) s (Done (Ok w)) s') /\
  forall o s', run_text src (s_global s) s o s' -> exists w, o = Done (Ok w) /\ is_list s' w (map VInt ws).
Proof. exact scaled_runs. Qed.
(** Quicksort written in Lisp, with cond, filter and append, sorts every list. *)
Theorem C67_quicksort : forall u zs src, Forall small zs -> program u (map definition quicksort ++ [written (sorting zs)]) src ->
  forall s, wf_state s -> s_uni s = u -> has_builtins s -> local_binding s (s_global s) "quick" = None ->
  (exists w s', run_text src (s_global s) s (Done (Ok w)) s') /\
  forall o s', run_text src (s_global s) s o s' -> exists w ws, o = Done (Ok w) /\ is_list s' w (map VInt ws) /\ Permutation zs ws /\ Sorted Z.le ws.
Proof. exact sorting_runs. Qed.
(** The sum of squares with map and fold-left, modulo 2^64. *)
Theorem C67_sum_of_squares : forall u zs r src, Z.of_nat (length zs) < 2 ^ 63 - 1 -> mod64 r (sum (map (fun z => z * z) zs)) -> program u [written (sum_of_squares zs)] src ->
  forall s, wf_state s -> s_uni s = u -> has_builtins s ->
  (exists s', run_text src (s_global s) s (Done (Ok (VInt r))) s') /\ forall o s', run_text src (s_global s) s o s' -> o = Done (Ok (VInt r)).
Proof. exact squares_runs. Qed.
(** A named let with an accumulator reverses every list. *)
Theorem C67_loop : forall u zs src, program u [written (turning zs)] src ->
  forall s, wf_state s -> s_uni s = u -> has_builtins s ->
  (exists w s', run_text src (s_global s) s (Done (Ok w)) s') /\
  forall o s', run_text src (s_global s) s o s' -> exists w, o = Done (Ok w) /\ is_list s' w (map VInt (rev zs)).
Proof. exact turning_runs. Qed.
(** Euclid's algorithm gives the greatest common divisor of all natural numbers of 64 bits. *)
Theorem C67_euclid : forall u a b src, 0 <= a -> 0 <= b -> int64 a -> int64 b ->
  program u (map definition euclid ++ [written (Call (Name "euclid") [Num a; Num b])]) src ->
  forall s, wf_state s -> s_uni s = u -> has_builtins s -> local_binding s (s_global s) "euclid" = None ->
  (exists s', run_text src (s_global s) s (Done (Ok (VInt (Z.gcd a b)))) s') /\ forall o s', run_text src (s_global s) s o s' -> o = Done (Ok (VInt (Z.gcd a b))).
Proof. exact euclid_runs. Qed.
(** Two functions that call each other decide whether a natural number is even or odd. *)
Theorem C67_mutual : forall u n src, int64 n -> 0 <= n -> forall f b, (f, b) = ("evens", Z.even n) \/ (f, b) = ("odds", Z.odd n) ->
  program u (map definition parity ++ [written (Call (Name f) [Num n])]) src ->
  forall s, wf_state s -> s_uni s = u -> has_builtins s -> local_binding s (s_global s) "evens" = None -> local_binding s (s_global s) "odds" = None ->
  (exists s', run_text src (s_global s) s (Done (Ok (VBool b))) s') /\ forall o s', run_text src (s_global s) s o s' -> o = Done (Ok (VBool b)).
Proof. exact parity_runs. Qed.
Print Assumptions C67_euclid. Print Assumptions C67_mutual.
Print Assumptions C67_value. Print Assumptions C67_program. Print Assumptions C67_one_meaning. Print Assumptions C67_factorial.
Print Assumptions C67_closures. Print Assumptions C67_quicksort. Print Assumptions C67_sum_of_squares. Print Assumptions C67_loop.
Example C67_cases :
  all_laid_out (map definition factorial ++ [written (Call (Name "fact") [Num 5])]) =
    " ( define ( fact n) ( if ( < n 1) 1 ( * n ( fact ( - n 1))))) ( fact 5)" /\
  show 200 (all_laid_out (map definition factorial ++ [written (Call (Name "fact") [Num 5])])) start = Some (Done (Ok "120")) /\
  show 300 (all_laid_out (map definition mapping ++ [written (scaled 3 [1; 2; 7])])) start = Some (Done (Ok "(3 6 21)")) /\
  (forall u n, small (Z.of_nat n) -> let ds := map definition factorial ++ [written (Call (Name "fact") [Num (Z.of_nat n)])] in program u ds (all_laid_out ds)) /\
  (forall u c zs, int64 c -> Forall int64 zs -> let ds := map definition mapping ++ [written (scaled c zs)] in program u ds (all_laid_out ds)) /\
  proper_globals factorial /\ proper_globals mapping /\ (forall c zs, proper (scaled c zs)) /\
  wf_state start /\ has_builtins start /\ ready [] start /\ sees start (s_global start) [] /\
  show 600 (all_laid_out (map definition quicksort ++ [written (sorting [3; -1; 2; 3; 0])])) start = Some (Done (Ok "(-1 0 2 3 3)")) /\
  show 300 (all_laid_out [written (sum_of_squares [1; -2; 3])]) start = Some (Done (Ok "14")) /\
  show 100 "(and 1 (or #f (begin 2 (string-length ""abc""))) (cond (#f 4) ('() 5)) 6)" start = Some (Done (Ok "()")) /\ means [] [] choices (Items []) /\ proper choices /\
  (forall u zs, Forall small zs -> let ds := map definition quicksort ++ [written (sorting zs)] in program u ds (all_laid_out ds)) /\
  (forall u zs, Forall int64 zs -> program u [written (sum_of_squares zs)] (all_laid_out [written (sum_of_squares zs)])) /\
  show 300 (all_laid_out [written (turning [1; -2; 3])]) start = Some (Done (Ok "(3 -2 1)")) /\
  (forall u zs, Forall int64 zs -> program u [written (turning zs)] (all_laid_out [written (turning zs)])) /\
  show 300 (all_laid_out (map definition euclid ++ [written (Call (Name "euclid") [Num 84; Num 36])])) start = Some (Done (Ok "12")) /\
  show 300 (all_laid_out (map definition parity ++ [written (Call (Name "evens") [Num 7])])) start = Some (Done (Ok "#f")) /\
  (forall u a b, int64 a -> int64 b -> let ds := map definition euclid ++ [written (Call (Name "euclid") [Num a; Num b])] in program u ds (all_laid_out ds)) /\
  (forall u f k, In f ["evens"; "odds"] -> int64 k -> let ds := map definition parity ++ [written (Call (Name f) [Num k])] in program u ds (all_laid_out ds)) /\
  (forall x, In x ["fact"; "each"; "quick"; "euclid"; "evens"; "odds"] -> local_binding start (s_global start) x = None).
Proof.
  split; [reflexivity|]. split; [vm_compute; reflexivity|]. split; [vm_compute; reflexivity|]. split; [exact factorial_program|]. split; [exact mapping_program|].
  split; [exact factorial_proper|]. split; [exact mapping_proper|]. split; [exact scaled_proper|]. split; [exact wf_start|]. split; [exact start_has_builtins|].
  split; [split; [exact start_has_builtins|discriminate]|]. split; [constructor|].
  split; [vm_compute; reflexivity|]. split; [vm_compute; reflexivity|]. split; [vm_compute; reflexivity|]. split; [exact (proj1 choices_means)|]. split; [exact (proj2 choices_means)|].
  split; [exact sorting_program|]. split; [exact squares_program|]. split; [vm_compute; reflexivity|]. split; [exact turning_program|].
  split; [vm_compute; reflexivity|]. split; [vm_compute; reflexivity|]. split; [exact euclid_program|]. split; [exact parity_program|exact start_unbound].
Qed.
