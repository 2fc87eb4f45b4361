(** * C58: trimming and letter case.  Statements only; see SpecTrim.v for the vocabulary. *)
From Verif Require Import SpecTrim ProofTrim ProofData ProofList ProofWf.
From Verif Require Import Data.
Local Open Scope string_scope.
Local Open Scope list_scope.
Local Open Scope Z_scope.

(** With a set of ASCII characters: the answer is a fresh string, the text without its leading and/or trailing characters of
    the set; nothing else changes. *)
Theorem C58_trim : forall (name : string) (front back : bool) v w t set env s,
  wf_state s -> is_str s v t -> is_str s w set -> ascii_only set ->
  In (name, (front, back)) [("string-trim", (true, true)); ("string-trim-left", (true, false)); ("string-trim-right", (false, true))] ->
  exists u l s', trimmed front back set t u /\ applies name [v; w] env s (Done (Ok (VStr l))) s' /\ grows s s' /\
    s_strs s !! (l : loc) = None /\ is_str s' (VStr l) u.
Proof. exact run_trim. Qed.
(** Without a set: the blanks. *)
Theorem C58_trim_blanks : forall (name : string) (front back : bool) v t env s, wf_state s -> is_str s v t ->
  In (name, (front, back)) [("string-trim", (true, true)); ("string-trim-left", (true, false)); ("string-trim-right", (false, true))] ->
  exists u l s', trimmed front back blanks t u /\ applies name [v] env s (Done (Ok (VStr l))) s' /\ grows s s' /\
    s_strs s !! (l : loc) = None /\ is_str s' (VStr l) u.
Proof. exact run_trim_default. Qed.
(** There is only one such text. *)
Theorem C58_trim_unique : forall front back set t u1 u2, trimmed front back set t u1 -> trimmed front back set t u2 -> u1 = u2.
Proof. exact trimmed_unique. Qed.
(** Case conversion of ASCII text: character by character, into a fresh string. *)
Theorem C58_case : forall name v t env s, wf_state s -> is_str s v t -> ascii_only t -> (t = "" -> name <> "string-capitalize") ->
  In name ["string-upcase"; "string-downcase"; "string-capitalize"] -> exists u l s', recases name t u /\
  applies name [v] env s (Done (Ok (VStr l))) s' /\ grows s s' /\ s_strs s !! (l : loc) = None /\ is_str s' (VStr l) u.
Proof. exact run_case. Qed.
(** The versions with a ! change the string itself, and nothing else. *)
Theorem C58_case_in_place : forall name (l : loc) t env s, s_strs s !! l = Some t -> ascii_only t -> (t = "" -> name <> "string-capitalize!") ->
  In name ["string-upcase!"; "string-downcase!"; "string-capitalize!"] -> exists u, recases name t u /\
  applies name [VStr l] env s (Done (Ok (VStr l))) (with_text l u (entering name env s)).
Proof. exact run_case_bang. Qed.
(** The empty string cannot be capitalized: the program crashes (finding). *)
Theorem C58_capitalize_empty_refuted : forall name v env s, is_str s v "" -> In name ["string-capitalize"; "string-capitalize!"] ->
  exists w, applies name [v] env s (Panicked w) (entering name env s).
Proof. exact run_capitalize_empty. Qed.
Print Assumptions C58_trim. Print Assumptions C58_trim_blanks. Print Assumptions C58_trim_unique. Print Assumptions C58_case.
Print Assumptions C58_case_in_place. Print Assumptions C58_capitalize_empty_refuted.
Example C58_cases :
  show 60 "(list (string-trim ""  a b "") (string-trim-left ""xyx.x"" ""yx"") (string-trim-right ""xyx.x"" ""yx"") (string-trim ""xyx"" ""xy"")
    (string-upcase ""aZ9z"") (string-downcase ""aZ9z"") (string-capitalize ""aZ9z"") (let ((s ""q1"")) (string-upcase! s) s))" start
    = Some (Done (Ok "(""a b"" "".x"" ""xyx."" """" ""AZ9Z"" ""az9z"" ""Az9z"" ""Q1"")")) /\
  (exists s v w l, wf_state s /\ is_str s v "xyx.x" /\ is_str s w "yx" /\ is_list s l [v; w]) /\
  trimmed true false "yx" "xyx.x" ".x" /\ trimmed true true "xy" "xyx" "" /\ ascii_only "yx" /\ recases "string-capitalize" "aZ" "Az".
Proof.
  split; [vm_compute; reflexivity|]. split; [exact (strings_sample start "xyx.x" "yx" wf_start)|].
  assert (M : forall set t, forallb (fun c => str_mem c set) (chars t) = true -> made_of set t).
  { intros set t H. apply List.Forall_forall. intros c Hc. apply mem_chars. rewrite List.forallb_forall in H. exact (H c Hc). }
  split; [|split; [|split]].
  - exists "xyx", "". repeat apply conj; try reflexivity; try discriminate; try (apply M; reflexivity).
    intros _ c r E. injection E as <- _. intros [H|[H|[]]]; discriminate.
  - exists "xyx", "". repeat apply conj; try reflexivity; try discriminate; try (apply M; reflexivity).
    intros _ c r E. destruct r; discriminate.
  - repeat constructor.
  - right; right. split; [left; reflexivity|]. exists "a"%char, "A"%char, ["Z"%char], ["z"%char]. repeat apply conj; try reflexivity.
    + left. split; [split; vm_compute; discriminate|reflexivity].
    + constructor; [|constructor]. left. split; [split; vm_compute; discriminate|reflexivity].
Qed.
