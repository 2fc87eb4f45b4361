(** * C69: strings of Unicode characters.  Statements only; see SpecUnicode.v for the vocabulary. *)
From Verif Require Import SpecUnicode ProofUnicode ProofTrim ProofData ProofList ProofWf.
From Verif Require Import Data.
Local Open Scope string_scope.
Local Open Scope list_scope.
Local Open Scope Z_scope.

(** Splitting at the empty separator gives the characters of the text, in order, each as a string. *)
Theorem C69_split_chars : forall v w t rs env s, wf_state s -> is_str s v t -> text_of t rs -> is_str s w "" -> exists r s' vs,
  applies "string-split" [v; w] env s (Done (Ok r)) s' /\ grows s s' /\ is_list s' r vs /\
  Forall2 (fun x c => is_str s' x (string_of_runes [c])) vs rs.
Proof. exact run_split_runes. Qed.
(** Trimming with any set of characters works character by character: the answer is a fresh string. *)
Theorem C69_trim : forall (name : string) (front back : bool) v w t set rs ss env s,
  wf_state s -> is_str s v t -> is_str s w set -> text_of t rs -> text_of set ss ->
  In (name, (front, back)) [("string-trim", (true, true)); ("string-trim-left", (true, false)); ("string-trim-right", (false, true))] ->
  exists us l s', runes_trimmed front back ss rs us /\ applies name [v; w] env s (Done (Ok (VStr l))) s' /\ grows s s' /\
    s_strs s !! (l : loc) = None /\ is_str s' (VStr l) (string_of_runes us).
Proof. exact run_trim_runes. Qed.
(** Case conversion works character by character, into a fresh string.  capitalize needs an ASCII character in front. *)
Theorem C69_case : forall name v t rs env s, wf_state s -> is_str s v t -> text_of t rs ->
  In name ["string-upcase"; "string-downcase"; "string-capitalize"] ->
  (name = "string-capitalize" -> exists c rs', rs = c :: rs' /\ c < 128) ->
  exists ds l s', runes_recased name (s_uni s) rs ds /\ applies name [v] env s (Done (Ok (VStr l))) s' /\ grows s s' /\
    s_strs s !! (l : loc) = None /\ is_str s' (VStr l) (string_of_runes ds).
Proof. exact run_case_runes. Qed.
(** The versions with a ! change the string itself, and nothing else. *)
Theorem C69_case_in_place : forall name (l : loc) t rs env s, s_strs s !! l = Some t -> text_of t rs ->
  In name ["string-upcase!"; "string-downcase!"; "string-capitalize!"] ->
  (name = "string-capitalize!" -> exists c rs', rs = c :: rs' /\ c < 128) ->
  exists ds, runes_recased name (s_uni s) rs ds /\
    applies name [VStr l] env s (Done (Ok (VStr l))) (with_text l (string_of_runes ds) (entering name env s)).
Proof. exact run_case_runes_bang. Qed.
(** A text is the encoding of only one sequence of characters, so the above leave no choice. *)
Theorem C69_one_text : forall t rs rs', text_of t rs -> text_of t rs' -> rs = rs'.
Proof. exact text_unique. Qed.
(** Capitalizing a text that starts with a character outside ASCII destroys that character (finding): the first byte is cut off
    the rest of the character, and what comes out starts with the replacement character U+FFFD. *)
Theorem C69_capitalize_refuted : forall v t c rs env s, wf_state s -> is_str s v t -> text_of t (c :: rs) -> 128 <= c ->
  u_upper (s_uni s) 65533 = 65533 ->
  exists l s' rest, applies "string-capitalize" [v] env s (Done (Ok (VStr l))) s' /\
    is_str s' (VStr l) (string_of_runes [65533] +++ rest).
Proof. exact run_capitalize_wide. Qed.
Print Assumptions C69_split_chars. Print Assumptions C69_trim. Print Assumptions C69_case. Print Assumptions C69_case_in_place.
Print Assumptions C69_one_text. Print Assumptions C69_capitalize_refuted.
Example C69_cases :
  show 60 "(list (string-split ""aéb"" """") (string-trim ""ééxé"" ""é"") (string-trim-left ""éa€x"" ""€éa"") (string-trim-right ""x€é"" ""é€""))" start
    = Some (Done (Ok "((""a"" ""é"" ""b"") ""x"" ""x"" ""x"")")) /\
  show 60 "(list (string-upcase ""aé1"") (string-downcase ""AÉ1"") (string-capitalize ""aÉ"") (equal? (string-capitalize ""éa"") ""Éa""))" (initial latin [])
    = Some (Done (Ok "(""AÉ1"" ""aé1"" ""Aé"" #f)")) /\
  (exists s v w l, wf_state s /\ is_str s v "éa€x" /\ is_str s w "€éa" /\ is_list s l [v; w]) /\
  text_of "éa€x" [233; 97; 8364; 120] /\ text_of "€éa" [8364; 233; 97] /\ runes_trimmed true false [8364; 233; 97] [233; 97; 8364; 120] [120] /\
  runes_recased "string-upcase" latin [97; 233; 49] [65; 201; 49] /\ u_upper latin 65533 = 65533.
Proof.
  split; [vm_compute; reflexivity|]. split; [vm_compute; reflexivity|]. split; [exact (strings_sample start "éa€x" "€éa" wf_start)|].
  assert (Sc : forall rs, forallb (fun c => (0 <=? c) && (c <? 55296)) rs = true -> List.Forall scalar rs).
  { intros rs H. apply List.Forall_forall. intros c I. rewrite List.forallb_forall in H. specialize (H c I). left. lia. }
  split; [split; [vm_compute; reflexivity|apply Sc; reflexivity]|]. split; [split; [vm_compute; reflexivity|apply Sc; reflexivity]|]. split.
  - exists [233; 97; 8364], []. repeat apply conj; try reflexivity; try discriminate.
    + intros c [<-|[<-|[<-|[]]]]; cbn; tauto.
    + intros c [].
    + intros _ c r [= <- _]. cbn. intuition discriminate.
  - split; [|reflexivity]. left. split; [left; reflexivity|]. repeat constructor; unfold raised; cbn; lia.
Qed.
