(** Vocabulary of C58: trimming and letter case. *)
From Verif Require Export SpecData.
Local Open Scope string_scope.
Local Open Scope list_scope.

(** The bytes of a string, as characters. *)
Fixpoint chars (t : string) : list ascii := match t with EmptyString => [] | String c r => c :: chars r end.
(** Only characters of [set]. *)
Definition made_of (set t : string) : Prop := Forall (fun c => In c (chars set)) (chars t).
Definition ascii_only (t : string) : Prop := Forall (fun c => (N_of_ascii c < 128)%N) (chars t).
(** Space, tab, carriage return, line feed, vertical tab, form feed. *)
Definition blanks : string := string_of_bytes [32; 9; 13; 10; 11; 12]%Z.
(** [u] is [t] without the longest run of characters of [set] at its front (if [front]) and at its back (if [back]). *)
Definition trimmed (front back : bool) (set t u : string) : Prop := exists a b,
  t = a +++ u +++ b /\ made_of set a /\ made_of set b /\
  (front = false -> a = "") /\ (back = false -> b = "") /\
  (front = true -> forall c r, u = String c r -> ~ In c (chars set)) /\
  (back = true -> forall c r, u = r +++ String c "" -> ~ In c (chars set)).
(** One character in the other case: the letters a-z and A-Z are 32 codes apart, the rest has no case. *)
Definition code_between (lo hi : N) (c : ascii) : Prop := (lo <= N_of_ascii c <= hi)%N.
Definition upper_of (c d : ascii) : Prop :=
  (code_between 97 122 c /\ (N_of_ascii d + 32 = N_of_ascii c)%N) \/ (~ code_between 97 122 c /\ d = c).
Definition lower_of (c d : ascii) : Prop :=
  (code_between 65 90 c /\ (N_of_ascii d = N_of_ascii c + 32)%N) \/ (~ code_between 65 90 c /\ d = c).
(** First letter in upper case, the rest in lower case. *)
Definition capital_of (l k : list ascii) : Prop :=
  exists c d l' k', l = c :: l' /\ k = d :: k' /\ upper_of c d /\ Forall2 lower_of l' k'.
(** The state in which the text of string [l] has become [u], and nothing else has changed. *)
Definition with_text (l : loc) (u : string) (s : state) : state := set_strs (<[l := u]> (s_strs s)) s.
(** How each function changes an ASCII text. *)
Definition recases (name : string) (t u : string) : Prop :=
  In name ["string-upcase"; "string-upcase!"] /\ Forall2 upper_of (chars t) (chars u) \/
  In name ["string-downcase"; "string-downcase!"] /\ Forall2 lower_of (chars t) (chars u) \/
  In name ["string-capitalize"; "string-capitalize!"] /\ capital_of (chars t) (chars u).
