(** Vocabulary of C69: strings as sequences of Unicode characters.  Text in UTF-8 is [text_of] (SpecRead.v). *)
From Verif Require Export SpecRead SpecTrim.
Local Open Scope string_scope.
Local Open Scope list_scope.
Local Open Scope Z_scope.

(** [us] is [rs] without the longest run of characters of [set] at its front (if [front]) and at its back (if [back]). *)
Definition runes_trimmed (front back : bool) (set rs us : list rune) : Prop := exists a b,
  rs = a ++ us ++ b /\ incl a set /\ incl b set /\ (front = false -> a = []) /\ (back = false -> b = []) /\
  (front = true -> forall c r, us = c :: r -> ~ In c set) /\ (back = true -> forall c r, us = r ++ [c] -> ~ In c set).
(** A character in upper or lower case: ASCII letters are 32 codes apart, other ASCII characters have no case, for the
    rest the Unicode table [u] says. *)
Definition raised (u : uni_table) (c d : rune) : Prop :=
  (97 <= c <= 122 /\ d + 32 = c) \/ (c < 128 /\ ~ 97 <= c <= 122 /\ d = c) \/ (128 <= c /\ d = u_upper u c).
Definition lowered (u : uni_table) (c d : rune) : Prop :=
  (65 <= c <= 90 /\ d = c + 32) \/ (c < 128 /\ ~ 65 <= c <= 90 /\ d = c) \/ (128 <= c /\ d = u_lower u c).
(** How each function changes a text.  (capitalize: only texts that start with an ASCII character.) *)
Definition runes_recased (name : string) (u : uni_table) (rs ds : list rune) : Prop :=
  In name ["string-upcase"; "string-upcase!"] /\ Forall2 (raised u) rs ds \/
  In name ["string-downcase"; "string-downcase!"] /\ Forall2 (lowered u) rs ds \/
  In name ["string-capitalize"; "string-capitalize!"] /\
    exists c d rs' ds', rs = c :: rs' /\ ds = d :: ds' /\ raised u c d /\ Forall2 (lowered u) rs' ds'.
