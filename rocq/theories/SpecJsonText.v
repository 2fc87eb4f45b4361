(** What C64 means: texts that are JSON (RFC 8259) and texts that are not. *)
From Verif Require Export SpecJson SpecOut.
Local Open Scope string_scope.
Local Open Scope list_scope.
Local Open Scope Z_scope.

(** A number as it may be written; it is worth [D] times ten to the power [p], up to its sign. *)
Inductive exponent : string -> Z -> Prop :=
| ex_none : exponent "" 0
| ex_some m sign t n x : In m ["e"; "E"] -> written 10 t n -> In (sign, x) [("", n); ("+", n); ("-", - n)] -> exponent (m +++ sign +++ t) x.
Inductive fraction : string -> string -> Prop :=
| fr_none : fraction "" ""
| fr_some f n : written 10 f n -> fraction f ("." +++ f).
Inductive number : string -> Z -> Z -> Prop :=
| number_parts sign i n f dotf D e x :
    In sign [""; "-"] -> written 10 i n -> (forall r, i = String "0" r -> r = "") ->   (* no leading zero *)
    fraction f dotf -> written 10 (i +++ f) D -> exponent e x ->
    number (sign +++ i +++ dotf +++ e) D (x - str_len f).
(** Smaller than the least number that a float64 cannot carry, 2^1024 - 2^970. *)
Definition fits_float64 (D p : Z) : Prop := D * 10 ^ Z.max 0 p < (2 ^ 1024 - 2 ^ 970) * 10 ^ Z.max 0 (- p).
(** What may stand between the quotes of a string: anything but control characters, the double quote and the backslash, or
    an escape. *)
Inductive chars : string -> Prop :=
| chars_end : chars ""
| chars_plain c t : 32 <= byte_of c -> c <> """"%char -> c <> "\"%char -> chars t -> chars (String c t)
| chars_escape e c t : In (e, c) escapes -> chars t -> chars ("\" +++ String e t)
| chars_code h n t : written 16 h n -> str_len h = 4 -> chars t -> chars ("\u" +++ h +++ t).
(** JSON values, the elements of arrays and the members of objects. *)
Inductive value : string -> Prop :=
| value_word t : In t ["true"; "false"; "null"] -> value t
| value_number t D p : number t D p -> fits_float64 D p -> value t
| value_string body : chars body -> value ("""" +++ body +++ """")
| value_empty_array w : space w -> value ("[" +++ w +++ "]")
| value_array t : array_items t -> value ("[" +++ t +++ "]")
| value_empty_object w : space w -> value ("{" +++ w +++ "}")
| value_object t : members t -> value ("{" +++ t +++ "}")
with array_items : string -> Prop :=
| array_items_one a u b : space a -> value u -> space b -> array_items (a +++ u +++ b)
| array_items_more a u b r : space a -> value u -> space b -> array_items r -> array_items (a +++ u +++ b +++ "," +++ r)
with members : string -> Prop :=
| members_one a k b c u e : space a -> chars k -> space b -> space c -> value u -> space e ->
    members (a +++ """" +++ k +++ """" +++ b +++ ":" +++ c +++ u +++ e)
| members_more a k b c u e r : space a -> chars k -> space b -> space c -> value u -> space e -> members r ->
    members (a +++ """" +++ k +++ """" +++ b +++ ":" +++ c +++ u +++ e +++ "," +++ r).
Definition json_document (t : string) : Prop := exists a u b, space a /\ value u /\ space b /\ t = a +++ u +++ b.
Definition null_text (t : string) : Prop := exists a b, space a /\ space b /\ t = a +++ "null" +++ b.
(** What is printed about a text that is not JSON (encoding/json's own words follow; they are not modelled). *)
Definition complaint (t : string) : string := "Returning empty frame because of badly formed json: '" +++ t +++ "'".
