(** Model of the argument-count specifications of built-ins (primitive_function.go:16-224). *)
From Verif Require Export Base.
Local Open Scope string_scope.
Local Open Scope list_scope.
Local Open Scope Z_scope.

(** primitive_function.go:16-31 *)
Inductive arg_restriction :=
| ArgsAny
| ArgsEq (n : Z)
| ArgsGte (n : Z)
| ArgsRange (lo hi : Z).

Definition is_digit (c : ascii) : bool := let b := byte_of c in (48 <=? b) && (b <=? 57).
Fixpoint all_digits (s : string) : bool :=
  match s with EmptyString => true | String c t => is_digit c && all_digits t end.
Fixpoint dec_value (s : string) (acc : Z) : Z :=
  match s with EmptyString => acc | String c t => dec_value t (acc * 10 + (byte_of c - 48)) end.

(** primitive_function.go:118 isJustNum *)
Definition is_just_num (s : string) : bool :=
  match s with EmptyString => false | _ => all_digits s end.
(** primitive_function.go:162 isGTE *)
Definition is_gte (s : string) : bool :=
  match s with
  | String ">" (String "=" (String c t)) => all_digits (String c t)
  | _ => false
  end.
(** primitive_function.go:134 isRange: "(", then digits with exactly one comma that is neither the
    first nor the last of them, then ")".  [body_range] reads the part after "(": the digits before
    the comma and the digits after it. *)
Fixpoint span_digits (s : string) : string * string :=
  match s with
  | EmptyString => (EmptyString, EmptyString)
  | String c t =>
      if is_digit c then let '(a, b) := span_digits t in (String c a, b) else (EmptyString, s)
  end.
Definition range_parts (s : string) : option (string * string) :=
  match s with
  | String "(" t =>
      match span_digits t with
      | (String a a', String "," r) =>
          match span_digits r with
          | (String b b', String ")" EmptyString) => Some (String a a', String b b')
          | _ => None
          end
      | _ => None
      end
  | _ => None
  end.

(** fmt.Sscanf("%d") into an int fails when the number does not fit. *)
Definition scan_int (s : string) : option Z :=
  let v := dec_value s 0 in if v <=? int64_max then Some v else None.

(** primitive_function.go:73-113: one term; None = contributes nothing. *)
Definition parse_term (t : string) : option arg_restriction :=
  match (if is_just_num t then scan_int t else None) with
  | Some n => Some (ArgsEq n)
  | None =>
      match (if is_gte t then scan_int (str_drop 2 t) else None) with
      | Some n => Some (ArgsGte n)
      | None =>
          match range_parts t with
          | Some (a, b) =>
              match scan_int a, scan_int b with
              | Some lo, Some hi => Some (ArgsRange lo hi)
              | _, _ => None
              end
          | None => None
          end
      end
  end.
(** primitive_function.go:70 parseNumArgs *)
Fixpoint parse_terms (ts : list string) (acc : list arg_restriction) : list arg_restriction :=
  match ts with
  | [] => acc
  | t :: r =>
      if str_eqb t "*" then [ArgsAny]
      else parse_terms r (match parse_term t with Some a => acc ++ [a] | None => acc end)
  end.
Definition parse_num_args (spec : string) : list arg_restriction :=
  parse_terms (split_go "|" spec 0 EmptyString) [].

(** primitive_function.go:203 checkArgumentCount *)
Fixpoint check_count (rs : list arg_restriction) (n : Z) : bool :=
  match rs with
  | [] => false
  | ArgsAny :: _ => true
  | ArgsEq k :: r => if n =? k then true else check_count r n
  | ArgsGte k :: r => if k <=? n then true else check_count r n
  | ArgsRange lo hi :: r => if (lo <=? n) && (n <=? hi) then true else check_count r n
  end.

(** primitive_function.go:181 argsString *)
Definition restriction_string (r : arg_restriction) : string :=
  match r with
  | ArgsAny => "*"
  | ArgsEq n => string_of_Z n
  | ArgsGte n => ">=" +++ string_of_Z n
  | ArgsRange lo hi => "(" +++ string_of_Z lo +++ "," +++ string_of_Z hi +++ ")"
  end.
Definition args_string (rs : list arg_restriction) : string :=
  if existsb (fun r => match r with ArgsAny => true | _ => false end) rs then "*"
  else str_join "|" (map restriction_string rs).
