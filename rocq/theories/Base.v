(** Base definitions: machine integers, float32, byte strings, UTF-8.
    Nothing here is specific to golisp; each definition cites the Go feature it stands for. *)
From Coq Require Export ZArith List String Ascii Bool Lia.
From Coq Require Export Floats.SpecFloat.
Export ListNotations.
Open Scope Z_scope.
Notation length := List.length.

(** ** int64 *)

Definition two63 : Z := 9223372036854775808.
Definition two64 : Z := 18446744073709551616.
Definition int64_min : Z := - two63.
Definition int64_max : Z := two63 - 1.

(** Go int64 arithmetic wraps modulo 2^64 (language spec, "Integer overflow"). *)
Definition wrap64 (z : Z) : Z := (z + two63) mod two64 - two63.
(** uint64(x) of an int64. *)
Definition to_u64 (z : Z) : Z := z mod two64.
Definition in_int64 (z : Z) : bool := (int64_min <=? z) && (z <=? int64_max).

(** ** float32: IEEE binary32, as the standard library's SpecFloat (prec 24, emax 128).
    Simplification: there is a single NaN (payloads are not modelled). *)

Definition f32 : Type := spec_float.
Definition f32_of_Z (z : Z) : f32 := binary_normalize 24 128 z 0 false.
Definition f32_zero : f32 := S754_zero false.
Definition f32_one : f32 := f32_of_Z 1.
Definition f32_add : f32 -> f32 -> f32 := SFadd 24 128.
Definition f32_sub : f32 -> f32 -> f32 := SFsub 24 128.
Definition f32_mul : f32 -> f32 -> f32 := SFmul 24 128.
Definition f32_div : f32 -> f32 -> f32 := SFdiv 24 128.
Definition f32_eqb : f32 -> f32 -> bool := SFeqb.
Definition f32_ltb : f32 -> f32 -> bool := SFltb.
Definition f32_leb : f32 -> f32 -> bool := SFleb.
Definition f32_is_nan (f : f32) : bool := match f with S754_nan => true | _ => false end.
Definition f32_is_inf (f : f32) : bool := match f with S754_infinity _ => true | _ => false end.
Definition f32_abs (f : f32) : f32 := SFabs f.

(** Truncation of a finite float towards zero. *)
Definition f32_trunc (f : f32) : Z :=
  match f with
  | S754_finite s m e =>
      let a := if 0 <=? e then Z.shiftl (Zpos m) e else Z.shiftr (Zpos m) (- e) in
      if s then - a else a
  | _ => 0
  end.
(** int64(f): exact truncation when in range; otherwise Go's result is
    implementation-specific, and we take the amd64 one (0x8000000000000000). *)
Definition int64_of_f32 (f : f32) : Z :=
  match f with
  | S754_nan | S754_infinity _ => int64_min
  | _ => let t := f32_trunc f in if in_int64 t then t else int64_min
  end.
(** math.Floor / math.Ceil followed by float32 conversion: for a float32 argument the result is
    exact in float64 and in float32. *)
Definition f32_floor (f : f32) : f32 :=
  match f with
  | S754_finite s m e =>
      if 0 <=? e then f
      else let q := Z.shiftr (if s then - Zpos m else Zpos m) (- e) in
           binary_normalize 24 128 q 0 s
  | _ => f
  end.
Definition f32_neg (f : f32) : f32 := SFopp f.
Definition f32_ceil (f : f32) : f32 := f32_neg (f32_floor (f32_neg f)).

(** math.Float32bits / Float32frombits. *)
Definition f32_bits (f : f32) : Z :=
  match f with
  | S754_zero s => if s then 2147483648 else 0
  | S754_infinity s => (if s then 2147483648 else 0) + 2139095040
  | S754_nan => 2143289344
  | S754_finite s m e =>
      let sgn := if s then 2147483648 else 0 in
      if Zpos m <? 8388608 then sgn + Zpos m
      else sgn + (e + 150) * 8388608 + (Zpos m - 8388608)
  end.
Definition f32_of_bits (b : Z) : f32 :=
  let b := b mod 4294967296 in
  let s := 2147483648 <=? b in
  let b := b mod 2147483648 in
  let ex := b / 8388608 in
  let mn := b mod 8388608 in
  if ex =? 255 then (if mn =? 0 then S754_infinity s else S754_nan)
  else if ex =? 0 then
    match mn with Zpos p => S754_finite s p (-149) | _ => S754_zero s end
  else match mn + 8388608 with Zpos p => S754_finite s p (ex - 150) | _ => S754_zero s end.

(** ** Byte strings (Go strings are byte sequences) *)

Definition byte_of (c : ascii) : Z := Z.of_N (N_of_ascii c).
Definition ascii_of_byte (z : Z) : ascii := ascii_of_N (Z.to_N (z mod 256)).

Fixpoint str_len (s : string) : Z :=
  match s with EmptyString => 0 | String _ t => 1 + str_len t end.

Fixpoint str_app (a b : string) : string :=
  match a with EmptyString => b | String c t => String c (str_app t b) end.
Infix "+++" := str_app (at level 60, right associativity).

Fixpoint str_eqb (a b : string) : bool :=
  match a, b with
  | EmptyString, EmptyString => true
  | String c s, String d t => Ascii.eqb c d && str_eqb s t
  | _, _ => false
  end.

(** strings.HasPrefix, and the remainder (strings.TrimPrefix). *)
Fixpoint strip_prefix (p s : string) : option string :=
  match p, s with
  | EmptyString, _ => Some s
  | String c p', String d s' => if Ascii.eqb c d then strip_prefix p' s' else None
  | _, _ => None
  end.
Definition has_prefix (p s : string) : bool :=
  match strip_prefix p s with Some _ => true | None => false end.
Definition trim_prefix (p s : string) : string :=
  match strip_prefix p s with Some r => r | None => s end.

Fixpoint str_rev_onto (s acc : string) : string :=
  match s with EmptyString => acc | String c t => str_rev_onto t (String c acc) end.
Definition str_rev (s : string) : string := str_rev_onto s EmptyString.

(** strings.HasSuffix / strings.TrimSuffix. *)
Definition has_suffix (p s : string) : bool := has_prefix (str_rev p) (str_rev s).
Definition trim_suffix (p s : string) : string :=
  match strip_prefix (str_rev p) (str_rev s) with Some r => str_rev r | None => s end.

(** strings.Contains. *)
Fixpoint str_contains (s p : string) : bool :=
  has_prefix p s ||
  match s with EmptyString => false | String _ t => str_contains t p end.

(** Go's string comparison is bytewise lexicographic. *)
Fixpoint str_ltb (a b : string) : bool :=
  match a, b with
  | _, EmptyString => false
  | EmptyString, String _ _ => true
  | String c s, String d t =>
      if byte_of c <? byte_of d then true
      else if byte_of d <? byte_of c then false else str_ltb s t
  end.

(** s[i:j] for 0 <= i <= j <= len. *)
Fixpoint str_drop (n : nat) (s : string) : string :=
  match n, s with
  | O, _ => s
  | S n', String _ t => str_drop n' t
  | S _, EmptyString => EmptyString
  end.
Fixpoint str_take (n : nat) (s : string) : string :=
  match n, s with
  | S n', String c t => String c (str_take n' t)
  | _, _ => EmptyString
  end.
Definition str_slice (s : string) (i j : Z) : string :=
  str_take (Z.to_nat (j - i)) (str_drop (Z.to_nat i) s).

(** strings.Join. *)
Fixpoint str_join (sep : string) (l : list string) : string :=
  match l with
  | [] => EmptyString
  | [x] => x
  | x :: t => x +++ sep +++ str_join sep t
  end.

(** strings.Split with a non-empty separator: cut at each non-overlapping occurrence, leftmost first.
    [skip] counts bytes of the current occurrence still to be skipped. *)
Fixpoint split_go (sep : string) (s : string) (skip : nat) (cur : string) : list string :=
  match s with
  | EmptyString => [str_rev cur]
  | String c t =>
      match skip with
      | S k => split_go sep t k cur
      | O => if has_prefix sep s
             then str_rev cur :: split_go sep t (Z.to_nat (str_len sep) - 1) EmptyString
             else split_go sep t 0 (String c cur)
      end
  end.

Definition is_ascii_char (c : ascii) : bool := byte_of c <? 128.
Fixpoint is_ascii (s : string) : bool :=
  match s with EmptyString => true | String c t => is_ascii_char c && is_ascii t end.
Fixpoint str_map (f : ascii -> ascii) (s : string) : string :=
  match s with EmptyString => EmptyString | String c t => String (f c) (str_map f t) end.
Definition ascii_upper (c : ascii) : ascii :=
  let b := byte_of c in if (97 <=? b) && (b <=? 122) then ascii_of_byte (b - 32) else c.
Definition ascii_lower (c : ascii) : ascii :=
  let b := byte_of c in if (65 <=? b) && (b <=? 90) then ascii_of_byte (b + 32) else c.

Fixpoint str_mem (c : ascii) (s : string) : bool :=
  match s with EmptyString => false | String d t => Ascii.eqb c d || str_mem c t end.
Fixpoint trim_left (set s : string) : string :=
  match s with
  | EmptyString => EmptyString
  | String c t => if str_mem c set then trim_left set t else s
  end.
Definition trim_right (set s : string) : string := str_rev (trim_left set (str_rev s)).

Fixpoint str_repeat (s : string) (n : nat) : string :=
  match n with O => EmptyString | S k => s +++ str_repeat s k end.

(** ** Decimal and other bases *)

Definition digit_char (d : Z) : ascii :=
  if d <? 10 then ascii_of_byte (48 + d) else ascii_of_byte (87 + d).

(** Digits of a positive number, most significant first, written onto [acc]. *)
Fixpoint digits_pos (fuel : nat) (base n : Z) (acc : string) : string :=
  match fuel with
  | O => acc
  | S f => if n <? base then String (digit_char n) acc
           else digits_pos f base (n / base) (String (digit_char (n mod base)) acc)
  end.
(** fmt's %d / %b / %o / %x on an integer. The fuel is the number of bits, which always suffices. *)
Definition string_of_Z_base (base z : Z) : string :=
  if z <? 0 then String "-"%char (digits_pos (S (Z.to_nat (Z.log2 (- z)))) base (- z) EmptyString)
  else digits_pos (S (Z.to_nat (Z.log2 z))) base z EmptyString.
Definition string_of_Z : Z -> string := string_of_Z_base 10.

Definition digit_val (c : ascii) : option Z :=
  let b := byte_of c in
  if (48 <=? b) && (b <=? 57) then Some (b - 48)
  else if (97 <=? b) && (b <=? 102) then Some (b - 87)
  else if (65 <=? b) && (b <=? 70) then Some (b - 55)
  else None.
(** Longest prefix of digits of [base]: accumulated value and whether any digit was seen. *)
Fixpoint scan_digits (base : Z) (s : string) (acc : Z) (seen : bool) : Z * bool :=
  match s with
  | EmptyString => (acc, seen)
  | String c t =>
      match digit_val c with
      | Some d => if d <? base then scan_digits base t (acc * base + d) true else (acc, seen)
      | None => (acc, seen)
      end
  end.

(** ** Association lists keyed by strings (Go map[string]T; iteration order is handled elsewhere) *)

Fixpoint alookup {A} (k : string) (l : list (string * A)) : option A :=
  match l with
  | [] => None
  | (k', v) :: t => if str_eqb k k' then Some v else alookup k t
  end.
Fixpoint aset {A} (k : string) (v : A) (l : list (string * A)) : list (string * A) :=
  match l with
  | [] => [(k, v)]
  | (k', v') :: t => if str_eqb k k' then (k, v) :: t else (k', v') :: aset k v t
  end.
Fixpoint adel {A} (k : string) (l : list (string * A)) : list (string * A) :=
  match l with
  | [] => []
  | (k', v') :: t => if str_eqb k k' then adel k t else (k', v') :: adel k t
  end.

(** ** UTF-8 (Go's unicode/utf8: invalid bytes decode to U+FFFD, one byte each) *)

Definition rune : Type := Z.
Definition rune_error : rune := 65533.
Definition cont_byte (b : Z) : bool := (128 <=? b) && (b <? 192).

Definition decode_rune (bs : list Z) : option (rune * nat) :=
  match bs with
  | [] => None
  | b0 :: r =>
    if b0 <? 128 then Some (b0, 1%nat)
    else if (194 <=? b0) && (b0 <? 224) then
      match r with
      | b1 :: _ => if cont_byte b1 then Some ((b0 - 192) * 64 + (b1 - 128), 2%nat)
                   else Some (rune_error, 1%nat)
      | _ => Some (rune_error, 1%nat)
      end
    else if (224 <=? b0) && (b0 <? 240) then
      match r with
      | b1 :: b2 :: _ =>
          let c := (b0 - 224) * 4096 + (b1 - 128) * 64 + (b2 - 128) in
          if cont_byte b1 && cont_byte b2 && (2048 <=? c) && negb ((55296 <=? c) && (c <? 57344))
          then Some (c, 3%nat) else Some (rune_error, 1%nat)
      | _ => Some (rune_error, 1%nat)
      end
    else if (240 <=? b0) && (b0 <? 245) then
      match r with
      | b1 :: b2 :: b3 :: _ =>
          let c := (b0 - 240) * 262144 + (b1 - 128) * 4096 + (b2 - 128) * 64 + (b3 - 128) in
          if cont_byte b1 && cont_byte b2 && cont_byte b3 && (65536 <=? c) && (c <=? 1114111)
          then Some (c, 4%nat) else Some (rune_error, 1%nat)
      | _ => Some (rune_error, 1%nat)
      end
    else Some (rune_error, 1%nat)
  end.

Fixpoint bytes_of_string (s : string) : list Z :=
  match s with EmptyString => [] | String c t => byte_of c :: bytes_of_string t end.
Fixpoint string_of_bytes (l : list Z) : string :=
  match l with [] => EmptyString | b :: t => String (ascii_of_byte b) (string_of_bytes t) end.

(** Decode a whole string. [skip] = continuation bytes of the rune already emitted. *)
Fixpoint decode_go (bs : list Z) (skip : nat) : list rune :=
  match bs with
  | [] => []
  | _ :: r =>
      match skip with
      | S k => decode_go r k
      | O => match decode_rune bs with
             | Some (c, w) => c :: decode_go r (w - 1)
             | None => []
             end
      end
  end.
Definition runes_of_string (s : string) : list rune := decode_go (bytes_of_string s) 0.

Definition encode_rune (c : rune) : list Z :=
  if (0 <=? c) && (c <? 128) then [c]
  else if (128 <=? c) && (c <? 2048) then [192 + c / 64; 128 + c mod 64]
  else if ((2048 <=? c) && (c <? 55296)) || ((57344 <=? c) && (c <? 65536)) then
    [224 + c / 4096; 128 + (c / 64) mod 64; 128 + c mod 64]
  else if (65536 <=? c) && (c <=? 1114111) then
    [240 + c / 262144; 128 + (c / 4096) mod 64; 128 + (c / 64) mod 64; 128 + c mod 64]
  else [239; 191; 189].
Fixpoint encode_runes (l : list rune) : list Z :=
  match l with [] => [] | c :: t => encode_rune c ++ encode_runes t end.
Definition string_of_runes (l : list rune) : string := string_of_bytes (encode_runes l).
