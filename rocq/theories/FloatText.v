(** Decimal text of float32 values: Go's fmt %g (shortest representation that reads back to the
    same float32; strconv/ftoa.go) and strconv.ParseFloat(s, 32) on digits with at most one point. *)
From Verif Require Export Base.
Local Open Scope Z_scope.

(** *** Reading: the float32 nearest to [n / d] (ties to even), for n >= 0, d > 0. *)
Definition f32_of_ratio (neg : bool) (n d : Z) : f32 :=
  if n =? 0 then S754_zero neg
  else
    let k := Z.max 0 (27 + Z.log2 d - Z.log2 n) in
    let q := (n * 2 ^ k) / d in
    let r := (n * 2 ^ k) mod d in
    let m := 2 * q + (if r =? 0 then 0 else 1) in
    binary_normalize 24 128 (if neg then - m else m) (- k - 1) neg.

(** strconv.ParseFloat(s, 32) for s = digits [. digits], at least one digit: None = syntax or range error. *)
Fixpoint dec_digits (s : string) (acc : Z) (n : nat) : option (Z * nat * string) :=
  match s with
  | EmptyString => Some (acc, n, EmptyString)
  | String c t =>
      let b := byte_of c in
      if (48 <=? b) && (b <=? 57) then dec_digits t (acc * 10 + (b - 48)) (S n)
      else Some (acc, n, s)
  end.
Definition parse_f32_unsigned (neg : bool) (s : string) : option f32 :=
  match dec_digits s 0 0 with
  | Some (ip, ni, rest) =>
      match rest with
      | EmptyString =>
          if Nat.eqb ni 0 then None
          else let f := f32_of_ratio neg ip 1 in if f32_is_inf f then None else Some f
      | String c t =>
          if byte_of c =? 46 then
            match dec_digits t ip 0 with
            | Some (v, nf, EmptyString) =>
                if Nat.eqb (ni + nf) 0 then None
                else let f := f32_of_ratio neg v (10 ^ Z.of_nat nf) in
                     if f32_is_inf f then None else Some f
            | _ => None
            end
          else None
      end
  | None => None
  end.
Definition parse_f32 (s : string) : option f32 :=
  match s with
  | String c t =>
      if byte_of c =? 45 then parse_f32_unsigned true t
      else if byte_of c =? 43 then parse_f32_unsigned false t
      else parse_f32_unsigned false s
  | EmptyString => None
  end.

(** *** Printing *)

(** Decimal exponent dp with 10^(dp-1) <= n/d < 10^dp, searched from a starting guess. *)
Fixpoint dec_exp (fuel : nat) (n d dp : Z) : Z :=
  match fuel with
  | O => dp
  | S f =>
      (* n/d >= 10^dp ? *)
      let ge := if 0 <=? dp then 10 ^ dp * d <=? n else d <=? n * 10 ^ (- dp) in
      if ge then dec_exp f n d (dp + 1) else dp
  end.

(** Is D*10^sc inside the rounding interval [ln/2^q, hn/2^q] (open ends unless incl)? *)
Definition in_interval (incl : bool) (D sc ln hn den : Z) : bool :=
  (* compare D*10^sc with ln/den and hn/den *)
  let dn := if 0 <=? sc then D * 10 ^ sc else D in
  let dd := if 0 <=? sc then 1 else 10 ^ (- sc) in
  let lo := ln * dd in let hi := hn * dd in let x := dn * den in
  if incl then (lo <=? x) && (x <=? hi) else (lo <? x) && (x <? hi).

(** Try [nd] significant digits. *)
Definition try_digits (incl : bool) (vn ln hn den dp : Z) (nd : Z) : option Z :=
  let sc := dp - nd in
  let num := if 0 <=? sc then vn else vn * 10 ^ (- sc) in
  let dd := if 0 <=? sc then den * 10 ^ sc else den in
  let down := num / dd in
  let r := num mod dd in
  let up := down + 1 in
  let okd := in_interval incl down sc ln hn den in
  let oku := in_interval incl up sc ln hn den in
  if okd && oku then
    Some (if (2 * r <? dd) || ((2 * r =? dd) && Z.even down) then down else up)
  else if okd then Some down else if oku then Some up else None.

Fixpoint shortest (fuel : nat) (incl : bool) (vn ln hn den dp nd : Z) : Z * Z :=
  match fuel with
  | O => (0, nd)
  | S f => match try_digits incl vn ln hn den dp nd with
           | Some D => (D, nd)
           | None => shortest f incl vn ln hn den dp (nd + 1)
           end
  end.

Fixpoint strip_zeros (fuel : nat) (D nd : Z) : Z * Z :=
  match fuel with
  | O => (D, nd)
  | S f => if (D mod 10 =? 0) && (1 <? nd) then strip_zeros f (D / 10) (nd - 1) else (D, nd)
  end.

(** Digits (as a number D of nd digits) and decimal point position dp of a positive float. *)
Definition float_digits (m : positive) (e : Z) : Z * Z * Z :=
  (* scale everything by 4 so that the half-gaps are integers: value = 4m * 2^(e-2) *)
  let incl := Z.even (Zpos m) in
  let lowgap := if (Zpos m =? 8388608) && (-149 <? e) then 1 else 2 in
  let e2 := e - 2 in
  let up := if 0 <=? e2 then 2 ^ e2 else 1 in
  let den := if 0 <=? e2 then 1 else 2 ^ (- e2) in
  let vn := 4 * Zpos m * up in
  let ln := (4 * Zpos m - lowgap) * up in
  let hn := (4 * Zpos m + 2) * up in
  let dp := dec_exp 90 vn den (-46) in
  let '(D, nd) := shortest 10 incl vn ln hn den dp 1 in
  (* rounding up may have produced 10^nd *)
  let '(D, nd, dp) := if D =? 10 ^ nd then (1, 1, dp + 1) else (D, nd, dp) in
  let '(D, nd) := strip_zeros 10 D nd in
  (D, nd, dp).

Fixpoint pad_zeros (n : nat) : string :=
  match n with O => EmptyString | S k => String "0"%char (pad_zeros k) end.

(** strconv %e / %f layout for the shortest digits, as chosen by %g. *)
Definition format_digits (D nd dp : Z) : string :=
  let ds := string_of_Z D in
  let ex := dp - 1 in
  if (ex <? -4) || (21 <=? ex) || (6 <=? ex) then
    let mant := str_take 1 ds +++ (if nd =? 1 then EmptyString else String "."%char (str_drop 1 ds)) in
    let aex := Z.abs ex in
    mant +++ String "e"%char (String (if ex <? 0 then "-"%char else "+"%char)
      ((if aex <? 10 then String "0"%char EmptyString else EmptyString) +++ string_of_Z aex))
  else if dp <=? 0 then
    String "0"%char (String "."%char (pad_zeros (Z.to_nat (- dp)) +++ ds))
  else if nd <=? dp then ds +++ pad_zeros (Z.to_nat (dp - nd))
  else str_take (Z.to_nat dp) ds +++ String "."%char (str_drop (Z.to_nat dp) ds).

(** fmt.Sprintf("%g", v) for a finite v. *)
Definition f32_format_g (f : f32) : string :=
  match f with
  | S754_zero s => if s then "-0"%string else "0"%string
  | S754_finite s m e =>
      let '(D, nd, dp) := float_digits m e in
      let t := format_digits D nd dp in
      if s then String "-"%char t else t
  | S754_infinity s => if s then "-Inf"%string else "+Inf"%string
  | S754_nan => "NaN"%string
  end.

(** data.go:991-1009: String on a float. *)
Definition f32_string (f : f32) : string :=
  match f with
  | S754_infinity s => if s then "-inf"%string else "+inf"%string
  | S754_nan => "nan"%string
  | _ => let raw := f32_format_g f in
         if str_mem "."%char raw then raw else raw +++ ".0"%string
  end.
