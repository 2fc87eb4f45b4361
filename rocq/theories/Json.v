(** Model of json_support.go, json_frame_support.go and the JSON primitives of prim_frame.go.

    The repository's code converts between Lisp data and the tree encoding/json works on; that part is
    modelled function by function.  The text layer (json.Marshal / json.Unmarshal) is library code; it
    is modelled by [json_encode] and [json_decode] so that the primitives can be stated on strings. *)
From Verif Require Export PrimConc.
Local Open Scope string_scope.
Local Open Scope list_scope.
Local Open Scope Z_scope.

(** ** float64, as the JSON decoder produces it *)
Definition f64_normalize (m e : Z) (s : bool) : spec_float := binary_normalize 53 1024 m e s.
Definition f64_of_Z (z : Z) : spec_float := f64_normalize z 0 false.
(** The float64 nearest to n / d. *)
Definition f64_of_ratio (neg : bool) (n d : Z) : spec_float :=
  if n =? 0 then S754_zero neg
  else
    let k := Z.max 0 (56 + Z.log2 d - Z.log2 n) in
    let q := (n * 2 ^ k) / d in
    let r := (n * 2 ^ k) mod d in
    let m := 2 * q + (if r =? 0 then 0 else 1) in
    f64_normalize (if neg then - m else m) (- k - 1) neg.
(** math.Trunc(f) == f *)
Definition f_integral (f : spec_float) : bool :=
  match f with
  | S754_zero _ | S754_infinity _ => true
  | S754_nan => false
  | S754_finite _ m e => (0 <=? e) || (Z.land (Zpos m) (2 ^ (- e) - 1) =? 0)
  end.
(** float32(f) *)
Definition f32_of_f64 (f : spec_float) : f32 :=
  match f with
  | S754_finite s m e => binary_normalize 24 128 (if s then Zneg m else Zpos m) e s
  | _ => f
  end.
(** json_support.go:39-46, json_frame_support.go:161-167 (int64(f) as in Base.v: exact in range) *)
Definition number_to_lisp (f : spec_float) : val :=
  if f_integral f then VInt (int64_of_f32 f) else VFloat (f32_of_f64 f).

(** ** JSON to Lisp *)

(** json_frame_support.go:117 jsonToLispWithFramesReflect, on a decoded document.  Simplification:
    object members are converted in the order of the list (Go: map order; only the order of
    allocation differs).  Structs cannot come from decoding. *)
Fixpoint json_to_frames (j : json) : prog val :=
  match j with
  | JNull => Ret VNil
  | JBool b => Ret (VBool b)
  | JInt z => Ret (VInt z)
  | JNum f => Ret (number_to_lisp f)
  | JStr s => new_str s
  | JArr [] => Ret VNoCell
  | JArr l =>
      ary <- (fix go (l : list json) (ary : val) : prog val :=
                match l with
                | [] => Ret ary
                | x :: r => v <- json_to_frames x ;; c <- cons v ary ;; go r c
                end) l VNil ;;
      reverse ary
  | JObj l =>
      m <- (fix go (l : list (string * json)) (m : list (string * val)) : prog (list (string * val)) :=
              match l with
              | [] => Ret m
              | (k, x) :: r => v <- json_to_frames x ;; go r (aset (k +++ ":") v m)
              end) l [] ;;
      f <- do_op (OFrameNew m) ;; Ret (VFrame f)
  end.

(** json_support.go:17 JsonToLisp.  The members are converted first and then added in map order. *)
Fixpoint add_members (l : list (string * val)) (alist : val) : prog val :=
  match l with
  | [] => Ret alist
  | (k, v) :: r => s <- new_str k ;; a <- acons s v alist ;; add_members r a
  end.
Fixpoint json_to_alist (j : json) : prog val :=
  match j with
  | JNull => Ret VNil
  | JBool b => Ret (VBool b)
  | JInt z => Ret VNil   (* never produced by decoding *)
  | JNum f => Ret (number_to_lisp f)
  | JStr s => new_str s
  | JArr l =>
      ary <- (fix go (l : list json) (ary : val) : prog val :=
                match l with
                | [] => Ret ary
                | x :: r => v <- json_to_alist x ;; c <- cons v ary ;; go r c
                end) l VNil ;;
      reverse ary
  | JObj l =>
      ms <- (fix go (l : list (string * json)) : prog (list (string * val)) :=
               match l with
               | [] => Ret []
               | (k, x) :: r => v <- json_to_alist x ;; t <- go r ;; Ret ((k, v) :: t)
               end) l ;;
      ms <- range_map ms ;; add_members ms VNil
  end.

(** ** Lisp to JSON *)

(** json_support.go:70 LispToJson *)
Definition to_json_body (d : val) : prog json :=
  match d with
  | VInt z => Ret (JInt z)
  | VStr l => s <- do_op (OStrGet l) ;; Ret (JStr s)
  | VSym s => Ret (JStr s)
  | VNoCell | VCell TCons _ =>
      for_cells (fun acc c => a <- car c ;; j <- call (RToJson a) ;; Ret (inl (acc ++ [j])))
                (fun acc => Ret (JArr acc)) d []
  | VCell TAlist _ =>
      for_cells (fun acc c =>
                   pair <- car c ;; k <- car pair ;; s <- string_value k ;;
                   v <- cdr pair ;; j <- call (RToJson v) ;; Ret (inl (aset s j acc)))
                (fun acc => Ret (JObj acc)) d []
  | _ => Ret (JStr "")
  end.
(** json_frame_support.go:235-247 *)
Fixpoint json_slots (l : list (string * val)) (acc : list (string * json)) : prog (list (string * json)) :=
  match l with
  | [] => Ret acc
  | (k, v) :: r =>
      if functionp v then json_slots r acc
      else j <- call (RToJsonF v) ;; json_slots r (aset (trim_right ":" k) j acc)
  end.
(** json_frame_support.go:199 LispWithFramesToJson *)
Definition to_json_f_body (d : val) : prog json :=
  match d with
  | VInt z => Ret (JInt z)
  | VFloat f => Ret (JNum f)
  | VStr l => s <- do_op (OStrGet l) ;; Ret (JStr s)
  | VSym s => Ret (JStr s)
  | VBool b => Ret (JBool b)
  | VNoCell | VCell TCons _ =>
      for_cells (fun acc c => a <- car c ;; j <- call (RToJsonF a) ;; Ret (inl (acc ++ [j])))
                (fun acc => Ret (JArr acc)) d []
  | VBytes l => b <- do_op (OBytesGet l) ;; Ret (JArr (map JInt b))
  | VFrame l =>
      slots <- do_op (OFrameAll l) ;; slots <- range_map slots ;;
      m <- json_slots slots [] ;; Ret (JObj m)
  | _ => Ret (JStr "")
  end.

(** ** The text layer: json.Marshal *)

Definition hex_byte (d : Z) : Z := if d <? 10 then 48 + d else 87 + d.
Definition u_escape (c : Z) : list Z :=
  [92; 117; hex_byte (c / 4096); hex_byte (c / 256 mod 16); hex_byte (c / 16 mod 16); hex_byte (c mod 16)].
(** encode.go (encodeState).string with HTML escaping. *)
Definition escape_rune (c : rune) : list Z :=
  if (c =? 34) || (c =? 92) then [92; c]
  else if c =? 10 then [92; 110]
  else if c =? 13 then [92; 114]
  else if c =? 9 then [92; 116]
  else if (c <? 32) || (c =? 60) || (c =? 62) || (c =? 38) || (c =? 8232) || (c =? 8233) then u_escape c
  else encode_rune c.
(** Invalid UTF-8 was decoded to U+FFFD, which Go writes as an escape; the text reads back the same. *)
Definition encode_str (s : string) : list Z :=
  34 :: flat_map escape_rune (runes_of_string s) ++ [34].
(** encode.go floatEncoder for float32: %f unless very small or large; exponents are not padded. *)
Definition format_json_float (f : f32) : option string :=
  match f with
  | S754_zero s => Some (if s then "-0" else "0")
  | S754_finite s m e =>
      let '(D, nd, dp) := float_digits m e in
      let ds := string_of_Z D in
      let ex := dp - 1 in
      let body :=
        if (ex <? -6) || (21 <=? ex) then
          str_take 1 ds +++ (if nd =? 1 then "" else "." +++ str_drop 1 ds)
            +++ "e" +++ (if ex <? 0 then "-" else "+")
            +++ (if (0 <=? ex) && (ex <? 10) then "0" else "") +++ string_of_Z (Z.abs ex)
        else if dp <=? 0 then "0." +++ pad_zeros (Z.to_nat (- dp)) +++ ds
        else if nd <=? dp then ds +++ pad_zeros (Z.to_nat (dp - nd))
        else str_take (Z.to_nat dp) ds +++ "." +++ str_drop (Z.to_nat dp) ds in
      Some (if s then "-" +++ body else body)
  | _ => None
  end.
(** Map keys are written in sorted order. *)
Fixpoint insert_member {A} (k : string * A) (l : list (string * A)) : list (string * A) :=
  match l with
  | [] => [k]
  | h :: t => if str_ltb (fst h) (fst k) then h :: insert_member k t else k :: l
  end.
Definition sort_members {A} (l : list (string * A)) : list (string * A) := fold_right insert_member [] l.

Definition opt_bind {A B} (o : option A) (f : A -> option B) : option B :=
  match o with Some a => f a | None => None end.
Fixpoint join_bytes (l : list (list Z)) : list Z :=
  match l with [] => [] | [x] => x | x :: r => x ++ 44 :: join_bytes r end.
(** None: json.Marshal reports an error (NaN or infinity). *)
Fixpoint json_encode (j : json) : option (list Z) :=
  match j with
  | JNull => Some (bytes_of_string "null")
  | JBool b => Some (bytes_of_string (if b then "true" else "false"))
  | JInt z => Some (bytes_of_string (string_of_Z z))
  | JNum f => opt_bind (format_json_float f) (fun s => Some (bytes_of_string s))
  | JStr s => Some (encode_str s)
  | JArr l =>
      opt_bind ((fix go (l : list json) : option (list (list Z)) :=
                   match l with
                   | [] => Some []
                   | x :: r => opt_bind (json_encode x) (fun a => opt_bind (go r) (fun b => Some (a :: b)))
                   end) l) (fun ps => Some (91 :: join_bytes ps ++ [93]))
  | JObj l =>
      opt_bind ((fix go (l : list (string * json)) : option (list (string * list Z)) :=
                   match l with
                   | [] => Some []
                   | (k, x) :: r =>
                       opt_bind (json_encode x) (fun a => opt_bind (go r) (fun b => Some ((k, a) :: b)))
                   end) l)
        (fun ps => Some (123 :: join_bytes (map (fun ka => encode_str (fst ka) ++ 58 :: snd ka)
                                                (sort_members ps)) ++ [125]))
  end.

(** ** The text layer: json.Unmarshal into an interface{} *)

Definition json_space (b : Z) : bool := (b =? 32) || (b =? 9) || (b =? 13) || (b =? 10).
Fixpoint skip_ws (bs : list Z) : list Z :=
  match bs with b :: r => if json_space b then skip_ws r else bs | [] => [] end.
Definition hex_val (b : Z) : option Z :=
  if (48 <=? b) && (b <=? 57) then Some (b - 48)
  else if (97 <=? b) && (b <=? 102) then Some (b - 87)
  else if (65 <=? b) && (b <=? 70) then Some (b - 55)
  else None.
Definition hex4 (a b c d : Z) : option Z :=
  opt_bind (hex_val a) (fun a => opt_bind (hex_val b) (fun b =>
  opt_bind (hex_val c) (fun c => opt_bind (hex_val d) (fun d =>
  Some (((a * 16 + b) * 16 + c) * 16 + d))))).
(** The letter after a backslash. *)
Definition simple_escape (b : Z) : option Z :=
  if (b =? 34) || (b =? 92) || (b =? 47) then Some b
  else if b =? 98 then Some 8 else if b =? 102 then Some 12 else if b =? 110 then Some 10
  else if b =? 114 then Some 13 else if b =? 116 then Some 9 else None.
(** The rest of a string literal, up to and including the closing quote: its bytes and what follows. *)
Fixpoint json_string (bs : list Z) (acc : list Z) {struct bs} : option (list Z * list Z) :=
  match bs with
  | [] => None
  | b :: r =>
      if b =? 34 then Some (rev acc, r)
      else if b <? 32 then None
      else if b =? 92 then
        match r with
        | e :: r1 =>
            if e =? 117 then
              match r1 with
              | h1 :: h2 :: h3 :: h4 :: r2 =>
                  match hex4 h1 h2 h3 h4 with
                  | None => None
                  | Some u =>
                      if (55296 <=? u) && (u <? 56320) then
                        match r2 with
                        | b1 :: b2 :: k1 :: k2 :: k3 :: k4 :: r3 =>
                            if (b1 =? 92) && (b2 =? 117) then
                              match hex4 k1 k2 k3 k4 with
                              | Some v =>
                                  if (56320 <=? v) && (v <? 57344) then
                                    json_string r3
                                      (rev_append (encode_rune (65536 + (u - 55296) * 1024 + (v - 56320))) acc)
                                  else json_string r2 (rev_append (encode_rune rune_error) acc)
                              | None => json_string r2 (rev_append (encode_rune rune_error) acc)
                              end
                            else json_string r2 (rev_append (encode_rune rune_error) acc)
                        | _ => json_string r2 (rev_append (encode_rune rune_error) acc)
                        end
                      else json_string r2 (rev_append (encode_rune u) acc)
                  end
              | _ => None
              end
            else match simple_escape e with Some c => json_string r1 (c :: acc) | None => None end
        | [] => None
        end
      else json_string r (b :: acc)
  end.
(** Raw invalid UTF-8 in a literal becomes U+FFFD. *)
Definition string_lit (raw : list Z) : string := string_of_runes (decode_go raw 0).

Fixpoint digits_run (bs : list Z) (acc : Z) (n : nat) : Z * nat * list Z :=
  match bs with
  | b :: r => if digit_byte b then digits_run r (acc * 10 + (b - 48)) (S n) else (acc, n, bs)
  | [] => (acc, n, [])
  end.
(** A number literal after its optional minus sign. *)
Definition json_number (neg : bool) (bs : list Z) : option (spec_float * list Z) :=
  let '(ip, ni, r1) := digits_run bs 0 0 in
  if Nat.eqb ni 0 then None
  else if (match bs with b :: _ => b =? 48 | [] => false end) && negb (Nat.eqb ni 1) then None
  else
    let frac := match r1 with
                | b :: r => if b =? 46 then
                              let '(v, nf, r2) := digits_run r ip 0 in
                              if Nat.eqb nf 0 then None else Some (v, nf, r2)
                            else Some (ip, O, r1)
                | [] => Some (ip, O, r1)
                end in
    match frac with
    | None => None
    | Some (v, nf, r2) =>
        let ex := match r2 with
                  | b :: r =>
                      if (b =? 101) || (b =? 69) then
                        let '(eneg, r) := match r with
                                          | s :: r' => if s =? 45 then (true, r')
                                                       else if s =? 43 then (false, r') else (false, r)
                                          | [] => (false, r)
                                          end in
                        let '(x, nx, r3) := digits_run r 0 0 in
                        if Nat.eqb nx 0 then None else Some ((if eneg : bool then - x else x), r3)
                      else Some (0, r2)
                  | [] => Some (0, r2)
                  end in
        match ex with
        | None => None
        | Some (x, r3) =>
            let p := x - Z.of_nat nf in
            let f := if 0 <=? p then f64_of_ratio neg (v * 10 ^ p) 1 else f64_of_ratio neg v (10 ^ (- p)) in
            if f32_is_inf f then None else Some (f, r3)
        end
    end.
Fixpoint strip_bytes (p bs : list Z) : option (list Z) :=
  match p, bs with
  | [], _ => Some bs
  | x :: p', y :: bs' => if x =? y then strip_bytes p' bs' else None
  | _ :: _, [] => None
  end.

Fixpoint json_value (fuel : nat) (bs : list Z) {struct fuel} : option (json * list Z) :=
  match fuel with
  | O => None
  | S fuel =>
      match skip_ws bs with
      | [] => None
      | b :: r =>
          if b =? 34 then opt_bind (json_string r []) (fun '(raw, r') => Some (JStr (string_lit raw), r'))
          else if b =? 91 then
            match skip_ws r with
            | c :: r' => if c =? 93 then Some (JArr [], r') else json_elements fuel r []
            | [] => None
            end
          else if b =? 123 then
            match skip_ws r with
            | c :: r' => if c =? 125 then Some (JObj [], r') else json_members fuel r []
            | [] => None
            end
          else if b =? 45 then opt_bind (json_number true r) (fun '(f, r') => Some (JNum f, r'))
          else if digit_byte b then opt_bind (json_number false (b :: r)) (fun '(f, r') => Some (JNum f, r'))
          else match strip_bytes (bytes_of_string "true") (b :: r) with
          | Some r' => Some (JBool true, r')
          | None =>
              match strip_bytes (bytes_of_string "false") (b :: r) with
              | Some r' => Some (JBool false, r')
              | None => opt_bind (strip_bytes (bytes_of_string "null") (b :: r)) (fun r' => Some (JNull, r'))
              end
          end
      end
  end
with json_elements (fuel : nat) (bs : list Z) (acc : list json) {struct fuel} : option (json * list Z) :=
  match fuel with
  | O => None
  | S fuel =>
      opt_bind (json_value fuel bs) (fun '(v, r) =>
      match skip_ws r with
      | c :: r' => if c =? 44 then json_elements fuel r' (v :: acc)
                   else if c =? 93 then Some (JArr (rev (v :: acc)), r') else None
      | [] => None
      end)
  end
with json_members (fuel : nat) (bs : list Z) (acc : list (string * json)) {struct fuel}
  : option (json * list Z) :=
  match fuel with
  | O => None
  | S fuel =>
      match skip_ws bs with
      | q :: r =>
          if negb (q =? 34) then None
          else
            opt_bind (json_string r []) (fun '(raw, r1) =>
            match skip_ws r1 with
            | c :: r2 =>
                if negb (c =? 58) then None
                else
                  opt_bind (json_value fuel r2) (fun '(v, r3) =>
                  let acc := aset (string_lit raw) v acc in
                  match skip_ws r3 with
                  | c :: r4 => if c =? 44 then json_members fuel r4 acc
                               else if c =? 125 then Some (JObj acc, r4) else None
                  | [] => None
                  end)
            | [] => None
            end)
      | [] => None
      end
  end.
(** The whole text must be one value.  The fuel suffices: every step consumes a byte.  From Go 1.15 on encoding/json also
    refuses values nested more than 10000 deep; go.mod asks for Go 1.13, and that limit is not modelled. *)
Definition json_decode (bs : list Z) : option json :=
  match json_value (2 * length bs + 2) bs with
  | Some (j, r) => match skip_ws r with [] => Some j | _ => None end
  | None => None
  end.

(** ** The primitives and the Go API on strings *)

(** json_frame_support.go:186 JsonStringToLispWithFrames: bad JSON prints a message and gives an empty
    frame; the document `null` makes reflect panic.  The message goes on with the text of encoding/json's error, which is
    not modelled. *)
Definition reflect_panic : string := "reflect: call of reflect.Value.Type on zero Value".
Definition json_string_to_frames (s : string) : prog val :=
  match json_decode (bytes_of_string s) with
  | None =>
      do_op (OEvent (EOut ("Returning empty frame because of badly formed json: '" +++ s +++ "'"))) ;;;
      f <- do_op (OFrameNew []) ;; Ret (VFrame f)
  | Some JNull => Panic reflect_panic
  | Some j => json_to_frames j
  end.
(** json_frame_support.go:252 LispWithFramesToJsonString *)
Definition frames_to_json_string (v : val) : prog string :=
  j <- call (RToJsonF v) ;;
  Ret (match json_encode j with Some bs => string_of_bytes bs | None => "" end).
(** json_support.go:60 JsonStringToLisp, 102 LispToJsonString (Go API) *)
Definition json_string_to_lisp (s : string) : prog val :=
  match json_decode (bytes_of_string s) with
  | None => Panic ("Badly formed json: '" +++ s +++ "'")
  | Some j => json_to_alist j
  end.
Definition lisp_to_json_string (v : val) : prog string :=
  j <- call (RToJson v) ;;
  Ret (match json_encode j with Some bs => string_of_bytes bs | None => "" end).
(** prim_frame.go:339 JsonToLispImpl, 349 LispToJsonImpl *)
Definition json_to_lisp_impl (args : list val) (env : loc) : prog (res val) :=
  need_string "json->lisp requires a string as it's argument, but was given " (arg 0 args) (fun _ s =>
  v <- json_string_to_frames s ;; ok v).
Definition lisp_to_json_impl (args : list val) (env : loc) : prog (res val) :=
  s <- frames_to_json_string (arg 0 args) ;; v <- new_str s ;; ok v.
(** prim_frame.go:26-27 *)
Definition json_prims : list prim :=
  [ func "json->lisp" "1" json_to_lisp_impl; func "lisp->json" "1" lisp_to_json_impl ].
