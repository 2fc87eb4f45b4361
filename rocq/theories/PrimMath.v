(** Model of prim_math.go, prim_binary.go, prim_bytearray.go, prim_relative_logical.go and
    prim_type_predicates.go. *)
From Verif Require Export PrimList.
Local Open Scope string_scope.
Local Open Scope list_scope.
Local Open Scope Z_scope.

(** ** prim_math.go *)

(** An error whose text ends with the printed form of a value (no final dot). *)
Definition fail_recv {A} (before : string) (v : val) : prog (res A) :=
  s <- call (RString v) ;; fail (before +++ s).
Definition need_number {A} (who : string) (v : val) (k : prog (res A)) : prog (res A) :=
  if numberp v then k else fail_recv who v.
Definition need_integer {A} (who : string) (v : val) (k : Z -> prog (res A)) : prog (res A) :=
  match v with VInt z => k z | _ => fail_recv who v end.

(** prim_math.go:95 makeUnaryFloatFunction: the functions of package math are outside the model;
    the oracle chooses the result. *)
Definition oracle_float : prog val := z <- do_op OChoose ;; Ret (VFloat (f32_of_bits (z mod 2 ^ 32))).
Definition unary_float_impl (name : string) (args : list val) (env : loc) : prog (res val) :=
  need_number (name +++ " expects a number as a parameter, got ") (arg 0 args)
    (r <- oracle_float ;; ok r).

(** prim_math.go:114 sgn, 124 intSgn *)
Definition sgn (a : f32) : Z :=
  if f32_ltb a f32_zero then -1 else if f32_ltb f32_zero a then 1 else 0.
Definition int_sgn (a : Z) : Z := sgn (f32_of_Z a).

(** prim_math.go:128 IncrementImpl, 138 DecrementImpl *)
Definition succ_impl (args : list val) (env : loc) : prog (res val) :=
  match arg 0 args with VInt z => ok (VInt (wrap64 (z + 1))) | _ => fail "1+ requires an integer argument" end.
Definition pred_impl (args : list val) (env : loc) : prog (res val) :=
  match arg 0 args with VInt z => ok (VInt (wrap64 (z - 1))) | _ => fail "1- requires an integer argument" end.

(** prim_math.go:164 anyFloats: stops at the first float; the first non-number before it is an
    error. *)
Fixpoint any_floats (l : list val) : val + bool :=
  match l with
  | [] => inr false
  | x :: r => if negb (numberp x) then inl x else if floatp x then inr true else any_floats r
  end.
Definition with_floats {A} (l : list val) (k : bool -> prog (res A)) : prog (res A) :=
  match any_floats l with
  | inl bad => fail_recv "Number expected, received " bad
  | inr b => k b
  end.

(** prim_math.go:148, 156 addFloats, addInts *)
Definition add_ints (l : list val) : Z := fold_left (fun acc v => wrap64 (acc + int_value v)) l 0.
Definition add_floats (l : list val) : f32 :=
  fold_left (fun acc v => f32_add acc (float_value v)) l f32_zero.
(** prim_math.go:177 AddImpl *)
Definition add_impl (args : list val) (env : loc) : prog (res val) :=
  with_floats args (fun fl => ok (if fl then VFloat (add_floats args) else VInt (add_ints args))).
(** prim_math.go:189, 197, 205 *)
Definition sub_ints (l : list val) : Z :=
  fold_left (fun acc v => wrap64 (acc - int_value v)) (tl l) (int_value (arg 0 l)).
Definition sub_floats (l : list val) : f32 :=
  fold_left (fun acc v => f32_sub acc (float_value v)) (tl l) (float_value (arg 0 l)).
Definition subtract_impl (args : list val) (env : loc) : prog (res val) :=
  with_floats args (fun fl => ok (if fl then VFloat (sub_floats args) else VInt (sub_ints args))).
(** prim_math.go:217, 225, 233 *)
Definition mul_ints (l : list val) : Z := fold_left (fun acc v => wrap64 (acc * int_value v)) l 1.
Definition mul_floats (l : list val) : f32 :=
  fold_left (fun acc v => f32_mul acc (float_value v)) l (f32_of_Z 1).
Definition multiply_impl (args : list val) (env : loc) : prog (res val) :=
  with_floats args (fun fl => ok (if fl then VFloat (mul_floats args) else VInt (mul_ints args))).
(** prim_math.go:245, 259, 273.  Go's integer division truncates; MinInt64 / -1 wraps. *)
Fixpoint quot_ints (acc : Z) (l : list val) : option Z :=
  match l with
  | [] => Some acc
  | x :: r => let v := int_value x in if v =? 0 then None else quot_ints (wrap64 (Z.quot acc v)) r
  end.
Fixpoint quot_floats (acc : f32) (l : list val) : option f32 :=
  match l with
  | [] => Some acc
  | x :: r => let v := float_value x in
              if f32_eqb v f32_zero then None else quot_floats (f32_div acc v) r
  end.
Definition div_zero {A} (args : list val) : prog (res A) :=
  l <- array_to_list args ;; s <- call (RString l) ;;
  fail ("Quotent: " +++ s +++ " -> Divide by zero.").
Definition quotient_impl (args : list val) (env : loc) : prog (res val) :=
  with_floats args (fun fl =>
    if fl then match quot_floats (float_value (arg 0 args)) (tl args) with
               | Some f => ok (VFloat f) | None => div_zero args end
    else match quot_ints (int_value (arg 0 args)) (tl args) with
         | Some z => ok (VInt z) | None => div_zero args end).
(** prim_math.go:285 RemainderImpl: a zero divisor is a run-time panic. *)
Definition remainder_impl (args : list val) (env : loc) : prog (res val) :=
  need_integer "%/modulo expected an integer first arg, received " (arg 0 args) (fun a =>
  need_integer "%/modulo expected an integer second arg, received " (arg 1 args) (fun b =>
    if b =? 0 then Panic "runtime error: integer divide by zero" else ok (VInt (Z.rem a b)))).
(** prim_math.go:303 RandomByteImpl *)
Definition random_byte_impl (args : list val) (env : loc) : prog (res val) :=
  z <- do_op OChoose ;; ok (VInt (z mod 256)).

(** prim_math.go:309 IntervalImpl.  The initial `make` panics for more than 2^45 pointers.  The
    loops advance with wrapping int64 addition. *)
Definition interval_items (up : bool) (start stop step : Z) : prog (list val) :=
  loop (fun st : Z * list val =>
          let '(i, acc) := st in
          if (if up then i <=? stop else stop <=? i)
          then Ret (inl (wrap64 (i + step), VInt i :: acc))
          else Ret (inr (rev acc))) (start, []).
Definition interval_list (up : bool) (start stop step : Z) : prog (res val) :=
  if 2 ^ 45 <? Z.abs (wrap64 (stop - start)) + 1 then Panic "runtime error: makeslice: cap out of range"
  else items <- interval_items up start stop step ;; r <- array_to_list items ;; ok r.
Definition interval_impl (args : list val) (env : loc) : prog (res val) :=
  let start := int_value (arg 0 args) in
  match args with
  | [_] => interval_list true 1 start 1
  | _ =>
      let stop := int_value (arg 1 args) in
      let direction := if stop <? start then -1 else 1 in
      if (length args =? 3)%nat then
        need_integer "interval step must be an integer, received " (arg 2 args) (fun step =>
          if negb (int_sgn step =? direction)
          then fail "The sign of step has to match the direction of the interval"
          else interval_list (direction =? 1) start stop step)
      else interval_list (direction =? 1) start stop direction
  end.

(** prim_math.go:360 ToIntImpl, 370 ToFloatImpl *)
Definition to_int_impl (args : list val) (env : loc) : prog (res val) :=
  need_number "integer expected an number, received " (arg 0 args) (ok (VInt (int_value (arg 0 args)))).
Definition to_float_impl (args : list val) (env : loc) : prog (res val) :=
  need_number "float expected a number, received " (arg 0 args) (ok (VFloat (float_value (arg 0 args)))).

(** prim_math.go:380 NumberToStringImpl *)
Definition number_base (args : list val) : Z :=
  if (length args =? 2)%nat then int_value (arg 1 args) else 10.
Definition supported_base (b : Z) : bool := (b =? 2) || (b =? 8) || (b =? 10) || (b =? 16).
Definition number_to_string_impl (args : list val) (env : loc) : prog (res val) :=
  let base := number_base args in
  let text := if supported_base base then string_of_Z_base base (int_value (arg 0 args))
              else "Unsupported base: " +++ string_of_Z base in
  r <- new_str text ;; ok r.
(** prim_math.go:408 StringToNumberImpl, with fmt.Sscanf's %b %o %d %x on an int64: skip blanks
    (a newline is an error), an optional sign, then the longest run of digits of the base; what
    follows is ignored. *)
Definition fmt_space (r : Z) : bool :=
  ((9 <=? r) && (r <=? 13)) || (r =? 32) || (r =? 133) || (r =? 160) || (r =? 5760)
  || ((8192 <=? r) && (r <=? 8202)) || (r =? 8232) || (r =? 8233) || (r =? 8239) || (r =? 8287)
  || (r =? 12288).
Fixpoint skip_space (l : list Z) : option (list Z) :=
  match l with
  | [] => Some []
  | r :: t => if r =? 10 then None else if fmt_space r then skip_space t else Some l
  end.
Definition rune_digit (base r : Z) : option Z :=
  let d := if (48 <=? r) && (r <=? 57) then r - 48
           else if (97 <=? r) && (r <=? 102) then r - 87
           else if (65 <=? r) && (r <=? 70) then r - 55 else 99 in
  if d <? base then Some d else None.
(** The digits: value, and whether there was one. *)
Fixpoint scan_number (base : Z) (l : list Z) (acc : Z) (any : bool) : Z * bool :=
  match l with
  | r :: t => match rune_digit base r with
              | Some d => scan_number base t (acc * base + d) true
              | None => (acc, any)
              end
  | [] => (acc, any)
  end.
Definition sscanf_int (base : Z) (s : string) : res Z :=
  match skip_space (runes_of_string s) with
  | None => Err "unexpected newline"
  | Some [] => Err "unexpected EOF"
  | Some (r :: t) =>
      let neg := r =? 45 in
      let rest := if neg || (r =? 43) then t else r :: t in
      let '(v, any) := scan_number base rest 0 false in
      if negb any then Err "expected integer"
      else
        let z := if neg then - v else v in
        if in_int64 z then Ok z else Err "integer overflow on token"
  end.
Definition string_to_number_impl (args : list val) (env : loc) : prog (res val) :=
  let base := number_base args in
  s <- string_value (arg 0 args) ;;
  if supported_base base then
    match sscanf_int base s with Ok z => ok (VInt z) | Err m => fail m end
  else ok (VInt 0).

(** prim_math.go:440-569 min and max.  The list is read once (Go reads it two or three times). *)
Fixpoint best_ints (better : Z -> Z -> bool) (acc : Z) (l : list val) : val + Z :=
  match l with
  | [] => inr acc
  | VInt z :: r => best_ints better (if better z acc then z else acc) r
  | x :: _ => inl x
  end.
Fixpoint best_floats (better : f32 -> f32 -> bool) (acc : f32) (l : list val) : val + f32 :=
  match l with
  | [] => inr acc
  | x :: r => if numberp x then best_floats better (if better (float_value x) acc then float_value x else acc) r
              else inl x
  end.
Definition best_impl (who : string) (bi : Z -> Z -> bool) (bf : f32 -> f32 -> bool)
  (args : list val) (env : loc) : prog (res val) :=
  let l := arg 0 args in
  if negb (listp l) then fail_recv (who +++ " requires a list of numbers, received ") l
  else
    xs <- to_array l ;;
    match xs with
    | [] => ok (VInt 0)
    | x :: r =>
        with_floats xs (fun fl =>
          if fl then
            match best_floats bf (float_value x) r with
            | inr f => ok (VFloat f)
            | inl bad => fail_recv (who +++ " requires numbers, received ") bad
            end
          else
            match best_ints bi (int_value x) r with
            | inr z => ok (VInt z)
            | inl bad => fail_recv (who +++ " requires numbers, received ") bad
            end)
    end.
Definition min_impl := best_impl "min" Z.ltb f32_ltb.
Definition max_impl := best_impl "max" Z.gtb (fun a b => f32_ltb b a).

(** prim_math.go:571 FloorImpl, 582 CeilingImpl, 593 AbsImpl *)
Definition floor_impl (args : list val) (env : loc) : prog (res val) :=
  need_number "floor expected an number, received " (arg 0 args)
    (ok (VFloat (f32_floor (float_value (arg 0 args))))).
Definition ceiling_impl (args : list val) (env : loc) : prog (res val) :=
  need_number "ceiling expected a number, received " (arg 0 args)
    (ok (VFloat (f32_ceil (float_value (arg 0 args))))).
Definition abs_impl (args : list val) (env : loc) : prog (res val) :=
  let v := arg 0 args in
  need_number "abs expected a number, received " v
    (let a := f32_abs (float_value v) in
     ok (if integerp v then VInt (int64_of_f32 a) else VFloat a)).
(** prim_math.go:608-651 *)
Definition float_test (who : string) (t : f32 -> bool) (args : list val) (env : loc) : prog (res val) :=
  need_number who (arg 0 args) (lisp_bool (t (float_value (arg 0 args)))).
Definition zero_impl := float_test "zero? expected a number, received " (fun f => f32_eqb f f32_zero).
Definition positive_impl := float_test "positive? expected a number, received " (fun f => f32_ltb f32_zero f).
Definition negative_impl := float_test "negative expected a number, received " (fun f => f32_ltb f f32_zero).
Definition even_impl (args : list val) (env : loc) : prog (res val) :=
  need_integer "even? expected an integer, received " (arg 0 args) (fun z => lisp_bool (Z.rem z 2 =? 0)).
Definition odd_impl (args : list val) (env : loc) : prog (res val) :=
  need_integer "odd? expected an integer, received " (arg 0 args) (fun z => lisp_bool (negb (Z.rem z 2 =? 0))).
(** prim_math.go:653 SignImpl *)
Definition sign_impl (args : list val) (env : loc) : prog (res val) :=
  let v := arg 0 args in
  need_number "sign expected a nunber, received " v
    (ok (VInt (match v with VFloat f => sgn f | _ => int_sgn (int_value v) end))).
(** prim_math.go:667 PowImpl; the loop of lines 682-688 runs over the bits of e. *)
Fixpoint pow_loop (e : positive) (ret b : Z) : Z :=
  match e with
  | xH => wrap64 (ret * b)
  | xO q => pow_loop q ret (wrap64 (b * b))
  | xI q => pow_loop q (wrap64 (ret * b)) (wrap64 (b * b))
  end.
Definition pow_ints (b e : Z) : Z := match e with Zpos p => pow_loop p 1 b | _ => 1 end.
Definition pow_impl (args : list val) (env : loc) : prog (res val) :=
  with_floats args (fun fl =>
    if fl then r <- oracle_float ;; ok r
    else ok (VInt (pow_ints (int_value (arg 0 args)) (int_value (arg 1 args))))).
(** prim_math.go:693 IsInfImpl, 707 IsNaNImpl *)
Definition inf_impl (args : list val) (env : loc) : prog (res val) :=
  need_number "inf? expected a nunber, received " (arg 0 args)
    (lisp_bool (match arg 0 args with VFloat f => f32_is_inf f | _ => false end)).
Definition nan_impl (args : list val) (env : loc) : prog (res val) :=
  need_number "nan? expected a nunber, received " (arg 0 args)
    (lisp_bool (match arg 0 args with VFloat f => f32_is_nan f | _ => false end)).
(** prim_math.go:721 FloatToBitsImpl, 731 BitsToFloatImpl *)
Definition float_to_bits_impl (args : list val) (env : loc) : prog (res val) :=
  match arg 0 args with
  | VFloat f => ok (VInt (f32_bits f))
  | v => fail_recv "float->bits expected a float, received " v
  end.
Definition bits_to_float_impl (args : list val) (env : loc) : prog (res val) :=
  need_integer "bits->float expected an integer, received " (arg 0 args)
    (fun z => ok (VFloat (f32_of_bits (z mod 2 ^ 32)))).

(** prim_math.go:16-77 *)
Definition math_prims : list prim :=
  [ func "+" "*" add_impl; func "-" "*" subtract_impl; func "*" "*" multiply_impl;
    func "/" "*" quotient_impl; func "succ" "1" succ_impl; func "pred" "1" pred_impl;
    func "quotient" "*" quotient_impl; func "%" "2" remainder_impl; func "modulo" "2" remainder_impl;
    func "random-byte" "0" random_byte_impl; func "interval" "1|2|3" interval_impl;
    func "integer" "1" to_int_impl; func "float" "1" to_float_impl;
    func "number->string" "1|2" number_to_string_impl;
    func "string->number" "1|2" string_to_number_impl;
    func "min" "1" min_impl; func "max" "1" max_impl; func "floor" "1" floor_impl;
    func "ceiling" "1" ceiling_impl; func "abs" "1" abs_impl; func "zero?" "1" zero_impl;
    func "positive?" "1" positive_impl; func "negative?" "1" negative_impl;
    func "even?" "1" even_impl; func "odd?" "1" odd_impl; func "sign" "1" sign_impl;
    func "pow" "2" pow_impl; func "inf?" "1" inf_impl; func "nan?" "1" nan_impl;
    func "float->bits" "1" float_to_bits_impl; func "bits->float" "1" bits_to_float_impl ]
  ++ map (fun n => func n "1" (unary_float_impl n))
    [ "acos"; "acosh"; "asin"; "asinh"; "atan"; "atanh"; "cbrt"; "cos"; "cosh"; "erf"; "erfc"; "exp";
      "exp2"; "expm1"; "gamma"; "j0"; "j1"; "log"; "log10"; "log1p"; "log2"; "logb"; "sin"; "sinh";
      "sqrt"; "tan"; "tanh"; "y0"; "y1" ].
(** prim_math.go:79-92: the protected constants, as float32 bit patterns. *)
Definition math_constants : list (string * Z) :=
  [ ("pi", 1078530011); ("e", 1076754516); ("phi", 1070537661); ("sqrt2", 1068827891);
    ("sqrte", 1070794842); ("sqrtpi", 1071833029); ("sqrtphi", 1067644465); ("ln2", 1060205080);
    ("log2e", 1069066811); ("ln10", 1075011261); ("log10e", 1054759897);
    ("nan", 2143289344); ("+inf", 2139095040); ("-inf", 4286578688) ].

(** ** prim_binary.go *)
Definition need_int2 {A} (v : val) (k : Z -> prog (res A)) : prog (res A) :=
  match v with
  | VInt z => k z
  | _ => fail_recv ("Integer expected, received " +++ type_name v +++ " ") v
  end.
(** prim_binary.go:22 BinaryAndImpl, 40 BinaryOrImpl, 58 BinaryNotImpl, 69 LeftShiftImpl,
    87 RightShiftImpl.  Go shifts an unsigned value by an unsigned count; 64 or more gives 0. *)
Definition bit_and (a b : Z) : Z := wrap64 (Z.land (to_u64 a) (to_u64 b)).
Definition bit_or (a b : Z) : Z := wrap64 (Z.lor (to_u64 a) (to_u64 b)).
Definition bit_not (a : Z) : Z := wrap64 (Z.lxor (to_u64 a) 4294967295).
Definition shift_left (a b : Z) : Z :=
  if to_u64 b <? 64 then wrap64 (Z.shiftl (to_u64 a) (to_u64 b)) else 0.
Definition shift_right (a b : Z) : Z :=
  if to_u64 b <? 64 then wrap64 (Z.shiftr (to_u64 a) (to_u64 b)) else 0.
Definition bin2_impl (f : Z -> Z -> Z) (args : list val) (env : loc) : prog (res val) :=
  need_int2 (arg 0 args) (fun a => need_int2 (arg 1 args) (fun b => ok (VInt (f a b)))).
Definition binary_not_impl (args : list val) (env : loc) : prog (res val) :=
  need_int2 (arg 0 args) (fun a => ok (VInt (bit_not a))).
(** prim_binary.go:14-20 *)
Definition binary_prims : list prim :=
  [ func "binary-and" "2" (bin2_impl bit_and); func "binary-or" "2" (bin2_impl bit_or);
    func "binary-not" "1" binary_not_impl; func "left-shift" "2" (bin2_impl shift_left);
    func "right-shift" "2" (bin2_impl shift_right) ].

(** ** prim_bytearray.go *)

(** prim_bytearray.go:28 ListToBytesImpl, on the list itself *)
Definition list_to_bytes (l : val) : prog (res (list Z)) :=
  n <- nilp l ;;
  if n : bool then fail "Argument to list->bytes can not be nil."
  else if negb (listp l) then fail "Argument to list->bytes must be a list."
  else
    for_cells (fun acc c =>
                 x <- car c ;;
                 match x with
                 | VInt b =>
                     if (b <? 0) || (255 <? b)
                     then Ret (inr (Err ("Byte arrays can only contain bytes, but found " +++ string_of_Z b +++ ".")))
                     else Ret (inl (acc ++ [b]))
                 | VBytes o => bs <- do_op (OBytesGet o) ;; Ret (inl (acc ++ bs))
                 | _ => Ret (inr (Err "Byte arrays can only contain numbers, but found a value of another type."))
                 end)
              (fun acc => ok acc) l [].
Definition list_to_bytes_impl (args : list val) (env : loc) : prog (res val) :=
  bs <-? list_to_bytes (arg 0 args) ;; b <- do_op (OBytesNew bs) ;; ok (VBytes b).
(** prim_bytearray.go:63 BytesToListImpl *)
Definition need_bytes {A} (msg : string) (v : val) (k : loc -> prog (res A)) : prog (res A) :=
  match v with VBytes l => k l | _ => fail (msg +++ object_type v +++ ".") end.
Definition bytes_to_list_impl (args : list val) (env : loc) : prog (res val) :=
  need_bytes "Bytearray object should return []byte but returned " (arg 0 args) (fun b =>
    bs <- do_op (OBytesGet b) ;; r <- array_to_list (map VInt bs) ;; ok r).
(** prim_bytearray.go:81 internalReplaceByte *)
Definition set_byte (bs : list Z) (i : nat) (v : Z) : list Z := firstn i bs ++ [v] ++ skipn (S i) bs.
Definition replace_byte_impl (copy : bool) (args : list val) (env : loc) : prog (res val) :=
  need_bytes "replace-byte expects a bytearray as it's first argument but received " (arg 0 args) (fun b =>
    bs <- do_op (OBytesGet b) ;;
    match arg 1 args with
    | VInt i =>
        if Z.of_nat (length bs) <=? i then
          fail ("replace-byte index was out of range. Was " +++ string_of_Z i +++
                " but bytearray has length of " +++ string_of_Z (Z.of_nat (length bs)) +++ ".")
        else if i <? 0 then fail ("replace-byte index was out of range: " +++ string_of_Z i +++ ".")
        else
          match arg 2 args with
          | VInt v =>
              if (v <? 0) || (255 <? v) then
                fail ("replace-byte value was not a byte. Was " +++ string_of_Z i +++ ".")
              else if copy then nb <- do_op (OBytesNew (set_byte bs (Z.to_nat i) v)) ;; ok (VBytes nb)
              else do_op (OBytesSetAt b (Z.to_nat i) v) ;;; ok (arg 0 args)
          | _ => fail "Bytearray value should be an integer."
          end
    | _ => fail "Bytearray index should be an integer."
    end).
(** prim_bytearray.go:146 ExtractByteImpl *)
Definition extract_byte_impl (args : list val) (env : loc) : prog (res val) :=
  need_bytes "Bytearray object should return []byte but returned " (arg 0 args) (fun b =>
    bs <- do_op (OBytesGet b) ;;
    match arg 1 args with
    | VInt i =>
        if Z.of_nat (length bs) <=? i then
          fail ("extract-byte index was out of range. Was " +++ string_of_Z i +++
                " but bytearray has length of " +++ string_of_Z (Z.of_nat (length bs)) +++ ".")
        else if i <? 0 then fail ("extract-byte index was out of range: " +++ string_of_Z i +++ ".")
        else ok (VInt (nth (Z.to_nat i) bs 0))
    | _ => fail "Bytearray index should be a number."
    end).
(** prim_bytearray.go:177 internalAppendBytes *)
Definition append_bytes_of (args : list val) : prog (res (list Z)) :=
  need_bytes "append-bytes extects first argument to be a bytearray, but was " (arg 0 args) (fun b =>
    extra <-? (match args with
               | [_; VBytes o] => bs <- do_op (OBytesGet o) ;; ok bs
               | [_; x] => if listp x then list_to_bytes x
                           else t <- tail_list 1 args ;; list_to_bytes t
               | _ => t <- tail_list 1 args ;; list_to_bytes t
               end) ;;
    bs <- do_op (OBytesGet b) ;; ok (bs ++ extra)).
(** prim_bytearray.go:214 AppendBytesImpl, 223 AppendBytesBangImpl *)
Definition append_bytes_impl (args : list val) (env : loc) : prog (res val) :=
  bs <-? append_bytes_of args ;; b <- do_op (OBytesNew bs) ;; ok (VBytes b).
Definition append_bytes_bang_impl (args : list val) (env : loc) : prog (res val) :=
  bs <-? append_bytes_of args ;;
  match arg 0 args with
  | VBytes b => do_op (OBytesPut b bs) ;;; ok (arg 0 args)
  | _ => Panic nil_deref
  end.
(** prim_bytearray.go:235 ExtractBytesImpl *)
Definition extract_bytes_impl (args : list val) (env : loc) : prog (res val) :=
  need_bytes "Bytearray object should return []byte but returned " (arg 0 args) (fun b =>
    bs <- do_op (OBytesGet b) ;;
    let len := Z.of_nat (length bs) in
    match arg 1 args with
    | VInt i =>
        if (i <? 0) || (len <=? i) then
          fail ("extract-bytes index was out of range. Was " +++ string_of_Z i +++
                " but bytearray has length of " +++ string_of_Z len +++ ".")
        else
          match arg 2 args with
          | VInt n =>
              if n <? 0 then fail "Number to extract can not be negative."
              else if len <? wrap64 (i + n) then
                fail ("extract-bytes final index was out of range.  Was " +++ string_of_Z (wrap64 (i + n - 1)) +++
                      " but bytearray has length of " +++ string_of_Z len +++ ".")
              else
                d <-? drop_impl [arg 1 args; arg 0 args] env ;;
                take_impl [arg 2 args; d] env
          | v => fail ("Number to extract must be a number, but was " +++ type_name v +++ ".")
          end
    | _ => fail "Bytearray index should be a number."
    end).
(** prim_bytearray.go:15-26 *)
Definition bytearray_prims : list prim :=
  [ func "list-to-bytearray" "1" list_to_bytes_impl; func "list->bytearray" "1" list_to_bytes_impl;
    func "bytearray-to-list" "1" bytes_to_list_impl; func "bytearray->list" "1" bytes_to_list_impl;
    func "replace-byte" "3" (replace_byte_impl true); func "replace-byte!" "3" (replace_byte_impl false);
    func "extract-byte" "2" extract_byte_impl; func "append-bytes" "*" append_bytes_impl;
    func "append-bytes!" "*" append_bytes_bang_impl; func "extract-bytes" "3" extract_bytes_impl ].

(** ** prim_relative_logical.go *)

(** prim_relative_logical.go:31, 48, 77, 94: both operands are converted to float32. *)
Definition compare_impl (t : f32 -> f32 -> bool) (args : list val) (env : loc) : prog (res val) :=
  need_number "Number expected, received " (arg 0 args)
    (need_number "Number expected, received " (arg 1 args)
       (lisp_bool (t (float_value (arg 0 args)) (float_value (arg 1 args))))).
(** prim_relative_logical.go:65 EqualToImpl, 71 NotEqualImpl *)
Definition equal_impl (args : list val) (env : loc) : prog (res val) :=
  e <- call (REqual (arg 0 args) (arg 1 args)) ;; lisp_bool e.
Definition not_equal_impl (args : list val) (env : loc) : prog (res val) :=
  e <- call (REqual (arg 0 args) (arg 1 args)) ;; lisp_bool (negb e).
(** prim_relative_logical.go:111 BooleanNotImpl *)
Definition not_impl (args : list val) (env : loc) : prog (res val) :=
  b <- boolean_value (arg 0 args) ;; lisp_bool (negb b).
(** prim_relative_logical.go:115 BooleanAndImpl, 125 BooleanOrImpl *)
Fixpoint logic_go (stop_on : bool) (l : list val) (env : loc) (last : val) : prog (res val) :=
  match l with
  | [] => ok last
  | x :: r =>
      v <-? eval x env ;; b <- boolean_value v ;;
      if Bool.eqb b stop_on then ok v else logic_go stop_on r env v
  end.
Definition and_impl (args : list val) (env : loc) : prog (res val) := logic_go false args env VNil.
Definition or_impl (args : list val) (env : loc) : prog (res val) := logic_go true args env VNil.
(** prim_relative_logical.go:14-29 *)
Definition relative_prims : list prim :=
  [ func "<" "2" (compare_impl f32_ltb); func ">" "2" (compare_impl (fun a b => f32_ltb b a));
    func "==" "2" equal_impl; func "eqv?" "2" equal_impl; func "eq?" "2" equal_impl;
    func "equal?" "2" equal_impl; func "!=" "2" not_equal_impl; func "neq?" "2" not_equal_impl;
    func "<=" "2" (compare_impl f32_leb); func ">=" "2" (compare_impl (fun a b => f32_leb b a));
    func "!" "1" not_impl; func "not" "1" not_impl; special "and" "*" and_impl; special "or" "*" or_impl ].

(** ** prim_type_predicates.go:32-95 *)
Definition pred_of (t : val -> bool) (args : list val) (env : loc) : prog (res val) :=
  lisp_bool (t (arg 0 args)).
Definition nilp_impl (args : list val) (env : loc) : prog (res val) :=
  n <- nilp (arg 0 args) ;; lisp_bool n.
Definition notnilp_impl (args : list val) (env : loc) : prog (res val) :=
  n <- nilp (arg 0 args) ;; lisp_bool (negb n).
(** prim_type_predicates.go:10-30 *)
Definition type_prims : list prim :=
  map (fun '(n, t) => func n "1" (pred_of t))
    [ ("atom?", fun v => numberp v || symbolp v || stringp v || booleanp v);
      ("list?", pairp); ("pair?", pairp); ("alist?", alistp);
      ("symbol?", symbolp); ("string?", stringp); ("integer?", integerp); ("number?", numberp);
      ("float?", floatp); ("function?", function_or_primp); ("macro?", macrop); ("frame?", framep);
      ("bytearray?", bytesp); ("port?", portp); ("boolean?", booleanp) ]
  ++ [ func "nil?" "1" nilp_impl; func "null?" "1" nilp_impl;
       func "notnil?" "1" notnilp_impl; func "notnull?" "1" notnilp_impl ].
