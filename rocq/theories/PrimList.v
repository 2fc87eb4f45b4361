(** Model of prim_list_access.go, prim_list_functions.go, prim_list_manipulation.go,
    prim_list_set.go, prim_alist.go and prim_mutators.go. *)
From Verif Require Export PrimSpecial.
Local Open Scope string_scope.
Local Open Scope list_scope.
Local Open Scope Z_scope.

(** data.go:1247 ApplyWithoutEval *)
Definition apply_noeval (f args : val) (env : loc) : prog (res val) := call (RApply false f args env).
Definition lisp_bool (b : bool) : prog (res val) := ok (VBool b).
(** An error whose text ends with the printed form of a value. *)
Definition fail_got {A} (before : string) (v : val) : prog (res A) :=
  s <- call (RString v) ;; fail (before +++ s +++ ".").

(** ** prim_list_access.go *)

(** prim_list_access.go:76-194 CarImpl ... CddddrImpl *)
Definition walk_impl (path : string) (args : list val) (env : loc) : prog (res val) :=
  r <- walk_list path (arg 0 args) ;; ok r.
(** prim_list_access.go:196 GeneralCarCdrImpl *)
Definition general_car_cdr_impl (args : list val) (env : loc) : prog (res val) :=
  let path := int_value (arg 1 args) in
  if path =? 0 then fail "general-car-cdr requires a non-zero path specifier"
  else
    r <- loop (fun st : val * Z =>
                 let '(l, p) := st in
                 if p =? 1 then Ret (inr l)
                 else l' <- (if Z.odd p then car l else cdr l) ;; Ret (inl (l', Z.shiftr p 1)))
              (arg 0 args, path) ;;
    ok r.
(** prim_list_access.go:215-253 FirstImpl ... TenthImpl (list_access.go:98-136) *)
Definition nth_const_impl (n : Z) (args : list val) (env : loc) : prog (res val) :=
  r <- nth_of (arg 0 args) n ;; ok r.
(** prim_list_access.go:255 NthImpl *)
Definition nth_impl (args : list val) (env : loc) : prog (res val) :=
  if negb (pairp (arg 0 args)) then fail "First arg to nth must be a list"
  else if negb (integerp (arg 1 args)) then fail "Second arg to nth must be a number"
  else r <- nth_of (arg 0 args) (int_value (arg 1 args)) ;; ok r.

(** The loop of lines 280 and 361: the first [size] elements. *)
Definition take_items (size : Z) (l : val) : prog (list val) :=
  loop (fun st : Z * val * list val =>
          let '(i, c, acc) := st in
          if i <? size then
            n <- nilp c ;;
            if n : bool then Ret (inr (rev acc))
            else a <- car c ;; d <- cdr c ;; Ret (inl (i + 1, d, a :: acc))
          else Ret (inr (rev acc))) (0, l, []).
(** The loop of lines 315 and 383: the cell reached after [size] steps. *)
Definition drop_cells (size : Z) (l : val) : prog val :=
  loop (fun st : Z * val =>
          let '(i, c) := st in
          if i <? size then
            n <- nilp c ;;
            if n : bool then Ret (inr c) else d <- cdr c ;; Ret (inl (i + 1, d))
          else Ret (inr c)) (0, l).
Definition slice_panic : string := "runtime error: slice bounds out of range".
(** The error set for a non-integer count is returned after the work is done. *)
Definition or_fail (bad : bool) (m : string) (r : val) : prog (res val) := if bad then fail m else ok r.
(** prim_list_access.go:270 TakeImpl *)
Definition take_impl (args : list val) (env : loc) : prog (res val) :=
  let n := arg 0 args in
  let bad := negb (integerp n) in
  let m := "take requires a number as its first argument." in
  let size := int_value n in
  match arg 1 args with
  | VBytes b =>
      bs <- do_op (OBytesGet b) ;;
      if Z.of_nat (length bs) <=? size then nb <- do_op (OBytesNew bs) ;; or_fail bad m (VBytes nb)
      else if size <? 0 then Panic slice_panic
      else nb <- do_op (OBytesNew (firstn (Z.to_nat size) bs)) ;; or_fail bad m (VBytes nb)
  | l =>
      if listp l then items <- take_items size l ;; r <- array_to_list items ;; or_fail bad m r
      else fail "take requires a list or bytearray as its second argument."
  end.
(** prim_list_access.go:303 DropImpl *)
Definition drop_impl (args : list val) (env : loc) : prog (res val) :=
  let n := arg 0 args in
  let bad := negb (integerp n) in
  let m := "drop requires a number as its first argument." in
  let size := int_value n in
  match arg 1 args with
  | VBytes b =>
      bs <- do_op (OBytesGet b) ;;
      if Z.of_nat (length bs) <=? size then nb <- do_op (OBytesNew []) ;; or_fail bad m (VBytes nb)
      else if size <? 0 then Panic slice_panic
      else nb <- do_op (OBytesNew (skipn (Z.to_nat size) bs)) ;; or_fail bad m (VBytes nb)
  | l =>
      if listp l then r <- drop_cells size l ;; or_fail bad m r
      else fail "drop requires a list or bytearray as its second argument."
  end.
(** prim_list_access.go:336 ListRefImpl *)
Definition list_ref_impl (args : list val) (env : loc) : prog (res val) :=
  if negb (pairp (arg 0 args)) then fail "First arg to list-ref must be a list"
  else if negb (integerp (arg 1 args)) then fail "Second arg to list-ref must be a number"
  else r <- nth_of (arg 0 args) (wrap64 (int_value (arg 1 args) + 1)) ;; ok r.
(** prim_list_access.go:351 ListHeadImpl *)
Definition list_head_impl (args : list val) (env : loc) : prog (res val) :=
  let n := arg 1 args in
  let bad := negb (integerp n) in
  if listp (arg 0 args) then
    items <- take_items (int_value n) (arg 0 args) ;; r <- array_to_list items ;;
    or_fail bad "list-head requires a number as its second argument." r
  else fail "list-head requires a list as its first argument.".
(** prim_list_access.go:371 ListTailImpl *)
Definition list_tail_impl (args : list val) (env : loc) : prog (res val) :=
  let n := arg 1 args in
  let bad := negb (integerp n) in
  if listp (arg 0 args) then
    r <- drop_cells (int_value n) (arg 0 args) ;;
    or_fail bad "list-tail requires a number as its second argument." r
  else fail "list-tail requires a list or bytearray as its first argument.".
(** prim_list_access.go:392 LastPairImpl *)
Definition last_pair_impl (args : list val) (env : loc) : prog (res val) :=
  let l := arg 0 args in
  n <- nilp l ;;
  if n : bool then fail "last-pair requires a non-empty list as its argument."
  else if negb (listp l) then fail "last-pair requires a list as its argument."
  else
    r <- loop (fun c => d <- cdr c ;; n <- nilp d ;;
                        if n : bool then Ret (inr c)
                        else d <- cdr c ;;
                             if pairp d then d <- cdr c ;; Ret (inl d) else Ret (inr c)) l ;;
    ok r.

(** prim_list_access.go:15-74 *)
Definition list_access_prims : list prim :=
  map (fun '(n, p) => func n "1" (walk_impl p))
    [ ("car", "a"); ("head", "a"); ("cdr", "d"); ("rest", "d"); ("tail", "d");
      ("caar", "aa"); ("cadr", "ad"); ("cdar", "da"); ("cddr", "dd");
      ("caaar", "aaa"); ("caadr", "aad"); ("cadar", "ada"); ("caddr", "add");
      ("cdaar", "daa"); ("cdadr", "dad"); ("cddar", "dda"); ("cdddr", "ddd");
      ("caaaar", "aaaa"); ("caaadr", "aaad"); ("caadar", "aada"); ("caaddr", "aadd");
      ("cadaar", "adaa"); ("cadadr", "adad"); ("caddar", "adda"); ("cadddr", "addd");
      ("cdaaar", "daaa"); ("cdaadr", "daad"); ("cdadar", "dada"); ("cdaddr", "dadd");
      ("cddaar", "ddaa"); ("cddadr", "ddad"); ("cdddar", "ddda"); ("cddddr", "dddd") ]
  ++ [ func "general-car-cdr" "2" general_car_cdr_impl ]
  ++ map (fun '(n, i) => func n "1" (nth_const_impl i))
    [ ("first", 1); ("second", 2); ("third", 3); ("fourth", 4); ("fifth", 5);
      ("sixth", 6); ("seventh", 7); ("eighth", 8); ("ninth", 9); ("tenth", 10) ]
  ++ [ func "nth" "2" nth_impl; func "take" "2" take_impl; func "drop" "2" drop_impl;
       func "list-ref" "2" list_ref_impl; func "list-head" "2" list_head_impl;
       func "list-tail" "2" list_tail_impl; func "last-pair" "1" last_pair_impl ].

(** ** prim_list_functions.go *)

(** prim_list_functions.go:53-64, 100-108, 141-149, 187-195: check the list arguments and find the
    shortest length.  [stop_on_nil] is `map`, which returns nil at the first empty list. *)
Fixpoint collections (who : string) (stop_on_nil : bool) (l : list val) (cols : list val) (count : Z)
  : prog (res (option (list val * Z))) :=
  match l with
  | [] => ok (Some (rev cols, count))
  | col :: r =>
      if negb (listp col) then
        fail_got (who +++ " needs lists as its other arguments, but got ") col
      else
        n <- (if stop_on_nil then nilp col else Ret false) ;;
        if n : bool then ok None
        else
          len <- length_of col ;;
          collections who stop_on_nil r (col :: cols) (Z.min count len)
  end.
(** Lines 74-79: the next element of each list, advancing all of them. *)
Fixpoint next_args (cols : list val) : prog (list val * list val) :=
  match cols with
  | [] => Ret ([], [])
  | c :: r => a <- car c ;; d <- cdr c ;; '(xs, cs) <- next_args r ;; Ret (a :: xs, d :: cs)
  end.
(** Lines 73-85, 115-126, 157-172, 203-218: call [f] on successive element tuples; [each] may stop. *)
Definition call_tuples {S R} (f : val) (env : loc) (each : S -> val -> prog (S + R)) (fin : S -> prog R)
  (onerr : string -> R) (count : Z) (cols : list val) (s0 : S) : prog R :=
  loop (fun st : Z * list val * S =>
          let '(i, cols, s) := st in
          if i <? count then
            '(xs, cols') <- next_args cols ;;
            al <- array_to_list xs ;;
            r <- apply_noeval f al env ;;
            match r with
            | Err m => Ret (inr (onerr m))
            | Ok v =>
                x <- each s v ;;
                match x with
                | inl s' => Ret (inl (i + 1, cols', s'))
                | inr r => Ret (inr r)
                end
            end
          else r <- fin s ;; Ret (inr r)) (0, cols, s0).
Definition needs_fun {A} (who : string) (f : val) (k : prog (res A)) : prog (res A) :=
  if negb (function_or_primp f)
  then fail_got (who +++ " needs a function as its first argument, but got ") f else k.

(** prim_list_functions.go:43 MapImpl *)
Definition map_impl (args : list val) (env : loc) : prog (res val) :=
  let f := arg 0 args in
  needs_fun "map" f (
    c <-? collections "map" true (tl args) [] int64_max ;;
    match c with
    | None => ok VNil
    | Some (cols, count) =>
        if count =? int64_max then ok VNil
        else
          call_tuples f env (fun acc v => Ret (inl (v :: acc)))
            (fun acc => r <- array_to_list (rev acc) ;; ok r) Err count cols []
    end).
(** prim_list_functions.go:90 ForEachImpl *)
Definition for_each_impl (args : list val) (env : loc) : prog (res val) :=
  let f := arg 0 args in
  needs_fun "foreach" f (
    c <-? collections "foreach" false (tl args) [] int64_max ;;
    match c with
    | None => ok VNil
    | Some (cols, count) =>
        if count =? int64_max then ok VNil
        else call_tuples f env (fun (_ : unit) _ => Ret (inl tt)) (fun _ => ok VNil) Err count cols tt
    end).
(** prim_list_functions.go:131 AnyImpl *)
Definition any_impl (args : list val) (env : loc) : prog (res val) :=
  let f := arg 0 args in
  needs_fun "any" f (
    c <-? collections "any" false (tl args) [] int64_max ;;
    match c with
    | None => ok VNil
    | Some (cols, count) =>
        if count =? int64_max then ok VNil
        else call_tuples f env
               (fun (_ : unit) v => b <- boolean_value v ;;
                                    if b : bool then Ret (inr (Ok (VBool true))) else Ret (inl tt))
               (fun _ => lisp_bool false) Err count cols tt
    end).
(** prim_list_functions.go:177 EveryImpl *)
Definition every_impl (args : list val) (env : loc) : prog (res val) :=
  let f := arg 0 args in
  needs_fun "every" f (
    c <-? collections "every" false (tl args) [] int64_max ;;
    match c with
    | None => ok VNil
    | Some (cols, count) =>
        if count =? int64_max then ok VNil
        else call_tuples f env
               (fun (_ : unit) v => b <- boolean_value v ;;
                                    if b : bool then Ret (inl tt) else Ret (inr (Ok (VBool false))))
               (fun _ => lisp_bool true) Err count cols tt
    end).

(** prim_list_functions.go:223 reduceFoldProc.  Right to left, the caller passes the array reversed. *)
Fixpoint reduce_fold (right : bool) (f : val) (env : loc) (acc : val) (col : list val) : prog (res val) :=
  match col with
  | [] => ok acc
  | c :: r =>
      al <- array_to_list (if right then [c; acc] else [acc; c]) ;;
      v <-? apply_noeval f al env ;;
      reduce_fold right f env v r
  end.
Definition fold_args (who : string) (args : list val) (k : list val -> prog (res val)) : prog (res val) :=
  if negb (function_or_primp (arg 0 args)) then fail (who +++ " needs a function as its first argument")
  else if negb (listp (arg 2 args)) then fail (who +++ " needs a list as its third argument")
  else l <- to_array (arg 2 args) ;; k l.
(** prim_list_functions.go:247, 272, 297, 319 *)
Definition reduce_left_impl (args : list val) (env : loc) : prog (res val) :=
  fold_args "reduce-left" args (fun l =>
    match l with [] => ok (arg 1 args) | x :: r => reduce_fold false (arg 0 args) env x r end).
Definition reduce_right_impl (args : list val) (env : loc) : prog (res val) :=
  fold_args "reduce-right" args (fun l =>
    match rev l with [] => ok (arg 1 args) | x :: r => reduce_fold true (arg 0 args) env x r end).
Definition fold_left_impl (args : list val) (env : loc) : prog (res val) :=
  fold_args "fold-left" args (fun l => reduce_fold false (arg 0 args) env (arg 1 args) l).
Definition fold_right_impl (args : list val) (env : loc) : prog (res val) :=
  fold_args "fold-right" args (fun l => reduce_fold true (arg 0 args) env (arg 1 args) (rev l)).

(** prim_list_functions.go:341 FilterImpl (keep = true), 374 RemoveImpl (keep = false) *)
Definition filter_impl (who : string) (keep : bool) (args : list val) (env : loc) : prog (res val) :=
  let f := arg 0 args in
  needs_fun who f (
    let col := arg 1 args in
    if negb (listp col) then fail_got (who +++ " needs a list as its second argument, but got ") col
    else
      _ <- length_of col ;;
      for_cells (fun acc c =>
                   a <- car c ;; al <- cons a VNil ;;
                   r <- apply_noeval f al env ;;
                   match r with
                   | Err m => Ret (inr (Err m))
                   | Ok v =>
                       if negb (booleanp v) then
                         Ret (inr (Err (who +++ " needs a predicate function as its first argument.")))
                       else
                         b <- boolean_value v ;;
                         if Bool.eqb b keep then x <- car c ;; Ret (inl (x :: acc)) else Ret (inl acc)
                   end)
                (fun acc => r <- array_to_list (rev acc) ;; ok r) col []).
(** prim_list_functions.go:407 MemqImpl *)
Definition memq_impl (args : list val) (env : loc) : prog (res val) :=
  let key := arg 0 args in
  for_cells (fun (_ : unit) c =>
               a <- car c ;; e <- call (REqual key a) ;;
               if e : bool then Ret (inr (Ok c)) else Ret (inl tt))
            (fun _ => lisp_bool false) (arg 1 args) tt.
(** prim_list_functions.go:421 FindTailImpl (tail = true), 450 FindImpl (tail = false).
    An error of the predicate is replaced by the "predicate" error: its result is not a boolean. *)
Definition find_impl (tail : bool) (args : list val) (env : loc) : prog (res val) :=
  let f := arg 0 args in
  let who := if tail then "find-tail" else "find" in
  if negb (function_or_primp f) then
    fail ((if tail then "find-tail/memp" else "find") +++ " needs a function as its first argument")
  else
    let l := arg 1 args in
    if negb (listp l) then fail_got (who +++ " needs a list as its second argument, but got ") l
    else
      for_cells (fun (_ : unit) c =>
                   a <- car c ;; al <- array_to_list [a] ;;
                   r <- apply_noeval f al env ;;
                   match r with
                   | Ok (VBool true) => if tail then Ret (inr (Ok c)) else x <- car c ;; Ret (inr (Ok x))
                   | Ok (VBool false) => Ret (inl tt)
                   | _ => Ret (inr (Err (who +++ " needs a predicate function as its first argument.")))
                   end)
                (fun _ => lisp_bool false) l tt.

(** prim_list_functions.go:15-33 *)
Definition list_function_prims : list prim :=
  [ func "map" ">=2" map_impl; func "for-each" ">=2" for_each_impl;
    func "any" ">=2" any_impl; func "every" ">=2" every_impl;
    func "reduce" "3" reduce_left_impl; func "reduce-left" "3" reduce_left_impl;
    func "reduce-right" "3" reduce_right_impl; func "fold-left" "3" fold_left_impl;
    func "fold-right" "3" fold_right_impl;
    func "filter" "2" (filter_impl "filter" true); func "remove" "2" (filter_impl "remove" false);
    func "memq" "2" memq_impl; func "memv" "2" memq_impl; func "member" "2" memq_impl;
    func "memp" "2" (find_impl true); func "find-tail" "2" (find_impl true);
    func "find" "2" (find_impl false) ].

(** ** prim_list_manipulation.go *)

(** prim_list_manipulation.go:31 MakeListImpl.  `make` of more than 2^45 pointers panics; running
    out of memory below that is not modelled. *)
Definition make_list_impl (args : list val) (env : loc) : prog (res val) :=
  match arg 0 args with
  | VInt k =>
      if k <? 0 then fail "make-list requires a non-negative integer as it's first argument."
      else if 2 ^ 45 <? k then Panic "runtime error: makeslice: cap out of range"
      else r <- array_to_list (repeat (arg 1 args) (Z.to_nat k)) ;; ok r
  | _ => fail "make-list requires a integer as it's first argument."
  end.
(** prim_list_manipulation.go:60 ListImpl: the argument list itself. *)
Definition list_impl (args : list val) (env : loc) : prog (res val) := r <- array_to_list args ;; ok r.
(** prim_list_manipulation.go:64 ConsStarImpl *)
Definition cons_star_impl (args : list val) (env : loc) : prog (res val) :=
  match rev args with
  | [] => Panic slice_panic
  | last :: before => r <- array_to_list_with_tail (rev before) last ;; ok r
  end.
(** prim_list_manipulation.go:70 ListLengthImpl, 74 ConsImpl, 80 ReverseImpl, 84 FlattenImpl,
    88 RecursiveFlattenImpl *)
Definition length_impl (args : list val) (env : loc) : prog (res val) :=
  n <- length_of (arg 0 args) ;; ok (VInt n).
Definition cons_impl (args : list val) (env : loc) : prog (res val) :=
  r <- cons (arg 0 args) (arg 1 args) ;; ok r.
Definition reverse_impl (args : list val) (env : loc) : prog (res val) :=
  r <- reverse (arg 0 args) ;; ok r.
Definition flatten_impl (args : list val) (env : loc) : prog (res val) :=
  r <- flatten (arg 0 args) ;; ok r.
Definition rec_flatten_impl (args : list val) (env : loc) : prog (res val) :=
  call (RRecFlat (arg 0 args)).
(** prim_list_manipulation.go:92 AppendBangImpl *)
Definition append_bang_impl (args : list val) (env : loc) : prog (res val) :=
  l <-? eval (arg 0 args) env ;;
  x <-? eval (arg 1 args) env ;;
  r <- (if listp x then append_bang_list l x else append_bang l x) ;;
  if symbolp (arg 0 args) then set_to env (arg 0 args) r else ok r.
(** prim_list_manipulation.go:116 AppendImpl *)
Fixpoint append_items (l : list val) : prog (list val) :=
  match l with
  | [] => Ret []
  | x :: r =>
      xs <- (if listp x then to_array x else Ret [x]) ;;
      rs <- append_items r ;; Ret (xs ++ rs)
  end.
Definition append_impl (args : list val) (env : loc) : prog (res val) :=
  match args with
  | [] => ok VNil
  | _ => items <- append_items args ;; r <- array_to_list items ;; ok r
  end.
(** prim_list_manipulation.go:139 CopyImpl *)
Definition copy_impl (args : list val) (env : loc) : prog (res val) :=
  r <- call (RCopy (arg 0 args)) ;; ok r.

(** prim_list_manipulation.go:143 partitionBySize.  State: finished pieces (latest first) and the
    current chunk (latest first). *)
Definition partition_by_size (size : Z) (l : val) : prog (res val) :=
  if size <? 1 then fail "partition requires a non negative clump size."
  else
    ps <- for_cells (fun st c =>
             let '(pieces, chunk) := st in
             a <- car c ;;
             if Z.of_nat (length chunk) <? size then Ret (inl (pieces, a :: chunk))
             else p <- array_to_list (rev chunk) ;; Ret (inl (p :: pieces, [a])))
           (fun st => let '(pieces, chunk) := st in
              match chunk with
              | [] => Ret pieces
              | _ => p <- array_to_list (rev chunk) ;; Ret (p :: pieces)
              end) l ([], []) ;;
    r <- array_to_list (rev ps) ;; ok r.
(** prim_list_manipulation.go:167 partitionByPredicate *)
Definition partition_by_predicate (f l : val) (env : loc) : prog (res val) :=
  st <-? for_cells (fun st c =>
            let '(ts, fs) := st in
            a <- car c ;; al <- array_to_list [a] ;;
            r <- apply_noeval f al env ;;
            match r with
            | Err m => Ret (inr (Err m))
            | Ok v =>
                b <- boolean_value v ;; x <- car c ;;
                if b : bool then Ret (inl (x :: ts, fs)) else Ret (inl (ts, x :: fs))
            end)
          (fun st => ok st) l ([], []) ;;
  let '(ts, fs) := st in
  tl <- array_to_list (rev ts) ;; fl <- array_to_list (rev fs) ;;
  r <- array_to_list [tl; fl] ;; ok r.
(** prim_list_manipulation.go:190 PartitionImpl *)
Definition partition_impl (args : list val) (env : loc) : prog (res val) :=
  let d := arg 0 args in
  if negb (integerp d) && negb (function_or_primp d) then
    fail "partition requires an integer or function as it's first argument."
  else if negb (listp (arg 1 args)) then fail "partition requires a list as it's second argument."
  else match d with
       | VInt n => partition_by_size n (arg 1 args)
       | _ => partition_by_predicate d (arg 1 args) env
       end.
(** prim_list_manipulation.go:210 SublistImpl.  The two loops share the index: the first stops at
    index [first] or at the end of the list, the second goes on to [last]. *)
Definition sublist_items (first last : Z) (l : val) : prog (list val) :=
  '(i, c) <- loop (fun st : Z * val => let '(i, c) := st in
               if i <? first then
                 n <- nilp c ;; if n : bool then Ret (inr (i, c)) else d <- cdr c ;; Ret (inl (i + 1, d))
               else Ret (inr (i, c))) (1, l) ;;
  loop (fun st : Z * val * list val => let '(i, c, acc) := st in
          if i <? last then
            n <- nilp c ;;
            if n : bool then Ret (inr (rev acc))
            else a <- car c ;; d <- cdr c ;; Ret (inl (i + 1, d, a :: acc))
          else Ret (inr (rev acc))) (i, c, []).
Definition sublist_impl (args : list val) (env : loc) : prog (res val) :=
  if negb (listp (arg 0 args)) then fail "sublist requires a list as it's first argument."
  else if negb (integerp (arg 1 args)) then
    fail "sublist requires a number as it's second argument (start)."
  else
    let first := int_value (arg 1 args) in
    if first <=? 0 then fail "sublist requires positive indecies."
    else if negb (integerp (arg 2 args)) then
      fail "sublist requires a number as it's third argument (end)."
    else
      let last := int_value (arg 2 args) in
      if last <=? 0 then fail "sublist requires positive indecies."
      else if last <=? first then ok VNil
      else items <- sublist_items first last (arg 0 args) ;; r <- array_to_list items ;; ok r.

(** prim_list_manipulation.go:258 sortCompare: no `self` frame is passed to functions. *)
Definition sort_compare (a b proc : val) (env : loc) : prog (res bool) :=
  l <- array_to_list [a; b] ;;
  v <-? (match proc with
         | VFun f => fun_apply f l env None false
         | _ => apply_noeval proc l env
         end) ;;
  t <- boolean_value v ;; ok t.
(** sort.Slice, modelled as the insertion sort Go uses on up to 12 elements (for longer inputs Go
    mixes in quicksort/heapsort, which may order equal elements differently).  The sorted prefix is
    kept last-element-first, as the inner loop walks it. *)
Fixpoint sort_insert (x proc : val) (env : loc) (sorted : list val) : prog (res (list val)) :=
  match sorted with
  | [] => ok [x]
  | y :: r =>
      lt <-? sort_compare x y proc env ;;
      if lt : bool then r' <-? sort_insert x proc env r ;; ok (y :: r') else ok (x :: sorted)
  end.
Fixpoint sort_slice (l : list val) (proc : val) (env : loc) (sorted : list val) : prog (res (list val)) :=
  match l with
  | [] => ok (rev sorted)
  | x :: r => s <-? sort_insert x proc env sorted ;; sort_slice r proc env s
  end.
(** prim_list_manipulation.go:274 SortImpl *)
Definition sort_impl (args : list val) (env : loc) : prog (res val) :=
  if negb (listp (arg 0 args)) then fail "sort requires a list as it's first argument."
  else if negb (function_or_primp (arg 1 args)) then
    fail "sort requires a function or primitive as it's second argument."
  else
    xs <- to_array (arg 0 args) ;;
    ys <-? sort_slice xs (arg 1 args) env [] ;;
    r <- array_to_list ys ;; ok r.

(** prim_list_manipulation.go:14-29 *)
Definition list_manip_prims : list prim :=
  [ func "list" "*" list_impl; func "make-list" "1|2" make_list_impl; func "length" "1" length_impl;
    func "cons" "2" cons_impl; func "cons*" ">=1" cons_star_impl; func "reverse" "1" reverse_impl;
    func "flatten" "1" flatten_impl; func "flatten*" "1" rec_flatten_impl;
    func "append" "*" append_impl; special "append!" "2" append_bang_impl;
    func "copy" "1" copy_impl; func "partition" "2" partition_impl;
    func "sublist" "3" sublist_impl; func "sort" "2" sort_impl ].

(** ** prim_list_set.go *)

(** prim_list_set.go:20 memp *)
Definition memp (i l : val) : prog bool :=
  for_cells (fun (_ : unit) c =>
               a <- car c ;; e <- call (REqual i a) ;; if e : bool then Ret (inr true) else Ret (inl tt))
            (fun _ => Ret false) l tt.
(** prim_list_set.go:29 UnionImpl *)
Definition union_one (col acc : val) : prog val :=
  for_cells (fun acc c =>
               a <- car c ;; m <- memp a acc ;;
               if m : bool then Ret (inl acc)
               else a <- car c ;; acc' <- append_one acc a ;; Ret (inl acc'))
            (fun acc => Ret acc) col acc.
Fixpoint union_go (l : list val) (acc : val) : prog (res val) :=
  match l with
  | [] => ok acc
  | col :: r =>
      if negb (listp col) then fail_got "union needs lists as its arguments, but got " col
      else acc' <- union_one col acc ;; union_go r acc'
  end.
Definition union_impl (args : list val) (env : loc) : prog (res val) := union_go args VNil.
(** prim_list_set.go:46 IntersectionImpl (drop = false), 71 ComplementImpl (drop = true) *)
Definition prune_one (drop : bool) (col result : val) : prog val :=
  for_cells (fun res c =>
               a <- car c ;; m <- memp a col ;;
               if Bool.eqb m drop then a <- car c ;; res' <- remove_from_list_bang res a ;; Ret (inl res')
               else Ret (inl res))
            (fun res => Ret res) result result.
Fixpoint prune_go (who : string) (drop : bool) (l : list val) (result : val) : prog (res val) :=
  match l with
  | [] => ok result
  | col :: r =>
      if negb (listp col) then fail_got (who +++ " needs lists as its arguments, but got ") col
      else res' <- prune_one drop col result ;; prune_go who drop r res'
  end.
Definition prune_impl (who : string) (drop : bool) (args : list val) (env : loc) : prog (res val) :=
  if negb (listp (arg 0 args)) then fail_got (who +++ " needs lists as its arguments, but got ") (arg 0 args)
  else r <- call (RCopy (arg 0 args)) ;; prune_go who drop (tl args) r.

(** prim_list_set.go:14-18 *)
Definition list_set_prims : list prim :=
  [ func "union" "*" union_impl; func "intersection" "*" (prune_impl "intersection" false);
    func "complement" "*" (prune_impl "complement" true) ].

(** ** prim_alist.go *)

(** prim_alist.go:23 AlistImpl *)
Definition alist_impl (args : list val) (env : loc) : prog (res val) :=
  r <- call (RAlist (arg 0 args)) ;; ok r.
(** prim_alist.go:29 AconsImpl *)
Definition acons_impl (args : list val) (env : loc) : prog (res val) :=
  if pairp (arg 0 args) then fail "Alist key can not be a list"
  else r <- acons (arg 0 args) (arg 1 args) (arg 2 args) ;; ok r.
(** prim_alist.go:46 PairlisImpl.  A nil key sets the error but the loop goes on. *)
Definition pairlis_impl (args : list val) (env : loc) : prog (res val) :=
  let keys := arg 0 args in let values := arg 1 args in
  if negb (pairp keys) then fail "First arg of pairlis must be a list"
  else if negb (pairp values) then fail "Second arg of Pairlis must be a list"
  else
    lk <- length_of keys ;; lv <- length_of values ;;
    if negb (lk =? lv) then fail "Pairlis requires the same number of keys and values"
    else
      n <- nilp (arg 2 args) ;;
      if negb n && negb (pairp (arg 2 args)) then
        fail "Third arg of pairlis must be an association list (if provided)"
      else
        for_cells (fun st c =>
                     let '(vc, result, bad) := st in
                     key <- car c ;; kn <- nilp key ;;
                     value <- car vc ;; result' <- acons key value result ;;
                     vc' <- cdr vc ;;
                     Ret (inl (vc', result', bad || kn)))
                  (fun st => let '(_, result, bad) := st in
                             if bad : bool then fail "Assoc list keys can not be nil" else ok result)
                  keys (values, arg 2 args, false).
(** prim_alist.go:86 AssocImpl, 110 DissocImpl *)
Definition assoc_impl (args : list val) (env : loc) : prog (res val) := assoc (arg 0 args) (arg 1 args).
Definition dissoc_impl (args : list val) (env : loc) : prog (res val) := dissoc (arg 0 args) (arg 1 args).
(** prim_alist.go:92 RassocImpl *)
Definition rassoc_impl (args : list val) (env : loc) : prog (res val) :=
  for_cells (fun (_ : unit) c =>
               pair <- car c ;;
               if negb (pairp pair) && negb (dottedp pair) then
                 Ret (inr (Err "Assoc list must consist of dotted pairs"))
               else
                 v <- cdr pair ;; e <- call (REqual v (arg 0 args)) ;;
                 if e : bool then Ret (inr (Ok pair)) else Ret (inl tt))
            (fun _ => ok VNil) (arg 1 args) tt.

(** prim_alist.go:12-21 *)
Definition alist_prims : list prim :=
  [ func "acons" "2|3" acons_impl; func "pairlis" "2|3" pairlis_impl;
    func "assq" "2" assoc_impl; func "assv" "2" assoc_impl; func "assoc" "2" assoc_impl;
    func "dissoc" "2" dissoc_impl; func "rassoc" "2" rassoc_impl; func "alist" "1" alist_impl ].

(** ** prim_mutators.go *)

(** prim_mutators.go:19 SetVarImpl: the error for a non-symbol is overwritten by the evaluation. *)
Definition set_var_impl (args : list val) (env : loc) : prog (res val) :=
  v <-? eval (arg 1 args) env ;; set_to env (arg 0 args) v.
(** A failed first evaluation leaves a nil pair and its error is overwritten. *)
Definition eval_or_nil (x : val) (env : loc) : prog val :=
  r <- eval x env ;; Ret (match r with Ok v => v | Err _ => VNil end).
(** prim_mutators.go:31 SetCarImpl, 44 SetCdrImpl *)
Definition set_car_impl (args : list val) (env : loc) : prog (res val) :=
  pair <- eval_or_nil (arg 0 args) env ;;
  v <-? eval (arg 1 args) env ;;
  set_car pair v ;;; ok v.
Definition set_cdr_impl (args : list val) (env : loc) : prog (res val) :=
  pair <- eval_or_nil (arg 0 args) env ;;
  v <-? eval (arg 1 args) env ;;
  set_cdr pair v ;;; ok v.
(** prim_mutators.go:58 SetNthImpl *)
Definition set_nth_impl (args : list val) (env : loc) : prog (res val) :=
  l <- eval_or_nil (arg 0 args) env ;;
  i <-? eval (arg 1 args) env ;;
  v <-? eval (arg 2 args) env ;;
  set_nth l (int_value i) v ;;; ok v.

(** prim_mutators.go:12-17 *)
Definition mutator_prims : list prim :=
  [ special "set!" "2" set_var_impl; special "set-car!" "2" set_car_impl;
    special "set-cdr!" "2" set_cdr_impl; special "set-nth!" "3" set_nth_impl ].
