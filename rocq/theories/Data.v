(** Model of data.go, list_access.go and util.go. *)
From Verif Require Export Prog FloatText.
Local Open Scope string_scope.
Local Open Scope list_scope.
Local Open Scope Z_scope.

(** ** Type predicates (data.go:129-223).  A nil pointer is a pair, an alist and a dotted pair. *)
Definition is_nil (v : val) : bool := match v with VNil => true | _ => false end.
(** data.go:149 PairP *)
Definition pairp (v : val) : bool :=
  match v with VNil | VNoCell | VCell TCons _ => true | _ => false end.
(** data.go:161 AlistP *)
Definition alistp (v : val) : bool := match v with VNil | VCell TAlist _ => true | _ => false end.
(** data.go:153 ListP *)
Definition listp (v : val) : bool := pairp v || alistp v.
(** data.go:157 DottedPairP *)
Definition dottedp (v : val) : bool := match v with VNil | VCell TAlistCell _ => true | _ => false end.
(** data.go:165-223 *)
Definition booleanp (v : val) : bool := match v with VBool _ => true | _ => false end.
Definition symbolp (v : val) : bool := match v with VSym _ => true | _ => false end.
Definition stringp (v : val) : bool := match v with VStr _ => true | _ => false end.
Definition integerp (v : val) : bool := match v with VInt _ => true | _ => false end.
Definition floatp (v : val) : bool := match v with VFloat _ => true | _ => false end.
Definition numberp (v : val) : bool := integerp v || floatp v.
Definition objectp (v : val) : bool :=
  match v with VBytes _ | VChan _ | VProc _ | VAtomic _ => true | _ => false end.
Definition functionp (v : val) : bool := match v with VFun _ => true | _ => false end.
Definition primitivep (v : val) : bool := match v with VPrim _ => true | _ => false end.
Definition function_or_primp (v : val) : bool := functionp v || primitivep v.
Definition macrop (v : val) : bool := match v with VMacro _ => true | _ => false end.
Definition framep (v : val) : bool := match v with VFrame _ => true | _ => false end.
Definition environmentp (v : val) : bool := match v with VEnv _ => true | _ => false end.
Definition portp (v : val) : bool := match v with VPort _ => true | _ => false end.
Definition bytesp (v : val) : bool := match v with VBytes _ => true | _ => false end.
(** data.go:173 NakedP *)
Definition naked_name (s : string) : bool := has_suffix ":" s.
Definition nakedp (v : val) : bool := match v with VSym s => naked_name s | _ => false end.

(** data.go:81-126: the type tag, as its name. *)
Definition type_name (v : val) : string :=
  match v with
  | VNil => "Nil"
  | VNoCell | VCell TCons _ => "List"
  | VCell TAlist _ => "Association List"
  | VCell TAlistCell _ => "Association List Cell"
  | VInt _ => "Integer" | VFloat _ => "Float" | VBool _ => "Boolean"
  | VStr _ => "String" | VSym _ => "Symbol" | VFun _ => "Function" | VMacro _ => "Macro"
  | VPrim _ => "Primitive"
  | VBytes _ | VChan _ | VProc _ | VAtomic _ => "Go Object"
  | VFrame _ => "Frame" | VEnv _ => "Environment" | VPort _ => "Port"
  end.
(** The Type field as a number, for equality of tags (data.go:839). *)
Definition type_tag (v : val) : Z :=
  match v with
  | VNil => 0 | VNoCell | VCell TCons _ => 1 | VCell TAlist _ => 2 | VCell TAlistCell _ => 3
  | VInt _ => 4 | VFloat _ => 5 | VBool _ => 6 | VStr _ => 7 | VSym _ => 8 | VFun _ => 9
  | VMacro _ => 10 | VPrim _ => 11 | VBytes _ | VChan _ | VProc _ | VAtomic _ => 12
  | VFrame _ => 13 | VEnv _ => 14 | VPort _ => 15
  end.
(** data.go:563 ObjectType *)
Definition object_type (v : val) : string :=
  match v with
  | VBytes _ => "[]byte" | VChan _ => "Channel" | VProc _ => "Process" | VAtomic _ => "Atomic"
  | _ => ""
  end.

(** Pointer equality of Data (Go ==).  Immediate values carry no identity in the model; every
    place that uses pointer equality on them compares contents as well (data.go:819, 911-921). *)
Definition ptr_eqb (a b : val) : bool :=
  match a, b with
  | VNil, VNil => true
  | VCell _ l, VCell _ m => Pos.eqb l m
  | VStr l, VStr m | VFun l, VFun m | VMacro l, VMacro m | VBytes l, VBytes m
  | VChan l, VChan m | VProc l, VProc m | VAtomic l, VAtomic m | VFrame l, VFrame m
  | VEnv l, VEnv m | VPort l, VPort m => Pos.eqb l m
  | VPrim s, VPrim t => str_eqb s t
  | _, _ => false
  end.

(** ** Cells *)

(** data.go:129-147 NilP / NotNilP *)
Definition nilp (v : val) : prog bool :=
  match v with
  | VNil | VNoCell => Ret true
  | VCell _ l =>
      Vis (OCar l) (fun a =>
      if is_nil a then Vis (OCdr l) (fun d => Ret (is_nil d)) else Ret false)
  | _ => Ret false
  end.
(** data.go:426, 443 Car, Cdr *)
Definition car (v : val) : prog val := match v with VCell _ l => do_op (OCar l) | _ => Ret VNil end.
Definition cdr (v : val) : prog val := match v with VCell _ l => do_op (OCdr l) | _ => Ret VNil end.
(** data.go:225, 230 EmptyCons, Cons *)
Definition cons_t (t : ctag) (a d : val) : prog val := Vis (OCons t a d) (fun l => Ret (VCell t l)).
Definition cons (a d : val) : prog val := cons_t TCons a d.
Definition empty_cons : prog val := cons VNil VNil.
(** Assigning to the Cdr/Car of a Data known to be a cons cell; on a nil cell Go panics. *)
Definition nil_deref : string := "runtime error: invalid memory address or nil pointer dereference".
Definition set_cdr (c v : val) : prog unit :=
  match c with VCell _ l => do_op (OSetCdr l v) | _ => Panic nil_deref end.
Definition set_car (c v : val) : prog unit :=
  match c with VCell _ l => do_op (OSetCar l v) | _ => Panic nil_deref end.

(** data.go:459-513 IntegerValue, FloatValue, StringValue, BooleanValue *)
Definition int_value (v : val) : Z :=
  match v with VInt z => z | VFloat f => int64_of_f32 f | _ => 0 end.
Definition float_value (v : val) : f32 :=
  match v with VFloat f => f | VInt z => f32_of_Z z | _ => f32_zero end.
Definition string_value (v : val) : prog string :=
  match v with VStr l => do_op (OStrGet l) | VSym s => Ret s | _ => Ret "" end.
Definition new_str (s : string) : prog val := Vis (OStrNew s) (fun l => Ret (VStr l)).
Definition boolean_value (v : val) : prog bool :=
  n <- nilp v ;; if n then Ret false else Ret (match v with VBool b => b | _ => true end).

(** list_access.go:12 WalkList: the path is applied from its last letter to its first. *)
Fixpoint walk_rev (path : list ascii) (c : val) : prog val :=
  match path with
  | [] => Ret c
  | x :: rest =>
      match c with
      | VNil => Ret VNil
      | _ =>
          if pairp c || alistp c || dottedp c then
            d <- (if Ascii.eqb x "a" then car c else if Ascii.eqb x "d" then cdr c else Ret VNil) ;;
            walk_rev rest d
          else Ret VNil
      end
  end.
Definition walk_list (path : string) (d : val) : prog val :=
  walk_rev (rev (list_ascii_of_string path)) d.
(** list_access.go:35-83 *)
Definition caar := walk_list "aa".
Definition cadr := walk_list "ad".
Definition cdar := walk_list "da".
Definition cddr := walk_list "dd".
Definition caddr := walk_list "add".
Definition cdddr := walk_list "ddd".

(** ** The loop `for c := d; NotNilP(c); c = Cdr(c) { ... }`.
    The body may stop early with a result; [fin] runs after the loop. *)
Definition for_cells {S R} (body : S -> val -> prog (S + R)) (fin : S -> prog R)
  (d : val) (s0 : S) : prog R :=
  loop (fun st : val * S =>
          let '(c, s) := st in
          b <- nilp c ;;
          if b then (r <- fin s ;; Ret (inr r))
          else
            x <- body s c ;;
            match x with
            | inl s' => c' <- cdr c ;; Ret (inl (c', s'))
            | inr r => Ret (inr r)
            end) (d, s0).

(** The loop `for i := d; i != nil; i = Cdr(i) { ... }`. *)
Definition for_ptrs {S} (body : S -> val -> prog S) (d : val) (s0 : S) : prog S :=
  loop (fun st : val * S =>
          let '(c, s) := st in
          if is_nil c then Ret (inr s)
          else s' <- body s c ;; c' <- cdr c ;; Ret (inl (c', s'))) (d, s0).

(** util.go:39 ToArray *)
Definition to_array (d : val) : prog (list val) :=
  l <- for_cells (fun acc c => a <- car c ;; Ret (inl (a :: acc))) (fun acc => Ret acc) d [] ;;
  Ret (rev l).

(** util.go:10 ArrayToList.  Simplification: the cells are allocated back to front and already
    linked (Go links them one by one; nobody else can see them before the function returns). *)
Fixpoint mk_tail (l : list val) (tl : val) : prog val :=
  match l with
  | [] => Ret tl
  | x :: r =>
      d <- mk_tail r tl ;;
      x' <- (if is_nil x then empty_cons else Ret x) ;;
      cons x' d
  end.
Definition array_to_list (l : list val) : prog val :=
  match l with [] => empty_cons | _ => mk_tail l VNil end.
(** util.go:24 ArrayToListWithTail *)
Definition array_to_list_with_tail (l : list val) (tl : val) : prog val := mk_tail l tl.

(** data.go:624 Length *)
Definition length_of (v : val) : prog Z :=
  match v with
  | VNoCell => Ret 0
  | VCell TCons _ | VCell TAlist _ =>
      for_cells (fun n _ => Ret (inl (n + 1))) (fun n => Ret n) v 0
  | VBytes l => b <- do_op (OBytesGet l) ;; Ret (Z.of_nat (length b))
  | VFrame l => f <- do_op (OFrameAll l) ;; Ret (Z.of_nat (length f))
  | _ => Ret 0
  end.

(** list_access.go:87 Nth *)
Fixpoint cdr_times (n : nat) (c : val) : prog val :=
  match n with O => Ret c | S k => d <- cdr c ;; cdr_times k d end.
Definition nth_of (d : val) (n : Z) : prog val :=
  if is_nil d || (n <? 1) then Ret VNil
  else
    len <- length_of d ;;
    if len <? n then Ret VNil
    else c <- cdr_times (Z.to_nat (n - 1)) d ;; car c.
(** list_access.go:138 SetNth.  The loop runs index-1 times even past the end (Cdr(nil) = nil). *)
Definition set_nth (l : val) (index : Z) (v : val) : prog unit :=
  c <- loop (fun st : val * Z => let '(c, i) := st in
               if 1 <? i then d <- cdr c ;; Ret (inl (d, i - 1)) else Ret (inr c)) (l, index) ;;
  n <- nilp c ;;
  if n then Ret tt else set_car c v.

(** ** Lists *)

(** The loop `for c = l; NotNilP(Cdr(c)); c = Cdr(c) {}`: the last cell. *)
Definition last_cell (l : val) : prog val :=
  loop (fun c => d <- cdr c ;; n <- nilp d ;; if n then Ret (inr c) else (d' <- cdr c ;; Ret (inl d'))) l.

(** data.go:235 AppendBang *)
Definition append_bang (l v : val) : prog val :=
  n <- nilp l ;;
  if n then cons v VNil
  else c <- last_cell l ;; d <- cons v VNil ;; set_cdr c d ;;; Ret l.
(** data.go:249 AppendBangList *)
Definition append_bang_list (l o : val) : prog val :=
  n <- nilp l ;; if n then Ret o else c <- last_cell l ;; set_cdr c o ;;; Ret l.

(** data.go:263 Append *)
Definition append_one (l v : val) : prog val :=
  n <- nilp l ;;
  if n then cons v VNil
  else nl <- call (RCopy l) ;; c <- last_cell nl ;; d <- cons v VNil ;; set_cdr c d ;;; Ret nl.
(** data.go:278 AppendList *)
Definition append_list (l o : val) : prog val :=
  n <- nilp l ;;
  if n then Ret o
  else nl <- call (RCopy l) ;; c <- last_cell nl ;; set_cdr c o ;;; Ret nl.

(** data.go:293 RemoveFromListBang *)
Definition remove_from_list_bang (l item : val) : prog val :=
  for_cells (fun prev c =>
               a <- car c ;; e <- call (REqual item a) ;;
               if e : bool then
                 pn <- nilp prev ;;
                 if pn then (d <- cdr c ;; Ret (inr d))
                 else (d <- cdr c ;; set_cdr prev d ;;; Ret (inr l))
               else Ret (inl c))
            (fun _ => Ret l) l VNil.

(** data.go:653 Reverse *)
Definition reverse (d : val) : prog val :=
  if is_nil d then Ret VNil
  else if negb (listp d) then Ret d
  else for_cells (fun acc c => a <- car c ;; acc' <- cons a acc ;; Ret (inl acc')) (fun acc => Ret acc) d VNil.

(** data.go:670 Flatten *)
Definition flatten (d : val) : prog val :=
  if is_nil d then Ret VNil
  else if negb (listp d) then Ret d
  else
    l <- for_cells (fun acc c =>
           a <- car c ;;
           if listp a then
             acc' <- for_ptrs (fun acc i => x <- car i ;; Ret (x :: acc)) a acc ;; Ret (inl acc')
           else Ret (inl (a :: acc)))
         (fun acc => Ret acc) d [] ;;
    array_to_list (rev l).

(** data.go:693 RecursiveFlatten (it never returns an error). *)
Definition rec_flatten_body (d : val) : prog (res val) :=
  if is_nil d then ok VNil
  else if negb (listp d) then ok d
  else
    l <- for_cells (fun acc c =>
           a <- car c ;;
           if listp a then
             r <- call (RRecFlat a) ;;
             match r with
             | Err m => Ret (inr (Err m))
             | Ok e => acc' <- for_ptrs (fun acc i => x <- car i ;; Ret (x :: acc)) e acc ;; Ret (inl acc')
             end
           else Ret (inl (a :: acc)))
         (fun acc => Ret (Ok acc)) d [] ;;
    match l with Err m => fail m | Ok l => r <- array_to_list (rev l) ;; ok r end.

(** data.go:721 QuoteIt, 729 QuoteAll *)
Definition quote_it (v : val) : prog val :=
  match v with
  | VNil => e <- cons VNil VNil ;; array_to_list [VSym "quote"; e]
  | _ => array_to_list [VSym "quote"; v]
  end.
Definition quote_all (d : val) : prog val :=
  match d with
  | VNil => q <- quote_it VNil ;; array_to_list [q]
  | _ =>
      l <- for_ptrs (fun acc c => a <- car c ;; q <- quote_it a ;; Ret (q :: acc)) d [] ;;
      array_to_list (rev l)
  end.

(** ** Association lists *)

Definition alist_err : string := "An alist MUST be made of pairs.".
(** data.go:741 Assoc *)
Definition assoc (key alist : val) : prog (res val) :=
  for_cells (fun (_ : unit) c =>
               pair <- car c ;;
               if negb (dottedp pair) && negb (pairp pair) then Ret (inr (Err alist_err))
               else
                 k <- car pair ;; e <- call (REqual k key) ;;
                 if e : bool then Ret (inr (Ok pair)) else Ret (inl tt))
            (fun _ => ok VNil) alist tt.
(** data.go:309 Acons: an error from Assoc is ignored (its result is then nil). *)
Definition acons (a d alist : val) : prog val :=
  r <- assoc a alist ;;
  let pair := match r with Ok p => p | Err _ => VNil end in
  n <- nilp pair ;;
  if n then c <- cons_t TAlistCell a d ;; cons_t TAlist c alist
  else set_cdr pair d ;;; Ret alist.
(** data.go:322 Alist *)
Definition alist_body (d : val) : prog val :=
  n <- nilp d ;;
  if n then Ret VNil
  else if pairp d then
    h <- car d ;; a <- car h ;; b <- cdr h ;; t <- cdr d ;;
    r <- call (RAlist t) ;; acons a b r
  else Ret d.
(** data.go:756 Dissoc *)
Definition dissoc (key alist : val) : prog (res val) :=
  for_cells (fun acc c =>
               pair <- car c ;;
               if negb (dottedp pair) && negb (pairp pair) then Ret (inr (Err alist_err))
               else
                 k <- car pair ;; e <- call (REqual k key) ;;
                 if e : bool then Ret (inl acc)
                 else k <- car pair ;; v <- cdr pair ;; acc' <- acons k v acc ;; Ret (inl acc'))
            (fun acc => ok acc) alist VNil.

(** ** Map iteration order: Go's `range` over a map visits entries in an unspecified order; the
    oracle picks the next entry each time. *)
Fixpoint remove_nth {A} (n : nat) (l : list A) : list A :=
  match l, n with
  | [], _ => []
  | _ :: t, O => t
  | x :: t, S k => x :: remove_nth k t
  end.
Fixpoint permute {A} (fuel : nat) (l : list A) : prog (list A) :=
  match fuel, l with
  | O, _ => Ret l
  | S f, [] => Ret []
  | S f, _ =>
      z <- do_op OChoose ;;
      let i := Z.to_nat (z mod Z.of_nat (length l)) in
      match nth_error l i with
      | Some x => r <- permute f (remove_nth i l) ;; Ret (x :: r)
      | None => Ret l
      end
  end.
Definition range_map {A} (l : list A) : prog (list A) := permute (length l) l.

(** ** Copy (data.go:771) *)
Fixpoint copy_slots (l : list (string * val)) (acc : list (string * val)) : prog (list (string * val)) :=
  match l with
  | [] => Ret acc
  | (k, v) :: r => v' <- call (RCopy v) ;; copy_slots r (aset k v' acc)
  end.
Definition copy_pair_onto (c acc : val) : prog val :=
  k <- caar c ;; k' <- call (RCopy k) ;; v <- cdar c ;; v' <- call (RCopy v) ;; acons k' v' acc.
Definition copy_body (d : val) : prog val :=
  match d with
  | VCell TAlist _ =>
      a0 <- copy_pair_onto d VNil ;;
      t <- cdr d ;;
      for_cells (fun acc c => acc' <- copy_pair_onto c acc ;; Ret (inl acc')) (fun acc => Ret acc) t a0
  | VCell TCons _ =>
      n <- nilp d ;;
      if n then Ret d
      else a <- car d ;; a' <- call (RCopy a) ;; b <- cdr d ;; b' <- call (RCopy b) ;; cons a' b'
  | VFrame l =>
      (* order of copying is irrelevant to the result, but each copy may allocate *)
      slots <- do_op (OFrameAll l) ;; slots <- range_map slots ;;
      m <- copy_slots slots [] ;;
      f <- do_op (OFrameNew m) ;; Ret (VFrame f)
  | VBytes l => b <- do_op (OBytesGet l) ;; l' <- do_op (OBytesNew b) ;; Ret (VBytes l')
  | _ => Ret d
  end.

(** ** IsEqual (data.go:818) *)

Fixpoint bytes_eqb (a b : list Z) : bool :=
  match a, b with
  | [], [] => true
  | x :: s, y :: t => (x =? y) && bytes_eqb s t
  | _, _ => false
  end.
(** data.go:864: two lists in step. *)
Definition equal_lists (d o : val) : prog bool :=
  loop (fun st : val * val =>
          let '(a1, a2) := st in
          n <- nilp a1 ;;
          if n then Ret (inr true)
          else
            x <- car a1 ;; y <- car a2 ;; e <- call (REqual x y) ;;
            if e : bool then d1 <- cdr a1 ;; d2 <- cdr a2 ;; Ret (inl (d1, d2))
            else Ret (inr false)) (d, o).
Fixpoint equal_slots (l : list (string * val)) (fo : loc) : prog bool :=
  match l with
  | [] => Ret true
  | (k, v) :: r =>
      w <- do_op (OFrameFind fo k) ;;
      e <- call (REqual v (match w with Some x => x | None => VNil end)) ;;
      if e : bool then equal_slots r fo else Ret false
  end.
Definition equal_alists (d o : val) : prog bool :=
  for_cells (fun (_ : unit) c =>
               k <- caar c ;; r <- assoc k o ;;
               match r with
               | Err _ => Ret (inr false)
               | Ok other =>
                   n <- nilp other ;;
                   if n then Ret (inr false)
                   else
                     v <- cdar c ;; w <- cdr other ;; e <- call (REqual v w) ;;
                     if e : bool then Ret (inl tt) else Ret (inr false)
               end)
            (fun _ => Ret true) d tt.
Definition equal_body (d o : val) : prog bool :=
  if ptr_eqb d o && negb (floatp d) then Ret true
  else
    nd <- nilp d ;; no <- (if nd : bool then nilp o else Ret false) ;;
    if nd && no then Ret true
    else if is_nil d || is_nil o then Ret false
    else
      let compatible :=
        if alistp d then alistp o || listp o
        else if dottedp d then pairp o || dottedp o
        else type_tag o =? type_tag d in
      if negb compatible then Ret false
      else if alistp d then
        ld <- length_of d ;; lo <- length_of o ;;
        if negb (ld =? lo) then Ret false else equal_alists d o
      else if dottedp d then
        a <- car d ;; b <- car o ;; e <- call (REqual a b) ;;
        if e : bool then x <- cdr d ;; y <- cdr o ;; call (REqual x y) else Ret false
      else if listp d then
        ld <- length_of d ;; lo <- length_of o ;;
        if negb (ld =? lo) then Ret false else equal_lists d o
      else
        match d, o with
        | VFrame fd, VFrame fo =>
            sd <- do_op (OFrameAll fd) ;; so <- do_op (OFrameAll fo) ;;
            if negb (Nat.eqb (length sd) (length so)) then Ret false
            else sd <- range_map sd ;; equal_slots sd fo
        | VBytes a, VBytes b =>
            x <- do_op (OBytesGet a) ;; y <- do_op (OBytesGet b) ;; Ret (bytes_eqb x y)
        | VInt a, VInt b => Ret (a =? b)
        | VFloat a, VFloat b => Ret (f32_eqb a b)
        | VBool a, VBool b => Ret (Bool.eqb a b)
        | VStr a, VStr b => x <- do_op (OStrGet a) ;; y <- do_op (OStrGet b) ;; Ret (str_eqb x y)
        | VSym a, VSym b => Ret (str_eqb a b)
        | _, _ => Ret (ptr_eqb d o)
        end.

(** ** String (data.go:944) *)

(** data.go:933 escapeQuotes.  The string is decoded to runes and re-encoded, so invalid UTF-8
    becomes U+FFFD. *)
Fixpoint escape_runes (l : list rune) : list rune :=
  match l with
  | [] => []
  | c :: t => if c =? 34 then 92 :: c :: escape_runes t else c :: escape_runes t
  end.
Definition escape_quotes (s : string) : string := string_of_runes (escape_runes (runes_of_string s)).

Definition quoted (s : string) : string := """" +++ escape_quotes s +++ """".

(** sort.Strings on the (distinct) keys. *)
Fixpoint insert_key (k : string * val) (l : list (string * val)) : list (string * val) :=
  match l with
  | [] => [k]
  | h :: t => if str_ltb (fst h) (fst k) then h :: insert_key k t else k :: l
  end.
Definition sort_keys (l : list (string * val)) : list (string * val) := fold_right insert_key [] l.

Fixpoint string_slots (l : list (string * val)) : prog (list string) :=
  match l with
  | [] => Ret []
  | (k, v) :: r => s <- call (RString v) ;; t <- string_slots r ;; Ret ((k +++ " " +++ s) :: t)
  end.

(** Opaque objects print an address, which the model leaves out. *)
Definition string_body (d : val) : prog string :=
  match d with
  | VNil | VNoCell => Ret "()"
  | VCell TCons _ =>
      n <- nilp d ;;
      if n then Ret "()"
      else
        '(c, contents) <- loop (fun st : val * list string =>
             let '(c, acc) := st in
             n <- nilp c ;;
             if negb n && pairp c then
               a <- car c ;; s <- call (RString a) ;; c' <- cdr c ;; Ret (inl (c', acc ++ [s]))
             else Ret (inr (c, acc))) (d, []) ;;
        n <- nilp c ;;
        if n then
          a <- car d ;;
          match a with
          | VSym "quote" =>
              match contents with
              | _ :: q :: _ => Ret ("'" +++ q)
              | _ => Ret "'()"
              end
          | _ => Ret ("(" +++ str_join " " contents +++ ")")
          end
        else s <- call (RString c) ;; Ret ("(" +++ str_join " " contents +++ " . " +++ s +++ ")")
  | VCell TAlist _ =>
      n <- nilp d ;;
      if n then Ret "()"
      else
        contents <- for_cells (fun acc c => a <- car c ;; s <- call (RString a) ;; Ret (inl (acc ++ [s])))
                              (fun acc => Ret acc) d [] ;;
        Ret ("(" +++ str_join " " contents +++ ")")
  | VCell TAlistCell _ =>
      a <- car d ;; s <- call (RString a) ;; b <- cdr d ;; t <- call (RString b) ;;
      Ret ("(" +++ s +++ " . " +++ t +++ ")")
  | VInt z => Ret (string_of_Z z)
  | VFloat f => Ret (f32_string f)
  | VBool b => Ret (if b then "#t" else "#f")
  | VStr l => s <- do_op (OStrGet l) ;; Ret (quoted s)
  | VSym s => Ret s
  | VFun l => f <- do_op (OFunGet l) ;; Ret ("<function: " +++ f_name f +++ ">")
  | VMacro l => m <- do_op (OMacGet l) ;; Ret ("<macro: " +++ m_name m +++ ">")
  | VPrim n => Ret ("<prim: " +++ n +++ ">")
  | VBytes l =>
      b <- do_op (OBytesGet l) ;; Ret ("[" +++ str_join " " (map string_of_Z b) +++ "]")
  | VChan _ | VProc _ | VAtomic _ => Ret ("<opaque Go object of type " +++ object_type d +++ ">")
  | VFrame l =>
      slots <- do_op (OFrameAll l) ;;
      ps <- string_slots (sort_keys slots) ;;
      Ret ("{" +++ str_join " " ps +++ "}")
  | VEnv l => n <- do_op (OEnvName l) ;; Ret ("<environment: " +++ n +++ ">")
  | VPort _ => Ret "<port>"
  end.
(** data.go:1063 PrintString *)
Definition print_string (v : val) : prog string :=
  match v with VStr l => do_op (OStrGet l) | _ => call (RString v) end.

(** ** Shortcuts (data.go:1071 postProcessShortcuts).
    Go appends [tl] to the list it has just made; the model makes the list with that tail. *)
Definition shortcut (l : list val) (tl : val) : prog val := array_to_list_with_tail l tl.
Definition post_process_shortcuts (d : val) : prog val :=
  f <- car d ;;
  match f with
  | VSym s =>
      if has_prefix "<-" s then
        t <- cdr d ;; shortcut [VSym "channel-read"; VSym (trim_prefix "<-" s)] t
      else if has_suffix "<-" s then
        t <- cdr d ;; shortcut [VSym "channel-write"; VSym (trim_suffix "<-" s)] t
      else if has_suffix ":" s then
        x <- cadr d ;; y <- car d ;; t <- cddr d ;; shortcut [VSym "get-slot"; x; y] t
      else if has_suffix ":!" s then
        x <- cadr d ;; y <- caddr d ;; t <- cdddr d ;;
        shortcut [VSym "set-slot!"; x; VSym (trim_suffix "!" s); y] t
      else if has_suffix ":?" s then
        x <- cadr d ;; t <- cddr d ;; shortcut [VSym "has-slot?"; x; VSym (trim_suffix "?" s)] t
      else if has_suffix ":>" s then
        x <- cadr d ;; t <- cddr d ;; shortcut [VSym "send"; x; VSym (trim_suffix ">" s)] t
      else if has_suffix ":^" s then
        t <- cdr d ;; shortcut [VSym "send-super"; VSym (trim_suffix "^" s)] t
      else Ret d
  | _ => Ret d
  end.
