(** What C72 means: programs of the functional core (SpecCore.v) that go wrong. *)
From Verif Require Export SpecCore.
Local Open Scope string_scope.
Local Open Scope list_scope.
Local Open Scope Z_scope.

(** The parameters, the body and the local names of a function; other values cannot be called. *)
Definition callable (v : value) : option (list string * expr * list (string * value)) :=
  match v with
  | Closure xs body ns => Some (xs, body, ns)
  | Looping x xs body ns => Some (xs, body, (x, v) :: ns)
  | _ => None
  end.
(** How many arguments the built-in functions take. *)
Definition takes (n : string) (k : nat) : Prop :=
  (In n ["car"; "cdr"; "null?"; "length"; "string-length"; "not"; "succ"; "pred"; "even?"; "odd?"; "zero?"; "positive?"; "negative?"; "reverse"] -> k = 1%nat) /\
  (In n ["%"; "<"; ">"; "<="; ">="; "=="; "cons"; "filter"] -> k = 2%nat) /\
  (n = "map" -> (2 <= k)%nat) /\ (n = "fold-left" -> k = 3%nat).
(** Arithmetic and comparisons refuse everything that is not a number. *)
Definition no_number (v : value) : Prop := match v with Number _ => False | _ => True end.
Inductive refuses : string -> list value -> Prop :=
| r_arithmetic n zs v rest : In n ["+"; "-"; "*"; "quotient"] -> no_number v -> refuses n (map Number zs ++ v :: rest)
| r_pair n a b : In n ["%"; "<"; ">"; "<="; ">="] -> no_number a \/ no_number b -> refuses n [a; b]
| r_single n v : In n ["succ"; "pred"; "even?"; "odd?"; "zero?"; "positive?"; "negative?"] -> no_number v -> refuses n [v]
(** Division by zero.  (For "%" it is a panic of the interpreter: see C25.) *)
| r_zero a : refuses "quotient" [Number a; Number 0].

(** [goes_wrong G ns e]: the evaluation of [e] ends with an error.  It does if an expression that is reached goes wrong;
    everything evaluated before it has a value. *)
Inductive goes_wrong (G : globals) : list (string * value) -> expr -> Prop :=
(** Calls: of something that is not a function, with the wrong number of arguments, or something inside goes wrong. *)
| w_operator ns f es : goes_wrong G ns f -> goes_wrong G ns (Call f es)
| w_no_function ns f es v : means G ns f v -> callable v = None -> goes_wrong G ns (Call f es)
| w_count ns f es v xs body ns' : means G ns f v -> callable v = Some (xs, body, ns') -> length es <> length xs -> goes_wrong G ns (Call f es)
| w_argument ns f es v xs body ns' before e after vs : means G ns f v -> callable v = Some (xs, body, ns') -> length es = length xs ->
    es = before ++ e :: after -> means_all G ns before vs -> goes_wrong G ns e -> goes_wrong G ns (Call f es)
| w_body ns f es v xs body ns' vs : means G ns f v -> callable v = Some (xs, body, ns') -> length es = length xs ->
    means_all G ns es vs -> goes_wrong G (combine xs vs ++ ns') body -> goes_wrong G ns (Call f es)
(** Choices: the test, or the branch that is taken. *)
| w_test ns c t e : goes_wrong G ns c -> goes_wrong G ns (If c t e)
| w_branch ns c t e b : means G ns c b -> goes_wrong G ns (if counts_true b then t else e) -> goes_wrong G ns (If c t e)
| w_cond_test ns cs bs t e rest o : means_all G ns (map fst cs) bs -> Forall (fun b => counts_true b = false) bs ->
    goes_wrong G ns t -> goes_wrong G ns (Cond (cs ++ (t, e) :: rest) o)
| w_cond_clause ns cs bs t e b rest o : means_all G ns (map fst cs) bs -> Forall (fun b => counts_true b = false) bs ->
    means G ns t b -> counts_true b = true -> goes_wrong G ns e -> goes_wrong G ns (Cond (cs ++ (t, e) :: rest) o)
| w_cond_else ns cs bs e : means_all G ns (map fst cs) bs -> Forall (fun b => counts_true b = false) bs ->
    goes_wrong G ns e -> goes_wrong G ns (Cond cs (Some e))
| w_and ns es vs e rest : means_all G ns es vs -> Forall (fun v => counts_true v = true) vs -> goes_wrong G ns e -> goes_wrong G ns (And (es ++ e :: rest))
| w_or ns es vs e rest : means_all G ns es vs -> Forall (fun v => counts_true v = false) vs -> goes_wrong G ns e -> goes_wrong G ns (Or (es ++ e :: rest))
| w_begin ns es vs e rest : means_all G ns es vs -> goes_wrong G ns e -> goes_wrong G ns (Begin (es ++ e :: rest))
(** let and named let: an initial value, or the body. *)
| w_init ns before x e after body vs : means_all G ns (map snd before) vs -> goes_wrong G ns e -> goes_wrong G ns (Let (before ++ (x, e) :: after) body)
| w_let ns bs body vs : means_all G ns (map snd bs) vs -> goes_wrong G (combine (map fst bs) vs ++ ns) body -> goes_wrong G ns (Let bs body)
| w_loop_init ns name before x e after body vs : means_all G ns (map snd before) vs -> goes_wrong G ns e ->
    goes_wrong G ns (Loop name (before ++ (x, e) :: after) body)
| w_loop ns x bs body vs : means_all G ns (map snd bs) vs ->
    goes_wrong G (combine (map fst bs) vs ++ (x, Looping x (map fst bs) body ns) :: ns) body -> goes_wrong G ns (Loop x bs body)
(** Built-in functions: the wrong number of arguments, an argument that goes wrong, or arguments that are refused. *)
| w_builtin_count ns n es : ~ takes n (length es) -> goes_wrong G ns (Builtin n es)
| w_builtin_argument ns n es before e after vs : es = before ++ e :: after -> means_all G ns before vs -> goes_wrong G ns e -> goes_wrong G ns (Builtin n es)
| w_refused ns n es vs : means_all G ns es vs -> refuses n vs -> goes_wrong G ns (Builtin n es)
(** The function given to map, filter or fold-left goes wrong for some element; or filter's does not answer #t or #f. *)
| w_map ns f l x body ns' before v after ws : means_all G ns [f; l] [Closure [x] body ns'; Items (before ++ v :: after)] ->
    fits (before ++ v :: after) -> means_each G x body ns' before ws -> goes_wrong G ((x, v) :: ns') body -> goes_wrong G ns (Builtin "map" [f; l])
| w_filter ns f l x body ns' before v after bs : means_all G ns [f; l] [Closure [x] body ns'; Items (before ++ v :: after)] ->
    Forall (fun v => v <> Items []) (before ++ v :: after) -> means_each G x body ns' before (map Boolean bs) -> goes_wrong G ((x, v) :: ns') body ->
    goes_wrong G ns (Builtin "filter" [f; l])
| w_answer ns f l x body ns' vs ws w : means_all G ns [f; l] [Closure [x] body ns'; Items vs] ->
    Forall (fun v => v <> Items []) vs -> means_each G x body ns' vs ws -> In w ws -> (forall b, w <> Boolean b) -> goes_wrong G ns (Builtin "filter" [f; l])
| w_fold ns f i l x y body ns' a before b v after : means_all G ns [f; i; l] [Closure [x; y] body ns'; a; Items (before ++ v :: after)] ->
    means_fold G x y body ns' a before b -> goes_wrong G ((x, b) :: (y, v) :: ns') body -> goes_wrong G ns (Builtin "fold-left" [f; i; l]).
(** (fold-left (lambda (a x) (+ a x)) 0 '(...)) *)
Definition adding (ds : list tree) : expr :=
  Builtin "fold-left" [Lambda ["a"; "x"] (Builtin "+" [Name "a"; Name "x"]); Num 0; Quote (XList ds)].
