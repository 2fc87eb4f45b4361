(** What C67 means: a small functional language, what its programs compute, and how values look in memory. *)
From Verif Require Export SpecMath SpecText.
Local Open Scope string_scope.
Local Open Scope list_scope.
Local Open Scope Z_scope.

(** ** The language *)
Inductive expr :=
| Num (z : Z)
| Truth (b : bool)
| Text (t : string)
| Quote (d : tree)
| Name (x : string)
| Lambda (xs : list string) (body : expr)
| Call (f : expr) (es : list expr)
| If (c t e : expr)
| Cond (cs : list (expr * expr)) (otherwise : option expr)
| And (es : list expr)
| Or (es : list expr)
| Begin (es : list expr)
| Let (bs : list (string * expr)) (body : expr)
| Loop (x : string) (bs : list (string * expr)) (body : expr)
| Builtin (name : string) (es : list expr).
(** Numbers, booleans, strings, symbols, lists, and functions together with the local names they can see; the function
    of a named let also sees itself under its name. *)
Inductive value :=
| Number (z : Z)
| Boolean (b : bool)
| Characters (t : string)
| Symbol (x : string)
| Items (vs : list value)
| Closure (xs : list string) (body : expr) (names : list (string * value))
| Looping (x : string) (xs : list string) (body : expr) (names : list (string * value)).

(** How an expression is written. *)
Fixpoint written (e : expr) : tree :=
  match e with
  | Num z => XInt z
  | Truth b => XBool b
  | Text t => XStr t
  | Quote d => XList [XSym "quote"; d]
  | Name x => XSym x
  | Lambda xs body => XList [XSym "lambda"; XList (map XSym xs); written body]
  | Call f es => XList (written f :: map written es)
  | If c t e => XList [XSym "if"; written c; written t; written e]
  | Cond cs o => XList (XSym "cond" :: map (fun c => XList [written (fst c); written (snd c)]) cs ++
                          match o with Some e => [XList [XSym "else"; written e]] | None => [] end)
  | And es => XList (XSym "and" :: map written es)
  | Or es => XList (XSym "or" :: map written es)
  | Begin es => XList (XSym "begin" :: map written es)
  | Let bs body => XList [XSym "let"; XList (map (fun b => XList [XSym (fst b); written (snd b)]) bs); written body]
  | Loop x bs body => XList [XSym "let"; XSym x; XList (map (fun b => XList [XSym (fst b); written (snd b)]) bs); written body]
  | Builtin n es => XList (XSym n :: map written es)
  end.

(** ** What expressions mean *)
(** #f and the empty list count as false. *)
Definition counts_true (v : value) : bool := match v with Boolean b => b | Items [] => false | _ => true end.
(** The built-in functions of the language.  Results of arithmetic are taken modulo 2^64; comparisons are exact for
    numbers of at most 24 bits (C27). *)
Definition small (z : Z) : Prop := Z.abs z <= 2 ^ 24.
(** What quoted data is. *)
Fixpoint quoted_value (d : tree) : option value :=
  match d with
  | XInt z => Some (Number z)
  | XBool b => Some (Boolean b)
  | XStr t => Some (Characters t)
  | XSym x => Some (Symbol x)
  | XList ds => option_map Items (fold_right (fun d r => match quoted_value d, r with Some v, Some vs => Some (v :: vs) | _, _ => None end) (Some []) ds)
  | XBytes _ | XDot _ _ => None
  end.
Inductive computes : string -> list value -> value -> Prop :=
| c_plus a b r : mod64 r (a + b) -> computes "+" [Number a; Number b] (Number r)
| c_minus a b r : int64 a -> mod64 r (a - b) -> computes "-" [Number a; Number b] (Number r)
| c_times a b r : mod64 r (a * b) -> computes "*" [Number a; Number b] (Number r)
| c_remainder a b q r : b <> 0 -> divides_into a b q r -> computes "%" [Number a; Number b] (Number r)
| c_less a b : small a -> small b -> computes "<" [Number a; Number b] (Boolean (a <? b))
| c_greater a b : small a -> small b -> computes ">" [Number a; Number b] (Boolean (b <? a))
| c_at_most a b : small a -> small b -> computes "<=" [Number a; Number b] (Boolean (a <=? b))
| c_at_least a b : small a -> small b -> computes ">=" [Number a; Number b] (Boolean (b <=? a))
| c_same a b : computes "==" [Number a; Number b] (Boolean (a =? b))
| c_list vs : computes "list" vs (Items vs)
| c_cons v vs : computes "cons" [v; Items vs] (Items (v :: vs))
| c_car v vs : computes "car" [Items (v :: vs)] v
| c_cdr v vs : computes "cdr" [Items (v :: vs)] (Items vs)
| c_null vs : computes "null?" [Items vs] (Boolean (match vs with [] => true | _ => false end))
| c_length vs : computes "length" [Items vs] (Number (Z.of_nat (length vs)))
| c_append vs ws : computes "append" [Items vs; Items ws] (Items (vs ++ ws))
| c_string_length t : computes "string-length" [Characters t] (Number (Z.of_nat (String.length t)))
| c_not v : computes "not" [v] (Boolean (negb (counts_true v)))
| c_succ a r : mod64 r (a + 1) -> computes "succ" [Number a] (Number r)
| c_pred a r : mod64 r (a - 1) -> computes "pred" [Number a] (Number r)
| c_even a : computes "even?" [Number a] (Boolean (Z.even a))
| c_odd a : computes "odd?" [Number a] (Boolean (Z.odd a))
| c_zero a : int64 a -> computes "zero?" [Number a] (Boolean (a =? 0))
| c_positive a : int64 a -> computes "positive?" [Number a] (Boolean (0 <? a))
| c_negative a : int64 a -> computes "negative?" [Number a] (Boolean (a <? 0))
| c_quotient a b q r q' : b <> 0 -> divides_into a b q r -> mod64 q' q -> computes "quotient" [Number a; Number b] (Number q')
| c_reverse vs : Forall (fun v => v <> Items []) vs -> computes "reverse" [Items vs] (Items (rev vs)).
Definition functions : list string :=
  ["+"; "-"; "*"; "%"; "<"; ">"; "<="; ">="; "=="; "list"; "cons"; "car"; "cdr"; "null?"; "length"; "append"; "string-length"; "not"; "map"; "filter"; "fold-left";
   "succ"; "pred"; "even?"; "odd?"; "zero?"; "positive?"; "negative?"; "quotient"; "reverse"].
Definition reserved : list string := functions ++ ["lambda"; "if"; "cond"; "and"; "or"; "begin"; "quote"; "let"; "define"; "set!"].
(** [means G names e v]: the value of [e] is [v], where [G] are the global functions, which may call each other and
    themselves, and [names] the local names.  Arguments are passed by value; a function sees the names of the place
    where it was made. *)
Definition globals : Type := list (string * (list string * expr)).
(** The number of elements is an int64 that can be incremented. *)
Definition fits (vs : list value) : Prop := Z.of_nat (length vs) < 2 ^ 63 - 1.
Inductive means (G : globals) : list (string * value) -> expr -> value -> Prop :=
| m_num ns z : int64 z -> means G ns (Num z) (Number z)
| m_truth ns b : means G ns (Truth b) (Boolean b)
| m_text ns t : means G ns (Text t) (Characters t)
| m_quote ns d v : quoted_value d = Some v -> means G ns (Quote d) v
| m_local ns x v : alookup x ns = Some v -> means G ns (Name x) v
| m_global ns x xs body : alookup x ns = None -> alookup x G = Some (xs, body) -> means G ns (Name x) (Closure xs body [])
| m_lambda ns xs body : means G ns (Lambda xs body) (Closure xs body ns)
| m_call ns f es xs body ns' vs v : means G ns f (Closure xs body ns') -> means_all G ns es vs -> length xs = length vs ->
    means G (combine xs vs ++ ns') body v -> means G ns (Call f es) v
| m_if ns c t e b v : means G ns c b -> means G ns (if counts_true b then t else e) v -> means G ns (If c t e) v
(** The first clause whose test is true gives the value; without one, the else clause; without that, nil. *)
| m_cond ns cs bs t e b rest o v : means_all G ns (map fst cs) bs -> Forall (fun b => counts_true b = false) bs ->
    means G ns t b -> counts_true b = true -> means G ns e v -> means G ns (Cond (cs ++ (t, e) :: rest) o) v
| m_cond_else ns cs bs e v : means_all G ns (map fst cs) bs -> Forall (fun b => counts_true b = false) bs ->
    means G ns e v -> means G ns (Cond cs (Some e)) v
| m_cond_none ns cs bs : means_all G ns (map fst cs) bs -> Forall (fun b => counts_true b = false) bs ->
    means G ns (Cond cs None) (Items [])
(** The first false value, or the last value; for or the first true one, or the last.  What comes after is not evaluated. *)
| m_and ns es vs e rest v : means_all G ns es vs -> Forall (fun v => counts_true v = true) vs ->
    means G ns e v -> rest = [] \/ counts_true v = false -> means G ns (And (es ++ e :: rest)) v
| m_or ns es vs e rest v : means_all G ns es vs -> Forall (fun v => counts_true v = false) vs ->
    means G ns e v -> rest = [] \/ counts_true v = true -> means G ns (Or (es ++ e :: rest)) v
| m_begin ns es vs e v : means_all G ns es vs -> means G ns e v -> means G ns (Begin (es ++ [e])) v
| m_let ns bs body vs v : means_all G ns (map snd bs) vs -> means G (combine (map fst bs) vs ++ ns) body v -> means G ns (Let bs body) v
| m_builtin ns n es vs v : means_all G ns es vs -> computes n vs v -> means G ns (Builtin n es) v
(** Built-ins that call a function: for every element; keeping the elements for which it answers #t; or with what came
    out so far and the next element. *)
| m_map ns f l x body ns' vs ws : means_all G ns [f; l] [Closure [x] body ns'; Items vs] -> fits vs ->
    means_each G x body ns' vs ws -> means G ns (Builtin "map" [f; l]) (Items ws)
| m_filter ns f l x body ns' vs bs : means_all G ns [f; l] [Closure [x] body ns'; Items vs] ->
    Forall (fun v => v <> Items []) vs -> means_each G x body ns' vs (map Boolean bs) ->
    means G ns (Builtin "filter" [f; l]) (Items (map fst (List.filter snd (combine vs bs))))
| m_fold ns f i l x y body ns' a vs v : means_all G ns [f; i; l] [Closure [x; y] body ns'; a; Items vs] ->
    means_fold G x y body ns' a vs v -> means G ns (Builtin "fold-left" [f; i; l]) v
(** A named let: the body with the initial values; calling the name evaluates the body again with other values. *)
| m_loop ns x bs body vs v : means_all G ns (map snd bs) vs ->
    means G (combine (map fst bs) vs ++ (x, Looping x (map fst bs) body ns) :: ns) body v -> means G ns (Loop x bs body) v
| m_again ns f es x xs body ns' vs v : means G ns f (Looping x xs body ns') -> means_all G ns es vs -> length xs = length vs ->
    means G (combine xs vs ++ (x, Looping x xs body ns') :: ns') body v -> means G ns (Call f es) v
with means_all (G : globals) : list (string * value) -> list expr -> list value -> Prop :=
| m_none ns : means_all G ns [] []
| m_more ns e v es vs : means G ns e v -> means_all G ns es vs -> means_all G ns (e :: es) (v :: vs)
with means_each (G : globals) : string -> expr -> list (string * value) -> list value -> list value -> Prop :=
| me_none x body ns : means_each G x body ns [] []
| me_more x body ns v vs w ws : means G ((x, v) :: ns) body w -> means_each G x body ns vs ws -> means_each G x body ns (v :: vs) (w :: ws)
with means_fold (G : globals) : string -> string -> expr -> list (string * value) -> value -> list value -> value -> Prop :=
| mf_none x y body ns a : means_fold G x y body ns a [] a
| mf_more x y body ns a v vs b r : means G ((x, a) :: (y, v) :: ns) body b -> means_fold G x y body ns b vs r -> means_fold G x y body ns a (v :: vs) r.

(** Names the programmer may choose: not one of the shortcuts of the reader (such as slot:), not self, which calls
    treat specially, and not a word of the language. *)
Definition plain_name (x : string) : Prop := plain_head (VSym x) /\ x <> "self" /\ ~ In x reserved.
Inductive proper : expr -> Prop :=
| p_num z : proper (Num z)
| p_truth b : proper (Truth b)
| p_text t : proper (Text t)
| p_quote d : proper (Quote d)
| p_name x : plain_name x -> proper (Name x)
| p_lambda xs body : Forall plain_name xs -> List.NoDup xs -> proper body -> proper (Lambda xs body)
| p_call f es : proper f -> (forall e, In e es -> proper e) -> proper (Call f es)
| p_if c t e : proper c -> proper t -> proper e -> proper (If c t e)
| p_cond cs o : (forall c, In c cs -> fst c <> Name "else" /\ proper (fst c) /\ proper (snd c)) -> (forall e, o = Some e -> proper e) -> proper (Cond cs o)
| p_and es : (forall e, In e es -> proper e) -> proper (And es)
| p_or es : (forall e, In e es -> proper e) -> proper (Or es)
| p_begin es : (forall e, In e es -> proper e) -> proper (Begin es)
| p_let bs body : Forall plain_name (map fst bs) -> List.NoDup (map fst bs) -> (forall b, In b bs -> proper (snd b)) -> proper body -> proper (Let bs body)
| p_builtin n es : In n functions -> (forall e, In e es -> proper e) -> proper (Builtin n es)
| p_loop x bs body : plain_name x -> Forall plain_name (map fst bs) -> List.NoDup (map fst bs) -> (forall b, In b bs -> proper (snd b)) ->
    proper body -> proper (Loop x bs body).
(** The global functions of a program. *)
Definition proper_globals (G : globals) : Prop :=
  List.NoDup (map fst G) /\ forall x xs body, In (x, (xs, body)) G -> plain_name x /\ Forall plain_name xs /\ List.NoDup xs /\ proper body.
Definition definition (d : string * (list string * expr)) : tree :=
  XList [XSym "define"; XList (map XSym (fst d :: fst (snd d))); written (snd (snd d))].

(** ** Values in memory *)
(** [stands_for s w v]: the object [w] of the interpreter represents [v].  [sees s env ns]: the environment [env] has
    the local names [ns]; below the global environment come those of the function calls and lets around. *)
Inductive stands_for (s : state) : val -> value -> Prop :=
| sf_number z : stands_for s (VInt z) (Number z)
| sf_boolean b : stands_for s (VBool b) (Boolean b)
| sf_characters (l : loc) t : s_strs s !! l = Some t -> stands_for s (VStr l) (Characters t)
| sf_symbol x : stands_for s (VSym x) (Symbol x)
| sf_items w ws vs : is_list s w ws -> stand_for s ws vs -> stands_for s w (Items vs)
| sf_closure (l : loc) f xs body ns b c : s_funs s !! l = Some f -> fn_proc f = None ->
    f_varargs (fn_code f) = false -> f_req (fn_code f) = Z.of_nat (length xs) ->
    holds s (f_params (fn_code f)) (XList (map XSym xs)) -> Forall plain_name xs -> List.NoDup xs ->
    f_body (fn_code f) = b -> is_list s b [c] -> holds s c (written body) -> proper body ->
    sees s (f_env (fn_code f)) ns -> stands_for s (VFun l) (Closure xs body ns)
| sf_loop (l : loc) f x xs body ns b c le e p (bd : loc) be : s_funs s !! l = Some f -> fn_proc f = None ->
    f_varargs (fn_code f) = false -> f_req (fn_code f) = Z.of_nat (length xs) ->
    holds s (f_params (fn_code f)) (XList (map XSym xs)) -> Forall plain_name xs -> List.NoDup xs ->
    f_body (fn_code f) = b -> is_list s b [c] -> holds s c (written body) -> proper body ->
    f_env (fn_code f) = le -> s_envs s !! le = Some e -> le <> s_global s -> e_parent e = Some p -> e_frame e = None ->
    plain_name x -> e_binds e = [(x, bd)] -> s_binds s !! bd = Some be -> b_val be = VFun l ->
    sees s p ns -> stands_for s (VFun l) (Looping x xs body ns)
with stand_for (s : state) : list val -> list value -> Prop :=
| sf_none : stand_for s [] []
| sf_more w v ws vs : stands_for s w v -> stand_for s ws vs -> stand_for s (w :: ws) (v :: vs)
with sees (s : state) : loc -> list (string * value) -> Prop :=
| sees_global : sees s (s_global s) []
| sees_local env e p ns ns' : s_envs s !! env = Some e -> env <> s_global s -> e_parent e = Some p -> e_frame e = None ->
    bound_to s (e_binds e) ns -> sees s p ns' -> sees s env (ns ++ ns')
with bound_to (s : state) : list (string * loc) -> list (string * value) -> Prop :=
| bt_none : bound_to s [] []
| bt_more x (b : loc) e w v bs ns : plain_name x -> s_binds s !! b = Some e -> b_val e = w -> stands_for s w v -> bound_to s bs ns ->
    bound_to s ((x, b) :: bs) ((x, v) :: ns).

(** A state to run programs in: the global environment is there, has the built-ins of the language, and no self. *)
Definition has_builtins (s : state) : Prop :=
  exists e, s_envs s !! s_global s = Some e /\ e_parent e = None /\ e_frame e = None /\ alookup "self" (e_binds e) = None /\
    forall n, In n reserved -> exists b be, alookup n (e_binds e) = Some b /\ s_binds s !! (b : loc) = Some be /\ b_val be = VPrim n.
(** The global functions are defined. *)
Definition has_globals (G : globals) (s : state) : Prop :=
  forall x xs body, alookup x G = Some (xs, body) -> exists b be (l : loc) f,
    local_binding s (s_global s) x = Some b /\ s_binds s !! (b : loc) = Some be /\ b_val be = VFun l /\
    s_funs s !! l = Some f /\ f_env (fn_code f) = s_global s /\ stands_for s (VFun l) (Closure xs body []).
Definition ready (G : globals) (s : state) : Prop := has_builtins s /\ has_globals G s.
(** Nothing that was there is changed, except environments in [but] (and the note on function objects whether they
    were last found locally); nothing is printed, no goroutine started. *)
Record keeps (but : list loc) (s s' : state) : Prop := Keeps {
  k_next : (s_next s <= s_next s')%positive;
  k_cells : kept (s_cells s) (s_cells s');
  k_strs : kept (s_strs s) (s_strs s');
  k_bytes : kept (s_bytes s) (s_bytes s');
  k_funs : forall (l : loc) f, s_funs s !! l = Some f -> exists f', s_funs s' !! l = Some f' /\ fn_code f' = fn_code f /\ fn_proc f' = fn_proc f;
  k_macros : kept (s_macros s) (s_macros s');
  k_envs : forall (l : loc) e, ~ In l but -> s_envs s !! l = Some e -> s_envs s' !! l = Some e;
  k_binds : kept (s_binds s) (s_binds s');
  k_frames : kept (s_frames s) (s_frames s');
  k_chans : kept (s_chans s) (s_chans s');
  k_procs : kept (s_procs s) (s_procs s');
  k_atoms : kept (s_atoms s) (s_atoms s');
  k_gensyms : s_gensyms s' = s_gensyms s;
  k_global : s_global s' = s_global s;
  k_uni : s_uni s' = s_uni s;
  k_log : exists new, s_log s' = new ++ s_log s /\ Forall quiet new;
  k_pending : s_pending s' = s_pending s }.
(** The evaluation of [e] in [env] has exactly one result: a value that represents [v]. *)
Definition comes_to (G : globals) (b : behaviour) (s : state) (v : value) : Prop :=
  (exists w s', b (Done (Ok w)) s') /\
  forall o s', b o s' -> exists w, o = Done (Ok w) /\ stands_for s' w v /\ keeps [] s s' /\ ready G s'.

(** ** Two programs *)
(** (define (fact n) (if (< n 1) 1 (star n (fact (- n 1))))), where star is the multiplication sign *)
Definition factorial : globals :=
  [("fact", (["n"], If (Builtin "<" [Name "n"; Num 1]) (Num 1) (Builtin "*" [Name "n"; Call (Name "fact") [Builtin "-" [Name "n"; Num 1]]])))].
(** (define (each k xs) (if (null? xs) (list) (cons (k (car xs)) (each k (cdr xs))))) *)
Definition mapping : globals :=
  [("each", (["k"; "xs"], If (Builtin "null?" [Name "xs"]) (Builtin "list" [])
     (Builtin "cons" [Call (Name "k") [Builtin "car" [Name "xs"]]; Call (Name "each") [Name "k"; Builtin "cdr" [Name "xs"]]])))].
(** (let ((k c)) (each (lambda (x) (star x k)) (list z ...))): the function uses the k of the let, although each has a
    parameter k *)
Definition scaled (c : Z) (zs : list Z) : expr :=
  Let [("k", Num c)] (Call (Name "each") [Lambda ["x"] (Builtin "*" [Name "x"; Name "k"]); Builtin "list" (map Num zs)]).
(** (define (quick xs) (cond ((null? xs) (list)) (else (append (quick (filter (lambda (x) (< x (car xs))) (cdr xs)))
    (cons (car xs) (quick (filter (lambda (x) (>= x (car xs))) (cdr xs))))))))  and  (quick (quote (z ...))) *)
Definition part (test : string) : expr := Builtin "filter" [Lambda ["x"] (Builtin test [Name "x"; Builtin "car" [Name "xs"]]); Builtin "cdr" [Name "xs"]].
Definition quicksort : globals :=
  [("quick", (["xs"], Cond [(Builtin "null?" [Name "xs"], Builtin "list" [])]
     (Some (Builtin "append" [Call (Name "quick") [part "<"]; Builtin "cons" [Builtin "car" [Name "xs"]; Call (Name "quick") [part ">="]]]))))].
Definition sorting (zs : list Z) : expr := Call (Name "quick") [Quote (XList (map XInt zs))].
(** (fold-left (lambda (a x) (+ a x)) 0 (map (lambda (x) (star x x)) (quote (z ...)))) *)
Definition sum_of_squares (zs : list Z) : expr :=
  Builtin "fold-left" [Lambda ["a"; "x"] (Builtin "+" [Name "a"; Name "x"]); Num 0;
    Builtin "map" [Lambda ["x"] (Builtin "*" [Name "x"; Name "x"]); Quote (XList (map XInt zs))]].
(** (and 1 (or #f (begin 2 (string-length "abc"))) (cond (#f 4) (() 5)) 6) *)
Definition choices : expr :=
  And [Num 1; Or [Truth false; Begin [Num 2; Builtin "string-length" [Text "abc"]]]; Cond [(Truth false, Num 4); (Quote (XList []), Num 5)] None; Num 6].
(** (define (euclid a b) (if (zero? b) a (euclid b (% a b)))) *)
Definition euclid : globals :=
  [("euclid", (["a"; "b"], If (Builtin "zero?" [Name "b"]) (Name "a") (Call (Name "euclid") [Name "b"; Builtin "%" [Name "a"; Name "b"]])))].
(** (define (evens n) (if (zero? n) #t (odds (pred n)))) and (define (odds n) (if (zero? n) #f (evens (pred n)))) *)
Definition parity : globals :=
  [("evens", (["n"], If (Builtin "zero?" [Name "n"]) (Truth true) (Call (Name "odds") [Builtin "pred" [Name "n"]])));
   ("odds", (["n"], If (Builtin "zero?" [Name "n"]) (Truth false) (Call (Name "evens") [Builtin "pred" [Name "n"]])))].
(** (let turn ((xs (quote (z ...))) (acc (list))) (if (null? xs) acc (turn (cdr xs) (cons (car xs) acc)))) *)
Definition turning (zs : list Z) : expr :=
  Loop "turn" [("xs", Quote (XList (map XInt zs))); ("acc", Builtin "list" [])]
    (If (Builtin "null?" [Name "xs"]) (Name "acc") (Call (Name "turn") [Builtin "cdr" [Name "xs"]; Builtin "cons" [Builtin "car" [Name "xs"]; Name "acc"]])).
