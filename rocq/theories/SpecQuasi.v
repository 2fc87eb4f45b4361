(** What C20 means: quasiquotation. *)
From Verif Require Export SpecCall SpecTree SpecEval SpecRead.
From Verif Require Import Data.
Local Open Scope string_scope.
Local Open Scope list_scope.
Local Open Scope Z_scope.

Definition markers : list string := ["quasiquote"; "unquote"; "unquote-splicing"].
(** [r] is a list that can be spliced as it stands: empty, or ending in the nil pointer (as the lists made by the reader,
    list, append, map, ... do). *)
Definition splices (s : state) (r : val) (vs : list val) : Prop := nil_ended s r vs \/ (empty_list s r /\ vs = []).

(** ** Templates filled by expressions that leave existing data alone *)
(** Evaluating the expression (a tree [y], wherever it is stored) gives data described by [P]. *)
Definition yields (s : state) (env : loc) (y : tree) (P : state -> val -> Prop) : Prop :=
  forall e s1, grows s s1 -> holds s1 e y -> exists r s2, evals e env s1 (Done (Ok r)) s2 /\ grows s1 s2 /\ P s2 r.
(** The template [v], inside [n] quasiquotes, contributes the trees [xs] to the list around it. *)
Inductive contributes (s : state) (env : loc) : Z -> val -> list tree -> Prop :=
| ct_atom n v x : holds s v x -> atomic x -> contributes s env n v [x]
| ct_list n v vs xss : is_list s v vs -> (forall m r, vs = VSym m :: r -> ~ In m markers) ->
    Forall2 (contributes s env n) vs xss -> contributes s env n v [XList (List.concat xss)]
| ct_deeper n v e xs : is_list s v [VSym "quasiquote"; e] -> contributes s env (n + 1) e xs -> List.last xs (XInt 0) <> XList [] ->
    contributes s env n v [XList (XSym "quasiquote" :: xs)]
| ct_shallower n m v e xs : In m ["unquote"; "unquote-splicing"] -> n <> 1 -> is_list s v [VSym m; e] ->
    contributes s env (n - 1) e xs -> List.last xs (XInt 0) <> XList [] -> contributes s env n v [XList (XSym m :: xs)]
| ct_unquote v e y x : is_list s v [VSym "unquote"; e] -> contributes s env 1 e [y] ->
    yields s env y (fun s' r => holds s' r x) -> contributes s env 1 v [x]
| ct_splice v e y xs : is_list s v [VSym "unquote-splicing"; e] -> contributes s env 1 e [y] ->
    yields s env y (fun s' r => exists vs, splices s' r vs /\ Forall2 (holds s') vs xs) -> contributes s env 1 v xs.
(** No list in it starts with one of the markers, and no dotted list. *)
Inductive unmarked : tree -> Prop :=
| um_atom x : atomic x -> unmarked x
| um_list xs : Forall unmarked xs -> (forall m r, xs = XSym m :: r -> ~ In m markers) -> unmarked (XList xs).

(** ** Any template: what is evaluated when, and what comes of it *)
(** What a part of a template adds to the list around it: one element, the elements of a list, or nothing. *)
Inductive piece := One (v : val) | Many (v : val) | Nothing.
(** The values met by walking along [v] up to an empty list, and by walking up to the nil pointer. *)
Inductive walked (s : state) : val -> list val -> Prop :=
| el_end v : at_end s v -> walked s v []
| el_more v vs : ~ at_end s v -> walked s (rest_of s v) vs -> walked s v (head_of s v :: vs).
Inductive strung (s : state) : val -> list val -> Prop :=
| str_end : strung s VNil []
| str_more v vs : v <> VNil -> strung s (rest_of s v) vs -> strung s v (head_of s v :: vs).
(** The elements that pieces stand for: a value that is not a list is spliced as it is. *)
Inductive assembled (s : state) : list piece -> list val -> Prop :=
| as_end : assembled s [] []
| as_one v ps ws : assembled s ps ws -> assembled s (One v :: ps) (v :: ws)
| as_atom v ps ws : listp v = false -> assembled s ps ws -> assembled s (Many v :: ps) (v :: ws)
| as_many v vs ps ws : listp v = true -> strung s v vs -> assembled s ps ws -> assembled s (Many v :: ps) (vs ++ ws)
| as_nothing ps ws : assembled s ps ws -> assembled s (Nothing :: ps) ws.
(** (m piece) *)
Definition wrapped (s : state) (m : string) (p : piece) (w : val) : Prop := exists c, w = VCell TCons c /\
  match p with
  | One v => exists d, s_cells s !! c = Some (VSym m, VCell TCons d) /\ s_cells s !! d = Some (v, VNil)
  | Many v => s_cells s !! c = Some (VSym m, v)
  | Nothing => s_cells s !! c = Some (VSym m, VNil)
  end.
(** The value of a piece taken for itself. *)
Definition value_of_piece (s : state) (p : piece) : val := match p with One v => v | Many v => head_of s v | Nothing => VNil end.
(** The template is a list starting with the symbol [m]; [e] is what comes next. *)
Definition marked (s : state) (v : val) (m : string) (e : val) : Prop := listp v = true /\ head_of s v = VSym m /\ e = head_of s (rest_of s v).
Definition stops {A B} (o : outcome (res A)) (o' : outcome (res B)) : Prop :=
  match o with Done (Ok _) => False | Done (Err m) => o' = Done (Err m) | Panicked w => o' = Panicked w end.

(** [fills env n v s o s']: the template [v] (inside [n] quasiquotes), met in state [s], is done in state [s'] and gave a
    piece, or ended in an error or crash.  Between the evaluations of expressions only new objects appear. *)
Inductive fills (env : loc) : Z -> val -> state -> outcome (res piece) -> state -> Prop :=
| fl_atom n v s s' : listp v = false -> grows s s' -> fills env n v s (Done (Ok (One v))) s'
| fl_list n v vs s o s' : listp v = true -> (forall m, head_of s v = VSym m -> ~ In m markers) -> walked s v vs ->
    fills_each env n vs [] s o s' -> fills env n v s o s'
| fl_wrap n k m v e s p w s1 s' : marked s v m e -> (m = "quasiquote" /\ k = n + 1) \/ (In m ["unquote"; "unquote-splicing"] /\ n <> 1 /\ k = n - 1) ->
    fills env k e s (Done (Ok p)) s1 -> grows s1 s' -> wrapped s' m p w -> fills env n v s (Done (Ok (One w))) s'
| fl_wrap_stop n k m v e s o o' s' : marked s v m e -> (m = "quasiquote" /\ k = n + 1) \/ (In m ["unquote"; "unquote-splicing"] /\ n <> 1 /\ k = n - 1) ->
    fills env k e s o s' -> stops o o' -> fills env n v s o' s'
| fl_unquote v e s p s1 r s2 s' : marked s v "unquote" e -> fills env 1 e s (Done (Ok p)) s1 ->
    evals (value_of_piece s1 p) env s1 (Done (Ok r)) s2 -> grows s2 s' -> fills env 1 v s (Done (Ok (One r))) s'
| fl_splice v e s p s1 r s' : marked s v "unquote-splicing" e -> fills env 1 e s (Done (Ok p)) s1 ->
    evals (value_of_piece s1 p) env s1 (Done (Ok r)) s' -> ~ at_end s' r -> fills env 1 v s (Done (Ok (Many r))) s'
| fl_splice_none v e s p s1 r s' : marked s v "unquote-splicing" e -> fills env 1 e s (Done (Ok p)) s1 ->
    evals (value_of_piece s1 p) env s1 (Done (Ok r)) s' -> at_end s' r -> fills env 1 v s (Done (Ok Nothing)) s'
| fl_eval_stop m v e s p s1 o o' s' : In m ["unquote"; "unquote-splicing"] -> marked s v m e -> fills env 1 e s (Done (Ok p)) s1 ->
    evals (value_of_piece s1 p) env s1 o s' -> stops o o' -> fills env 1 v s o' s'
| fl_operand_stop m v e s o o' s' : In m ["unquote"; "unquote-splicing"] -> marked s v m e -> fills env 1 e s o s' -> stops o o' -> fills env 1 v s o' s'
(** The elements of a list, from left to right; the pieces so far are [ps].  Lists to be spliced are read at the end. *)
with fills_each (env : loc) : Z -> list val -> list piece -> state -> outcome (res piece) -> state -> Prop :=
| fe_done n ps s s1 ws r s' : grows s s1 -> assembled s1 ps ws -> grows s1 s' -> list_of s' r ws -> fills_each env n [] ps s (Done (Ok (One r))) s'
| fe_next n v vs ps s p s1 o s' : fills env n v s (Done (Ok p)) s1 -> fills_each env n vs (ps ++ [p]) s1 o s' -> fills_each env n (v :: vs) ps s o s'
| fe_stop n v vs ps s o o' s' : fills env n v s o s' -> stops o o' -> fills_each env n (v :: vs) ps s o' s'.
