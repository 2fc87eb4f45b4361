(** What C77 means: macros written with a template are abbreviations. *)
From Verif Require Export SpecSession SpecQuasi SpecObject.
From Verif Require Import Data SpecCore.
Local Open Scope string_scope.
Local Open Scope list_scope.
Local Open Scope Z_scope.

(** A template: fixed text, a parameter to be filled in, or a list of templates. *)
Inductive template := Fixed (d : tree) | Hole (p : string) | Form (ts : list template).
(** Its text, inside a quasiquote: ,p stands for (unquote p). *)
Fixpoint template_text (t : template) : tree :=
  match t with
  | Fixed d => d
  | Hole p => XList [XSym "unquote"; XSym p]
  | Form ts => XList (map template_text ts)
  end.
(** The template with the data [ds] for the parameters [ps]. *)
Definition datum_for (ps : list string) (ds : list tree) (p : string) : tree := match alookup p (combine ps ds) with Some d => d | None => XList [] end.
Fixpoint filled_in (ps : list string) (ds : list tree) (t : template) : tree :=
  match t with
  | Fixed d => d
  | Hole p => datum_for ps ds p
  | Form ts => XList (map (filled_in ps ds) ts)
  end.
(** Fixed text has no quasiquotation of its own. *)
Inductive proper_template (ps : list string) : template -> Prop :=
| pt_fixed d : unmarked d -> proper_template ps (Fixed d)
| pt_hole p : In p ps -> proper_template ps (Hole p)
| pt_form ts : Forall (proper_template ps) ts -> (forall m r, ts = Fixed (XSym m) :: r -> ~ In m markers) -> proper_template ps (Form ts).
(** (defmacro (name p ...) (quasiquote template)) *)
Definition macro_definition (name : string) (ps : list string) (t : template) : tree :=
  XList [XSym "defmacro"; XList (map XSym (name :: ps)); XList [XSym "quasiquote"; template_text t]].
(** A use of the macro. *)
Definition use (name : string) (ds : list tree) : tree := XList (XSym name :: ds).
Definition proper_macro (name : string) (ps : list string) (t : template) : Prop :=
  plain_name name /\ Forall plain_name ps /\ List.NoDup ps /\ ~ In "quasiquote" ps /\ proper_template ps t.
(** The macro is there. *)
Definition has_macro (s : state) (name : string) (ps : list string) (t : template) : Prop :=
  exists b be ml m, local_binding s (s_global s) name = Some b /\ s_binds s !! (b : loc) = Some be /\ b_val be = VMacro ml /\ s_macros s !! (ml : loc) = Some m /\
    m_env m = s_global s /\ m_varargs m = false /\ m_req m = Z.of_nat (length ps) /\ holds s (m_params m) (XList (map XSym ps)) /\
    holds s (m_body m) (XList [XSym "quasiquote"; template_text t]).
(** Several macros; their templates may use each other. *)
Definition macros : Type := list (string * (list string * template)).
Definition has_macros (M : macros) (s : state) : Prop := forall name ps t, In (name, (ps, t)) M -> proper_macro name ps t /\ has_macro s name ps t.
(** [d'] comes of [d] by replacing uses of macros by their templates filled in, again and again. *)
Inductive unfolds (M : macros) : tree -> tree -> Prop :=
| un_done d : unfolds M d d
| un_use name ps t ds d : In (name, (ps, t)) M -> length ds = length ps -> unfolds M (filled_in ps ds t) d -> unfolds M (use name ds) d.
(** ** Sessions with macros *)
Inductive command := Abbreviate (name : string) (ps : list string) (t : template) | Introduce (x : string) (xs : list string) (body : expr) | Work (e : expr) | Use (name : string) (ds : list tree).
Definition command_text (c : command) : tree :=
  match c with
  | Abbreviate name ps t => macro_definition name ps t
  | Introduce x xs body => definition (x, (xs, body))
  | Work e => written e
  | Use name ds => use name ds
  end.
Definition commanded (cs : list command) : list string := flat_map (fun c => match c with Abbreviate n _ _ => [n] | Introduce x _ _ => [x] | _ => [] end) cs.
(** The answers one expects: a use of a macro means what the template filled in means. *)
Inductive abbreviated : globals -> macros -> list command -> list answer -> Prop :=
| ab_done G M : abbreviated G M [] []
| ab_macro G M name ps t cs answers : proper_macro name ps t -> ~ In name (map fst G) -> ~ In name (map fst M) ->
    abbreviated G ((name, (ps, t)) :: M) cs answers -> abbreviated G M (Abbreviate name ps t :: cs) (Defined :: answers)
| ab_define G M x xs body cs answers : plain_name x -> Forall plain_name xs -> List.NoDup xs -> proper body -> ~ In x (map fst G) -> ~ In x (map fst M) ->
    abbreviated (G ++ [(x, (xs, body))]) M cs answers -> abbreviated G M (Introduce x xs body :: cs) (Defined :: answers)
| ab_value G M e v cs answers : proper e -> means G [] e v -> abbreviated G M cs answers -> abbreviated G M (Work e :: cs) (Value v :: answers)
| ab_failed G M e cs answers : proper e -> goes_wrong G [] e -> abbreviated G M cs answers -> abbreviated G M (Work e :: cs) (Failed :: answers)
| ab_use G M name ds e v cs answers : unfolds M (use name ds) (written e) -> proper e -> means G [] e v ->
    abbreviated G M cs answers -> abbreviated G M (Use name ds :: cs) (Value v :: answers)
| ab_use_failed G M name ds e cs answers : unfolds M (use name ds) (written e) -> proper e -> goes_wrong G [] e ->
    abbreviated G M cs answers -> abbreviated G M (Use name ds :: cs) (Failed :: answers)
| ab_use_count G M name ds name' ps t ds' cs answers : unfolds M (use name ds) (use name' ds') -> In (name', (ps, t)) M -> length ds' <> length ps ->
    abbreviated G M cs answers -> abbreviated G M (Use name ds :: cs) (Failed :: answers).
(** (defmacro (backwards-if c no yes) `(if ,c ,yes ,no)), and a use of it *)
Definition backwards : template := Form [Fixed (XSym "if"); Hole "c"; Hole "yes"; Hole "no"].
Definition backwards_if (c a b : expr) : list command :=
  [Abbreviate "backwards-if" ["c"; "no"; "yes"] backwards; Use "backwards-if" [written c; written a; written b]].
(** (defmacro (sure-if c yes) `(backwards-if ,c (car 1) ,yes)), which is written with backwards-if *)
Definition sure_if (c b : expr) : list command :=
  [Abbreviate "backwards-if" ["c"; "no"; "yes"] backwards;
   Abbreviate "sure-if" ["c"; "yes"] (Form [Fixed (XSym "backwards-if"); Hole "c"; Fixed (XList [XSym "car"; XInt 1]); Hole "yes"]);
   Use "sure-if" [written c; written b]].
