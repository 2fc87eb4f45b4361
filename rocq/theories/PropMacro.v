(** * C77: macros written with a template are abbreviations.  Statements only; see SpecMacro.v, SpecSession.v, SpecFail.v, SpecObject.v and SpecCore.v. *)
From Verif Require Import SpecMacro ProofMacro ProofWf.
From Verif Require Import Data SpecCore SpecFail SpecSession SpecObject SpecMacro.
Local Open Scope string_scope.
Local Open Scope list_scope.
Local Open Scope Z_scope.

(** A use of a macro, with any operands, in any environment that does not hide the macro's name, is expanded into the
    template filled in with the operands as they are written; this is then evaluated, in that environment, in the place
    of the use. The expansion changes nothing that was there. *)
Theorem C77_expansion : forall G s env ns name ps t c ds, wf_state s -> ready G s -> sees s env ns -> alookup name ns = None -> proper_macro name ps t -> has_macro s name ps t ->
  offers s "quasiquote" -> holds s c (use name ds) -> length ds = length ps ->
  exists c' s1, keeps [] s s1 /\ wf_state s1 /\ holds s1 c' (filled_in ps ds t) /\ forall o s', evals c' env s1 o s' -> evals c env s o s'.
Proof. exact macro_expands. Qed.
(** So the names in the operands have the meaning they have where the macro is used. *)
Theorem C77_value : forall G s env ns name ps t c ds e v, wf_state s -> ready G s -> sees s env ns -> alookup name ns = None -> proper_macro name ps t -> has_macro s name ps t ->
  offers s "quasiquote" -> holds s c (use name ds) -> length ds = length ps -> filled_in ps ds t = written e -> proper e -> means G ns e v -> comes_to G (evals c env s) s v.
Proof. exact use_value. Qed.
(** Templates may use other macros: code is evaluated as what it unfolds to. *)
Theorem C77_unfolding : forall G M s env ns c d d', wf_state s -> ready G s -> sees s env ns -> (forall name, In name (map fst M) -> alookup name ns = None) -> has_macros M s ->
  offers s "quasiquote" -> holds s c d -> unfolds M d d' ->
  exists c' s1, keeps [] s s1 /\ wf_state s1 /\ holds s1 c' d' /\ forall o s', evals c' env s1 o s' -> evals c env s o s'.
Proof. exact unfolding. Qed.
(** A wrong number of operands is an error and changes nothing. *)
Theorem C77_count : forall G s env ns name ps t c ds, wf_state s -> ready G s -> sees s env ns -> alookup name ns = None -> plain_name name -> has_macro s name ps t -> holds s c (use name ds) -> length ds <> length ps ->
  exists m s', evals c env s (Done (Err m)) s' /\ keeps [] s s'.
Proof. exact use_miscounts. Qed.
(** expand shows the code that a use evaluates, as data. *)
Theorem C77_expand : forall G s env ns name ps t c ds, wf_state s -> ready G s -> sees s env ns -> alookup name ns = None -> alookup "expand" ns = None -> proper_macro name ps t -> has_macro s name ps t ->
  offers s "quasiquote" -> offers s "expand" -> holds s c (XList (XSym "expand" :: XSym name :: ds)) -> length ds = length ps ->
  (exists r s', evals c env s (Done (Ok r)) s') /\
  forall o s', evals c env s o s' -> exists r, o = Done (Ok r) /\ holds s' r (filled_in ps ds t) /\ keeps [] s s'.
Proof. exact expand_shows. Qed.
(** The text of its definition defines the macro, and changes nothing else. *)
Theorem C77_definition : forall u G name ps t src s, program u [macro_definition name ps t] src -> wf_state s -> s_uni s = u -> ready G s -> plain_name name -> offers s "defmacro" -> local_binding s (s_global s) name = None ->
  exists w s', run_text src (s_global s) s (Done (Ok w)) s' /\ wf_state s' /\ ready G s' /\ has_macro s' name ps t /\ keeps [s_global s] s s' /\
    (forall y, y <> name -> local_binding s' (s_global s') y = local_binding s (s_global s) y) /\
    forall o s2, run_text src (s_global s) s o s2 -> o = Done (Ok w) /\ s2 = s'.
Proof. exact defining_macro. Qed.
(** Texts run one after the other, which define macros and functions, evaluate expressions or use macros: a use gives the
    answer that the template filled in gives, or fails if it fails or the number of operands is wrong. *)
Theorem C77_session : forall u cs answers texts s, abbreviated [] [] cs answers -> Forall2 (fun i t => program u [command_text i] t) cs texts -> wf_state s -> s_uni s = u -> has_builtins s ->
  offers s "quasiquote" -> offers s "defmacro" -> (forall x, In x (commanded cs) -> local_binding s (s_global s) x = None) -> as_expected texts answers s.
Proof. exact abbreviating. Qed.
(** For instance: of the last two operands of backwards-if, only the one that is chosen is evaluated, whatever the other one is. *)
Theorem C77_unevaluated : forall u c a b cv v texts s, proper c -> proper a -> proper b -> means [] [] c cv -> means [] [] (if counts_true cv then b else a) v ->
  Forall2 (fun i t => program u [command_text i] t) (backwards_if c a b) texts -> wf_state s -> s_uni s = u -> has_builtins s ->
  offers s "quasiquote" -> offers s "defmacro" -> local_binding s (s_global s) "backwards-if" = None -> as_expected texts [Defined; Value v] s.
Proof. exact backwards_runs. Qed.
Print Assumptions C77_expansion. Print Assumptions C77_value. Print Assumptions C77_unfolding. Print Assumptions C77_count. Print Assumptions C77_expand. Print Assumptions C77_definition. Print Assumptions C77_session. Print Assumptions C77_unevaluated.
Example C77_cases :
  let is := backwards_if (Truth true) (Builtin "car" [Num 1]) (Num 7) in
  (forall u, Forall2 (fun i t => program u [command_text i] t) is (map (fun i => all_laid_out [command_text i]) is)) /\
  abbreviated [] [] is [Defined; Value (Number 7)] /\ abbreviated [] [] (sure_if (Truth true) (Num 7)) [Defined; Defined; Value (Number 7)] /\
  show 300 (all_laid_out (map command_text (sure_if (Truth true) (Num 7)))) start = Some (Done (Ok "7")) /\ proper_macro "backwards-if" ["c"; "no"; "yes"] backwards /\
  wf_state start /\ has_builtins start /\ offers start "quasiquote" /\ offers start "defmacro" /\ offers start "expand" /\ local_binding start (s_global start) "backwards-if" = None /\
  show 300 (all_laid_out (map command_text is)) start = Some (Done (Ok "7")) /\
  show 300 (all_laid_out [command_text (hd (Work (Num 0)) is); XList [XSym "expand"; XSym "backwards-if"; XInt 1; XList [XSym "f"; XInt 2]; XInt 3]]) start = Some (Done (Ok "(if 1 3 (f 2))")).
Proof.
  cbv zeta. split; [exact backwards_texts|]. split; [exact backwards_sample|]. split; [exact sure_sample|]. split; [vm_compute; reflexivity|]. split; [exact backwards_proper|]. split; [exact wf_start|]. split; [exact start_has_builtins|].
  split; [apply macro_offers|]. split; [apply macro_offers|]. split; [apply macro_offers|]. split; [exact macro_unbound|]. split; vm_compute; reflexivity.
Qed.
