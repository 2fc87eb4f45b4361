(** * C20: quasiquotation.  Statements only; see SpecQuasi.v for the vocabulary. *)
From Verif Require Import ProofQuasi ProofReach ProofFill ProofList.
From Verif Require Import SpecQuasi.
Local Open Scope string_scope.
Local Open Scope list_scope.
Local Open Scope Z_scope.

(** Any template, whatever its expressions do: they are evaluated from left to right, once each, the first error or crash
    ends it, and the pieces are put together as [fills] says. *)
Theorem C20_template : forall v env s o s', wf_state s -> no_dangling s -> s_pending s = [] -> below s v -> (env < s_next s)%positive ->
  applies "quasiquote" [v] env s o s' ->
  exists o1, fills env 1 v (entering "quasiquote" env s) o1 s' /\
    match o1 with Done (Ok p) => o = Done (Ok (value_of_piece s' p)) | Done (Err e) => o = Done (Err e) | Panicked w => o = Panicked w end.
Proof. exact template_filled. Qed.
(** If the expressions leave existing data alone: a template that contributes one tree is turned into data holding that tree; nothing that existed before changes. *)
Theorem C20_fills : forall v x env s, wf_state s -> contributes s env 1 v [x] ->
  exists r s', applies "quasiquote" [v] env s (Done (Ok r)) s' /\ grows s s' /\ holds s' r x.
Proof. exact quasi_fills. Qed.
(** A template without markers is copied. *)
Theorem C20_copy : forall v x env s, wf_state s -> holds s v x -> unmarked x ->
  exists r s', applies "quasiquote" [v] env s (Done (Ok r)) s' /\ grows s s' /\ holds s' r x.
Proof. exact copy_fills. Qed.
(** What an unquoted name stands for: the data it is bound to. *)
Theorem C20_name : forall s n env b (P : state -> val -> Prop), visible s n env (Some b) -> e_frame (env_at s env) = None -> has_suffix ":" n = false ->
  s_binds s !! b <> None -> (forall l, value_in s b <> VFun l) -> (forall s', grows s s' -> P s' (value_in s b)) -> yields s env (XSym n) P.
Proof. exact name_yields. Qed.
(** Splicing a list that was made by cons onto () adds a (); the tail of a dotted template is lost (findings). *)
Theorem C20_splice_refuted :
  show 60 "(define l (cons 1 (cons 2 '()))) (list `(0 ,@(list 1 2) 3) `(0 ,@l 3))" start = Some (Done (Ok "((0 1 2 3) (0 1 2 () 3))")).
Proof. vm_compute. reflexivity. Qed.
Theorem C20_dotted_refuted : show 60 "(list `(a b) `(a . b))" start = Some (Done (Ok "((a b) (a ()))")).
Proof. vm_compute. reflexivity. Qed.
Print Assumptions C20_template. Print Assumptions C20_fills. Print Assumptions C20_copy. Print Assumptions C20_name. Print Assumptions C20_splice_refuted. Print Assumptions C20_dotted_refuted.
Example C20_cases :
  show 60 "(define xs (list 1 2)) (list `(a ,7 ,@xs (b)) `(1 `(2 ,(3 ,(+ 1 3)))) `(,@() x) `,(car xs) (quasiquote (a (b (c ,@(cdr xs))))))" start
    = Some (Done (Ok "((a 7 1 2 (b)) (1 (quasiquote (2 (unquote (3 4))))) (x) 1 (a (b (c 2))))")) /\
  show 60 "(define n 0) (define (next) (set! n (+ n 1)) n) (list `(,(next) ,@(list (next) (next)) ((x ,(next)))) (on-error `(,(next) ,(error 'stop) ,(next)) (lambda (e) e)) n)" start
    = Some (Done (Ok "((1 2 3 ((x 4))) ""stop"" 5)")) /\
  (wf_state start /\ no_dangling start /\ s_pending start = [] /\ below start (VInt 1) /\ (2 < s_next start)%positive) /\
  exists s v, wf_state s /\ contributes s 2%positive 1 v [XList [XSym "a"; XInt 7; XInt 1; XInt 2; XList [XSym "b"]]].
Proof.
  split; [vm_compute; reflexivity|]. split; [vm_compute; reflexivity|]. split.
  { split; [exact wf_start|]. split; [apply (closedb_spec start); vm_compute; reflexivity|]. split; [vm_compute; reflexivity|]. split; [discriminate|vm_compute; reflexivity]. }
  assert (H : match s_envs start !! 2%positive with Some e => match e_frame e, alookup "xs" (e_binds e) with None, None => true | _, _ => false end | None => false end = true) by (vm_compute; reflexivity).
  destruct (s_envs start !! 2%positive) as [e|] eqn:E; [|discriminate]. destruct (e_frame e) eqn:F; [discriminate|]. destruct (alookup "xs" (e_binds e)) eqn:A; [discriminate|].
  destruct (quasi_sample start 2%positive e wf_start E F A) as (s' & v & W & _ & C). exists s', v. split; assumption.
Qed.
