(** C72: examples of programs that go wrong. *)
From Verif Require Export ProofFail ProofCoreRun.
From stdpp Require Import list.
From Verif Require Import Base Data SpecEval SpecCore SpecFail.
Local Open Scope string_scope.
Local Open Scope list_scope.
Local Open Scope Z_scope.

Lemma quoted_parts zs d v rest vs : quoted_value d = Some v -> quoted_value (XList rest) = Some (Items vs) ->
  quoted_value (XList (map XInt zs ++ d :: rest)) = Some (Items (map Number zs ++ v :: vs)).
Proof.
  intros Hd Hr. cbn [quoted_value] in *. destruct (fold_right _ _ rest) as [vs'|] eqn:E; [|discriminate]. injection Hr as ->.
  rewrite fold_right_app. cbn [fold_right]. rewrite Hd, E.
  assert (Q : forall zs r, fold_right (fun d r => match quoted_value d, r with Some v, Some vs => Some (v :: vs) | _, _ => None end) (Some r) (map XInt zs) = Some (map Number zs ++ r)).
  { clear. induction zs as [|z zs IH]; intros r; [reflexivity|]. cbn [map fold_right quoted_value app]. rewrite IH. reflexivity. }
  rewrite Q. reflexivity.
Qed.
Lemma adding_fold G zs : forall a, exists r, means_fold G "a" "x" (Builtin "+" [Name "a"; Name "x"]) [] (Number a) (map Number zs) (Number r).
Proof.
  induction zs as [|z zs IH]; intros a; [exists a; constructor|]. destruct (IH (wrap64 (a + z))) as (r & H). exists r. cbn [map].
  eapply mf_more; [|exact H]. eapply m_builtin; [constructor; [apply m_local; reflexivity|constructor; [apply m_local; reflexivity|constructor]]|apply c_plus, mod64_wrap].
Qed.
Lemma adding_wrong G zs d v rest vs : quoted_value d = Some v -> no_number v -> quoted_value (XList rest) = Some (Items vs) ->
  goes_wrong G [] (adding (map XInt zs ++ d :: rest)).
Proof.
  intros Hd N Hr. destruct (adding_fold G zs 0) as (r & F).
  eapply (w_fold G [] _ _ _ "a" "x" (Builtin "+" [Name "a"; Name "x"]) [] (Number 0) (map Number zs) (Number r) v vs).
  - constructor; [apply m_lambda|]. constructor; [apply m_num; unfold SpecRead.int64, SpecMath.int64; lia|]. constructor; [|constructor]. apply m_quote. exact (quoted_parts zs d v rest vs Hd Hr).
  - exact F.
  - eapply w_refused; [constructor; [apply m_local; reflexivity|constructor; [apply m_local; reflexivity|constructor]]|].
    apply (r_arithmetic "+" [r] v []); [cbn; tauto|exact N].
Qed.
Lemma adding_proper ds : proper (adding ds).
Proof. unfold adding. proper. Qed.
Lemma adding_stops u zs d v rest vs ts src : quoted_value d = Some v -> no_number v -> quoted_value (XList rest) = Some (Items vs) ->
  program u (written (adding (map XInt zs ++ d :: rest)) :: ts) src ->
  forall s, wf_state s -> s_uni s = u -> has_builtins s ->
  (exists m s', run_text src (s_global s) s (Done (Err m)) s') /\ forall o s', run_text src (s_global s) s o s' -> exists m, o = Done (Err m).
Proof.
  intros Hd N Hr P s W Eu B.
  apply (program_stops u [] (adding (map XInt zs ++ d :: rest)) ts src P); [split; [apply List.NoDup_nil|intros x xs body []]|apply adding_proper|exact (adding_wrong [] zs d v rest vs Hd N Hr)|exact W|exact Eu|exact B|intros x []].
Qed.
(** (list (fact 3) (fact 1 2)) *)
Definition too_many : expr := Builtin "list" [SpecCore.Call (Name "fact") [Num 3]; SpecCore.Call (Name "fact") [Num 1; Num 2]].
Lemma too_many_wrong : goes_wrong factorial [] too_many.
Proof.
  eapply (w_builtin_argument factorial [] "list" _ [SpecCore.Call (Name "fact") [Num 3]] (SpecCore.Call (Name "fact") [Num 1; Num 2]) []); [reflexivity| |].
  - constructor; [apply (fact_means 3 6); [unfold small; lia|split; [unfold SpecMath.int64; lia|exists 0; reflexivity]]|constructor].
  - eapply w_count; [apply m_global; reflexivity|reflexivity|cbn; lia].
Qed.
Lemma too_many_proper : proper too_many.
Proof. unfold too_many. proper. Qed.
Definition failing : list tree := map definition factorial ++ [written too_many; written (SpecCore.Call (Name "fact") [Num 3])].
Lemma failing_program u : program u failing (all_laid_out failing).
Proof.
  apply all_laid_out_program. unfold failing, too_many.
  repeat apply Forall_cons_2; try apply Forall_nil_2; cbn [simple_tree definition written factorial map fst snd fold_right app];
    repeat apply conj; try exact Logic.I; try apply minus_symbol; try (apply symbol_sample; reflexivity); unfold int64; lia.
Qed.
Lemma adding_program u zs b : Forall int64 zs -> let ds := [written (adding (map XInt zs ++ [XBool b]))] in program u ds (all_laid_out ds).
Proof.
  intros H. apply all_laid_out_program. constructor; [|constructor]. cbn [simple_tree written adding map fst snd fold_right app].
  repeat apply conj; try exact Logic.I; try (apply symbol_sample; reflexivity); try (unfold int64; lia).
  induction H as [|z zs Hz _ IH]; [split; exact Logic.I|]. split; [exact Hz|exact IH].
Qed.
