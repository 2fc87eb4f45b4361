(** Proofs of C67: the functional core; two programs, and the hypotheses of C67 in the initial state. *)
From Verif Require ProofJson.
From Verif Require Export ProofCore.
From Coq Require Import Permutation Sorted.
From stdpp Require Import list.
From Verif Require Import Base Data SpecEval SpecCore.
Local Open Scope string_scope.
Local Open Scope list_scope.
Local Open Scope Z_scope.

(** *** Two programs *)
Lemma int64_small z : small z -> int64 z.
Proof. unfold small, int64. lia. Qed.
Lemma mod64_self z : int64 z -> mod64 z z.
Proof. intros H. split; [exact H|]. exists 0. lia. Qed.
Lemma fact_call n : forall k ns e r, (k = Z.of_nat n) -> small k -> alookup "fact" ns = None -> means factorial ns e (Number k) -> mod64 r (Z.of_nat (fact n)) ->
  means factorial ns (Call (Name "fact") [e]) (Number r).
Proof.
  induction n as [|n IH]; intros k ns e r Ek Hk N He Hr.
  - eapply m_call; [eapply m_global; [exact N|reflexivity]|constructor; [exact He|constructor]|reflexivity|]. cbn [combine app].
    eapply m_if; [eapply m_builtin; [constructor; [apply m_local; reflexivity|constructor; [apply m_num; unfold int64; lia|constructor]]|apply c_less; [exact Hk|unfold small; lia]]|].
    replace (k <? 1) with true by (symmetry; apply Z.ltb_lt; lia). cbn [counts_true]. replace r with 1; [apply m_num; unfold int64; lia|].
    apply (mod64_unique 1 r 1); [apply mod64_self; unfold int64; lia|exact Hr].
  - assert (Hq : exists q, mod64 q (Z.of_nat (fact n))) by (exists (wrap64 (Z.of_nat (fact n))); apply mod64_wrap). destruct Hq as (q & Hq).
    eapply m_call; [eapply m_global; [exact N|reflexivity]|constructor; [exact He|constructor]|reflexivity|]. cbn [combine app].
    eapply m_if; [eapply m_builtin; [constructor; [apply m_local; reflexivity|constructor; [apply m_num; unfold int64; lia|constructor]]|apply c_less; [exact Hk|unfold small; lia]]|].
    replace (k <? 1) with false by (symmetry; apply Z.ltb_ge; lia). cbn [counts_true].
    eapply m_builtin; [constructor; [apply m_local; reflexivity|constructor; [|constructor]]|].
    + apply (IH (k - 1) _ _ q); [lia|unfold small in *; lia|reflexivity| |exact Hq].
      eapply m_builtin; [constructor; [apply m_local; reflexivity|constructor; [apply m_num; unfold int64; lia|constructor]]|]. apply c_minus; [apply int64_small, Hk|].
      apply mod64_self. apply int64_small. unfold small in *. lia.
    + apply c_times. destruct Hr as [Hr1 (i & Hr2)]. destruct Hq as [Hq1 (j & Hq2)]. split; [exact Hr1|]. cbn [fact] in Hr2. rewrite Ek.
      exists (i - Z.of_nat (S n) * j). rewrite Nat2Z.inj_mul in Hr2. rewrite Hq2 in Hr2. lia.
Qed.
Lemma fact_means n r : small (Z.of_nat n) -> mod64 r (Z.of_nat (fact n)) -> means factorial [] (Call (Name "fact") [Num (Z.of_nat n)]) (Number r).
Proof. intros H Hr. eapply fact_call; [reflexivity|exact H|reflexivity|apply m_num, int64_small, H|exact Hr]. Qed.
Lemma each_call ns' body : forall zs ws ns e1 e2, Forall2 (fun v w => means mapping (("x", v) :: ns') body w) zs ws -> alookup "each" ns = None ->
  means mapping ns e1 (Closure ["x"] body ns') -> means mapping ns e2 (Items zs) -> means mapping ns (Call (Name "each") [e1; e2]) (Items ws).
Proof.
  induction zs as [|z zs IH]; intros ws ns e1 e2 F N H1 H2.
  - inversion F; subst. eapply m_call; [eapply m_global; [exact N|reflexivity]|constructor; [exact H1|constructor; [exact H2|constructor]]|reflexivity|]. cbn [combine app].
    eapply m_if; [eapply m_builtin; [constructor; [apply m_local; reflexivity|constructor]|apply c_null]|]. cbn [counts_true]. eapply m_builtin; [constructor|apply c_list].
  - inversion F as [|? w ? ws' Fw F']; subst. eapply m_call; [eapply m_global; [exact N|reflexivity]|constructor; [exact H1|constructor; [exact H2|constructor]]|reflexivity|]. cbn [combine app].
    eapply m_if; [eapply m_builtin; [constructor; [apply m_local; reflexivity|constructor]|apply c_null]|]. cbn [counts_true].
    eapply m_builtin; [constructor; [|constructor; [|constructor]]|apply c_cons].
    + eapply m_call; [apply m_local; reflexivity|constructor; [eapply m_builtin; [constructor; [apply m_local; reflexivity|constructor]|apply c_car]|constructor]|reflexivity|exact Fw].
    + apply (IH ws'); [exact F'|reflexivity|apply m_local; reflexivity|]. eapply m_builtin; [constructor; [apply m_local; reflexivity|constructor]|apply c_cdr].
Qed.
Lemma scaled_means c zs ws : int64 c -> Forall int64 zs -> Forall2 (fun z w => mod64 w (z * c)) zs ws -> means mapping [] (scaled c zs) (Items (map Number ws)).
Proof.
  intros Hc Hz F. eapply m_let; [constructor; [apply m_num, Hc|constructor]|]. cbn [map fst combine app].
  apply (each_call [("k", Number c)] (Builtin "*" [Name "x"; Name "k"]) (map Number zs) (map Number ws)).
  - clear Hz. induction F as [|z w zs ws H _ IH]; constructor; [|exact IH].
    eapply m_builtin; [constructor; [apply m_local; reflexivity|constructor; [apply m_local; reflexivity|constructor]]|apply c_times, H].
  - reflexivity.
  - apply m_lambda.
  - eapply m_builtin; [|apply c_list]. clear F. induction Hz as [|z zs H _ IH]; [constructor|]. cbn [map]. constructor; [apply m_num, H|exact IH].
Qed.
(** *** An expression has at most one meaning *)
Lemma computes_unique n vs v v' : computes n vs v -> computes n vs v' -> v = v'.
Proof.
  intros H K. destruct H; inversion K; subst; try reflexivity; f_equal; try (eapply mod64_unique; eassumption); try (eapply divides_unique; eassumption).
  match goal with D : divides_into ?a ?b ?q ?r, D' : divides_into ?a ?b ?q1 ?r1, Hb : ?b <> 0 |- _ =>
    assert (q1 = q) by (pose proof (divides_unique _ _ _ _ _ _ D' D) as <-; destruct D' as (D1 & _), D as (D2 & _); apply (Z.mul_reg_r _ _ b Hb); lia) end.
  subst. eapply mod64_unique; eassumption.
Qed.
Lemma split_compare {A} (x y : A) r q : forall a b, a ++ x :: r = b ++ y :: q ->
  (a = b /\ x = y /\ r = q) \/ (exists k, b = a ++ x :: k /\ r = k ++ y :: q) \/ (exists k, a = b ++ y :: k /\ q = k ++ x :: r).
Proof.
  induction a as [|c a IH]; intros [|d b] E; cbn [app] in E.
  - injection E as -> ->. left. auto.
  - injection E as -> ->. right. left. exists b. split; reflexivity.
  - injection E as -> <-. right. right. exists a. split; reflexivity.
  - injection E as -> E. destruct (IH b E) as [(-> & -> & ->)|[(k & -> & ->)|(k & -> & ->)]]; [left; auto|right; left; exists k; split; reflexivity|right; right; exists k; split; reflexivity].
Qed.
Lemma means_all_split G ns a b vs : means_all G ns (a ++ b) vs -> exists v1 v2, vs = v1 ++ v2 /\ means_all G ns a v1 /\ means_all G ns b v2.
Proof.
  revert vs. induction a as [|e a IH]; intros vs H; [exists [], vs; split; [reflexivity|]; split; [constructor|exact H]|].
  cbn [app] in H. inversion H as [|? ? v ? vs' H1 H2]; subst. destruct (IH _ H2) as (v1 & v2 & -> & A & B). exists (v :: v1), v2. split; [reflexivity|]. split; [constructor; assumption|exact B].
Qed.
Lemma means_all_join G ns a b v1 v2 : means_all G ns a v1 -> means_all G ns b v2 -> means_all G ns (a ++ b) (v1 ++ v2).
Proof. revert v1. induction a as [|e a IH]; intros v1 H K; inversion H; subst; [exact K|]. cbn [app]. constructor; auto. Qed.
(** Another value of an expression in the middle of a sequence is the value it has there. *)
Lemma means_all_other G ns a e k vs v : means_all G ns (a ++ e :: k) vs -> (forall vs', means_all G ns (a ++ e :: k) vs' -> vs = vs') -> means G ns e v -> In v vs.
Proof.
  intros H U M. destruct (means_all_split _ _ _ _ _ H) as (v1 & v2 & -> & A & B). inversion B as [|? ? w ? v3 M' B']; subst.
  rewrite (U (v1 ++ v :: v3) (means_all_join _ _ _ _ _ _ A (m_more G ns e v k v3 M B'))). apply in_elt.
Qed.
Lemma means_all_at G ns a e k vs : means_all G ns (a ++ e :: k) vs -> exists v, In v vs /\ means G ns e v.
Proof.
  intros H. destruct (means_all_split _ _ _ _ _ H) as (v1 & v2 & -> & A & B). inversion B as [|? ? w ? v3 M' B']; subst. exists w. split; [apply in_elt|exact M'].
Qed.
(** Two readings of a sequence that is left at the first value with [counts_true v = flag]. *)
Lemma same_exit G ns (flag : bool) es vs e v (rest : list expr) : means_all G ns es vs -> (forall vs', means_all G ns es vs' -> vs = vs') -> Forall (fun v => counts_true v = negb flag) vs ->
  (forall v', means G ns e v' -> v = v') -> rest = [] \/ counts_true v = flag -> forall es' vs' e' v' rest', es ++ e :: rest = es' ++ e' :: rest' -> means_all G ns es' vs' ->
  Forall (fun v => counts_true v = negb flag) vs' -> means G ns e' v' -> rest' = [] \/ counts_true v' = flag -> v = v'.
Proof.
  intros Ma Ia T Ie D es' vs' e' v' rest' E Ma' T' Me' D'. rewrite List.Forall_forall in T, T'. destruct (split_compare _ _ _ _ _ _ E) as [(-> & -> & ->)|[(k & -> & ->)|(k & -> & ->)]].
  - apply Ie, Me'.
  - destruct (means_all_at _ _ _ _ _ _ Ma') as (w & Iw & Mw). rewrite <- (Ie _ Mw) in Iw. specialize (T' _ Iw). destruct D as [D|D]; [destruct k; discriminate|]. rewrite D in T'. destruct flag; discriminate.
  - assert (Iw := means_all_other _ _ _ _ _ _ _ Ma Ia Me'). specialize (T _ Iw). destruct D' as [D'|D']; [destruct k; discriminate|]. rewrite D' in T. destruct flag; discriminate.
Qed.
Lemma inv_and G ns L v : means G ns (And L) v -> exists es vs e rest, L = es ++ e :: rest /\ means_all G ns es vs /\ Forall (fun v => counts_true v = true) vs /\ means G ns e v /\ (rest = [] \/ counts_true v = false).
Proof. intros H. inversion H; subst. do 4 eexists. split; [reflexivity|]. eauto. Qed.
Lemma inv_or G ns L v : means G ns (Or L) v -> exists es vs e rest, L = es ++ e :: rest /\ means_all G ns es vs /\ Forall (fun v => counts_true v = false) vs /\ means G ns e v /\ (rest = [] \/ counts_true v = true).
Proof. intros H. inversion H; subst. do 4 eexists. split; [reflexivity|]. eauto. Qed.
Lemma inv_cond G ns L o v : means G ns (Cond L o) v ->
  (exists cs bs t e b rest, L = cs ++ (t, e) :: rest /\ means_all G ns (map fst cs) bs /\ Forall (fun b => counts_true b = false) bs /\ means G ns t b /\ counts_true b = true /\ means G ns e v) \/
  (exists bs, means_all G ns (map fst L) bs /\ Forall (fun b => counts_true b = false) bs /\ match o with Some e => means G ns e v | None => v = Items [] end).
Proof.
  intros H. inversion H; subst.
  - left. do 6 eexists. split; [reflexivity|]. eauto 8.
  - right. eexists. eauto.
  - right. eexists. eauto.
Qed.
Lemma inv_call G ns n es v : means G ns (Builtin n es) v ->
  (exists vs, means_all G ns es vs /\ computes n vs v) \/
  (exists x body ns' vs ws, n = "map" /\ means_all G ns es [Closure [x] body ns'; Items vs] /\ means_each G x body ns' vs ws /\ v = Items ws) \/
  (exists x body ns' vs bs, n = "filter" /\ means_all G ns es [Closure [x] body ns'; Items vs] /\ means_each G x body ns' vs (map Boolean bs) /\ v = Items (map fst (List.filter snd (combine vs bs)))) \/
  (exists x y body ns' a vs, n = "fold-left" /\ means_all G ns es [Closure [x; y] body ns'; a; Items vs] /\ means_fold G x y body ns' a vs v).
Proof.
  intros H. inversion H; subst.
  - left. eauto.
  - right. left. do 5 eexists. eauto.
  - right. right. left. do 5 eexists. eauto.
  - right. right. right. do 6 eexists. eauto.
Qed.
Lemma inv_apply G ns f es v : means G ns (SpecCore.Call f es) v ->
  (exists xs body ns' vs, means G ns f (Closure xs body ns') /\ means_all G ns es vs /\ means G (combine xs vs ++ ns') body v) \/
  (exists x xs body ns' vs, means G ns f (Looping x xs body ns') /\ means_all G ns es vs /\ means G (combine xs vs ++ (x, Looping x xs body ns') :: ns') body v).
Proof. intros H. inversion H; subst; [left; do 4 eexists; eauto|right; do 5 eexists; eauto]. Qed.
Lemma means_once G : (forall ns e v, means G ns e v -> forall v', means G ns e v' -> v = v') /\ (forall ns es vs, means_all G ns es vs -> forall vs', means_all G ns es vs' -> vs = vs') /\
  (forall x body ns vs ws, means_each G x body ns vs ws -> forall ws', means_each G x body ns vs ws' -> ws = ws') /\
  (forall x y body ns a vs r, means_fold G x y body ns a vs r -> forall r', means_fold G x y body ns a vs r' -> r = r').
Proof.
  apply (means_both G (fun ns e v _ => forall v', means G ns e v' -> v = v') (fun ns es vs _ => forall vs', means_all G ns es vs' -> vs = vs')
    (fun x body ns vs ws _ => forall ws', means_each G x body ns vs ws' -> ws = ws') (fun x y body ns a vs r _ => forall r', means_fold G x y body ns a vs r' -> r = r')).
  - intros ns z Hz v' H. inversion H; reflexivity.
  - intros ns b v' H. inversion H; reflexivity.
  - intros ns t v' H. inversion H; reflexivity.
  - intros ns d v Q v' H. inversion H; subst; congruence.
  - intros ns x v Hx v' H. inversion H; subst; congruence.
  - intros ns x xs body Hx HG v' H. inversion H; subst; congruence.
  - intros ns xs body v' H. inversion H; reflexivity.
  - intros ns f es xs body ns' vs v Mf If Ma Ia Len Mb Ib v' H. destruct (inv_apply _ _ _ _ _ H) as [(xs1 & body1 & ns1 & vs1 & H1 & H2 & H4)|(x1 & xs1 & body1 & ns1 & vs1 & H1 & _)]; [|discriminate (If _ H1)].
    specialize (If _ H1). injection If as <- <- <-. specialize (Ia _ H2). subst vs1. apply Ib, H4.
  - intros ns c t e b v Mc Ic Mb Ib v' H. inversion H as [| | | | | | | |? ? ? ? b1 ? H1 H2| | | | | | | | | | | | |]; subst. specialize (Ic _ H1). subst b1. apply Ib, H2.
  - intros ns cs bs t e b rest o v Ma Ia T Mt It Tb Me Ie v' H. destruct (inv_cond _ _ _ _ _ H) as [(cs' & bs' & t' & e' & b' & rest' & E & Ma' & T' & Mt' & Tb' & Me')|(bs' & Ma' & T' & _)].
    + rewrite List.Forall_forall in T, T'. destruct (split_compare _ _ _ _ _ _ E) as [(_ & [= <- <-] & _)|[(k & -> & _)|(k & -> & _)]]; [apply Ie, Me'| |]; exfalso.
      * rewrite map_app in Ma'. cbn [map fst] in Ma'. destruct (means_all_at _ _ _ _ _ _ Ma') as (w & Iw & Mw). rewrite <- (It _ Mw) in Iw. specialize (T' _ Iw). congruence.
      * rewrite map_app in Ma, Ia. cbn [map fst] in Ma, Ia. assert (Iw := means_all_other _ _ _ _ _ _ _ Ma Ia Mt'). specialize (T _ Iw). congruence.
    + exfalso. rewrite List.Forall_forall in T'. rewrite map_app in Ma'. cbn [map fst] in Ma'. destruct (means_all_at _ _ _ _ _ _ Ma') as (w & Iw & Mw). rewrite <- (It _ Mw) in Iw. specialize (T' _ Iw). congruence.
  - intros ns cs bs e v Ma Ia T Me Ie v' H. destruct (inv_cond _ _ _ _ _ H) as [(cs' & bs' & t' & e' & b' & rest' & -> & Ma' & T' & Mt' & Tb' & Me')|(bs' & Ma' & T' & Me')]; [|apply Ie, Me'].
    exfalso. rewrite List.Forall_forall in T. rewrite map_app in Ma, Ia. cbn [map fst] in Ma, Ia. assert (Iw := means_all_other _ _ _ _ _ _ _ Ma Ia Mt'). specialize (T _ Iw). congruence.
  - intros ns cs bs Ma Ia T v' H. destruct (inv_cond _ _ _ _ _ H) as [(cs' & bs' & t' & e' & b' & rest' & -> & Ma' & T' & Mt' & Tb' & Me')|(bs' & Ma' & T' & Me')]; [|symmetry; exact Me'].
    exfalso. rewrite List.Forall_forall in T. rewrite map_app in Ma, Ia. cbn [map fst] in Ma, Ia. assert (Iw := means_all_other _ _ _ _ _ _ _ Ma Ia Mt'). specialize (T _ Iw). congruence.
  - intros ns es vs e rest v Ma Ia T Me Ie D v' H. destruct (inv_and _ _ _ _ H) as (es' & vs' & e' & rest' & E & Ma' & T' & Me' & D').
    exact (same_exit G ns false es vs e v rest Ma Ia T Ie D es' vs' e' v' rest' E Ma' T' Me' D').
  - intros ns es vs e rest v Ma Ia T Me Ie D v' H. destruct (inv_or _ _ _ _ H) as (es' & vs' & e' & rest' & E & Ma' & T' & Me' & D').
    exact (same_exit G ns true es vs e v rest Ma Ia T Ie D es' vs' e' v' rest' E Ma' T' Me' D').
  - intros ns es vs e v Ma Ia Me Ie v' H. remember (Begin (es ++ [e])) as b eqn:Eb. destruct H as [| | | | | | | | | | | | | |? es' vs' e' v' Ma' Me'| | | | | | |]; try discriminate Eb.
    injection Eb as Eb. apply app_inj_tail in Eb. destruct Eb as [-> ->]. apply Ie, Me'.
  - intros ns bs body vs v Ma Ia Mb Ib v' H. inversion H as [| | | | | | | | | | | | | | |? ? ? vs1 ? H1 H2| | | | | |]; subst. specialize (Ia _ H1). subst vs1. apply Ib, H2.
  - intros ns n es vs v Ma Ia Cv v' H. destruct (inv_call _ _ _ _ _ H) as [(vs' & H1 & H2)|[(x & body & ns' & vs' & ws & -> & _)|[(x & body & ns' & vs' & bs & -> & _)|(x & y & body & ns' & a & vs' & -> & _)]]]; try (inversion Cv; fail).
    specialize (Ia _ H1). subst vs'. eapply computes_unique; eassumption.
  - intros ns f l x body ns' vs ws Ma Ia Fit Me Ie v' H. destruct (inv_call _ _ _ _ _ H) as [(vs' & H1 & H2)|[(x1 & body1 & ns1 & vs' & ws' & _ & H1 & H2 & ->)|[(x1 & body1 & ns1 & vs' & bs & ? & _)|(x1 & y & body1 & ns1 & a & vs' & ? & _)]]]; try discriminate; [inversion H2|].
    specialize (Ia _ H1). injection Ia as <- <- <- <-. f_equal. apply Ie, H2.
  - intros ns f l x body ns' vs bs Ma Ia Ne Me Ie v' H. destruct (inv_call _ _ _ _ _ H) as [(vs' & H1 & H2)|[(x1 & body1 & ns1 & vs' & ws' & ? & _)|[(x1 & body1 & ns1 & vs' & bs' & _ & H1 & H2 & ->)|(x1 & y & body1 & ns1 & a & vs' & ? & _)]]]; try discriminate; [inversion H2|].
    specialize (Ia _ H1). injection Ia as <- <- <- <-. specialize (Ie _ H2). assert (bs = bs') as ->; [|reflexivity].
    clear -Ie. revert bs' Ie. induction bs as [|b bs IH]; intros [|b' bs'] E; try discriminate; [reflexivity|]. injection E as -> E. f_equal. apply IH, E.
  - intros ns f i l x y body ns' a vs v Ma Ia Mf If v' H. destruct (inv_call _ _ _ _ _ H) as [(vs' & H1 & H2)|[(x1 & body1 & ns1 & vs' & ws' & ? & _)|[(x1 & body1 & ns1 & vs' & bs' & ? & _)|(x1 & y1 & body1 & ns1 & a1 & vs' & _ & H1 & H2)]]]; try discriminate; [inversion H2|].
    specialize (Ia _ H1). injection Ia as <- <- <- <- <- <-. apply If, H2.
  - intros ns x bs body vs v Ma Ia Mb Ib v' H. inversion H as [| | | | | | | | | | | | | | | | | | | |? ? ? ? vs1 ? H1 H2|]; subst. specialize (Ia _ H1). subst vs1. apply Ib, H2.
  - intros ns f es x xs body ns' vs v Mf If Ma Ia Len Mb Ib v' H. destruct (inv_apply _ _ _ _ _ H) as [(xs1 & body1 & ns1 & vs1 & H1 & _)|(x1 & xs1 & body1 & ns1 & vs1 & H1 & H2 & H4)]; [discriminate (If _ H1)|].
    specialize (If _ H1). injection If as <- <- <- <-. specialize (Ia _ H2). subst vs1. apply Ib, H4.
  - intros ns vs' H. inversion H; reflexivity.
  - intros ns e v es vs M I Ma Ia vs' H. inversion H as [|? ? v1 ? vs1 H1 H2]; subst. f_equal; [apply I, H1|apply Ia, H2].
  - intros x body ns ws' H. inversion H; reflexivity.
  - intros x body ns v vs w ws M I Me Ie ws' H. inversion H as [|? ? ? ? ? w' ws'' H1 H2]; subst. f_equal; [apply I, H1|apply Ie, H2].
  - intros x y body ns a r' H. inversion H; reflexivity.
  - intros x y body ns a v vs b r M I Mf If r' H. inversion H as [|? ? ? ? ? ? ? b' r'' H1 H2]; subst. rewrite (I _ H1) in *. apply If, H2.
Qed.
Lemma means_unique G ns e v v' : means G ns e v -> means G ns e v' -> v = v'.
Proof. intros H K. exact (proj1 (means_once G) ns e v H v' K). Qed.
(** *** A text for every tree of integers, truth values, symbols and lists *)
Fixpoint laid_out (d : tree) : string :=
  match d with
  | XInt z => string_of_Z z
  | XBool b => if b then "#t" else "#f"
  | XSym x => x
  | XList ds => "(" +++ fold_right (fun d r => " " +++ laid_out d +++ r) "" ds +++ ")"
  | _ => ""
  end.
Definition all_laid_out (ds : list tree) : string := fold_right (fun d r => " " +++ laid_out d +++ r) "" ds.
Fixpoint simple_tree (u : uni_table) (d : tree) : Prop :=
  match d with
  | XInt z => int64 z
  | XBool b => True
  | XSym x => symbol_text u x
  | XList ds => fold_right (fun d P => simple_tree u d /\ P) True ds
  | _ => False
  end.
Lemma laid_out_spells u d : simple_tree u d -> spells u d (laid_out d).
Proof.
  induction d as [z|b|t|t|bs|ds IH|ds y IH IHy] using tree_ind2; intros H; cbn [simple_tree laid_out] in *; try contradiction.
  - apply sp_int; [|exact H]. destruct (ProofJson.write_int z); [apply lit_decimal|apply lit_negative]; assumption.
  - apply sp_bool.
  - apply sp_sym, H.
  - apply sp_list. revert H. induction IH as [|d ds Hd _ IHds]; intros H; [constructor; constructor|]. cbn [fold_right] in *. destruct H as [H1 H2].
    apply (items_more u " "); [apply blank_gap|apply Hd, H1|apply IHds, H2|]. destruct ds as [|d2 ds]; [exact Logic.I|]. cbn. left. reflexivity.
Qed.
Lemma all_laid_out_items u ds : Forall (simple_tree u) ds -> items u ds (all_laid_out ds).
Proof.
  induction 1 as [|d ds H _ IH]; [constructor; constructor|]. apply (items_more u " "); [apply blank_gap|apply laid_out_spells, H|exact IH|].
  destruct ds; [exact Logic.I|]. cbn. left. reflexivity.
Qed.
Lemma all_laid_out_program u ds : Forall (simple_tree u) ds -> program u ds (all_laid_out ds).
Proof. intros H. exists (all_laid_out ds), "". split; [apply all_laid_out_items, H|]. split; [|left; reflexivity]. clear. induction (all_laid_out ds) as [|c t IH]; [reflexivity|]. cbn. f_equal. exact IH. Qed.
(** *** The state after start-up has the built-ins *)
Definition has_builtinsb (s : state) : bool :=
  match s_envs s !! s_global s with
  | Some e => match e_parent e, e_frame e, alookup "self" (e_binds e) with
              | None, None, None => forallb (fun n => match alookup n (e_binds e) with
                  | Some b => match s_binds s !! (b : loc) with Some be => match b_val be with VPrim m => str_eqb m n | _ => false end | None => false end
                  | None => false end) reserved
              | _, _, _ => false
              end
  | None => false
  end.
Lemma has_builtinsb_ok s : has_builtinsb s = true -> has_builtins s.
Proof.
  unfold has_builtinsb, has_builtins. destruct (s_envs s !! s_global s) as [e|]; [|discriminate]. destruct (e_parent e) eqn:E1; [discriminate|]. destruct (e_frame e) eqn:E2; [discriminate|].
  destruct (alookup "self" (e_binds e)) eqn:E3; [discriminate|]. intros H. exists e. repeat apply conj; try assumption; try reflexivity. intros n I. rewrite forallb_forall in H. specialize (H n I).
  destruct (alookup n (e_binds e)) as [b|]; [|discriminate]. destruct (s_binds s !! b) as [be|] eqn:Eb; [|discriminate]. destruct (b_val be) eqn:Ev; try discriminate. apply str_eqb_eq in H. subst.
  exists b, be. repeat apply conj; assumption || reflexivity.
Qed.
Lemma start_has_builtins : has_builtins start.
Proof. apply has_builtinsb_ok. vm_compute. reflexivity. Qed.
Lemma plain_nameb x : (plain_head (VSym x) /\ x <> "self" /\ existsb (str_eqb x) reserved = false) -> plain_name x.
Proof. intros (H1 & H2 & H3). split; [exact H1|]. split; [exact H2|]. intros I. assert (Q : existsb (str_eqb x) reserved = true); [|congruence]. apply existsb_exists. exists x. split; [exact I|apply str_eqb_eq; reflexivity]. Qed.
Ltac plain := apply plain_nameb; split; [repeat apply conj; reflexivity|split; [discriminate|reflexivity]].
Lemma all_proper es : Forall proper es -> forall e, In e es -> proper e.
Proof. intros H. apply List.Forall_forall. exact H. Qed.
Ltac proper := repeat first [apply p_num|apply p_truth|apply p_name; plain|apply p_if|apply p_quote|apply p_call|apply p_builtin; [cbn; tauto|]|apply p_lambda|apply p_let|match goal with |- forall e, In e _ -> proper e => apply all_proper end|apply Forall_cons_2|apply Forall_nil_2
  |apply List.NoDup_cons; [cbn; intuition discriminate|]|apply List.NoDup_nil|plain].
Lemma factorial_proper : proper_globals factorial.
Proof.
  split; [apply List.NoDup_cons; [intros []|apply List.NoDup_nil]|]. intros x xs body [[= <- <- <-]|[]]. split; [plain|]. split; [proper|]. split; [proper|]. proper.
Qed.
Lemma mapping_proper : proper_globals mapping.
Proof.
  split; [apply List.NoDup_cons; [intros []|apply List.NoDup_nil]|]. intros x xs body [[= <- <- <-]|[]]. split; [plain|]. split; [proper|]. split; [proper|]. proper.
Qed.
Lemma scaled_proper c zs : proper (scaled c zs).
Proof.
  apply p_let; [proper|proper|intros b [<-|[]]; apply p_num|]. apply p_call; [proper|]. apply all_proper, Forall_cons_2; [proper|]. apply Forall_cons_2; [|constructor].
  apply p_builtin; [cbn; tauto|]. intros e I. apply in_map_iff in I. destruct I as (z & <- & _). apply p_num.
Qed.
Lemma minus_symbol u : symbol_text u "-".
Proof. exists 45, []. split; [apply (text_ascii "-"); reflexivity|]. split; [repeat constructor|]. split; [discriminate|]. split; [reflexivity|]. intros _. exact Logic.I. Qed.
Lemma factorial_program u n : small (Z.of_nat n) -> let ds := map definition factorial ++ [written (Call (Name "fact") [Num (Z.of_nat n)])] in program u ds (all_laid_out ds).
Proof.
  intros H. apply all_laid_out_program. constructor; [|constructor; [|constructor]]; cbn [simple_tree definition written factorial map fst snd fold_right].
  - repeat apply conj; try exact Logic.I; try apply minus_symbol; try (apply symbol_sample; reflexivity); unfold int64; lia.
  - repeat apply conj; try exact Logic.I; try (apply symbol_sample; reflexivity); unfold int64, small in *; lia.
Qed.
Lemma mapping_program u c zs : int64 c -> Forall int64 zs -> let ds := map definition mapping ++ [written (scaled c zs)] in program u ds (all_laid_out ds).
Proof.
  intros H Hz. apply all_laid_out_program. constructor; [|constructor; [|constructor]]; cbn [simple_tree definition written mapping scaled map fst snd fold_right].
  - repeat apply conj; try exact Logic.I; try apply minus_symbol; try (apply symbol_sample; reflexivity).
  - repeat apply conj; try exact Logic.I; try (apply symbol_sample; reflexivity); try apply H.
    rewrite map_map. induction Hz as [|z zs Hz1 _ IH]; [exact Logic.I|]. split; [exact Hz1|exact IH].
Qed.
Lemma start_unbound x : In x ["fact"; "each"; "quick"; "euclid"; "evens"; "odds"] -> local_binding start (s_global start) x = None.
Proof. intros [<-|[<-|[<-|[<-|[<-|[<-|[]]]]]]]; vm_compute; reflexivity. Qed.
(** The factorial program, run in the initial state. *)
Lemma factorial_runs u n r src : small (Z.of_nat n) -> mod64 r (Z.of_nat (fact n)) ->
  program u (map definition factorial ++ [written (Call (Name "fact") [Num (Z.of_nat n)])]) src ->
  forall s, wf_state s -> s_uni s = u -> has_builtins s -> local_binding s (s_global s) "fact" = None ->
  (exists s', run_text src (s_global s) s (Done (Ok (VInt r))) s') /\ forall o s', run_text src (s_global s) s o s' -> o = Done (Ok (VInt r)).
Proof.
  intros Hn Hr P s W Eu B U. assert (Pe : proper (Call (Name "fact") [Num (Z.of_nat n)])) by proper.
  destruct (program_value u factorial _ _ src P factorial_proper Pe (fact_means n r Hn Hr) s W Eu B) as ((w & s' & T) & Q).
  { intros x [<-|[]]. exact U. }
  assert (Q' : forall o s', run_text src (s_global s) s o s' -> o = Done (Ok (VInt r))).
  { intros o s2 T2. destruct (Q _ _ T2) as (w2 & -> & Sw & _). inversion Sw; subst. reflexivity. }
  split; [|exact Q']. exists s'. specialize (Q' _ _ T). rewrite Q' in T. exact T.
Qed.
Lemma scaled_runs u c zs ws src : int64 c -> Forall int64 zs -> Forall2 (fun z w => mod64 w (z * c)) zs ws ->
  program u (map definition mapping ++ [written (scaled c zs)]) src ->
  forall s, wf_state s -> s_uni s = u -> has_builtins s -> local_binding s (s_global s) "each" = None ->
  (exists w s', run_text src (s_global s) s (Done (Ok w)) s') /\
  forall o s', run_text src (s_global s) s o s' -> exists w, o = Done (Ok w) /\ is_list s' w (map VInt ws).
Proof.
  intros Hc Hz F P s W Eu B U.
  destruct (program_value u mapping _ _ src P mapping_proper (scaled_proper c zs) (scaled_means c zs ws Hc Hz F) s W Eu B) as (T & Q).
  { intros x [<-|[]]. exact U. }
  split; [exact T|]. intros o s' T2. destruct (Q _ _ T2) as (w & -> & Sw & _). exists w. split; [reflexivity|].
  inversion Sw as [| | | |? us ? L S| |]; subst. replace (map VInt ws) with us; [exact L|]. clear -S. revert us S. induction ws as [|z ws IH]; intros us S; inversion S as [|? ? ? ? H1 H2]; subst; [reflexivity|].
  inversion H1; subst. cbn [map]. f_equal. apply IH, H2.
Qed.
(** *** Quicksort *)
Lemma part_means G (cmp : Z -> Z -> bool) test ns zs z : (forall a b, small a -> small b -> computes test [Number a; Number b] (Boolean (cmp a b))) ->
  Forall small (z :: zs) -> alookup "xs" ns = Some (Items (map Number (z :: zs))) -> means G ns (part test) (Items (map Number (List.filter (fun a => cmp a z) zs))).
Proof.
  intros C S L. assert (Sz := Forall_inv S). assert (Sr := Forall_inv_tail S).
  replace (map Number (List.filter (fun a => cmp a z) zs)) with (map fst (List.filter snd (combine (map Number zs) (map (fun a => cmp a z) zs)))).
  - apply (m_filter G ns _ _ "x" (Builtin test [Name "x"; Builtin "car" [Name "xs"]]) ns (map Number zs)).
    + constructor; [apply m_lambda|]. constructor; [|constructor]. eapply m_builtin; [constructor; [apply m_local; exact L|constructor]|apply c_cdr].
    + clear. induction zs as [|a zs IH]; constructor; [discriminate|exact IH].
    + assert (Car : forall v, means G (("x", v) :: ns) (Builtin "car" [Name "xs"]) (Number z)).
      { intros v. eapply m_builtin; [constructor; [apply m_local; exact L|constructor]|apply c_car]. }
      clear S L. induction Sr as [|a zs Ha Sr IH]; [constructor|]. cbn [map]. constructor; [|exact IH].
      eapply m_builtin; [constructor; [apply m_local; reflexivity|constructor; [apply Car|constructor]]|apply C; assumption].
  - clear. induction zs as [|a zs IH]; [reflexivity|]. cbn [map combine List.filter snd]. destruct (cmp a z); cbn [map fst]; rewrite IH; reflexivity.
Qed.
Lemma filter_halves {A} (f g : A -> bool) zs : (forall a, g a = negb (f a)) -> Permutation zs (List.filter f zs ++ List.filter g zs).
Proof.
  intros H. induction zs as [|a zs IH]; [constructor|]. cbn [List.filter]. rewrite H. destruct (f a); cbn [negb app]; [apply perm_skip, IH|].
  apply Permutation_cons_app, IH.
Qed.
Lemma filter_shorter {A} (f : A -> bool) zs : (length (List.filter f zs) <= length zs)%nat.
Proof. induction zs as [|a zs IH]; [apply le_n|]. cbn [List.filter length]. destruct (f a); cbn [length]; lia. Qed.
Lemma sorted_join a z b : Sorted Z.le a -> Sorted Z.le b -> Forall (fun x => x < z) a -> Forall (fun x => z <= x) b -> Sorted Z.le (a ++ z :: b).
Proof.
  intros Sa Sb Fa Fb. induction Sa as [|x a Sa IH Hx]; cbn [app].
  - constructor; [exact Sb|]. destruct Fb; constructor; assumption.
  - apply (proj1 (List.Forall_cons_iff _ _ _)) in Fa. destruct Fa as [Fx Fa]. constructor; [apply IH, Fa|]. inversion Hx; subst; cbn [app]; constructor; [lia|assumption].
Qed.
Lemma quick_call : forall n zs, (length zs <= n)%nat -> Forall small zs -> exists ws, Permutation zs ws /\ Sorted Z.le ws /\
  forall ns e, alookup "quick" ns = None -> means quicksort ns e (Items (map Number zs)) -> means quicksort ns (Call (Name "quick") [e]) (Items (map Number ws)).
Proof.
  induction n as [|n IH]; intros zs Hn S.
  - destruct zs; [|cbn in Hn; lia]. exists []. split; [constructor|]. split; [constructor|]. intros ns e N M.
    eapply m_call; [eapply m_global; [exact N|reflexivity]|constructor; [exact M|constructor]|reflexivity|]. cbn [combine app].
    apply (m_cond _ _ [] [] _ _ (Boolean true) [] _ _ ltac:(constructor) ltac:(constructor)); [|reflexivity|eapply m_builtin; [constructor|apply c_list]].
    eapply m_builtin; [constructor; [apply m_local; reflexivity|constructor]|apply c_null].
  - destruct zs as [|z zs].
    { destruct (IH [] ltac:(cbn; lia) S) as (ws & H). exists ws. exact H. }
    assert (Sz := Forall_inv S). assert (Sr := Forall_inv_tail S). cbn [length] in Hn.
    set (lo := fun a => a <? z). set (hi := fun a => z <=? a).
    assert (Sf : forall f, Forall small (List.filter f zs)).
    { intros f. apply List.Forall_forall. intros a I. apply filter_In in I. exact (proj1 (List.Forall_forall _ _) Sr a (proj1 I)). }
    destruct (IH (List.filter lo zs) ltac:(pose proof (filter_shorter lo zs); lia) (Sf lo)) as (wl & Pl & Ol & Ml).
    destruct (IH (List.filter hi zs) ltac:(pose proof (filter_shorter hi zs); lia) (Sf hi)) as (wh & Ph & Oh & Mh).
    exists (wl ++ z :: wh). split; [|split].
    + apply Permutation_cons_app. rewrite <- Pl, <- Ph. apply filter_halves. intros a. unfold lo, hi. rewrite Z.leb_antisym. reflexivity.
    + apply sorted_join; [exact Ol|exact Oh| |].
      * apply List.Forall_forall. intros a I. apply (Permutation_in _ (Permutation_sym Pl)) in I. apply filter_In in I. apply Z.ltb_lt, I.
      * apply List.Forall_forall. intros a I. apply (Permutation_in _ (Permutation_sym Ph)) in I. apply filter_In in I. apply Z.leb_le, I.
    + intros ns e N M. eapply m_call; [eapply m_global; [exact N|reflexivity]|constructor; [exact M|constructor]|reflexivity|]. cbn [combine app].
      apply (m_cond_else _ _ _ [Boolean false]).
      * constructor; [|constructor]. eapply m_builtin; [constructor; [apply m_local; reflexivity|constructor]|apply c_null].
      * constructor; [reflexivity|constructor].
      * rewrite map_app. eapply m_builtin; [constructor; [|constructor; [|constructor]]|apply c_append].
        { apply Ml; [reflexivity|]. apply part_means; [|exact S|reflexivity]. intros a b Ha Hb. apply c_less; assumption. }
        cbn [map]. eapply m_builtin; [constructor; [|constructor; [|constructor]]|apply c_cons].
        { eapply m_builtin; [constructor; [apply m_local; reflexivity|constructor]|apply c_car]. }
        apply Mh; [reflexivity|]. apply (part_means _ (fun a b => b <=? a)); [|exact S|reflexivity]. intros a b Ha Hb. apply c_at_least; assumption.
Qed.
Lemma quoted_numbers zs : quoted_value (XList (map XInt zs)) = Some (Items (map Number zs)).
Proof.
  cbn [quoted_value]. assert (Q : forall zs, fold_right (fun d r => match quoted_value d, r with Some v, Some vs => Some (v :: vs) | _, _ => None end) (Some []) (map XInt zs) = Some (map Number zs)).
  { clear. induction zs as [|z zs IH]; [reflexivity|]. cbn [map fold_right quoted_value]. rewrite IH. reflexivity. }
  rewrite Q. reflexivity.
Qed.
Lemma sorting_means zs : Forall small zs -> exists ws, Permutation zs ws /\ Sorted Z.le ws /\ means quicksort [] (sorting zs) (Items (map Number ws)).
Proof.
  intros S. destruct (quick_call _ zs (le_n _) S) as (ws & P & O & M). exists ws. split; [exact P|]. split; [exact O|]. apply M; [reflexivity|]. apply m_quote, quoted_numbers.
Qed.
Lemma quicksort_proper : proper_globals quicksort.
Proof.
  split; [apply List.NoDup_cons; [intros []|apply List.NoDup_nil]|]. intros x xs body [[= <- <- <-]|[]]. split; [plain|]. split; [proper|]. split; [proper|].
  apply p_cond; [|intros e [= <-]; unfold part; proper]. intros c [<-|[]]. cbn [fst snd]. split; [discriminate|]. split; proper.
Qed.
Lemma sorting_proper zs : proper (sorting zs).
Proof. unfold sorting. proper. Qed.
Lemma sorting_program u zs : Forall small zs -> let ds := map definition quicksort ++ [written (sorting zs)] in program u ds (all_laid_out ds).
Proof.
  intros H. apply all_laid_out_program. constructor; [|constructor; [|constructor]]; cbn [simple_tree definition written quicksort sorting part map fst snd fold_right app].
  - repeat apply conj; try exact Logic.I; try apply minus_symbol; try (apply symbol_sample; reflexivity).
  - repeat apply conj; try exact Logic.I; try (apply symbol_sample; reflexivity).
    induction H as [|z zs Hz _ IH]; [exact Logic.I|]. split; [apply int64_small, Hz|exact IH].
Qed.
Lemma sorting_runs u zs src : Forall small zs -> program u (map definition quicksort ++ [written (sorting zs)]) src ->
  forall s, wf_state s -> s_uni s = u -> has_builtins s -> local_binding s (s_global s) "quick" = None ->
  (exists w s', run_text src (s_global s) s (Done (Ok w)) s') /\
  forall o s', run_text src (s_global s) s o s' -> exists w ws, o = Done (Ok w) /\ is_list s' w (map VInt ws) /\ Permutation zs ws /\ Sorted Z.le ws.
Proof.
  intros Hz P s W Eu B U. destruct (sorting_means zs Hz) as (ws & Pm & So & M).
  destruct (program_value u quicksort _ _ src P quicksort_proper (sorting_proper zs) M s W Eu B) as (T & Q).
  { intros x [<-|[]]. exact U. }
  split; [exact T|]. intros o s' T2. destruct (Q _ _ T2) as (w & -> & Sw & _). exists w, ws. split; [reflexivity|]. split; [|split; assumption].
  inversion Sw as [| | | |? us ? L S| |]; subst. replace (map VInt ws) with us; [exact L|]. clear -S. revert us S. induction ws as [|z ws IH]; intros us S; inversion S as [|? ? ? ? H1 H2]; subst; [reflexivity|].
  inversion H1; subst. cbn [map]. f_equal. apply IH, H2.
Qed.
(** *** A sum of squares, and the conditional forms *)
Lemma squares_each G : forall zs, exists ws, Forall2 (fun z w => mod64 w (z * z)) zs ws /\ means_each G "x" (Builtin "*" [Name "x"; Name "x"]) [] (map Number zs) (map Number ws).
Proof.
  induction zs as [|z zs (ws & F & M)]; [exists []; split; constructor|]. exists (wrap64 (z * z) :: ws). split; [constructor; [apply mod64_wrap|exact F]|].
  cbn [map]. constructor; [|exact M]. eapply m_builtin; [constructor; [apply m_local; reflexivity|constructor; [apply m_local; reflexivity|constructor]]|apply c_times, mod64_wrap].
Qed.
Lemma mod64_plus a b x y r : mod64 a x -> mod64 b y -> mod64 r (a + b) -> mod64 r (x + y).
Proof. intros [_ (i & Hi)] [_ (k & Hk)] [Hr (j & Hj)]. split; [exact Hr|]. exists (i + j + k). lia. Qed.
Lemma sum_fold G : forall zs ws, Forall2 (fun z w => mod64 w (z * z)) zs ws -> forall a x r, mod64 a x -> mod64 r (x + sum (map (fun z => z * z) zs)) ->
  means_fold G "a" "x" (Builtin "+" [Name "a"; Name "x"]) [] (Number a) (map Number ws) (Number r).
Proof.
  induction 1 as [|z w zs ws Hw _ IH]; intros a x r Ha Hr; cbn [map].
  - unfold sum in Hr. cbn [map fold_right] in Hr. rewrite Z.add_0_r in Hr. rewrite (mod64_unique _ _ _ Hr Ha). constructor.
  - apply (mf_more G "a" "x" _ [] (Number a) (Number w) (map Number ws) (Number (wrap64 (a + w))) (Number r)).
    + eapply m_builtin; [constructor; [apply m_local; reflexivity|constructor; [apply m_local; reflexivity|constructor]]|apply c_plus, mod64_wrap].
    + apply (IH _ (x + z * z)); [exact (mod64_plus _ _ _ _ _ Ha Hw (mod64_wrap _))|]. unfold sum in *. cbn [map fold_right] in Hr. rewrite Z.add_assoc in Hr. exact Hr.
Qed.
Lemma squares_means G zs r : Z.of_nat (length zs) < 2 ^ 63 - 1 -> mod64 r (sum (map (fun z => z * z) zs)) -> means G [] (sum_of_squares zs) (Number r).
Proof.
  intros Hl Hr. destruct (squares_each G zs) as (ws & F & M).
  apply (m_fold G [] _ _ _ "a" "x" (Builtin "+" [Name "a"; Name "x"]) [] (Number 0) (map Number ws)); [|exact (sum_fold G zs ws F 0 0 r (mod64_self 0 ltac:(unfold int64; lia)) Hr)].
  constructor; [apply m_lambda|]. constructor; [apply m_num; unfold int64; lia|]. constructor; [|constructor].
  apply (m_map G [] _ _ "x" (Builtin "*" [Name "x"; Name "x"]) [] (map Number zs)); [|unfold fits; rewrite map_length; exact Hl|exact M].
  constructor; [apply m_lambda|]. constructor; [apply m_quote, quoted_numbers|constructor].
Qed.
Lemma squares_proper zs : proper (sum_of_squares zs).
Proof. unfold sum_of_squares. proper. Qed.
Lemma squares_program u zs : Forall int64 zs -> program u [written (sum_of_squares zs)] (all_laid_out [written (sum_of_squares zs)]).
Proof.
  intros H. apply all_laid_out_program. constructor; [|constructor]. cbn [simple_tree written sum_of_squares map fst snd fold_right app].
  repeat apply conj; try exact Logic.I; try (apply symbol_sample; reflexivity); try (unfold int64; lia).
  induction H as [|z zs Hz _ IH]; [exact Logic.I|]. split; [exact Hz|exact IH].
Qed.
Lemma squares_runs u zs r src : Z.of_nat (length zs) < 2 ^ 63 - 1 -> mod64 r (sum (map (fun z => z * z) zs)) -> program u [written (sum_of_squares zs)] src ->
  forall s, wf_state s -> s_uni s = u -> has_builtins s ->
  (exists s', run_text src (s_global s) s (Done (Ok (VInt r))) s') /\ forall o s', run_text src (s_global s) s o s' -> o = Done (Ok (VInt r)).
Proof.
  intros Hl Hr P s W Eu B.
  destruct (program_value u [] _ _ src P ltac:(split; [apply List.NoDup_nil|intros x xs body []]) (squares_proper zs) (squares_means [] zs r Hl Hr) s W Eu B) as ((w & s' & T) & Q); [intros x []|].
  assert (Q' : forall o s', run_text src (s_global s) s o s' -> o = Done (Ok (VInt r))).
  { intros o s2 T2. destruct (Q _ _ T2) as (w2 & -> & Sw & _). inversion Sw; subst. reflexivity. }
  split; [|exact Q']. exists s'. specialize (Q' _ _ T). rewrite Q' in T. exact T.
Qed.
Lemma choices_means : means [] [] choices (Items []) /\ proper choices.
Proof.
  split.
  - apply (m_and [] [] [Num 1; Or [Truth false; Begin [Num 2; Builtin "string-length" [Text "abc"]]]] [Number 1; Number 3]
      (Cond [(Truth false, Num 4); (Quote (XList []), Num 5)] None) [Num 6]); [| | |right; reflexivity].
    + constructor; [apply m_num; unfold int64; lia|]. constructor; [|constructor].
      apply (m_or [] [] [Truth false] [Boolean false] (Begin [Num 2; Builtin "string-length" [Text "abc"]]) []); [| | |left; reflexivity].
      * constructor; [apply m_truth|constructor].
      * constructor; [reflexivity|constructor].
      * apply (m_begin [] [] [Num 2] [Number 2] (Builtin "string-length" [Text "abc"])); [constructor; [apply m_num; unfold int64; lia|constructor]|].
        eapply m_builtin; [constructor; [apply m_text|constructor]|apply (c_string_length "abc")].
    + constructor; [reflexivity|]. constructor; [reflexivity|constructor].
    + apply (m_cond_none [] [] _ [Boolean false; Items []]); [constructor; [apply m_truth|]; constructor; [apply m_quote; reflexivity|constructor]|constructor; [reflexivity|]; constructor; [reflexivity|constructor]].
  - assert (Q : forall es, Forall proper es -> forall e, In e es -> proper e) by (intros es H; apply List.Forall_forall; exact H).
    apply p_and, Q. repeat apply Forall_cons_2; try apply Forall_nil_2; try apply p_num.
    + apply p_or, Q. repeat apply Forall_cons_2; try apply Forall_nil_2; try apply p_truth. apply p_begin, Q. repeat apply Forall_cons_2; try apply Forall_nil_2; [apply p_num|].
      apply p_builtin; [cbn; tauto|]. apply Q. repeat apply Forall_cons_2; try apply Forall_nil_2. apply p_text.
    + apply p_cond; [|discriminate]. intros c [<-|[<-|[]]]; cbn [fst snd]; (split; [discriminate|]); split; constructor.
Qed.
(** *** A loop *)
Definition turn_body : expr :=
  If (Builtin "null?" [Name "xs"]) (Name "acc") (SpecCore.Call (Name "turn") [Builtin "cdr" [Name "xs"]; Builtin "cons" [Builtin "car" [Name "xs"]; Name "acc"]]).
Lemma turn_means G : forall zs vs,
  means G [("xs", Items (map Number zs)); ("acc", Items vs); ("turn", Looping "turn" ["xs"; "acc"] turn_body [])] turn_body (Items (rev (map Number zs) ++ vs)).
Proof.
  induction zs as [|z zs IH]; intros vs; unfold turn_body at 2.
  - eapply m_if; [eapply m_builtin; [constructor; [apply m_local; reflexivity|constructor]|apply (c_null (map Number []))]|]. apply m_local. reflexivity.
  - eapply m_if; [eapply m_builtin; [constructor; [apply m_local; reflexivity|constructor]|apply (c_null (map Number (z :: zs)))]|]. cbn [map counts_true].
    eapply (m_again G _ (Name "turn") _ "turn" ["xs"; "acc"] turn_body [] [Items (map Number zs); Items (Number z :: vs)]); [apply m_local; reflexivity| |reflexivity|].
    + constructor; [eapply m_builtin; [constructor; [apply m_local; reflexivity|constructor]|apply c_cdr]|]. constructor; [|constructor].
      eapply m_builtin; [constructor; [eapply m_builtin; [constructor; [apply m_local; reflexivity|constructor]|apply c_car]|constructor; [apply m_local; reflexivity|constructor]]|apply c_cons].
    + cbn [combine app rev map]. rewrite <- app_assoc. exact (IH (Number z :: vs)).
Qed.
Lemma turning_means G zs : means G [] (turning zs) (Items (map Number (rev zs))).
Proof.
  apply (m_loop G [] "turn" _ turn_body [Items (map Number zs); Items []]).
  - constructor; [apply m_quote, quoted_numbers|]. constructor; [|constructor]. eapply m_builtin; [constructor|apply (c_list [])].
  - assert (Q := turn_means G zs []). rewrite app_nil_r, <- map_rev in Q. exact Q.
Qed.
Lemma turning_proper zs : proper (turning zs).
Proof.
  apply p_loop; [plain|proper|proper| |proper]. intros b [<-|[<-|[]]]; cbn [snd]; proper.
Qed.
Lemma turning_program u zs : Forall int64 zs -> program u [written (turning zs)] (all_laid_out [written (turning zs)]).
Proof.
  intros H. apply all_laid_out_program. constructor; [|constructor]. cbn [simple_tree written turning map fst snd fold_right app].
  repeat apply conj; try exact Logic.I; try (apply symbol_sample; reflexivity); try (unfold int64; lia).
  induction H as [|z zs Hz _ IH]; [exact Logic.I|]. split; [exact Hz|exact IH].
Qed.
Lemma turning_runs u zs src : program u [written (turning zs)] src ->
  forall s, wf_state s -> s_uni s = u -> has_builtins s ->
  (exists w s', run_text src (s_global s) s (Done (Ok w)) s') /\
  forall o s', run_text src (s_global s) s o s' -> exists w, o = Done (Ok w) /\ is_list s' w (map VInt (rev zs)).
Proof.
  intros P s W Eu B.
  destruct (program_value u [] _ _ src P ltac:(split; [apply List.NoDup_nil|intros x xs body []]) (turning_proper zs) (turning_means [] zs) s W Eu B) as (T & Q); [intros x []|].
  split; [exact T|]. intros o s' T2. destruct (Q _ _ T2) as (w & -> & Sw & _). exists w. split; [reflexivity|].
  inversion Sw as [| | | |? us ? L S| |]; subst. replace (map VInt (rev zs)) with us; [exact L|]. clear -S. revert us S. induction (rev zs) as [|z ws IH]; intros us S; inversion S as [|? ? ? ? H1 H2]; subst; [reflexivity|].
  inversion H1; subst. cbn [map]. f_equal. apply IH, H2.
Qed.
(** *** Euclid's algorithm and mutual recursion *)
Lemma one_number u G e z src : program u (map definition G ++ [written e]) src -> proper_globals G -> proper e -> means G [] e (Number z) ->
  forall s, wf_state s -> s_uni s = u -> has_builtins s -> (forall x, In x (map fst G) -> local_binding s (s_global s) x = None) ->
  (exists s', run_text src (s_global s) s (Done (Ok (VInt z))) s') /\ forall o s', run_text src (s_global s) s o s' -> o = Done (Ok (VInt z)).
Proof.
  intros P PG Pe M s W Eu B U. destruct (program_value u G e _ src P PG Pe M s W Eu B U) as ((w & s' & T) & Q).
  assert (Q' : forall o s', run_text src (s_global s) s o s' -> o = Done (Ok (VInt z))).
  { intros o s2 T2. destruct (Q _ _ T2) as (w2 & -> & Sw & _). inversion Sw; subst. reflexivity. }
  split; [|exact Q']. exists s'. specialize (Q' _ _ T). rewrite Q' in T. exact T.
Qed.
Lemma one_truth u G e b src : program u (map definition G ++ [written e]) src -> proper_globals G -> proper e -> means G [] e (Boolean b) ->
  forall s, wf_state s -> s_uni s = u -> has_builtins s -> (forall x, In x (map fst G) -> local_binding s (s_global s) x = None) ->
  (exists s', run_text src (s_global s) s (Done (Ok (VBool b))) s') /\ forall o s', run_text src (s_global s) s o s' -> o = Done (Ok (VBool b)).
Proof.
  intros P PG Pe M s W Eu B U. destruct (program_value u G e _ src P PG Pe M s W Eu B U) as ((w & s' & T) & Q).
  assert (Q' : forall o s', run_text src (s_global s) s o s' -> o = Done (Ok (VBool b))).
  { intros o s2 T2. destruct (Q _ _ T2) as (w2 & -> & Sw & _). inversion Sw; subst. reflexivity. }
  split; [|exact Q']. exists s'. specialize (Q' _ _ T). rewrite Q' in T. exact T.
Qed.
Lemma euclid_call : forall k a b ns e1 e2, (Z.to_nat b <= k)%nat -> 0 <= a -> 0 <= b -> int64 b -> alookup "euclid" ns = None ->
  means euclid ns e1 (Number a) -> means euclid ns e2 (Number b) -> means euclid ns (Call (Name "euclid") [e1; e2]) (Number (Z.gcd a b)).
Proof.
  induction k as [|k IH]; intros a b ns e1 e2 Hk Ha Hb Ib N H1 H2;
    (eapply m_call; [eapply m_global; [exact N|reflexivity]|constructor; [exact H1|constructor; [exact H2|constructor]]|reflexivity|]); cbn [combine app];
    (eapply m_if; [eapply m_builtin; [constructor; [apply m_local; reflexivity|constructor]|apply c_zero, Ib]|]); cbn [counts_true].
  - replace b with 0 by lia. cbn [Z.eqb]. replace (Z.gcd a 0) with a by (rewrite Z.gcd_0_r, Z.abs_eq; auto). apply m_local. reflexivity.
  - destruct (Z.eqb_spec b 0) as [->|Nb]; [replace (Z.gcd a 0) with a by (rewrite Z.gcd_0_r, Z.abs_eq; auto); apply m_local; reflexivity|].
    assert (0 <= a mod b < b) by (apply Z.mod_pos_bound; lia).
    replace (Z.gcd a b) with (Z.gcd b (a mod b)) by (rewrite (Z.gcd_comm b), Z.gcd_mod by exact Nb; apply Z.gcd_comm).
    apply IH; [lia|lia|lia|unfold int64 in *; lia|reflexivity|apply m_local; reflexivity|].
    eapply m_builtin; [constructor; [apply m_local; reflexivity|constructor; [apply m_local; reflexivity|constructor]]|].
    apply (c_remainder a b (a / b)); [exact Nb|]. split; [rewrite Z.mul_comm; apply Z.div_mod, Nb|]. split; [rewrite !Z.abs_eq; lia|apply Z.mul_nonneg_nonneg; lia].
Qed.
Lemma euclid_means a b : 0 <= a -> 0 <= b -> int64 a -> int64 b -> means euclid [] (Call (Name "euclid") [Num a; Num b]) (Number (Z.gcd a b)).
Proof. intros. eapply euclid_call; [reflexivity|assumption|assumption|assumption|reflexivity|apply m_num; assumption|apply m_num; assumption]. Qed.
Lemma euclid_proper : proper_globals euclid.
Proof.
  split; [apply List.NoDup_cons; [intros []|apply List.NoDup_nil]|]. intros x xs body [[= <- <- <-]|[]]. split; [plain|]. split; [proper|]. split; [proper|]. proper.
Qed.
Lemma euclid_program u a b : int64 a -> int64 b -> let ds := map definition euclid ++ [written (Call (Name "euclid") [Num a; Num b])] in program u ds (all_laid_out ds).
Proof.
  intros Ha Hb. apply all_laid_out_program. constructor; [|constructor; [|constructor]]; cbn [simple_tree definition written euclid map fst snd fold_right].
  - repeat apply conj; try exact Logic.I; apply symbol_sample; reflexivity.
  - repeat apply conj; try exact Logic.I; try (apply symbol_sample; reflexivity); first [apply Ha|apply Hb].
Qed.
Lemma euclid_runs u a b src : 0 <= a -> 0 <= b -> int64 a -> int64 b ->
  program u (map definition euclid ++ [written (Call (Name "euclid") [Num a; Num b])]) src ->
  forall s, wf_state s -> s_uni s = u -> has_builtins s -> local_binding s (s_global s) "euclid" = None ->
  (exists s', run_text src (s_global s) s (Done (Ok (VInt (Z.gcd a b)))) s') /\ forall o s', run_text src (s_global s) s o s' -> o = Done (Ok (VInt (Z.gcd a b))).
Proof.
  intros Ha Hb Ia Ib P s W Eu B U. apply (one_number u euclid _ _ src P euclid_proper ltac:(proper) (euclid_means a b Ha Hb Ia Ib) s W Eu B). intros x [<-|[]]. exact U.
Qed.
Lemma parity_call n : forall k ns e, k = Z.of_nat n -> int64 k -> alookup "evens" ns = None -> alookup "odds" ns = None -> means parity ns e (Number k) ->
  means parity ns (Call (Name "evens") [e]) (Boolean (Z.even k)) /\ means parity ns (Call (Name "odds") [e]) (Boolean (Z.odd k)).
Proof.
  induction n as [|n IH]; intros k ns e Ek Ik N1 N2 He.
  - subst k. split; (eapply m_call; [eapply m_global; [assumption|reflexivity]|constructor; [exact He|constructor]|reflexivity|]); cbn [combine app];
      (eapply m_if; [eapply m_builtin; [constructor; [apply m_local; reflexivity|constructor]|apply c_zero, Ik]|]); cbn; apply m_truth.
  - assert (P : means parity [("n", Number k)] (Builtin "pred" [Name "n"]) (Number (k - 1))).
    { eapply m_builtin; [constructor; [apply m_local; reflexivity|constructor]|]. apply c_pred, mod64_self. unfold int64 in *. lia. }
    destruct (IH (k - 1) [("n", Number k)] _ ltac:(lia) ltac:(unfold int64 in *; lia) eq_refl eq_refl P) as [E O].
    replace (Z.even (k - 1)) with (Z.odd k) in E by (rewrite Z.even_sub; cbn; rewrite <- Z.negb_even; destruct (Z.even k); reflexivity).
    replace (Z.odd (k - 1)) with (Z.even k) in O by (rewrite Z.odd_sub; cbn; rewrite <- Z.negb_odd; destruct (Z.odd k); reflexivity).
    split; (eapply m_call; [eapply m_global; [assumption|reflexivity]|constructor; [exact He|constructor]|reflexivity|]); cbn [combine app];
      (eapply m_if; [eapply m_builtin; [constructor; [apply m_local; reflexivity|constructor]|apply c_zero, Ik]|]);
      (replace (k =? 0) with false by (symmetry; apply Z.eqb_neq; lia)); cbn [counts_true]; assumption.
Qed.
Lemma parity_proper : proper_globals parity.
Proof.
  split; [apply List.NoDup_cons; [cbn; intuition discriminate|apply List.NoDup_cons; [intros []|apply List.NoDup_nil]]|].
  intros x xs body [[= <- <- <-]|[[= <- <- <-]|[]]]; (split; [plain|]; split; [proper|]; split; [proper|]; proper).
Qed.
Lemma parity_program u f k : In f ["evens"; "odds"] -> int64 k -> let ds := map definition parity ++ [written (Call (Name f) [Num k])] in program u ds (all_laid_out ds).
Proof.
  intros I H. apply all_laid_out_program. constructor; [|constructor; [|constructor; [|constructor]]]; cbn [simple_tree definition written parity map fst snd fold_right];
    [| |destruct I as [<-|[<-|[]]]]; repeat apply conj; try exact Logic.I; try (apply symbol_sample; reflexivity); apply H.
Qed.
Lemma parity_runs u n src : int64 n -> 0 <= n -> forall f b, (f, b) = ("evens", Z.even n) \/ (f, b) = ("odds", Z.odd n) ->
  program u (map definition parity ++ [written (Call (Name f) [Num n])]) src ->
  forall s, wf_state s -> s_uni s = u -> has_builtins s -> local_binding s (s_global s) "evens" = None -> local_binding s (s_global s) "odds" = None ->
  (exists s', run_text src (s_global s) s (Done (Ok (VBool b))) s') /\ forall o s', run_text src (s_global s) s o s' -> o = Done (Ok (VBool b)).
Proof.
  intros In0 Hn f b Hf P s W Eu B U1 U2.
  destruct (parity_call (Z.to_nat n) n [] (Num n) ltac:(lia) In0 eq_refl eq_refl ltac:(apply m_num, In0)) as [M1 M2].
  assert (U : forall x, In x (map fst parity) -> local_binding s (s_global s) x = None) by (intros x [<-|[<-|[]]]; assumption).
  destruct Hf as [[= -> ->]|[= -> ->]]; [apply (one_truth u parity _ _ src P parity_proper ltac:(proper) M1 s W Eu B U)|apply (one_truth u parity _ _ src P parity_proper ltac:(proper) M2 s W Eu B U)].
Qed.
