(** Facts about the string and association-list helpers of Base.v. *)
From Verif Require Export Base.
Local Open Scope string_scope.
Local Open Scope list_scope.

Lemma str_eqb_spec a b : reflect (a = b) (str_eqb a b).
Proof.
  revert b. induction a as [|c a IH]; intros [|d b]; cbn; try (constructor; congruence).
  destruct (Ascii.eqb_spec c d) as [<-|N]; cbn; [|constructor; congruence].
  destruct (IH b) as [<-|N]; constructor; congruence.
Qed.
Lemma str_eqb_eq a b : str_eqb a b = true <-> a = b.
Proof. destruct (str_eqb_spec a b); split; congruence. Qed.
Lemma str_eqb_refl a : str_eqb a a = true.
Proof. apply str_eqb_eq. reflexivity. Qed.
Lemma str_eqb_neq a b : str_eqb a b = false <-> a <> b.
Proof. destruct (str_eqb_spec a b); split; congruence. Qed.
Lemma str_eqb_sym a b : str_eqb a b = str_eqb b a.
Proof. destruct (str_eqb_spec a b), (str_eqb_spec b a); congruence. Qed.

Lemma alookup_aset_eq {T} k (v : T) l : alookup k (aset k v l) = Some v.
Proof.
  induction l as [|[q w] l IH]; cbn; [rewrite str_eqb_refl; reflexivity|].
  destruct (str_eqb k q) eqn:E; cbn; [rewrite str_eqb_refl; reflexivity|]. rewrite E. exact IH.
Qed.
Lemma alookup_aset_ne {T} k k' (v : T) l : k <> k' -> alookup k (aset k' v l) = alookup k l.
Proof.
  intros Hn. induction l as [|[q w] l IH]; cbn.
  - destruct (str_eqb_spec k k'); [contradiction|reflexivity].
  - destruct (str_eqb_spec k' q) as [<-|N]; cbn.
    + destruct (str_eqb_spec k k'); [contradiction|reflexivity].
    + destruct (str_eqb k q); [reflexivity|exact IH].
Qed.
Lemma alookup_adel_ne {T} k k' (l : list (string * T)) : k <> k' -> alookup k (adel k' l) = alookup k l.
Proof.
  intros Hn. induction l as [|[q w] l IH]; cbn; [reflexivity|].
  destruct (str_eqb_spec k' q) as [<-|N]; cbn.
  - destruct (str_eqb_spec k k'); [contradiction|exact IH].
  - destruct (str_eqb k q); [reflexivity|exact IH].
Qed.
Lemma alookup_adel_eq {T} k (l : list (string * T)) : alookup k (adel k l) = None.
Proof.
  induction l as [|[q w] l IH]; cbn; [reflexivity|]. destruct (str_eqb k q) eqn:E; cbn; [|rewrite E]; exact IH.
Qed.
Lemma alookup_aset {T} k k' (v : T) l :
  alookup k (aset k' v l) = if str_eqb k k' then Some v else alookup k l.
Proof.
  destruct (str_eqb_spec k k') as [->|N]; [apply alookup_aset_eq|apply alookup_aset_ne, N].
Qed.
