(** Proofs of C64: which texts encoding/json accepts. *)
From Coq Require Import SpecFloat.
From Verif Require Import ProofRead ProofPrint ProofFrame ProofList ProofData ProofEval ProofJson ProofJsonNum NumText StrFacts.
From Verif Require Import Json SpecJson SpecJsonText Data.
Local Open Scope string_scope.
Local Open Scope list_scope.
Local Open Scope Z_scope.
Local Notation B := bytes_of_string.

Lemma app_assoc_str a b c : (a +++ b) +++ c = a +++ b +++ c.
Proof. induction a as [|x a IH]; [reflexivity|]. cbn [str_app]. rewrite IH. reflexivity. Qed.
Lemma app_empty a : a +++ "" = a.
Proof. induction a as [|x a IH]; [reflexivity|]. cbn [str_app]. rewrite IH. reflexivity. Qed.
Lemma byte_char c k : byte_of c = byte_of k -> c = k.
Proof. intros H. rewrite <- (ascii_of_byte_of c), H, ascii_of_byte_of. reflexivity. Qed.
Lemma B_nil s : [] = B s -> s = "".
Proof. destruct s; [reflexivity|discriminate]. Qed.
Lemma B_inj a b : B a = B b -> a = b.
Proof.
  revert b. induction a as [|c a IH]; intros [|d b] H; try discriminate; [reflexivity|]. cbn [bytes_of_string] in H. injection H as H1 H2.
  f_equal; [apply byte_char, H1|apply IH, H2].
Qed.

(** ** Digits *)
Lemma digit_in c : digit_byte (byte_of c) = true -> In (c, byte_of c - 48) digit_table /\ byte_of c - 48 < 10.
Proof.
  intros H. assert (E : 48 <= byte_of c <= 57) by (unfold digit_byte in H; lia). split; [|lia]. rewrite <- (ascii_of_byte_of c) at 1.
  set (k := byte_of c) in *. clearbody k. assert (k = 48 \/ k = 49 \/ k = 50 \/ k = 51 \/ k = 52 \/ k = 53 \/ k = 54 \/ k = 55 \/ k = 56 \/ k = 57) as K by lia.
  repeat (destruct K as [-> | K]); subst; vm_compute; intuition.
Qed.
Lemma hex_in c d : hex_val (byte_of c) = Some d -> In (c, d) digit_table /\ d < 16.
Proof.
  destruct c as [[] [] [] [] [] [] [] []]; vm_compute; intros E; try discriminate; injection E as <-; (split; [intuition|reflexivity]).
Qed.
Lemma written_app b i n f m : written b i n -> written b f m -> written b (i +++ f) (n * b ^ str_len f + m).
Proof.
  intros W1 W2. induction W2 as [c d T L|t k c d W2 IH T L].
  - change (str_len (String c "")) with 1. rewrite Z.pow_1_r. apply written_more; assumption.
  - rewrite <- app_assoc_str. replace (n * b ^ str_len (t +++ String c "") + (k * b + d)) with ((n * b ^ str_len t + k) * b + d); [apply written_more; assumption|].
    rewrite <- (bytes_len (t +++ String c "")), bytes_app, app_length. cbn [bytes_of_string length]. rewrite Nat2Z.inj_add, bytes_len. change (Z.of_nat 1) with 1. rewrite Z.pow_add_r by (try lia; rewrite <- bytes_len; lia). ring.
Qed.
Lemma digits_through t n : written 10 t n -> forall r acc k, digits_run (B t ++ r) acc k = digits_run r (acc * 10 ^ str_len t + n) (k + length (B t)).
Proof.
  intros W. rewrite <- bytes_len. induction W as [c d T L|t0 n0 c d W IH T L]; intros r acc k.
  - cbn [bytes_of_string app digits_run length]. destruct (digit_char_facts 10 c d T L ltac:(lia)) as (_ & D & _ & D10 & _). specialize (D10 ltac:(lia)).
    replace (digit_byte (byte_of c)) with true by (unfold digit_byte; lia). assert (byte_of c - 48 = d). { revert T L. cbn [digit_table In]. intros T L. repeat (destruct T as [T|T]; [injection T as <- <-; first [reflexivity|exfalso; lia]|]). contradiction. }
    f_equal; [change (Z.of_nat 1) with 1; lia|lia].
  - rewrite bytes_app, <- app_assoc, IH. cbn [bytes_of_string app digits_run]. destruct (digit_char_facts 10 c d T L ltac:(lia)) as (_ & D & _ & D10 & _). specialize (D10 ltac:(lia)).
    replace (digit_byte (byte_of c)) with true by (unfold digit_byte; lia). assert (byte_of c - 48 = d). { revert T L. cbn [digit_table In]. intros T L. repeat (destruct T as [T|T]; [injection T as <- <-; first [reflexivity|exfalso; lia]|]). contradiction. }
    rewrite app_length. cbn [length]. f_equal; [|lia]. rewrite Nat2Z.inj_add, Z.pow_add_r by lia. change (Z.of_nat 1) with 1. lia.
Qed.
Lemma written_det t n m : written 10 t n -> written 10 t m -> n = m.
Proof.
  intros W1 W2. pose proof (digits_through _ _ W1 [] 0 0) as H. rewrite (digits_through _ _ W2), !Z.mul_0_l, !Z.add_0_l in H. cbn [digits_run] in H. congruence.
Qed.
Definition no_digit (r : list Z) : Prop := match r with [] => True | b :: _ => digit_byte b = false end.
Lemma digits_stop r acc k : no_digit r -> digits_run r acc k = (acc, k, r).
Proof. destruct r as [|b r]; [reflexivity|]. cbn [no_digit digits_run]. intros ->. reflexivity. Qed.
(** Any digits that are read form a numeral. *)
Lemma digits_split s : forall acc k v k' r, digits_run (B s) acc k = (v, k', r) ->
  exists t rest, s = t +++ rest /\ r = B rest /\ no_digit r /\ k' = (k + length (B t))%nat /\
    ((t = "" /\ v = acc) \/ exists n, written 10 t n /\ v = acc * 10 ^ str_len t + n).
Proof.
  assert (G : forall s p n acc k v k' r, written 10 p n -> digits_run (B s) (acc * 10 ^ str_len p + n) (k + length (B p)) = (v, k', r) ->
    exists t rest, p +++ s = t +++ rest /\ r = B rest /\ no_digit r /\ k' = (k + length (B t))%nat /\ exists n, written 10 t n /\ v = acc * 10 ^ str_len t + n).
  { clear s. intros s. induction s as [|c s IH]; intros p n acc k v k' r W E.
    - cbn in E. injection E as <- <- <-. exists p, "". rewrite app_empty. repeat apply conj; try reflexivity; try exact Logic.I. exists n. auto.
    - cbn [bytes_of_string digits_run] in E. destruct (digit_byte (byte_of c)) eqn:Dc.
      + destruct (digit_in c Dc) as [T L]. pose proof (written_more 10 p n c _ W T L) as W'. specialize (IH _ _ acc k v k' r W').
        rewrite app_assoc_str in IH. cbn [str_app] in IH. apply IH. rewrite <- E. f_equal.
        * rewrite <- !bytes_len, bytes_app, app_length. cbn [bytes_of_string length]. rewrite Nat2Z.inj_add. change (Z.of_nat 1) with 1. rewrite Z.pow_add_r by lia. ring.
        * rewrite bytes_app, app_length. cbn [bytes_of_string length]. lia.
      + injection E as <- <- <-. exists p, (String c s). repeat apply conj; try reflexivity; try exact Dc. exists n. auto. }
  intros acc k v k' r E. destruct s as [|c s].
  - cbn in E. injection E as <- <- <-. exists "", "". cbn. rewrite Nat.add_0_r. repeat apply conj; auto.
  - cbn [bytes_of_string digits_run] in E. destruct (digit_byte (byte_of c)) eqn:Dc.
    + destruct (digit_in c Dc) as [T L]. destruct (G s (String c "") (byte_of c - 48) acc k v k' r) as (t & rest & H1 & H2 & H3 & H4 & H5).
      * constructor; assumption.
      * rewrite <- E. change (str_len (String c "")) with 1. change (length (B (String c ""))) with 1%nat. f_equal; lia.
      * exists t, rest. cbn [str_app] in H1. auto 10.
    + injection E as <- <- <-. exists "", (String c s). cbn [str_app bytes_of_string length]. rewrite Nat.add_0_r. repeat apply conj; auto.
Qed.
Lemma written_nonempty b t n : written b t n -> (0 < length (B t))%nat.
Proof. intros W. destruct W; [|rewrite bytes_app, app_length]; cbn; lia. Qed.
Lemma written_nonneg t n : written 10 t n -> 0 <= n.
Proof. intros W. destruct (written_facts 10 t n ltac:(lia) W) as (_ & _ & _ & _ & _ & _ & P). lia. Qed.

(** ** Numbers *)
(** The same without the sign. *)
Inductive unsigned : string -> Z -> Z -> Prop :=
| unsigned_parts i n f dotf D e x : written 10 i n -> (forall r, i = String "0" r -> r = "") ->
    fraction f dotf -> written 10 (i +++ f) D -> exponent e x -> unsigned (i +++ dotf +++ e) D (x - str_len f).
Lemma number_unsigned sign t D p : In sign [""; "-"] -> unsigned t D p -> number (sign +++ t) D p.
Proof. intros I U. destruct U. econstructor; eassumption. Qed.
Lemma range_iff (neg : bool) v p : 0 <= v ->
  f32_is_inf (if 0 <=? p then f64_of_ratio neg (v * 10 ^ p) 1 else f64_of_ratio neg v (10 ^ (- p))) = false <-> fits_float64 v p.
Proof.
  intros H. unfold fits_float64. change (2 ^ 1024 - 2 ^ 970) with limit. destruct (Z.leb_spec 0 p) as [P|P].
  - rewrite ratio_over; [|apply Z.mul_nonneg_nonneg; [exact H|apply Z.pow_nonneg; lia]|lia]. rewrite (Z.max_r 0 p), (Z.max_l 0 (- p)) by lia. rewrite Z.pow_0_r.
    rewrite negb_false_iff, Z.ltb_lt. reflexivity.
  - rewrite ratio_over; [|exact H|apply Z.pow_pos_nonneg; lia]. rewrite (Z.max_l 0 p), (Z.max_r 0 (- p)) by lia. rewrite Z.pow_0_r, Z.mul_1_r.
    rewrite negb_false_iff, Z.ltb_lt. reflexivity.
Qed.
Definition read_exponent (r2 : list Z) : option (Z * list Z) :=
  match r2 with
  | b :: r =>
      if (b =? 101) || (b =? 69) then
        let '(eneg, r) := match r with
                          | s :: r' => if s =? 45 then (true, r')
                                       else if s =? 43 then (false, r') else (false, r)
                          | [] => (false, r)
                          end in
        let '(x, nx, r3) := digits_run r 0 0 in
        if Nat.eqb nx 0 then None else Some ((if eneg : bool then - x else x), r3)
      else Some (0, r2)
  | [] => Some (0, r2)
  end.
Definition read_fraction (ip : Z) (r1 : list Z) : option (Z * nat * list Z) :=
  match r1 with
  | b :: r => if b =? 46 then
                let '(v, nf, r2) := digits_run r ip 0 in
                if Nat.eqb nf 0 then None else Some (v, nf, r2)
              else Some (ip, O, r1)
  | [] => Some (ip, O, r1)
  end.
Lemma json_number_eq neg bs : json_number neg bs =
  let '(ip, ni, r1) := digits_run bs 0 0 in
  if Nat.eqb ni 0 then None
  else if (match bs with b :: _ => b =? 48 | [] => false end) && negb (Nat.eqb ni 1) then None
  else match read_fraction ip r1 with
    | None => None
    | Some (v, nf, r2) =>
        match read_exponent r2 with
        | None => None
        | Some (x, r3) =>
            let p := x - Z.of_nat nf in
            let f := if 0 <=? p then f64_of_ratio neg (v * 10 ^ p) 1 else f64_of_ratio neg v (10 ^ (- p)) in
            if f32_is_inf f then None else Some (f, r3)
        end
    end.
Proof. reflexivity. Qed.
Lemma exponent_sound s x r : read_exponent (B s) = Some (x, r) -> exists e rest, s = e +++ rest /\ r = B rest /\ exponent e x.
Proof.
  intros H. destruct s as [|b s]. { injection H as <- <-. exists "", "". repeat apply conj; try reflexivity. constructor. }
  cbn [bytes_of_string read_exponent] in H. destruct ((byte_of b =? 101) || (byte_of b =? 69)) eqn:Eb.
  2:{ injection H as <- <-. exists "", (String b s). repeat apply conj; try reflexivity. constructor. }
  assert (M : In (String b "") ["e"; "E"]). { rewrite orb_true_iff, !Z.eqb_eq in Eb. destruct Eb as [Eb|Eb]; [left|right; left]; f_equal; symmetry; apply byte_char; exact Eb. }
  assert (G : forall (sign s' : string) (eneg : bool), In (sign, eneg) [("", false); ("+", false); ("-", true)] -> s = sign +++ s' ->
    (let '(x, nx, r3) := digits_run (B s') 0 0 in if Nat.eqb nx 0 then None else Some ((if eneg : bool then - x else x), r3)) = Some (x, r) ->
    exists e rest, String b s = e +++ rest /\ r = B rest /\ exponent e x).
  { intros sign s' eneg I -> Q. destruct (digits_run (B s') 0 0) as [[x0 nx] r3] eqn:Er. destruct (digits_split _ _ _ _ _ _ Er) as (t & rest & -> & -> & _ & -> & T).
    destruct (Nat.eqb_spec (0 + length (B t)) 0) as [Z|Z]; [discriminate|]. injection Q as <- <-. destruct T as [[-> _]|(n & W & ->)]; [cbn in Z; lia|].
    exists (String b "" +++ sign +++ t), rest. split; [cbn [str_app]; rewrite app_assoc_str; reflexivity|]. split; [reflexivity|]. rewrite Z.mul_0_l, Z.add_0_l.
    apply (ex_some (String b "") sign t n); [exact M|exact W|]. cbn [In] in I |- *. destruct I as [I|[I|[I|[]]]]; injection I as <- <-; auto. }
  destruct s as [|c s]; [exact (G "" "" false (or_introl eq_refl) eq_refl H)|]. cbn [bytes_of_string] in H.
  destruct (Z.eqb_spec (byte_of c) 45) as [E1|E1].
  - apply (G "-" s true); [cbn; auto|rewrite (byte_char c "-" E1); reflexivity|exact H].
  - destruct (Z.eqb_spec (byte_of c) 43) as [E2|E2].
    + apply (G "+" s false); [cbn; auto|rewrite (byte_char c "+" E2); reflexivity|exact H].
    + exact (G "" (String c s) false (or_introl eq_refl) eq_refl H).
Qed.
Lemma str_len_B t : Z.of_nat (length (B t)) = str_len t.
Proof. apply bytes_len. Qed.
Lemma fraction_sound i n s v nf r : written 10 i n -> read_fraction n (B s) = Some (v, nf, r) ->
  exists f dotf rest, s = dotf +++ rest /\ r = B rest /\ fraction f dotf /\ written 10 (i +++ f) v /\ Z.of_nat nf = str_len f.
Proof.
  intros W H. assert (Z : Some (n, O, B s) = Some (v, nf, r) -> exists f dotf rest, s = dotf +++ rest /\ r = B rest /\ fraction f dotf /\ written 10 (i +++ f) v /\ Z.of_nat nf = str_len f).
  { intros Q. injection Q as <- <- <-. exists "", "", s. rewrite app_empty. repeat apply conj; try reflexivity; [constructor|exact W]. }
  destruct s as [|b s]; [exact (Z H)|]. cbn [bytes_of_string read_fraction] in H. destruct (Z.eqb_spec (byte_of b) 46) as [Eb|Eb]; [|exact (Z H)]. clear Z.
  destruct (digits_run (B s) n 0) as [[v0 nx] r3] eqn:Er. destruct (digits_split _ _ _ _ _ _ Er) as (t & rest & -> & -> & _ & -> & T).
  destruct (Nat.eqb_spec (0 + length (B t)) 0) as [Z|Z]; [discriminate|]. injection H as <- <- <-. destruct T as [[-> _]|(m & W2 & ->)]; [cbn in Z; lia|].
  exists t, ("." +++ t), rest. rewrite (byte_char b "." Eb). split; [reflexivity|]. split; [reflexivity|]. split; [econstructor; exact W2|]. split; [apply written_app; assumption|].
  cbn [Nat.add]. apply bytes_len.
Qed.
Lemma number_sound neg s f r : json_number neg (B s) = Some (f, r) ->
  exists t rest D p, s = t +++ rest /\ r = B rest /\ unsigned t D p /\ fits_float64 D p.
Proof.
  rewrite json_number_eq. destruct (digits_run (B s) 0 0) as [[ip ni] r1] eqn:Ei. destruct (digits_split _ _ _ _ _ _ Ei) as (i & s1 & -> & -> & _ & -> & T). clear Ei. cbn [Nat.add].
  destruct (Nat.eqb_spec (length (B i)) 0) as [Z|Z]; [discriminate|]. destruct T as [[-> _]|(n & W & ->)]; [cbn in Z; lia|]. rewrite Z.mul_0_l, Z.add_0_l.
  destruct ((match B (i +++ s1) with b :: _ => b =? 48 | [] => false end) && negb (Nat.eqb (length (B i)) 1)) eqn:Z0; [discriminate|].
  destruct (read_fraction n (B s1)) as [[[v nf] r2]|] eqn:Ef; [|discriminate]. destruct (fraction_sound _ _ _ _ _ _ W Ef) as (ft & dotf & s2 & -> & -> & F & Wv & Ln).
  destruct (read_exponent (B s2)) as [[x r3]|] eqn:Ee; [|discriminate]. destruct (exponent_sound _ _ _ Ee) as (e & s3 & -> & -> & E). cbv zeta.
  intros Q. exists (i +++ dotf +++ e), s3, v, (x - Z.of_nat nf). split; [rewrite !app_assoc_str; reflexivity|].
  destruct (f32_is_inf _) eqn:Inf in Q; [discriminate|]. injection Q as _ <-. split; [reflexivity|]. split.
  - rewrite Ln. econstructor; try eassumption. intros q ->. cbn [str_app bytes_of_string] in Z0. change (byte_of "0" =? 48) with true in Z0. cbn [andb] in Z0.
    apply negb_false_iff, Nat.eqb_eq in Z0. cbn [length] in Z0. destruct q; [reflexivity|cbn in Z0; lia].
  - apply (range_iff neg); [exact (written_nonneg _ _ Wv)|exact Inf].
Qed.
Lemma ends_no_digit r : ends_value r -> no_digit r.
Proof. destruct r as [|b r]; [auto|]. cbn. intuition (subst; reflexivity). Qed.
Lemma exponent_complete e x r : exponent e x -> ends_value r -> read_exponent (B e ++ r) = Some (x, r).
Proof.
  intros E V. destruct E as [|m sign t n x M W I].
  - destruct r as [|b r]; [reflexivity|]. cbn in V. cbn [bytes_of_string app read_exponent]. intuition (subst; reflexivity).
  - assert (D : digits_run (B t ++ r) 0 0 = (n, length (B t), r)). { rewrite (digits_through _ _ W), digits_stop by (apply ends_no_digit, V). rewrite Z.mul_0_l. reflexivity. }
    assert (N : Nat.eqb (length (B t)) 0 = false) by (apply Nat.eqb_neq; pose proof (written_nonempty _ _ _ W); lia).
    destruct (written_head _ _ W) as (c & t' & Et & Hc).
    rewrite !bytes_app, <- !app_assoc. cbn [In] in M, I.
    assert (K : forall eneg : bool, forall tl, (match tl with s :: r' => if s =? 45 then (true, r') else if s =? 43 then (false, r') else (false, tl) | [] => (false, tl) end) = (eneg, B t ++ r) ->
       x = (if eneg then - n else n) -> read_exponent (B m ++ tl) = Some (x, r)).
    { intros eneg tl Et' ->. destruct M as [<-|[<-|[]]]; cbn [bytes_of_string app read_exponent].
      - change ((byte_of "e" =? 101) || (byte_of "e" =? 69)) with true. cbv iota. rewrite Et', D, N. reflexivity.
      - change ((byte_of "E" =? 101) || (byte_of "E" =? 69)) with true. cbv iota. rewrite Et', D, N. reflexivity. }
    destruct I as [I|[I|[I|[]]]]; injection I as <- <-.
    + apply (K false); [|reflexivity]. rewrite Et. cbn [bytes_of_string app]. rewrite (proj2 (Z.eqb_neq _ 45)), (proj2 (Z.eqb_neq _ 43)) by lia. reflexivity.
    + apply (K false); reflexivity.
    + apply (K true); reflexivity.
Qed.
Lemma fraction_complete n f dotf r : fraction f dotf -> no_digit r -> (match r with b :: _ => b <> 46 | [] => True end) ->
  exists v, read_fraction n (B dotf ++ r) = Some (v, length (B f), r) /\ (forall i, written 10 i n -> forall D, written 10 (i +++ f) D -> v = D).
Proof.
  intros F N P. destruct F as [|f m W].
  - exists n. split.
    + destruct r as [|b r]; [reflexivity|]. cbn [bytes_of_string app read_fraction]. rewrite (proj2 (Z.eqb_neq _ _) P). reflexivity.
    + intros i W D. rewrite app_empty. intros W'. exact (written_det _ _ _ W W').
  - exists (n * 10 ^ str_len f + m). split.
    + cbn [str_app bytes_of_string app read_fraction]. change (byte_of "." =? 46) with true. cbv iota. rewrite (digits_through _ _ W), digits_stop by exact N. cbn [Nat.add].
      rewrite (proj2 (Nat.eqb_neq _ 0)) by (pose proof (written_nonempty _ _ _ W); lia). reflexivity.
    + intros i Wi D WD. pose proof (written_app _ _ _ _ _ Wi W) as W'. exact (written_det _ _ _ W' WD).
Qed.
Lemma exponent_head e x r : exponent e x -> ends_value r -> no_digit (B e ++ r) /\ match B e ++ r with b :: _ => b <> 46 | [] => True end.
Proof.
  intros E V. destruct E as [|m sign t n x M W I].
  - split; [apply ends_no_digit, V|]. destruct r as [|b r]; [exact Logic.I|]. cbn in *. intuition (subst; discriminate).
  - cbn [In] in M. destruct M as [<-|[<-|[]]]; cbn; (split; [reflexivity|discriminate]).
Qed.
Lemma fraction_head f dotf r : fraction f dotf -> no_digit r -> no_digit (B dotf ++ r).
Proof. intros F N. destruct F; [exact N|reflexivity]. Qed.
Lemma number_complete neg t D p r : unsigned t D p -> fits_float64 D p -> ends_value r -> exists f, json_number neg (B t ++ r) = Some (f, r).
Proof.
  intros U R V. destruct U as [i n f dotf D e x W Z0 F WD E]. destruct (exponent_head _ _ _ E V) as [N1 N2].
  destruct (fraction_complete n f dotf _ F N1 N2) as (v & Ef & Ev). specialize (Ev i W D WD). subst v.
  rewrite json_number_eq. rewrite !bytes_app, <- !app_assoc. rewrite (digits_through _ _ W), digits_stop by (apply (fraction_head _ _ _ F N1)). cbn [Nat.add]. rewrite Z.mul_0_l, Z.add_0_l.
  pose proof (written_nonempty _ _ _ W) as Ne. rewrite (proj2 (Nat.eqb_neq _ 0)) by lia.
  assert (Z1 : (match B i ++ B dotf ++ B e ++ r with b :: _ => b =? 48 | [] => false end) && negb (Nat.eqb (length (B i)) 1) = false).
  { destruct i as [|c i]; [cbn in Ne; lia|]. cbn [bytes_of_string app]. destruct (Z.eqb_spec (byte_of c) 48) as [X|X]; [|reflexivity]. rewrite (byte_char c "0" X) in Z0. rewrite (Z0 i eq_refl). reflexivity. }
  rewrite Z1, Ef, (exponent_complete _ _ _ E V). cbv zeta. rewrite bytes_len. pose proof (proj2 (range_iff neg D (x - str_len f) (written_nonneg _ _ WD)) R) as Inf. eexists. match goal with |- (if ?c then _ else _) = _ => replace c with false by (symmetry; exact Inf) end. reflexivity.
Qed.

(** ** Strings *)
Lemma hex4_sound a b c d n : hex4 (byte_of a) (byte_of b) (byte_of c) (byte_of d) = Some n -> written 16 (String a (String b (String c (String d "")))) n.
Proof.
  unfold hex4. intros H. destruct (hex_val (byte_of a)) as [x|] eqn:Ea; [|discriminate]. destruct (hex_val (byte_of b)) as [y|] eqn:Eb; [|discriminate].
  destruct (hex_val (byte_of c)) as [z|] eqn:Ec; [|discriminate]. destruct (hex_val (byte_of d)) as [w|] eqn:Ed; [|discriminate]. injection H as <-.
  apply hex_in in Ea as [Ia La], Eb as [Ib Lb], Ec as [Ic Lc], Ed as [Id Ld].
  change (String a (String b (String c (String d "")))) with (((String a "" +++ String b "") +++ String c "") +++ String d "").
  repeat (apply written_more; [|assumption|assumption]). constructor; assumption.
Qed.
Lemma escape_in e c : simple_escape (byte_of e) = Some c -> In (e, c) escapes.
Proof. destruct e as [[] [] [] [] [] [] [] []]; vm_compute; intros E; try discriminate; injection E as <-; intuition. Qed.
Lemma string_sound k : forall s acc raw r, (String.length s < k)%nat -> json_string (B s) acc = Some (raw, r) ->
  exists body rest, s = body +++ """" +++ rest /\ r = B rest /\ chars body.
Proof.
  induction k as [|k IH]; intros s acc raw r L H; [lia|]. destruct s as [|b s]; [discriminate|]. cbn [bytes_of_string json_string] in H. cbn [String.length] in L.
  destruct (Z.eqb_spec (byte_of b) 34) as [E1|E1].
  { injection H as _ <-. exists "", s. rewrite (byte_char b """" E1). repeat apply conj; try reflexivity. constructor. }
  destruct (Z.ltb_spec (byte_of b) 32) as [E2|E2]; [discriminate|]. destruct (Z.eqb_spec (byte_of b) 92) as [E3|E3].
  2:{ destruct (IH s _ _ _ ltac:(lia) H) as (body & rest & -> & -> & C). exists (String b body), rest. repeat apply conj; try reflexivity.
      constructor; try assumption; intros ->; [apply E1|apply E3]; reflexivity. }
  rewrite (byte_char b "\" E3). clear b E1 E2 E3. destruct s as [|e s]; [discriminate|]. cbn [bytes_of_string] in H. cbn [String.length] in L.
  destruct (Z.eqb_spec (byte_of e) 117) as [Eu|Eu].
  2:{ destruct (simple_escape (byte_of e)) as [c|] eqn:Es; [|discriminate]. destruct (IH s _ _ _ ltac:(lia) H) as (body & rest & -> & -> & C). exists ("\" +++ String e body), rest. repeat apply conj; try reflexivity.
      apply (chars_escape e c); [apply escape_in, Es|exact C]. }
  rewrite (byte_char e "u" Eu). clear e Eu. destruct s as [|h1 [|h2 [|h3 [|h4 s]]]]; try discriminate. cbn [bytes_of_string] in H. cbn [String.length] in L.
  destruct (hex4 (byte_of h1) (byte_of h2) (byte_of h3) (byte_of h4)) as [u|] eqn:Eh; [|discriminate]. pose proof (hex4_sound _ _ _ _ _ Eh) as W. clear Eh.
  assert (N : forall acc', json_string (B s) acc' = Some (raw, r) -> exists body rest, String "\" (String "u" (String h1 (String h2 (String h3 (String h4 s))))) = body +++ """" +++ rest /\ r = B rest /\ chars body).
  { intros acc' Q. destruct (IH s _ _ _ ltac:(lia) Q) as (body & rest & -> & -> & C). exists ("\u" +++ String h1 (String h2 (String h3 (String h4 ""))) +++ body), rest.
    repeat apply conj; try reflexivity. eapply chars_code; [exact W|reflexivity|exact C]. }
  destruct ((55296 <=? u) && (u <? 56320)); [|exact (N _ H)].
  destruct s as [|b1 [|b2 [|k1 [|k2 [|k3 [|k4 s]]]]]]; try exact (N _ H). set (s0 := String b1 _) in *. cbn [bytes_of_string] in H. cbv iota in H.
  unfold s0 in H at 1 2 3 4. cbn [bytes_of_string] in H.
  destruct ((byte_of b1 =? 92) && (byte_of b2 =? 117)) eqn:Eb; [|exact (N _ H)]. destruct (hex4 (byte_of k1) (byte_of k2) (byte_of k3) (byte_of k4)) as [v|] eqn:Ev; [|exact (N _ H)].
  destruct ((56320 <=? v) && (v <? 57344)); [|exact (N _ H)]. apply andb_true_iff in Eb as [Eb1 Eb2]. apply Z.eqb_eq in Eb1, Eb2.
  unfold s0 in *. rewrite (byte_char b1 "\" Eb1), (byte_char b2 "u" Eb2). cbn [String.length] in L.
  destruct (IH s _ _ _ ltac:(lia) H) as (body & rest & -> & -> & C).
  exists ("\u" +++ String h1 (String h2 (String h3 (String h4 ""))) +++ "\u" +++ String k1 (String k2 (String k3 (String k4 ""))) +++ body), rest.
  repeat apply conj; try reflexivity. eapply chars_code; [exact W|reflexivity|]. eapply chars_code; [exact (hex4_sound _ _ _ _ _ Ev)|reflexivity|exact C].
Qed.
Lemma string_complete k : forall body r acc, (String.length body < k)%nat -> chars body -> exists raw, json_string (B body ++ 34 :: r) acc = Some (raw, r).
Proof.
  induction k as [|k IH]; intros body r acc L C; [lia|]. destruct C as [|c t H1 H2 H3 C|e c t I C|h n t W Lh C].
  - eexists. reflexivity.
  - cbn [bytes_of_string app json_string String.length] in *. rewrite (proj2 (Z.eqb_neq _ 34)) by (intros Q; apply H2, byte_char, Q). rewrite (proj2 (Z.ltb_ge _ _) H1).
    rewrite (proj2 (Z.eqb_neq _ 92)) by (intros Q; apply H3, byte_char, Q). apply IH; [lia|exact C].
  - cbn [str_app bytes_of_string app String.length] in *. change (byte_of "\") with 92.
    assert (E : byte_of e <> 117 /\ simple_escape (byte_of e) = Some c). { cbn [escapes In] in I. repeat (destruct I as [I|I]; [injection I as <- <-; repeat split; discriminate|]). contradiction. }
    destruct E as [E1 E2]. cbn [json_string Z.eqb Pos.eqb Z.ltb Z.compare Pos.compare Pos.compare_cont]. rewrite (proj2 (Z.eqb_neq _ _) E1), E2. apply IH; [lia|exact C].
  - cbn [str_app bytes_of_string app String.length] in *. change (byte_of "\") with 92. change (byte_of "u") with 117. rewrite bytes_app.
    assert (Lt : (String.length t < k)%nat). { assert (forall a b, (String.length b <= String.length (a +++ b))%nat) as Q by (intros a b; induction a; cbn; lia). specialize (Q h t). lia. }
    destruct (hex4_written h n W Lh) as (a & b & d & e & -> & E). cbn [app]. cbn [json_string Z.eqb Pos.eqb Z.ltb Z.compare Pos.compare Pos.compare_cont]. rewrite E.
    assert (N : forall acc', exists raw, json_string (B t ++ 34 :: r) acc' = Some (raw, r)) by (intros; apply IH; [exact Lt|exact C]).
    destruct ((55296 <=? n) && (n <? 56320)); [|apply N].
    destruct (B t ++ 34 :: r) as [|b1 [|b2 [|k1 [|k2 [|k3 [|k4 r3]]]]]] eqn:Et; try apply N.
    destruct ((b1 =? 92) && (b2 =? 117)) eqn:Eb; [|apply N]. destruct (hex4 k1 k2 k3 k4) as [v|] eqn:Ev; [|apply N]. destruct ((56320 <=? v) && (v <? 57344)); [|apply N].
    apply andb_true_iff in Eb as [Eb1 Eb2]. apply Z.eqb_eq in Eb1, Eb2. subst b1 b2. clear N.
    destruct C as [|c t H1 H2 H3 C|e' c t I C|h' n' t W' Lh' C].
    + discriminate.
    + cbn [bytes_of_string app] in Et. injection Et as Ec _. exfalso. apply H3, byte_char, Ec.
    + cbn [str_app bytes_of_string app] in Et. injection Et as Ec _. exfalso. cbn [escapes In] in I. repeat (destruct I as [I|I]; [injection I as <- <-; discriminate|]). contradiction.
    + cbn [str_app bytes_of_string app] in Et. rewrite bytes_app, <- app_assoc in Et. destruct (hex4_written h' n' W' Lh') as (a' & b' & d' & e' & Eh & _). rewrite Eh in Et. cbn [app] in Et.
      injection Et as _ _ _ _ <-. apply IH; [|exact C]. cbn [str_app String.length] in Lt. assert (forall a b, (String.length b <= String.length (a +++ b))%nat) as Q by (intros x y; induction x; cbn; lia). specialize (Q h' t). lia.
Qed.

(** ** Values *)
Lemma skip_split s : exists w rest, s = w +++ rest /\ space w /\ skip_ws (B s) = B rest.
Proof.
  induction s as [|c s (w & rest & -> & S & E)]; [exists "", ""; repeat split; constructor|]. cbn [bytes_of_string skip_ws]. destruct (json_space (byte_of c)) eqn:J.
  - exists (String c w), rest. split; [reflexivity|]. split; [|exact E]. constructor; [|exact S]. unfold json_space in J. rewrite !orb_true_iff, !Z.eqb_eq in J.
    destruct J as [[[J|J]|J]|J]; [left|right; left|right; right; right; left|right; right; left]; symmetry; apply byte_char; exact J.
  - exists "", (String c (w +++ rest)). split; [reflexivity|]. split; [constructor|reflexivity].
Qed.
Lemma strip_sound p s r : strip_bytes (B p) (B s) = Some r -> exists rest, s = p +++ rest /\ r = B rest.
Proof.
  revert s. induction p as [|c p IH]; intros s H. { injection H as <-. exists s. split; reflexivity. }
  destruct s as [|d s]; [discriminate|]. cbn [bytes_of_string strip_bytes] in H. destruct (Z.eqb_spec (byte_of c) (byte_of d)) as [E|E]; [|discriminate].
  destruct (IH s H) as (rest & -> & ->). rewrite (byte_char _ _ E). exists rest. split; reflexivity.
Qed.
Lemma decode_sound n :
  (forall s j r, json_value n (B s) = Some (j, r) -> exists w u rest, s = w +++ u +++ rest /\ space w /\ value u /\ r = B rest /\ (j = JNull -> u = "null")) /\
  (forall s acc j r, json_elements n (B s) acc = Some (j, r) -> exists t rest, s = t +++ "]" +++ rest /\ array_items t /\ r = B rest /\ j <> JNull) /\
  (forall s acc j r, json_members n (B s) acc = Some (j, r) -> exists t rest, s = t +++ "}" +++ rest /\ members t /\ r = B rest /\ j <> JNull).
Proof.
  induction n as [|n (IHv & IHe & IHm)]; [repeat split; intros; discriminate|]. repeat apply conj.
  - intros s j r H. cbn [json_value] in H. destruct (skip_split s) as (w & s1 & -> & Sw & E). rewrite E in H. clear E.
    enough (exists u rest, s1 = u +++ rest /\ value u /\ r = B rest /\ (j = JNull -> u = "null")) as (u & rest & -> & V & -> & J) by (exists w, u, rest; auto).
    destruct s1 as [|b s]; [discriminate|]. change (B (String b s)) with (byte_of b :: B s) in H. cbv iota in H.
    destruct (Z.eqb_spec (byte_of b) 34) as [E1|E1].
    { rewrite (byte_char b """" E1). destruct (json_string (B s) []) as [[raw r1]|] eqn:Es; [|discriminate]. injection H as <- <-.
      destruct (string_sound (S (String.length s)) s [] raw r1 ltac:(lia) Es) as (body & rest & -> & -> & C). exists ("""" +++ body +++ """"), rest.
      split; [cbn [str_app]; rewrite !app_assoc_str; reflexivity|]. split; [constructor; exact C|]. split; [reflexivity|discriminate]. }
    destruct (Z.eqb_spec (byte_of b) 91) as [E2|E2].
    { rewrite (byte_char b "[" E2). destruct (skip_split s) as (w1 & s2 & Es & S1 & Ek). rewrite Ek in H. destruct s2 as [|c s2]; [discriminate|]. cbn [bytes_of_string] in H.
      destruct (Z.eqb_spec (byte_of c) 93) as [E3|E3].
      - injection H as <- <-. exists ("[" +++ w1 +++ "]"), s2. rewrite Es, (byte_char c "]" E3). split; [cbn [str_app]; rewrite app_assoc_str; reflexivity|]. split; [constructor; exact S1|]. split; [reflexivity|discriminate].
      - destruct (IHe _ _ _ _ H) as (t & rest & -> & El & -> & J). exists ("[" +++ t +++ "]"), rest. split; [cbn [str_app]; rewrite app_assoc_str; reflexivity|]. split; [constructor; exact El|]. split; [reflexivity|congruence]. }
    destruct (Z.eqb_spec (byte_of b) 123) as [E3|E3].
    { rewrite (byte_char b "{" E3). destruct (skip_split s) as (w1 & s2 & Es & S1 & Ek). rewrite Ek in H. destruct s2 as [|c s2]; [discriminate|]. cbn [bytes_of_string] in H.
      destruct (Z.eqb_spec (byte_of c) 125) as [E4|E4].
      - injection H as <- <-. exists ("{" +++ w1 +++ "}"), s2. rewrite Es, (byte_char c "}" E4). split; [cbn [str_app]; rewrite app_assoc_str; reflexivity|]. split; [constructor; exact S1|]. split; [reflexivity|discriminate].
      - destruct (IHm _ _ _ _ H) as (t & rest & -> & El & -> & J). exists ("{" +++ t +++ "}"), rest. split; [cbn [str_app]; rewrite app_assoc_str; reflexivity|]. split; [apply value_object; exact El|]. split; [reflexivity|congruence]. }
    destruct (Z.eqb_spec (byte_of b) 45) as [E4|E4].
    { rewrite (byte_char b "-" E4). destruct (json_number true (B s)) as [[f r1]|] eqn:En; [|discriminate]. injection H as <- <-. destruct (number_sound _ _ _ _ En) as (t & rest & D & p & -> & -> & U & R).
      exists ("-" +++ t), rest. split; [reflexivity|]. split; [|split; [reflexivity|discriminate]]. econstructor; [|exact R]. apply number_unsigned; [cbn; auto|exact U]. }
    destruct (digit_byte (byte_of b)) eqn:E5.
    { change (byte_of b :: B s) with (B (String b s)) in H. destruct (json_number false (B (String b s))) as [[f r1]|] eqn:En; [|discriminate]. injection H as <- <-.
      destruct (number_sound _ _ _ _ En) as (t & rest & D & p & -> & -> & U & R).
      exists t, rest. split; [reflexivity|]. split; [|split; [reflexivity|discriminate]]. econstructor; [|exact R]. apply (number_unsigned ""); [cbn; auto|exact U]. }
    change (byte_of b :: B s) with (B (String b s)) in H.
    destruct (strip_bytes (B "true") (B (String b s))) as [r'|] eqn:Et.
    { injection H as <- <-. destruct (strip_sound _ _ _ Et) as (rest & -> & ->). exists "true", rest. repeat apply conj; try reflexivity; [constructor; cbn; auto|discriminate]. }
    destruct (strip_bytes (B "false") (B (String b s))) as [r'|] eqn:Ef.
    { injection H as <- <-. destruct (strip_sound _ _ _ Ef) as (rest & -> & ->). exists "false", rest. repeat apply conj; try reflexivity; [constructor; cbn; auto|discriminate]. }
    destruct (strip_bytes (B "null") (B (String b s))) as [r'|] eqn:En; [|discriminate]. injection H as <- <-. destruct (strip_sound _ _ _ En) as (rest & -> & ->).
    exists "null", rest. repeat apply conj; try reflexivity. constructor; cbn; auto.
  - intros s acc j r H. cbn [json_elements] in H. destruct (json_value n (B s)) as [[v r1]|] eqn:Ev; [|discriminate]. cbn [opt_bind] in H.
    destruct (IHv _ _ _ Ev) as (w & u & s1 & -> & Sw & V & -> & _). destruct (skip_split s1) as (b & s2 & -> & Sb & Ek). rewrite Ek in H. destruct s2 as [|c s2]; [discriminate|]. cbn [bytes_of_string] in H.
    destruct (Z.eqb_spec (byte_of c) 44) as [E1|E1].
    + destruct (IHe _ _ _ _ H) as (t & rest & -> & El & -> & J). exists (w +++ u +++ b +++ "," +++ t), rest. rewrite (byte_char c "," E1). split; [rewrite !app_assoc_str; cbn [str_app]; reflexivity|].
      split; [apply array_items_more; assumption|]. split; [reflexivity|exact J].
    + destruct (Z.eqb_spec (byte_of c) 93) as [E2|E2]; [|discriminate]. injection H as <- <-. exists (w +++ u +++ b), s2. rewrite (byte_char c "]" E2). split; [rewrite !app_assoc_str; reflexivity|].
      split; [apply array_items_one; assumption|]. split; [reflexivity|discriminate].
  - intros s acc j r H. cbn [json_members] in H. destruct (skip_split s) as (a & s1 & -> & Sa & E). rewrite E in H. clear E. destruct s1 as [|q s1]; [discriminate|]. cbn [bytes_of_string] in H.
    destruct (Z.eqb_spec (byte_of q) 34) as [E1|E1]; [|discriminate]. cbn [negb] in H. rewrite (byte_char q """" E1). destruct (json_string (B s1) []) as [[raw r1]|] eqn:Es; [|discriminate]. cbn [opt_bind] in H.
    destruct (string_sound (S (String.length s1)) s1 [] raw r1 ltac:(lia) Es) as (k & s2 & -> & -> & C). destruct (skip_split s2) as (b & s3 & -> & Sb & Ek). rewrite Ek in H. clear Ek. destruct s3 as [|c s3]; [discriminate|]. cbn [bytes_of_string] in H.
    destruct (Z.eqb_spec (byte_of c) 58) as [E2|E2]; [|discriminate]. cbn [negb] in H. rewrite (byte_char c ":" E2). destruct (json_value n (B s3)) as [[v r3]|] eqn:Ev; [|discriminate]. cbn [opt_bind] in H.
    destruct (IHv _ _ _ Ev) as (w & u & s4 & -> & Sw & V & -> & _). destruct (skip_split s4) as (e & s5 & -> & Se & Ek). rewrite Ek in H. destruct s5 as [|d s5]; [discriminate|]. cbn [bytes_of_string] in H.
    destruct (Z.eqb_spec (byte_of d) 44) as [E3|E3].
    + destruct (IHm _ _ _ _ H) as (t & rest & -> & El & -> & J). exists (a +++ """" +++ k +++ """" +++ b +++ ":" +++ w +++ u +++ e +++ "," +++ t), rest. rewrite (byte_char d "," E3).
      split; [repeat (rewrite !app_assoc_str || cbn [str_app]); reflexivity|]. split; [apply members_more; assumption|]. split; [reflexivity|exact J].
    + destruct (Z.eqb_spec (byte_of d) 125) as [E4|E4]; [|discriminate]. injection H as <- <-. exists (a +++ """" +++ k +++ """" +++ b +++ ":" +++ w +++ u +++ e), s5. rewrite (byte_char d "}" E4).
      split; [repeat (rewrite !app_assoc_str || cbn [str_app]); reflexivity|]. split; [apply members_one; assumption|]. split; [reflexivity|discriminate].
Qed.
Scheme value_mut := Minimality for value Sort Prop with items_mut := Minimality for array_items Sort Prop with members_mut := Minimality for members Sort Prop.
Combined Scheme value_all from value_mut, items_mut, members_mut.
Definition starts (b : Z) : Prop := starts_value b \/ b = 110.
Lemma starts_skip b r : starts b -> skip_ws (b :: r) = b :: r /\ b <> 93 /\ b <> 125.
Proof. intros [S| ->]; [apply starts_facts, S|]. repeat split; discriminate. Qed.
Lemma unsigned_head t D p : unsigned t D p -> exists c t', t = String c t' /\ 48 <= byte_of c <= 57.
Proof. intros U. destruct U as [i n f dotf D e x W _ _ _ _]. destruct (written_head _ _ W) as (c & t' & -> & H). eexists _, _. split; [reflexivity|exact H]. Qed.
Lemma number_inv t D p : number t D p -> exists sign u, In sign [""; "-"] /\ t = sign +++ u /\ unsigned u D p.
Proof. intros N. destruct N as [sign i n f dotf D e x I W Z F WD E]. eexists sign, _. split; [exact I|]. split; [reflexivity|]. econstructor; eassumption. Qed.
Lemma value_head u : value u -> exists b r, B u = b :: r /\ starts b.
Proof.
  unfold starts, starts_value. intros V. destruct V as [t I|t D p N R|body _|w _|t _|w _|t _].
  - cbn [In] in I. destruct I as [<-|[<-|[<-|[]]]]; eexists _, _; (split; [reflexivity|]); vm_compute; intuition.
  - destruct (number_inv _ _ _ N) as (sign & u & I & -> & U). destruct (unsigned_head _ _ _ U) as (c & t' & -> & H). cbn [In] in I. destruct I as [<-|[<-|[]]].
    + eexists _, _. split; [reflexivity|]. lia.
    + eexists _, _. split; [reflexivity|]. left. right. right. right. left. reflexivity.
  - eexists _, _. split; [reflexivity|]. left. left. reflexivity.
  - eexists _, _. split; [reflexivity|]. left. right. left. reflexivity.
  - eexists _, _. split; [reflexivity|]. left. right. left. reflexivity.
  - eexists _, _. split; [reflexivity|]. left. right. right. left. reflexivity.
  - eexists _, _. split; [reflexivity|]. left. right. right. left. reflexivity.
Qed.
Lemma items_head t : array_items t -> exists w b x, space w /\ B t = B w ++ b :: x /\ starts b.
Proof.
  intros I. destruct I as [a u b Sa V Sb|a u b r Sa V Sb I]; destruct (value_head u V) as (h & x & E & S); exists a, h; eexists; (split; [exact Sa|]); rewrite !bytes_app, E; (split; [reflexivity|exact S]).
Qed.
Lemma members_head t : members t -> exists w x, space w /\ B t = B w ++ 34 :: x.
Proof. intros M. destruct M; exists a; eexists; (split; [assumption|]); rewrite !bytes_app; reflexivity. Qed.
Lemma decode_complete :
  (forall u, value u -> forall n r, (length (B u) < n)%nat -> ends_value r -> exists j, json_value n (B u ++ r) = Some (j, r) /\ (j = JNull <-> u = "null")) /\
  (forall t, array_items t -> forall n r acc, (length (B t) + 2 <= n)%nat -> exists l, json_elements n (B t ++ 93 :: r) acc = Some (JArr l, r)) /\
  (forall t, members t -> forall n r acc, (length (B t) + 2 <= n)%nat -> exists l, json_members n (B t ++ 125 :: r) acc = Some (JObj l, r)).
Proof.
  apply value_all.
  - intros t I n r L En. destruct n as [|n]; [lia|]. cbn [In] in I. destruct I as [<-|[<-|[<-|[]]]]; (eexists; split; [reflexivity|]); split; (reflexivity || discriminate).
  - intros t D p N R n r L En. destruct n as [|n]; [lia|]. destruct (number_inv _ _ _ N) as (sign & u & I & -> & U). destruct (unsigned_head _ _ _ U) as (c & t' & Eu & Hc).
    cbn [In] in I. destruct I as [<-|[<-|[]]].
    + destruct (number_complete false _ _ _ r U R En) as (f & E). exists (JNum f). split; [|split; [discriminate|]].
      * change ("" +++ u) with u. subst u. cbn [bytes_of_string app] in E |- *. set (bs := B t' ++ r) in *. cbn [json_value]. destruct (starts_facts (byte_of c) bs) as (Sk & _); [unfold starts_value; lia|].
        rewrite Sk. cbv iota. replace (byte_of c =? 34) with false by (symmetry; apply Z.eqb_neq; lia). replace (byte_of c =? 91) with false by (symmetry; apply Z.eqb_neq; lia).
        replace (byte_of c =? 123) with false by (symmetry; apply Z.eqb_neq; lia). replace (byte_of c =? 45) with false by (symmetry; apply Z.eqb_neq; lia).
        replace (digit_byte (byte_of c)) with true by (symmetry; unfold digit_byte; apply andb_true_iff; rewrite !Z.leb_le; lia). rewrite E. reflexivity.
      * change ("" +++ u) with u. rewrite Eu. intros Q. injection Q as -> _. vm_compute in Hc. intuition congruence.
    + destruct (number_complete true _ _ _ r U R En) as (f & E). exists (JNum f). split; [|split; discriminate].
      cbn [str_app bytes_of_string app json_value]. change (byte_of "-") with 45. cbn [skip_ws]. change (json_space 45) with false. cbn [Z.eqb Pos.eqb]. rewrite E. reflexivity.
  - intros body C n r L En. destruct n as [|n]; [lia|]. destruct (string_complete (S (String.length body)) body r [] ltac:(lia) C) as (raw & E). exists (JStr (string_lit raw)). split; [|split; discriminate].
    rewrite !bytes_app, <- !app_assoc. cbn [str_app bytes_of_string app json_value]. change (byte_of """") with 34. cbn [skip_ws]. change (json_space 34) with false. cbn [Z.eqb Pos.eqb]. rewrite E. reflexivity.
  - intros w W n r L En. destruct n as [|n]; [lia|]. exists (JArr []). split; [|split; discriminate]. rewrite !bytes_app, <- !app_assoc. cbn [str_app bytes_of_string app json_value]. change (byte_of "[") with 91. change (byte_of "]") with 93.
    cbn [skip_ws]. change (json_space 91) with false. cbn [Z.eqb Pos.eqb]. rewrite ProofJson.skip_space by exact W. reflexivity.
  - intros t El IH n r L En. destruct n as [|n]; [lia|]. rewrite !bytes_app, !app_length in L. cbn [bytes_of_string length] in L.
    destruct (IH n r []) as (l & E); [lia|]. exists (JArr l). split; [|split; discriminate].
    rewrite !bytes_app, <- !app_assoc. cbn [str_app bytes_of_string app json_value]. change (byte_of "[") with 91. change (byte_of "]") with 93.
    cbn [skip_ws]. change (json_space 91) with false. cbn [Z.eqb Pos.eqb]. destruct (items_head _ El) as (w & b & x & Sw & Eq & Sb).
    rewrite Eq, <- app_assoc in *. cbn [app] in *. rewrite ProofJson.skip_space by exact Sw. destruct (starts_skip b (x ++ 93 :: r) Sb) as (-> & N1 & _).
    replace (b =? 93) with false by (symmetry; apply Z.eqb_neq; exact N1). exact E.
  - intros w W n r L En. destruct n as [|n]; [lia|]. exists (JObj []). split; [|split; discriminate]. rewrite !bytes_app, <- !app_assoc. cbn [str_app bytes_of_string app json_value]. change (byte_of "{") with 123. change (byte_of "}") with 125.
    cbn [skip_ws]. change (json_space 123) with false. cbn [Z.eqb Pos.eqb]. rewrite ProofJson.skip_space by exact W. reflexivity.
  - intros t M IH n r L En. destruct n as [|n]; [lia|]. rewrite !bytes_app, !app_length in L. cbn [bytes_of_string length] in L.
    destruct (IH n r []) as (l & E); [lia|]. exists (JObj l). split; [|split; discriminate].
    rewrite !bytes_app, <- !app_assoc. cbn [str_app bytes_of_string app json_value]. change (byte_of "{") with 123. change (byte_of "}") with 125.
    cbn [skip_ws]. change (json_space 123) with false. cbn [Z.eqb Pos.eqb]. destruct (members_head _ M) as (w & x & Sw & Eq).
    rewrite Eq, <- app_assoc in *. cbn [app] in *. rewrite ProofJson.skip_space by exact Sw. cbn [skip_ws]. change (json_space 34) with false. cbn [Z.eqb Pos.eqb]. exact E.
  - intros a u b Sa V IH Sb n r acc L. destruct n as [|n]; [lia|]. rewrite !bytes_app, !app_length in L.
    destruct (IH n (B b ++ 93 :: r)) as (j & E & _); [lia|apply ends_space; [exact Sb|cbn; auto]|]. eexists. rewrite !bytes_app, <- !app_assoc. cbn [json_elements]. rewrite value_space by exact Sa.
    rewrite E. cbn [opt_bind]. rewrite ProofJson.skip_space by exact Sb. cbn [skip_ws]. change (json_space 93) with false. cbn [Z.eqb Pos.eqb]. reflexivity.
  - intros a u b t Sa V IH Sb El IHe n r acc L. destruct n as [|n]; [lia|]. rewrite !bytes_app, !app_length in L. cbn [bytes_of_string length] in L.
    destruct (IH n (B b ++ 44 :: B t ++ 93 :: r)) as (j & E & _); [lia|apply ends_space; [exact Sb|cbn; auto]|]. rewrite !bytes_app, <- !app_assoc. cbn [bytes_of_string app json_elements]. change (byte_of ",") with 44.
    rewrite value_space by exact Sa. rewrite E. cbn [opt_bind]. rewrite ProofJson.skip_space by exact Sb. cbn [skip_ws]. change (json_space 44) with false. cbn [Z.eqb Pos.eqb]. apply IHe. lia.
  - intros a k b c u e Sa C Sb Sc V IH Se n r acc L. destruct n as [|n]; [lia|]. rewrite !bytes_app, !app_length in L. cbn [bytes_of_string length] in L.
    destruct (IH n (B e ++ 125 :: r)) as (j & E & _); [lia|apply ends_space; [exact Se|cbn; auto]|]. rewrite !bytes_app, <- !app_assoc. cbn [bytes_of_string app json_members]. change (byte_of """") with 34. change (byte_of ":") with 58.
    rewrite ProofJson.skip_space by exact Sa. cbn [skip_ws]. change (json_space 34) with false. cbn [Z.eqb Pos.eqb negb].
    destruct (string_complete (S (String.length k)) k (B b ++ 58 :: B c ++ B u ++ B e ++ 125 :: r) [] ltac:(lia) C) as (raw & ER). rewrite ER. cbn [opt_bind]. rewrite ProofJson.skip_space by exact Sb. cbn [skip_ws]. change (json_space 58) with false. cbn [Z.eqb Pos.eqb negb].
    rewrite value_space by exact Sc. rewrite E. cbn [opt_bind]. rewrite ProofJson.skip_space by exact Se. eexists. reflexivity.
  - intros a k b c u e t Sa C Sb Sc V IH Se M IHm n r acc L. destruct n as [|n]; [lia|]. rewrite !bytes_app, !app_length in L. cbn [bytes_of_string length] in L.
    destruct (IH n (B e ++ 44 :: B t ++ 125 :: r)) as (j & E & _); [lia|apply ends_space; [exact Se|cbn; auto]|]. rewrite !bytes_app, <- !app_assoc. cbn [bytes_of_string app json_members]. change (byte_of """") with 34. change (byte_of ":") with 58. change (byte_of ",") with 44.
    rewrite ProofJson.skip_space by exact Sa. cbn [skip_ws]. change (json_space 34) with false. cbn [Z.eqb Pos.eqb negb].
    destruct (string_complete (S (String.length k)) k (B b ++ 58 :: B c ++ B u ++ B e ++ 44 :: B t ++ 125 :: r) [] ltac:(lia) C) as (raw & ER). rewrite ER. cbn [opt_bind]. rewrite ProofJson.skip_space by exact Sb. cbn [skip_ws]. change (json_space 58) with false. cbn [Z.eqb Pos.eqb negb].
    rewrite value_space by exact Sc. rewrite E. cbn [opt_bind]. rewrite ProofJson.skip_space by exact Se. cbn [skip_ws]. change (json_space 44) with false. cbn [Z.eqb Pos.eqb]. apply IHm. lia.
Qed.
Lemma space_all_skipped w : space w -> skip_ws (B w) = [].
Proof. intros S. rewrite <- (app_nil_r (B w)), ProofJson.skip_space by exact S. reflexivity. Qed.
Lemma document_decodes t a u b : space a -> value u -> space b -> t = a +++ u +++ b -> exists j, json_decode (B t) = Some j /\ (j = JNull <-> u = "null").
Proof.
  intros Sa V Sb ->. destruct (proj1 decode_complete u V (2 * length (B (a +++ u +++ b)) + 2)%nat (B b)) as (j & E & J).
  - rewrite !bytes_app, !app_length. lia.
  - destruct Sb as [|c t C S]; [exact Logic.I|]. cbn. cbn in C. intuition (subst; vm_compute; auto 10).
  - exists j. split; [|exact J]. unfold json_decode. set (n := (2 * _ + 2)%nat) in *. clearbody n. rewrite !bytes_app, value_space by exact Sa. rewrite E.
    rewrite space_all_skipped by exact Sb. reflexivity.
Qed.
Lemma decoded_document t j : json_decode (B t) = Some j -> exists a u b, space a /\ value u /\ space b /\ t = a +++ u +++ b /\ (j = JNull -> u = "null").
Proof.
  unfold json_decode. destruct (json_value _ (B t)) as [[j' r]|] eqn:E; [|discriminate]. destruct (proj1 (decode_sound _) _ _ _ E) as (w & u & rest & -> & Sw & V & -> & J).
  destruct (skip_split rest) as (b & rest' & -> & Sb & Ek). rewrite Ek. destruct rest'; [|discriminate]. intros Q. injection Q as <-. exists w, u, b. rewrite app_empty. auto 10.
Qed.
Lemma decode_iff t : (exists j, json_decode (B t) = Some j) <-> json_document t.
Proof.
  split.
  - intros (j & E). destruct (decoded_document _ _ E) as (a & u & b & Sa & V & Sb & Q & _). exists a, u, b. auto.
  - intros (a & u & b & Sa & V & Sb & Q). destruct (document_decodes _ _ _ _ Sa V Sb Q) as (j & E & _). exists j. exact E.
Qed.
Lemma decode_null t : json_decode (B t) = Some JNull <-> null_text t.
Proof.
  split.
  - intros E. destruct (decoded_document _ _ E) as (a & u & b & Sa & V & Sb & Q & N). rewrite (N eq_refl) in Q. exists a, b. auto.
  - intros (a & b & Sa & Sb & Q). destruct (document_decodes t a "null" b Sa) as (j & E & J); [constructor; cbn; auto|exact Sb|exact Q|]. rewrite E, (proj2 J eq_refl). reflexivity.
Qed.

(** ** Every document becomes a value *)
Section JsonInd.
  Variable P : json -> Prop.
  Hypothesis Hn : P JNull.
  Hypothesis Hb : forall b, P (JBool b).
  Hypothesis Hf : forall f, P (JNum f).
  Hypothesis Hi : forall z, P (JInt z).
  Hypothesis Hs : forall t, P (JStr t).
  Hypothesis Ha : forall l, Forall P l -> P (JArr l).
  Hypothesis Ho : forall l, Forall (fun m => P (snd m)) l -> P (JObj l).
  Fixpoint json_ind2 (j : json) : P j :=
    match j with
    | JNull => Hn
    | JBool b => Hb b
    | JNum f => Hf f
    | JInt z => Hi z
    | JStr t => Hs t
    | JArr l => Ha l ((fix go (l : list json) : Forall P l := match l with [] => List.Forall_nil P | x :: r => @List.Forall_cons _ P x r (json_ind2 x) (go r) end) l)
    | JObj l => Ho l ((fix go (l : list (string * json)) : Forall (fun m => P (snd m)) l :=
        match l with [] => List.Forall_nil _ | x :: r => @List.Forall_cons _ (fun m => P (snd m)) x r (json_ind2 (snd x)) (go r) end) l)
    end.
End JsonInd.
Inductive chain (s : state) : val -> Prop :=
| chain_nil : chain s VNil
| chain_cons (l : loc) a d : s_cells s !! l = Some (a, d) -> chain s d -> chain s (VCell TCons l).
Lemma chain_grows s s' v : grows s s' -> chain s v -> chain s' v.
Proof. intros G C. induction C as [|l a d H C IH]; [constructor|]. econstructor; [apply (g_cells _ _ G); exact H|exact IH]. Qed.
Lemma reverse_chain v s : wf_state s -> chain s v -> exists r s', runs denote (reverse v) s (Done r) s' /\ grows s s'.
Proof.
  intros W C. unfold reverse. destruct (is_nil v) eqn:En; [exists VNil, s; split; [apply runs_ret|apply grows_refl]|].
  assert (Lp : listp v = true) by (destruct C; [discriminate|reflexivity]). rewrite Lp. cbn [negb]. generalize VNil as acc. clear En Lp. revert s W C.
  assert (G : forall s0 v, chain s0 v -> forall s, wf_state s -> grows s0 s -> forall acc, exists r s',
    runs denote (for_cells (fun acc c => a <- car c ;; acc' <- cons a acc ;; Ret (inl acc')) (fun acc => Ret acc) v acc) s (Done r) s' /\ grows s s').
  { clear v. intros s0 v C. induction C as [|l a d H C IH]; intros s W G0 acc.
    - exists acc, s. split; [|apply grows_refl]. apply for_cells_end; [reflexivity|apply runs_ret].
    - destruct (nilb s (VCell TCons l)) eqn:N; [exists acc, s; split; [apply for_cells_end; [exact N|apply runs_ret]|apply grows_refl]|].
      assert (G1 : grows s (set_cells (<[s_next s := (a, acc)]> (s_cells s)) (bump s))) by apply (grows_new_cell s a acc W).
      set (s1 := set_cells _ (bump s)) in *. assert (R2 : runs denote (cons a acc) s (Done (VCell TCons (s_next s))) s1) by apply (runs_cons TCons).
      pose proof (wf_runs _ _ _ _ _ W R2) as W1. destruct (IH s1 W1 (grows_trans _ _ _ G0 G1) (VCell TCons (s_next s))) as (r & s2 & R3 & G3).
      exists r, s2. split; [|exact (grows_trans _ _ _ G1 G3)]. pose proof (g_cells _ _ G0 _ _ H) as H1. pose proof (g_cells _ _ G1 _ _ H1) as H2.
      eapply for_cells_next; [exact N| |].
      + apply (then_iff _ _ _ _ _ _ _ (runs_car (VCell TCons l) s)). assert (Ea : car_of s (VCell TCons l) = a) by (unfold car_of; rewrite (cell_some _ _ _ H1); reflexivity). rewrite Ea.
        apply (then_iff _ _ _ _ _ _ _ R2). apply runs_ret.
      + assert (Ed : rest_of s1 (VCell TCons l) = d) by (unfold rest_of; rewrite (cell_some _ _ _ H2); reflexivity). rewrite Ed. exact R3. }
  intros s W C acc. apply (G s v C s W (grows_refl s)).
Qed.
Lemma frames_total j : forall s, wf_state s -> exists v s', runs denote (json_to_frames j) s (Done v) s' /\ grows s s'.
Proof.
  induction j as [|b|f|z|t|l IH|l IH] using json_ind2; intros s W; try (eexists _, s; split; [apply runs_ret|apply grows_refl]).
  - eexists _, _. split; [cbn [json_to_frames]; apply runs_new_str|apply grows_new_str, W].
  - destruct l as [|x l]; [eexists _, s; split; [apply runs_ret|apply grows_refl]|].
    assert (G : forall l, Forall (fun j => forall s, wf_state s -> exists v s', runs denote (json_to_frames j) s (Done v) s' /\ grows s s') l ->
      forall ary s, wf_state s -> chain s ary -> exists ary' s', runs denote (frames_items l ary) s (Done ary') s' /\ grows s s' /\ wf_state s' /\ chain s' ary').
    { clear. intros l F. induction F as [|j l H F IH]; intros ary s W C.
      - exists ary, s. split; [apply runs_ret|]. split; [apply grows_refl|]. auto.
      - destruct (H s W) as (v & s1 & R1 & G1). pose proof (wf_runs _ _ _ _ _ W R1) as W1. pose proof (grows_new_cell s1 v ary W1) as G2. set (s2 := set_cells _ (bump s1)) in *.
        assert (R2 : runs denote (cons v ary) s1 (Done (VCell TCons (s_next s1))) s2) by apply (runs_cons TCons). pose proof (wf_runs _ _ _ _ _ W1 R2) as W2.
        destruct (IH (VCell TCons (s_next s1)) s2 W2) as (ary' & s3 & R3 & G3 & W3 & C3).
        { econstructor; [apply cell_new|]. apply (chain_grows _ _ _ (grows_trans _ _ _ G1 G2)), C. }
        exists ary', s3. split; [cbn [frames_items]; eapply runs_bind; [exact R1|]; eapply runs_bind; [exact R2|exact R3]|]. split; [exact (grows_trans _ _ _ G1 (grows_trans _ _ _ G2 G3))|]. auto. }
    destruct (G _ IH VNil s W (chain_nil _)) as (ary & s1 & R1 & G1 & W1 & C1). destruct (reverse_chain ary s1 W1 C1) as (r & s2 & R2 & G2).
    exists r, s2. split; [|exact (grows_trans _ _ _ G1 G2)].
    change (json_to_frames (JArr (x :: l))) with (ary <- frames_items (x :: l) VNil ;; reverse ary). eapply runs_bind; [exact R1|exact R2].
  - assert (G : forall l, Forall (fun m : string * json => forall s, wf_state s -> exists v s', runs denote (json_to_frames (snd m)) s (Done v) s' /\ grows s s') l ->
      forall acc s, wf_state s -> exists acc' s', runs denote (frames_slots l acc) s (Done acc') s' /\ grows s s' /\ wf_state s').
    { clear. intros l F. induction F as [|[k j] l H F IH]; intros acc s W.
      - exists acc, s. split; [apply runs_ret|]. split; [apply grows_refl|exact W].
      - cbn [snd] in H. destruct (H s W) as (v & s1 & R1 & G1). pose proof (wf_runs _ _ _ _ _ W R1) as W1. destruct (IH (aset (k +++ ":") v acc) s1 W1) as (acc' & s2 & R2 & G2 & W2).
        exists acc', s2. split; [cbn [frames_slots]; eapply runs_bind; [exact R1|exact R2]|]. split; [exact (grows_trans _ _ _ G1 G2)|exact W2]. }
    destruct (G l IH [] s W) as (m & s1 & R1 & G1 & W1). pose proof (grows_new_frame s1 m W1) as G2. eexists _, _.
    split; [change (json_to_frames (JObj l)) with (m <- frames_slots l [] ;; f <- do_op (OFrameNew m) ;; Ret (VFrame f)); eapply runs_bind; [exact R1|]; rsteps|exact (grows_trans _ _ _ G1 G2)].
Qed.

(** ** json->lisp *)
Lemma refused_run v t env s : wf_state s -> is_str s v t -> ~ json_document t ->
  exists f s', applies "json->lisp" [v] env s (Done (Ok (VFrame f))) s' /\ grows (wrote (complaint t) (entering "json->lisp" env s)) s' /\ s_frames s !! f = None /\ s_frames s' !! f = Some [] /\
    s_log s' = EOut (complaint t) :: s_log (entering "json->lisp" env s).
Proof.
  intros W (l & -> & St) N. pose proof (wf_entering "json->lisp" env s W) as W'. set (s1 := entering "json->lisp" env s) in *.
  assert (E : json_decode (B t) = None). { destruct (json_decode (B t)) as [j|] eqn:E; [|reflexivity]. exfalso. apply N, decode_iff. exists j. exact E. }
  assert (R1 : runs denote (do_op (OEvent (EOut (complaint t)))) s1 (Done tt) (wrote (complaint t) s1)) by (apply runs_op; reflexivity).
  pose proof (wf_runs _ _ _ _ _ W' R1) as W2. pose proof (grows_new_frame _ [] W2) as G2.
  eexists _, _. split; [|split; [exact G2|split; [|split]]].
  - applies. unfold json_to_lisp_impl, need_string. cbn [arg nth]. eapply runs_bind; [apply runs_op; reflexivity|]. cbv beta. replace (str_at (entering "json->lisp" env s) l) with t by (symmetry; apply str_some; exact St).
    unfold json_string_to_frames. rewrite E. eapply runs_bind; [|rsteps]. eapply runs_bind; [exact R1|]. rsteps.
  - apply (fresh_none (entering "json->lisp" env s) (s_frames s)). destruct W'. assumption.
  - cbn. apply lookup_insert.
  - reflexivity.
Qed.
Lemma accepted_run v t env s : wf_state s -> is_str s v t -> json_document t -> ~ null_text t ->
  exists r s', applies "json->lisp" [v] env s (Done (Ok r)) s' /\ grows s s'.
Proof.
  intros W (l & -> & St) D N. pose proof (wf_entering "json->lisp" env s W) as W'. destruct (proj2 (decode_iff t) D) as (j & E).
  destruct (frames_total j _ W') as (r & s' & R & G). exists r, s'. split; [|exact (grows_trans _ _ _ (grows_entering _ _ _) G)].
  applies. unfold json_to_lisp_impl, need_string. cbn [arg nth]. eapply runs_bind; [apply runs_op; reflexivity|]. cbv beta. replace (str_at (entering "json->lisp" env s) l) with t by (symmetry; apply str_some; exact St).
  unfold json_string_to_frames. rewrite E. eapply runs_bind; [|rsteps]. destruct j; try exact R. exfalso. apply N, decode_null, E.
Qed.
Lemma null_run v t env s : is_str s v t -> null_text t ->
  applies "json->lisp" [v] env s (Panicked "reflect: call of reflect.Value.Type on zero Value") (entering "json->lisp" env s).
Proof.
  intros (l & -> & St) N. applies. unfold json_to_lisp_impl, need_string. cbn [arg nth]. eapply runs_bind; [apply runs_op; reflexivity|]. cbv beta. replace (str_at (entering "json->lisp" env s) l) with t by (symmetry; apply str_some; exact St).
  unfold json_string_to_frames. rewrite (proj2 (decode_null t) N). apply runs_bind_panic. apply runs_panic.
Qed.
Lemma null_document t : null_text t -> json_document t.
Proof. intros (a & b & Sa & Sb & ->). exists a, "null", b. repeat apply conj; try assumption; [constructor; cbn; auto|reflexivity]. Qed.
(** Whether a text is a document can be computed, so no run escapes the three cases. *)
Lemma document_or_not t : {json_document t} + {~ json_document t}.
Proof. destruct (json_decode (B t)) as [j|] eqn:E; [left|right]; rewrite <- decode_iff; [exists j; exact E|]. intros (j & Q). congruence. Qed.
Lemma null_or_not t : {null_text t} + {~ null_text t}.
Proof.
  destruct (json_decode (B t)) as [j|] eqn:E; [|right; rewrite <- decode_null; congruence].
  destruct j; try (right; rewrite <- decode_null; congruence). left. apply decode_null, E.
Qed.
Lemma exact_run v t env s : wf_state s -> is_str s v t -> exists o s' new, applies "json->lisp" [v] env s o s' /\ s_log s' = new ++ s_log s /\
  ((exists x, In (EOut x) new) <-> ~ json_document t) /\ ((exists w, o = Panicked w) <-> null_text t).
Proof.
  intros W St. destruct (document_or_not t) as [D|D].
  - destruct (null_or_not t) as [N|N].
    + eexists _, _, [EPrim "json->lisp" env]. split; [exact (null_run v t env s St N)|]. split; [reflexivity|]. split; [|split; [intros _; exact N|eauto]].
      split; [intros (x & [Q|[]]); discriminate|contradiction].
    + destruct (accepted_run v t env s W St D N) as (r & s' & A & G). destruct (g_log _ _ G) as (new & L & Q). exists (Done (Ok r)), s', new. split; [exact A|]. split; [exact L|]. split.
      * split; [|contradiction]. intros (x & I). destruct (proj1 (List.Forall_forall _ _) Q _ I) as (n & e & E). discriminate.
      * split; [intros (w & E); discriminate|contradiction].
  - destruct (refused_run v t env s W St D) as (f & s' & A & _ & _ & _ & L). exists (Done (Ok (VFrame f))), s', [EOut (complaint t); EPrim "json->lisp" env]. split; [exact A|]. split; [rewrite L; reflexivity|]. split.
    + split; [intros _; exact D|]. intros _. exists (complaint t). left. reflexivity.
    + split; [intros (w & E); discriminate|]. intros N. destruct D. apply null_document, N.
Qed.
(** For examples. *)
Definition decodes (t : string) : bool := match json_decode (B t) with Some _ => true | None => false end.
Lemma decodes_spec ts : forallb decodes ts = true -> Forall json_document ts.
Proof.
  intros H. apply List.Forall_forall. intros t I. apply decode_iff. rewrite forallb_forall in H. specialize (H t I). unfold decodes in H.
  destruct (json_decode (B t)) as [j|]; [exists j; reflexivity|discriminate].
Qed.
Lemma undecoded_spec ts : existsb decodes ts = false -> Forall (fun t => ~ json_document t) ts.
Proof.
  intros H. apply List.Forall_forall. intros t I D. apply decode_iff in D as (j & E). assert (existsb decodes ts = true); [|congruence].
  apply existsb_exists. exists t. split; [exact I|]. unfold decodes. rewrite E. reflexivity.
Qed.
