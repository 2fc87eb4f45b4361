(** * C32-C35, C50: bytearrays, strings, association lists, type predicates.  Statements only; see SpecData.v for the
    vocabulary. *)
From Verif Require Import ProofData ProofBytes ProofAlist ProofPairs ProofList.
From Verif Require Import SpecData.
Local Open Scope string_scope.
Local Open Scope list_scope.
Local Open Scope Z_scope.

(** ** C32 Bytearrays *)
(** A bytearray is made from exactly the lists of bytes and bytearrays; it is new and has their contents in order. *)
Theorem C32_make : forall name v xs env s, In name bytearray_makers -> wf_state s -> is_list s v xs -> xs <> [] -> Forall (known_bytes s) xs ->
  (exists bss r s', Forall2 (byte_item s) xs bss /\ applies name [v] env s (Done (Ok r)) s' /\ grows s s' /\ new_bytes s s' r (List.concat bss)) \/
  ((~ exists bss, Forall2 (byte_item s) xs bss) /\ exists m, applies name [v] env s (Done (Err m)) (entering name env s)).
Proof. exact run_make. Qed.
Theorem C32_make_nil : forall name v env s, In name bytearray_makers -> at_end s v ->
  exists m, applies name [v] env s (Done (Err m)) (entering name env s).
Proof. exact run_make_nil. Qed.
Theorem C32_to_list : forall name l bs env s, In name ["bytearray->list"; "bytearray-to-list"] -> wf_state s -> s_bytes s !! (l : loc) = Some bs ->
  exists r s', applies name [VBytes l] env s (Done (Ok r)) s' /\ grows s s' /\ is_list s' r (map VInt bs).
Proof. exact run_bytes_list. Qed.
(** There and back again, both ways. *)
Theorem C32_list_and_back : forall v bs env s, wf_state s -> is_list s v (map VInt bs) -> bs <> [] -> Forall is_byte bs -> exists r s1 r' s2,
  applies "list->bytearray" [v] env s (Done (Ok r)) s1 /\ applies "bytearray->list" [r] env s1 (Done (Ok r')) s2 /\ is_list s2 r' (map VInt bs).
Proof. exact list_and_back. Qed.
Theorem C32_bytes_and_back : forall l bs env s, wf_state s -> s_bytes s !! (l : loc) = Some bs -> bs <> [] -> Forall is_byte bs -> exists r s1 r' s2,
  applies "bytearray->list" [VBytes l] env s (Done (Ok r)) s1 /\ applies "list->bytearray" [r] env s1 (Done (Ok r')) s2 /\ new_bytes s1 s2 r' bs.
Proof. exact bytes_and_back. Qed.
(** extract-byte answers the byte at a position, or fails if there is none. *)
Theorem C32_extract_byte : forall l bs i env s, s_bytes s !! (l : loc) = Some bs ->
  (exists b, 0 <= i /\ nth_error bs (Z.to_nat i) = Some b /\ applies "extract-byte" [VBytes l; VInt i] env s (Done (Ok (VInt b))) (entering "extract-byte" env s)) \/
  ((i < 0 \/ Z.of_nat (length bs) <= i) /\ exists m, applies "extract-byte" [VBytes l; VInt i] env s (Done (Err m)) (entering "extract-byte" env s)).
Proof. exact run_extract. Qed.
(** replace-byte makes a new bytearray, replace-byte! changes the given one and nothing else. *)
Theorem C32_replace_byte : forall l bs i b env s, wf_state s -> s_bytes s !! (l : loc) = Some bs -> 0 <= i < Z.of_nat (length bs) -> is_byte b ->
  exists bs', byte_replaced bs i b bs' /\
  (exists r s', applies "replace-byte" [VBytes l; VInt i; VInt b] env s (Done (Ok r)) s' /\ grows s s' /\ new_bytes s s' r bs') /\
  applies "replace-byte!" [VBytes l; VInt i; VInt b] env s (Done (Ok (VBytes l))) (set_bytes (<[l := bs']> (s_bytes s)) (entering "replace-byte!" env s)).
Proof. exact run_replace. Qed.
Theorem C32_replace_bad : forall name l bs i b env s, In name ["replace-byte"; "replace-byte!"] -> s_bytes s !! (l : loc) = Some bs ->
  ~ (0 <= i < Z.of_nat (length bs) /\ is_byte b) -> exists m, applies name [VBytes l; VInt i; VInt b] env s (Done (Err m)) (entering name env s).
Proof. exact run_replace_bad. Qed.
(** extract-bytes: exactly the requested stretch, in a new bytearray, or an error. *)
Theorem C32_extract_bytes : forall l bs i n env s, wf_state s -> s_bytes s !! (l : loc) = Some bs -> 0 <= i < Z.of_nat (length bs) -> 0 <= n ->
  i + n <= Z.of_nat (length bs) -> Z.of_nat (length bs) < 2 ^ 63 -> exists r s' pre mid post,
  applies "extract-bytes" [VBytes l; VInt i; VInt n] env s (Done (Ok r)) s' /\ grows s s' /\ new_bytes s s' r mid /\
  bs = pre ++ mid ++ post /\ Z.of_nat (length pre) = i /\ Z.of_nat (length mid) = n.
Proof. exact run_extract_bytes. Qed.
Theorem C32_extract_bytes_bad : forall l bs i n env s, s_bytes s !! (l : loc) = Some bs ->
  i < 0 \/ Z.of_nat (length bs) <= i \/ n < 0 \/ Z.of_nat (length bs) < i + n < 2 ^ 63 ->
  exists m, applies "extract-bytes" [VBytes l; VInt i; VInt n] env s (Done (Err m)) (entering "extract-bytes" env s).
Proof. exact run_extract_bytes_bad. Qed.
(** When position plus count overflows, the check is passed and fewer bytes than requested come back (finding). *)
Theorem C32_extract_overflow_refuted : forall l bs i n env s, wf_state s -> s_bytes s !! (l : loc) = Some bs -> 0 <= i < Z.of_nat (length bs) ->
  Z.of_nat (length bs) < 2 ^ 63 -> n < 2 ^ 63 -> 2 ^ 63 <= i + n -> exists r s',
  applies "extract-bytes" [VBytes l; VInt i; VInt n] env s (Done (Ok r)) s' /\ new_bytes s s' r (skipn (Z.to_nat i) bs).
Proof. exact run_extract_overflow. Qed.
(** append-bytes makes a new bytearray, append-bytes! changes the given one (otherwise only new objects appear). *)
Theorem C32_append_bytes : forall l bs vs extra env s, wf_state s -> s_bytes s !! (l : loc) = Some bs -> added_bytes s vs extra ->
  (exists r s', applies "append-bytes" (VBytes l :: vs) env s (Done (Ok r)) s' /\ grows s s' /\ new_bytes s s' r (bs ++ extra)) /\
  (exists s1, grows s s1 /\ applies "append-bytes!" (VBytes l :: vs) env s (Done (Ok (VBytes l))) (set_bytes (<[l := bs ++ extra]> (s_bytes s1)) s1)).
Proof. exact run_append_bytes. Qed.
Print Assumptions C32_make. Print Assumptions C32_make_nil. Print Assumptions C32_to_list. Print Assumptions C32_list_and_back.
Print Assumptions C32_bytes_and_back. Print Assumptions C32_extract_byte. Print Assumptions C32_replace_byte. Print Assumptions C32_replace_bad.
Print Assumptions C32_extract_bytes. Print Assumptions C32_extract_bytes_bad. Print Assumptions C32_extract_overflow_refuted. Print Assumptions C32_append_bytes.
Example C32_cases :
  show 300 "(define b (list->bytearray '(1 2 [3 4] 5))) (define c (replace-byte b 1 9)) (list b c (extract-byte b 4) (extract-bytes b 1 3) (extract-bytes b 4 9223372036854775807) (append-bytes b 6 7) (append-bytes! b '(8 9)) b (bytearray->list c) (on-error (replace-byte! b 0 256) (lambda (e) 'bad)) (on-error (list->bytearray '(256)) (lambda (e) 'bad)) (on-error (extract-byte b 7) (lambda (e) 'bad)))" start
    = Some (Done (Ok "([1 2 3 4 5 8 9] [1 9 3 4 5] 5 [2 3 4] [5] [1 2 3 4 5 6 7] [1 2 3 4 5 8 9] [1 2 3 4 5 8 9] (1 9 3 4 5) bad bad bad)")) /\
  (exists s' (l l2 : loc) v w, wf_state s' /\ s_bytes s' !! l = Some [1; 2; 255] /\ s_bytes s' !! l2 = Some [7] /\
   is_list s' v [VInt 0; VInt 255; VBytes l] /\ Forall2 (byte_item s') [VInt 0; VInt 255; VBytes l] [[0]; [255]; [1; 2; 255]] /\
   is_list s' w [VInt 256] /\ ~ (exists bss, Forall2 (byte_item s') [VInt 256] bss)) /\
  Forall is_byte [1; 2; 255] /\ byte_replaced [1; 2; 255] 1 9 [1; 9; 255] /\ 0 <= 1 < 3 /\ 2 ^ 63 <= 1 + (2 ^ 63 - 1).
Proof.
  split; [vm_compute; reflexivity|]. split; [exact (bytes_sample start wf_start)|]. split; [repeat constructor; discriminate|].
  split; [exists [1], 2, [255]; repeat split|]. split; [lia|discriminate].
Qed.

(** ** C33 string-split and string-join *)
(** The pieces are what lies between the separators, cut from the left. *)
Theorem C33_split : forall v w t sep env s, wf_state s -> is_str s v t -> is_str s w sep -> sep <> "" -> exists r s' vs ps,
  applies "string-split" [v; w] env s (Done (Ok r)) s' /\ grows s s' /\ is_list s' r vs /\ Forall2 (is_str s') vs ps /\ cut sep t ps.
Proof. exact run_split_cut. Qed.
Theorem C33_pieces : forall sep t ps, sep <> "" -> cut sep t ps -> joined sep ps = t /\ Forall (fun p => ~ occurs sep p) ps.
Proof. exact cut_pieces. Qed.
Theorem C33_unique : forall sep t ps, sep <> "" -> cut sep t ps -> forall qs, cut sep t qs -> ps = qs.
Proof. exact cut_unique. Qed.
Theorem C33_join : forall v w vs ts sep env s, wf_state s -> is_list s v vs -> Forall2 (is_str s) vs ts -> is_str s w sep -> exists r s',
  applies "string-join" [v; w] env s (Done (Ok r)) s' /\ grows s s' /\ is_str s' r (joined sep ts).
Proof. exact run_join. Qed.
Theorem C33_join_only : forall v vs ts env s, wf_state s -> is_list s v vs -> Forall2 (is_str s) vs ts -> exists r s',
  applies "string-join" [v] env s (Done (Ok r)) s' /\ grows s s' /\ is_str s' r (joined "" ts).
Proof. exact run_join_only. Qed.
(** Joining what was split (also by an empty separator) gives the string back; splitting what was joined gives the
    pieces back if none contains the one-byte separator. *)
Theorem C33_split_then_join : forall v w t sep env s, wf_state s -> is_str s v t -> is_str s w sep -> exists r s1 r' s2,
  applies "string-split" [v; w] env s (Done (Ok r)) s1 /\ applies "string-join" [r; w] env s1 (Done (Ok r')) s2 /\ is_str s2 r' t.
Proof. exact split_then_join. Qed.
Theorem C33_join_then_split : forall v w vs ts c env s, wf_state s -> is_list s v vs -> Forall2 (is_str s) vs ts -> is_str s w (String c "") ->
  ts <> [] -> Forall (fun p => ~ occurs (String c "") p) ts -> exists r s1 r' s2 vs',
  applies "string-join" [v; w] env s (Done (Ok r)) s1 /\ applies "string-split" [r; w] env s1 (Done (Ok r')) s2 /\
  is_list s2 r' vs' /\ Forall2 (is_str s2) vs' ts.
Proof. exact join_then_split. Qed.
Print Assumptions C33_split. Print Assumptions C33_pieces. Print Assumptions C33_unique. Print Assumptions C33_join. Print Assumptions C33_join_only.
Print Assumptions C33_split_then_join. Print Assumptions C33_join_then_split.
Example C33_cases :
  show 300 "(list (string-split ""a::b:c"" "":"") (string-split ""a::b:c"" ""::"") (string-split "":a:"" "":"") (string-join '(""x"" """" ""y"") ""-"") (string-join '(""x"" ""y"")))" start
    = Some (Done (Ok "((""a"" """" ""b"" ""c"") (""a"" ""b:c"") ("""" ""a"" """") ""x--y"" ""xy"")")) /\
  (exists s' v w l, wf_state s' /\ is_str s' v "a:b" /\ is_str s' w ":" /\ is_list s' l [v; w]) /\
  ~ occurs ":" "ab".
Proof.
  split; [vm_compute; reflexivity|]. split; [exact (strings_sample start "a:b" ":" wf_start)|].
  intros (a & b & H). destruct a as [|c1 [|c2 [|c3 a]]]; cbn in H; discriminate.
Qed.

(** ** C34 substring and string predicates *)
Theorem C34_substring : forall v t i j env s, wf_state s -> is_str s v t -> 0 <= i <= j -> j <= str_len t -> exists l s' a m b,
  applies "substring" [v; VInt i; VInt j] env s (Done (Ok (VStr l))) s' /\ grows s s' /\ s_strs s !! (l : loc) = None /\
  s_strs s' !! l = Some m /\ t = a +++ m +++ b /\ str_len a = i /\ str_len m = j - i.
Proof. exact run_substring. Qed.
Theorem C34_substring_bad : forall v t i j env s, is_str s v t -> str_len t < i \/ str_len t < j \/ j < i -> exists m,
  applies "substring" [v; VInt i; VInt j] env s (Done (Err m)) (entering "substring" env s).
Proof. exact run_substring_bad. Qed.
(** A negative start crashes (finding). *)
Theorem C34_substring_negative_refuted : forall v t i j env s, is_str s v t -> i < 0 -> i <= j <= str_len t -> exists w,
  applies "substring" [v; VInt i; VInt j] env s (Panicked w) (entering "substring" env s).
Proof. exact run_substring_negative. Qed.
Theorem C34_length : forall v t env s, is_str s v t ->
  forall o s', applies "string-length" [v] env s o s' <-> gives (VInt (str_len t)) (entering "string-length" env s) o s'.
Proof. exact run_string_length. Qed.
Theorem C34_null : forall v t env s, is_str s v t -> exists b, decides "string-null?" [v] env s b /\ (b = true <-> t = "").
Proof. exact run_string_null. Qed.
Theorem C34_parts : forall v w t u env s, is_str s v t -> is_str s w u ->
  (exists b, decides "substring?" [v; w] env s b /\ (b = true <-> exists x y, u = x +++ t +++ y)) /\
  (exists b, decides "string-prefix?" [v; w] env s b /\ (b = true <-> exists y, u = t +++ y)) /\
  (exists b, decides "string-suffix?" [v; w] env s b /\ (b = true <-> exists x, u = x +++ t)).
Proof. exact run_part_tests. Qed.
(** The comparisons, and that they form a total order. *)
Theorem C34_order : forall v w t u env s, is_str s v t -> is_str s w u -> forall name rel, In (name, rel) string_orders ->
  exists b, decides name [v; w] env s b /\ (b = true <-> rel t u).
Proof. exact run_order. Qed.
Theorem C34_irreflexive : forall a, ~ before a a.
Proof. exact before_irrefl. Qed.
Theorem C34_transitive : forall a b c, before a b -> before b c -> before a c.
Proof. exact before_trans. Qed.
Theorem C34_total : forall a b, before a b \/ a = b \/ before b a.
Proof. exact before_total. Qed.
(** The -ci versions compare what string-downcase gives. *)
Theorem C34_ignoring_case : forall v w t u env s, wf_state s -> is_str s v t -> is_str s w u -> forall name ci rel, In (name, ci, rel) ci_orders ->
  exists v' t' s1 w' u' s2 b,
  (applies "string-downcase" [v] env s (Done (Ok v')) s1 /\ grows s s1 /\ is_str s1 v' t') /\
  (applies "string-downcase" [w] env s1 (Done (Ok w')) s2 /\ grows s1 s2 /\ is_str s2 w' u') /\
  decides ci [v; w] env s b /\ (b = true <-> rel t' u').
Proof. exact run_ci_order. Qed.
Print Assumptions C34_substring. Print Assumptions C34_substring_bad. Print Assumptions C34_substring_negative_refuted. Print Assumptions C34_length.
Print Assumptions C34_null. Print Assumptions C34_parts. Print Assumptions C34_order. Print Assumptions C34_irreflexive. Print Assumptions C34_transitive.
Print Assumptions C34_total. Print Assumptions C34_ignoring_case.
Example C34_cases :
  show 300 "(list (substring ""hello"" 1 3) (substring ""hello"" 5 5) (on-error (substring ""hello"" 2 6) (lambda (e) 'bad)) (string-length ""hello"") (substring? ""ell"" ""hello"") (string-prefix? ""he"" ""hello"") (string-suffix? ""he"" ""hello"") (string<? ""ab"" ""abc"") (string<? ""b"" ""abc"") (string>=? ""b"" ""b"") (string-null? """"))" start
    = Some (Done (Ok "(""el"" """" bad 5 #t #t #f #t #f #t #t)")) /\
  show 300 "(substring ""hello"" -1 3)" start = Some (Panicked "runtime error: slice bounds out of range") /\
  (exists s' v w l, wf_state s' /\ is_str s' v "hello" /\ is_str s' w "he" /\ is_list s' l [v; w]) /\
  before "ab" "abc" /\ before "abc" "b" /\ In ("string<?", before) string_orders.
Proof.
  split; [vm_compute; reflexivity|]. split; [vm_compute; reflexivity|]. split; [exact (strings_sample start "hello" "he" wf_start)|].
  split; [apply before_rest, before_rest, before_end|]. split; [apply before_byte; reflexivity|]. right. left. reflexivity.
Qed.

(** ** C35 Association lists *)
(** assoc, assq and assv answer the first pair with an equal key, and nil if there is none. *)
Theorem C35_assoc : forall name k d v es env s, In name lookups -> rep s k d -> frameless d -> is_alist s v es ->
  (exists e tp, leads es d e /\ (tp = TCons \/ tp = TAlistCell) /\ applies name [k; v] env s (Done (Ok (VCell tp (e_pair e)))) (entering name env s)) \/
  (~ In d (map e_key es) /\ applies name [k; v] env s (Done (Ok VNil)) (entering name env s)).
Proof. exact run_assoc. Qed.
(** acons makes an association list in which the key leads to the new value and every other key where it led before;
    keys stay unique, and no entry is added for a key that has one. *)
Theorem C35_acons : forall k d x v es env s, wf_state s -> rep s k d -> atomic d -> is_alist s v es -> exists r s' es',
  applies "acons" [k; x; v] env s (Done (Ok r)) s' /\ is_alist s' r es' /\
  (forall d' y, maps es' d' y <-> (d' = d /\ y = x) \/ (d' <> d /\ maps es d' y)) /\
  (List.NoDup (map e_key es) -> List.NoDup (map e_key es')) /\ (In d (map e_key es) -> map e_key es' = map e_key es).
Proof. exact run_acons_map. Qed.
(** With a new key nothing that existed changes, and the new entry comes first. *)
Theorem C35_acons_new : forall k d x v es env s, wf_state s -> rep s k d -> atomic d -> is_alist s v es -> ~ In d (map e_key es) -> exists p r s',
  applies "acons" [k; x; v] env s (Done (Ok r)) s' /\ grows s s' /\ (s_next s <= p)%positive /\ is_alist s' r (Entry p d x :: es).
Proof. exact run_acons_new. Qed.
Theorem C35_acons_none : forall k d x env s, wf_state s -> rep s k d -> atomic d -> exists p r s',
  applies "acons" [k; x] env s (Done (Ok r)) s' /\ grows s s' /\ (s_next s <= p)%positive /\ is_alist s' r [Entry p d x].
Proof. exact run_acons_none. Qed.
(** With a key that is there, the same list is answered and its pair, nothing else, has the new value. *)
Theorem C35_acons_update : forall k d x v es e env s, rep s k d -> atomic d -> is_alist s v es -> leads es d e -> exists k0,
  s_cells s !! e_pair e = Some (k0, e_val e) /\
  applies "acons" [k; x; v] env s (Done (Ok v)) (put_cell (entering "acons" env s) (e_pair e) (k0, x)).
Proof. exact run_acons_same. Qed.
(** dissoc makes a new association list without the key; the given one stays as it was. *)
Theorem C35_dissoc : forall k d v es env s, wf_state s -> rep s k d -> frameless d -> is_alist s v es -> List.NoDup (map e_key es) -> exists r s' es',
  applies "dissoc" [k; v] env s (Done (Ok r)) s' /\ grows s s' /\ is_alist s' r es' /\ List.NoDup (map e_key es') /\
  (forall d' y, maps es' d' y <-> d' <> d /\ maps es d' y).
Proof. exact run_dissoc. Qed.
(** If a key occurs twice, dissoc of another key makes it lead to its last value instead of its first (finding). *)
Theorem C35_dissoc_repeated_refuted :
  show 300 "(define l '((a . 1) (a . 2) (b . 3))) (list (assoc 'a l) (assoc 'a (dissoc 'b l)))" start = Some (Done (Ok "((a . 1) (a . 2))")).
Proof. vm_compute. reflexivity. Qed.
(** alist makes, from a list of pairs, a new association list with the same meaning in which each key occurs once. *)
Theorem C35_alist : forall v es ps env s, wf_state s -> is_alist s v es -> is_list s v ps -> exists r s' es',
  applies "alist" [v] env s (Done (Ok r)) s' /\ grows s s' /\ is_alist s' r es' /\
  (forall e, In e es' -> (s_next s <= e_pair e)%positive) /\ List.NoDup (map e_key es') /\ (forall d y, maps es' d y <-> maps es d y).
Proof. exact run_alist. Qed.
(** pairlis makes an association list in which each key leads to the value at its last place, the other keys to what they
    had in the list given third; nothing that existed changes if that list has none of the keys. *)
Theorem C35_pairlis : forall keys values ks ds xs acc es env s, wf_state s -> is_list s keys ks -> is_list s values xs -> length xs = length ks ->
  Forall2 (rep s) ks ds -> List.Forall atomic ds -> is_alist s acc es -> pairp acc = true -> (forall d, In d ds -> ~ In d (map e_key es)) ->
  exists r s' es', applies "pairlis" [keys; values; acc] env s (Done (Ok r)) s' /\ grows s s' /\ is_alist s' r es' /\
  (forall d y, maps es' d y <-> last_value (combine ds xs) d y \/ (~ In d ds /\ maps es d y)) /\
  (List.NoDup (map e_key es) -> List.NoDup (map e_key es')).
Proof. exact run_pairlis. Qed.
Theorem C35_pairlis_none : forall keys values ks ds xs env s, wf_state s -> is_list s keys ks -> is_list s values xs -> length xs = length ks ->
  Forall2 (rep s) ks ds -> List.Forall atomic ds ->
  exists r s' es', applies "pairlis" [keys; values] env s (Done (Ok r)) s' /\ grows s s' /\ is_alist s' r es' /\
  (forall d y, maps es' d y <-> last_value (combine ds xs) d y) /\ List.NoDup (map e_key es').
Proof. exact run_pairlis_none. Qed.
Theorem C35_pairlis_lengths : forall keys values ks xs more env s, is_list s keys ks -> is_list s values xs -> length xs <> length ks ->
  applies "pairlis" (keys :: values :: more) env s (Done (Err "Pairlis requires the same number of keys and values")) (entering "pairlis" env s).
Proof. exact run_pairlis_lengths. Qed.
Theorem C35_pairlis_bad : forall keys values more env s,
  (pairp keys = false -> applies "pairlis" (keys :: values :: more) env s (Done (Err "First arg of pairlis must be a list")) (entering "pairlis" env s)) /\
  (pairp keys = true -> pairp values = false -> applies "pairlis" (keys :: values :: more) env s (Done (Err "Second arg of Pairlis must be a list")) (entering "pairlis" env s)).
Proof. exact run_pairlis_bad. Qed.
(** An association list made by acons is refused as third argument (finding). *)
Theorem C35_pairlis_alist_refuted :
  show 300 "(on-error (pairlis '(a b) '(1 2) (acons 'c 3)) (lambda (e) e))" start = Some (Done (Ok """Third arg of pairlis must be an association list (if provided)""")).
Proof. vm_compute. reflexivity. Qed.
Print Assumptions C35_alist. Print Assumptions C35_pairlis. Print Assumptions C35_pairlis_none. Print Assumptions C35_pairlis_lengths.
Print Assumptions C35_pairlis_bad. Print Assumptions C35_pairlis_alist_refuted.
Example C35_more_cases :
  show 300 "(define l '((a . 1) (b . 2) (a . 3))) (define m (alist l)) (acons 'a 9 m) (list l m (pairlis '(a b a) '(1 2 5) '((c . 3))) (on-error (pairlis '(a) '(1 2)) (lambda (e) e)))" start
    = Some (Done (Ok "(((a . 1) (b . 2) (a . 3)) ((b . 2) (a . 9)) ((b . 2) (a . 5) (c . 3)) ""Pairlis requires the same number of keys and values"")")) /\
  last_value (combine [DSym "a"; DSym "b"; DSym "a"] [VInt 1; VInt 2; VInt 5]) (DSym "a") (VInt 5) /\
  (exists s' r p, wf_state s' /\ is_list s' r [VCell TCons p] /\ is_alist s' r [Entry p (DSym "a") (VInt 1)]).
Proof.
  split; [vm_compute; reflexivity|]. split; [exists [(DSym "a", VInt 1); (DSym "b", VInt 2)], []; split; [reflexivity|intros []]|].
  exact (pairs_sample start wf_start).
Qed.
Print Assumptions C35_assoc. Print Assumptions C35_acons. Print Assumptions C35_acons_new. Print Assumptions C35_acons_none. Print Assumptions C35_acons_update.
Print Assumptions C35_dissoc. Print Assumptions C35_dissoc_repeated_refuted.
Example C35_cases :
  show 300 "(define l (acons 'b 2 (acons 'a 1))) (define m (acons 'a 5 l)) (list l (eq? l m) (cdr (assoc 'a l)) (assq 'c l) (dissoc 'a l) l (acons 'c 3 '((d . 4))))" start
    = Some (Done (Ok "(((b . 2) (a . 5)) #t 5 () ((b . 2)) ((b . 2) (a . 5)) ((c . 3) (d . 4)))")) /\
  (exists s' r p q, wf_state s' /\ is_alist s' r [Entry q (DSym "b") (VInt 2); Entry p (DSym "a") (VInt 1)] /\ p <> q) /\
  (forall p q, leads [Entry q (DSym "b") (VInt 2); Entry p (DSym "a") (VInt 1)] (DSym "a") (Entry p (DSym "a") (VInt 1))) /\ atomic (DSym "a").
Proof.
  split; [vm_compute; reflexivity|]. split; [exact (alist_sample start wf_start)|]. split; [|exact I].
  intros p q. exists [Entry q (DSym "b") (VInt 2)], []. split; [reflexivity|]. split; [reflexivity|]. intros [H|[]]. discriminate.
Qed.

(** ** C50 Type predicates *)
(** Each predicate answers a boolean for every value, true exactly for the kinds it names. *)
Theorem C50_kinds : forall name ks v env s, In (name, ks) type_predicates -> exists b, decides name [v] env s b /\ (b = true <-> In (kind_of v) ks).
Proof. exact predicate_decides. Qed.
Theorem C50_nil : forall name v env s, In name ["nil?"; "null?"] -> exists b, decides name [v] env s b /\ (b = true <-> at_end s v).
Proof. exact nil_decides. Qed.
Theorem C50_not_nil : forall name v env s, In name ["notnil?"; "notnull?"] -> exists b, decides name [v] env s b /\ (b = true <-> ~ at_end s v).
Proof. exact notnil_decides. Qed.
(** No value satisfies two of the exclusive predicates. *)
Theorem C50_exclusive : forall p q v env s, In p (map fst kind_predicates) -> In q (map fst kind_predicates) ->
  decides p [v] env s true -> decides q [v] env s true -> p = q.
Proof. exact kinds_exclusive. Qed.
Print Assumptions C50_kinds. Print Assumptions C50_nil. Print Assumptions C50_not_nil. Print Assumptions C50_exclusive.
Example C50_cases :
  show 300 "(list (map integer? '(1 a ""s"")) (map symbol? '(1 a ""s"")) (map string? '(1 a ""s"")) (map list? '(1 (2) ())) (map frame? (list {a: 1} 2)) (function? car) (function? (lambda (x) x)) (number? 1.5) (bytearray? [1]) (environment? (the-environment)))" start
    = Some (Done (Ok "((#t #f #f) (#f #t #f) (#f #f #t) (#f #t #t) (#t #f) #t #t #t #t #t)")) /\
  In ("string?", [KString]) type_predicates /\ In ("number?", [KInteger; KFloat]) type_predicates /\ In "frame?" (map fst kind_predicates) /\
  (exists b, decides "frame?" [VFrame 5%positive] 2%positive start b /\ (b = true <-> In KFrame [KFrame])).
Proof.
  split; [vm_compute; reflexivity|]. split; [cbn; tauto|]. split; [cbn; tauto|]. split; [cbn; tauto|].
  apply (C50_kinds "frame?" [KFrame] (VFrame 5%positive) 2%positive start). cbn. tauto.
Qed.
