(** * C43: JSON.  Statements only; see SpecJson.v for the vocabulary, Json.v for the model. *)
From Verif Require Import ProofJson ProofList ProofData.
From Verif Require Import SpecJson.
Local Open Scope string_scope.
Local Open Scope list_scope.
Local Open Scope Z_scope.

(** ** C43 JSON round trip with frames *)
(** Reading any text of a document, with any layout and escapes, gives Lisp data that stands for the document. *)
Theorem C43_reading : forall d v t env s, wf_state s -> is_str s v t -> json_text d t -> small_numbers d ->
  exists r s', applies "json->lisp" [v] env s (Done (Ok r)) s' /\ grows s s' /\ depicts s' r d.
Proof. exact reading. Qed.
(** Writing Lisp data that stands for a document gives a text of the document. *)
Theorem C43_writing : forall d v env s, wf_state s -> depicts s v d -> proper d -> plain_names d ->
  exists r t s', applies "lisp->json" [v] env s (Done (Ok r)) s' /\ grows s s' /\ is_str s' r t /\ says d t.
Proof. exact writing. Qed.
(** JSON to Lisp and back. *)
Theorem C43_round_trip : forall d v t env s, wf_state s -> is_str s v t -> json_text d t -> small_numbers d -> proper d -> plain_names d ->
  exists r s1 v' t' s2, applies "json->lisp" [v] env s (Done (Ok r)) s1 /\ applies "lisp->json" [r] env s1 (Done (Ok v')) s2 /\
    is_str s2 v' t' /\ json_text d t'.
Proof. exact round_from_json. Qed.
(** Lisp to JSON and back. *)
Theorem C43_back : forall d v env s, wf_state s -> depicts s v d -> small_numbers d -> proper d -> plain_names d ->
  exists t s1 v' s2, applies "lisp->json" [v] env s (Done (Ok t)) s1 /\ applies "json->lisp" [t] env s1 (Done (Ok v')) s2 /\ depicts s2 v' d.
Proof. exact round_from_lisp. Qed.
(** A text has one meaning, up to the order of members: "a text of the document" pins the document down. *)
Theorem C43_unambiguous : forall d d' t, json_text d t -> json_text d' t -> small_numbers d -> small_numbers d' -> alike d d'.
Proof. exact unambiguous. Qed.
(** A name that ends in a colon loses it (finding). *)
Theorem C43_colon_refuted : show 60 "(lisp->json (json->lisp ""{\""a:\"":1}""))" start = Some (Done (Ok """{\""a\"":1}""")).
Proof. vm_compute. reflexivity. Qed.
(** An integer beyond 2^53 changes (finding). *)
Theorem C43_large_refuted : show 60 "(lisp->json (json->lisp ""9007199254740993""))" start = Some (Done (Ok """9007199254740992""")).
Proof. vm_compute. reflexivity. Qed.
(** null: at the end of an array it vanishes, in an object it becomes a string, alone it crashes the program (findings). *)
Theorem C43_null_refuted :
  show 60 "(lisp->json (json->lisp ""{\""a\"":null,\""b\"":[1,null]}""))" start = Some (Done (Ok """{\""a\"":\""\"",\""b\"":[1]}""")) /\
  show 60 "(json->lisp ""null"")" start = Some (Panicked "reflect: call of reflect.Value.Type on zero Value").
Proof. split; vm_compute; reflexivity. Qed.
Print Assumptions C43_reading. Print Assumptions C43_writing. Print Assumptions C43_round_trip. Print Assumptions C43_back.
Print Assumptions C43_unambiguous. Print Assumptions C43_colon_refuted. Print Assumptions C43_large_refuted. Print Assumptions C43_null_refuted.
Example C43_cases :
  show 60 "(list (lisp->json (json->lisp "" {\""b\"": [ -1, \""x\\u0041\\n\"" ,[]],\""a\"":true}"")) (lisp->json '(1 (2 3) ""z"")))" start
    = Some (Done (Ok "(""{\""a\"":true,\""b\"":[-1,\""xA\n\"",[]]}"" ""[1,[2,3],\""z\""]"")")) /\
  (let d := DObj [("a", DBool true); ("b", DArr [DInt (-1); DStr "A"; DArr []])] in
   json_text d " {""b"": [ -1, ""\u0041"" ,[]],""a"":true}" /\ small_numbers d /\ proper d /\ plain_names d) /\
  exists s' v, wf_state s' /\ is_str s' v " {""b"": [ -1, ""\u0041"" ,[]],""a"":true}".
Proof.
  split; [vm_compute; reflexivity|]. split; [exact json_sample|]. exact (json_string_sample start wf_start).
Qed.
