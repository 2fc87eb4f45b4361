(** C64: json->lisp on texts that are JSON and on texts that are not. *)
From Verif Require Import SpecJsonText ProofJsonText ProofOut ProofJson ProofData ProofList ProofWf.
From Verif Require Import Data.
Local Open Scope string_scope.
Local Open Scope list_scope.
Local Open Scope Z_scope.

(** A string that is not JSON gives a new empty frame and one complaint that quotes the string. *)
Theorem C64_refused : forall v t env s, wf_state s -> is_str s v t -> ~ json_document t ->
  exists f s', applies "json->lisp" [v] env s (Done (Ok (VFrame f))) s' /\ grows (wrote (complaint t) (entering "json->lisp" env s)) s' /\
    s_frames s !! f = None /\ s_frames s' !! f = Some [] /\ s_log s' = EOut (complaint t) :: s_log (entering "json->lisp" env s).
Proof. exact refused_run. Qed.
(** A string that is JSON, other than null alone, gives a value; nothing that existed changes and nothing is printed. *)
Theorem C64_accepted : forall v t env s, wf_state s -> is_str s v t -> json_document t -> ~ null_text t ->
  exists r s', applies "json->lisp" [v] env s (Done (Ok r)) s' /\ grows s s'.
Proof. exact accepted_run. Qed.
(** null alone is JSON and crashes the program (finding). *)
Theorem C64_null_refuted : forall v t env s, is_str s v t -> null_text t ->
  json_document t /\ applies "json->lisp" [v] env s (Panicked "reflect: call of reflect.Value.Type on zero Value") (entering "json->lisp" env s).
Proof. exact (fun v t env s S N => conj (null_document t N) (null_run v t env s S N)). Qed.
(** Every string falls under one of the three: json->lisp always ends, prints exactly when the string is not JSON, and crashes
    exactly on null. *)
Theorem C64_exact : forall v t env s, wf_state s -> is_str s v t -> exists o s' new, applies "json->lisp" [v] env s o s' /\ s_log s' = new ++ s_log s /\
  ((exists x, In (EOut x) new) <-> ~ json_document t) /\ ((exists w, o = Panicked w) <-> null_text t).
Proof. exact exact_run. Qed.
Print Assumptions C64_refused. Print Assumptions C64_accepted. Print Assumptions C64_null_refuted. Print Assumptions C64_exact.
Example C64_cases :
  show 60 "(list (json->lisp ""[1,]"") (json->lisp ""{\""a\"": [2]}""))" start = Some (Done (Ok "({} {a: (2)})")) /\
  outputs 60 "(json->lisp ""[1,]"")" start = Some [complaint "[1,]"] /\
  Forall (fun t => ~ json_document t) [""; "01"; "1."; ".5"; "+1"; "1e"; "[1,]"; "[1 2]"; "1 2"; "{""a"":1,}"; "{a:1}"; "tru"; "'a'"; """\x"""; """\u12g4"""; """a"; "1e309"; "-1e400"] /\
  Forall json_document ["0"; " -0.5e-3 "; "[1, 2.5E+3, {""a"": null, ""a"": []}]"; """\ud800x\/"""; "{ }"; "1e308"; "null"; "0e999"] /\
  null_text " null " /\ (exists s' v, wf_state s' /\ is_str s' v " {""b"": [ -1, ""\u0041"" ,[]],""a"":true}").
Proof.
  split; [vm_compute; reflexivity|]. split; [vm_compute; reflexivity|]. split; [apply undecoded_spec; vm_compute; reflexivity|]. split; [apply decodes_spec; vm_compute; reflexivity|].
  split; [exists " ", " "; repeat split; repeat constructor|]. exact (json_string_sample start wf_start).
Qed.
