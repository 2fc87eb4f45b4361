(** Vocabulary of C61: output. *)
From Verif Require Export SpecFormat SpecData SpecJson.
From Coq Require Import Sorting.Sorted.
Local Open Scope string_scope.
Local Open Scope list_scope.
Local Open Scope Z_scope.

(** The state after [t] has been written to the console, and nothing else. *)
Definition wrote (t : string) (s : state) : state := set_log (EOut t :: s_log s) s.
(** The display forms of the values, one after the other; nothing at all is shown as (). *)
Definition run_together (vs : list val) (s : state) (t : string) : Prop :=
  vs = [] /\ t = "()" \/ vs <> [] /\ exists ts, Forall2 (fun v u => shown Display v s u) vs ts /\ t = fold_right str_app "" ts.

(** A backslash before each double quote, nothing else is marked. *)
Inductive marked : list rune -> list rune -> Prop :=
| marked_end : marked [] []
| marked_quote rs us : marked rs us -> marked (34 :: rs) (92 :: 34 :: us)
| marked_other c rs us : c <> 34 -> marked rs us -> marked (c :: rs) (c :: us).
(** The text of a tree. *)
Inductive text_form : tree -> string -> Prop :=
| tf_int z t : integer_text t z -> t <> "-0" -> text_form (XInt z) t
| tf_bool (b : bool) : text_form (XBool b) (if b then "#t" else "#f")
| tf_str t rs us : text_of t rs -> marked rs us -> text_form (XStr t) ("""" +++ string_of_runes us +++ """")
| tf_sym t : text_form (XSym t) t
| tf_bytes bs ts : Forall2 (fun b t => integer_text t b /\ t <> "-0") bs ts -> text_form (XBytes bs) ("[" +++ joined " " ts +++ "]")
| tf_nil : text_form (XList []) "()"
| tf_quote d t : text_form d t -> text_form (XList [XSym "quote"; d]) ("'" +++ t)
| tf_list d ds ts : d <> XSym "quote" -> Forall2 text_form (d :: ds) ts -> text_form (XList (d :: ds)) ("(" +++ joined " " ts +++ ")")
| tf_dot ds ts y t : ds <> [] -> Forall2 text_form ds ts -> atomic y -> text_form y t ->
    text_form (XDot ds y) ("(" +++ joined " " ts +++ " . " +++ t +++ ")").
