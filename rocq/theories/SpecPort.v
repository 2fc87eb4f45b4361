(** Vocabulary of C70: ports, files and the clock.  [refusing] and [sent] are in SpecFormat.v. *)
From Verif Require Export SpecOut SpecText.
Local Open Scope string_scope.
Local Open Scope list_scope.
Local Open Scope Z_scope.

(** Memory has at most grown; [events] (the newest first) were recorded since, and nothing else. *)
Definition recorded (events : list event) (s s' : state) : Prop :=
  s_log s' = events ++ s_log s /\ grows s (set_log (s_log s) s').
(** Which calls open a file how. *)
Definition asks_for (s : state) (name : string) (more : list val) (mode : open_mode) : Prop :=
  (name = "open-input-file" /\ more = [] /\ mode = Reading) \/
  (name = "open-output-file" /\ more = [] /\ mode = Replacing) \/
  (exists w, name = "open-output-file" /\ more = [w] /\ mode = if truthy s w then Appending else Replacing).
(** The next text that the outside world delivers is [t]; afterwards it answers as [r]. *)
Definition delivers (t : string) (r : list Z) (s : state) : Prop :=
  s_oracle s = Z.of_nat (String.length t) :: bytes_of_string t ++ r.
(** The world agrees to the next request and delivers these texts. *)
Definition delivers_all (ts : list string) (r : list Z) (s : state) : Prop :=
  s_oracle s = 0 :: Z.of_nat (length ts) :: flat_map (fun t => Z.of_nat (String.length t) :: bytes_of_string t) ts ++ r.
(** What has been written to the port [p] so far, in order. *)
Fixpoint stream (p : loc) (log : list event) : string :=
  match log with
  | [] => ""
  | EWritten q t :: older => stream p older +++ (if Pos.eqb p q then t else "")
  | _ :: older => stream p older
  end.

(** ** Reading a port again and again *)
(** The port that was read last is [p]: it delivered [src], and since then [n] expressions have been read from it. *)
Definition is_read (e : event) : Prop := match e with EGot _ _ | EMore _ => True | _ => False end.
Inductive reading (p : loc) (src : string) : nat -> list event -> Prop :=
| reading_first older : reading p src 1 (EGot p src :: older)
| reading_more n older : reading p src n older -> reading p src (S n) (EMore p :: older)
| reading_other n e older : ~ is_read e -> reading p src n older -> reading p src n (e :: older).
(** The next read from [p] reads the expression number [n] (from 0) of the text [src]: either [src] is what [p] is about to
    deliver, because the last read was not of [p]; or it delivered [src] before and was not left since. *)
Definition next_up (p : loc) (src : string) (n : nat) (s : state) : Prop :=
  (n = 0%nat /\ (forall t k, ~ reading p t k (s_log s)) /\ exists r, delivers src r s) \/ reading p src n (s_log s).
Definition taken (p : loc) (src : string) (n : nat) : event := match n with O => EGot p src | S _ => EMore p end.
