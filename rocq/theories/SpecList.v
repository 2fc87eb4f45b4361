(** What C05-C07 mean. *)
From Verif Require Export SpecCall.
Local Open Scope string_scope.
Local Open Scope list_scope.
Local Open Scope Z_scope.

(** Following one letter of an accessor name: a is the first field of a cell, d the second; anything that is not a
    cell gives nil. *)
Definition field (s : state) (letter : ascii) (v : val) : val :=
  match v with
  | VCell _ l => match s_cells s !! l with
                 | Some (a, d) => if Ascii.eqb letter "a" then a else d
                 | None => VNil
                 end
  | _ => VNil
  end.
(** cadr is the a of the d: the letters are followed from the last to the first. *)
Definition follow (s : state) (letters : list ascii) (v : val) : val := fold_right (field s) v letters.
(** The letters of caar ... cddddr: one to four of a and d. *)
Definition accessor_letters (w : list ascii) : Prop :=
  (1 <= length w <= 4)%nat /\ Forall (fun x => x = "a"%char \/ x = "d"%char) w.

(** The n-th element, counting from 1; nil outside the list. *)
Definition element (xs : list val) (n : Z) : val :=
  if n <? 1 then VNil else nth (Z.to_nat (n - 1)) xs VNil.
(** first ... tenth *)
Definition ordinals : list (string * Z) :=
  [ ("first", 1); ("second", 2); ("third", 3); ("fourth", 4); ("fifth", 5);
    ("sixth", 6); ("seventh", 7); ("eighth", 8); ("ninth", 9); ("tenth", 10) ].

(** Cutting a list into consecutive pieces of [n], the last one possibly shorter, none empty. *)
Definition chunks_of {A} (n : nat) (xs : list A) (pieces : list (list A)) : Prop :=
  List.concat pieces = xs /\
  (forall before p, pieces = before ++ [p] -> Forall (fun q => length q = n) before /\ (0 < length p <= n)%nat).
