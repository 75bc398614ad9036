(** The shape of the terms that can be typed. *)
From Coq Require Import String Ascii Arith List.
From Verif Require Import Term_Model Term_Spec Parser_Spec.
Import ListNotations.

(** names of legal characters, sets of one term, images of one term at the first or
    second place, two to four terms in a conjunction, two in an intersection, two or
    more in a sequence or product, no disjunction of parallel terms *)
Definition shape (t : term) : Prop :=
  match t with
  | Name n | QVar n | DepVar n | IndepVar n => nameText (list_ascii_of_string n)
  | SetExt l | SetInt l => length l = 1
  | Img _ i l => length l = 1 /\ (i = 0 \/ i = 1)
  | Conj l => 2 <= length l <= 4
  | IntInt l | ExtInt l => length l = 2
  | Seq l | Prod l => 2 <= length l
  | Par _ => False
  | Stmt _ _ _ | Neg _ => True
  end.
Definition typable (t : term) : Prop := forall x, occurs x t -> shape x.
