(** Terms with a text. *)
From Coq Require Import List.
From Verif Require Import Term_Model Term_Spec.
Import ListNotations.

(** a compound without components has no text *)
Definition blank (t : term) : Prop :=
  match t with
  | Seq [] | SetInt [] | SetExt [] | Conj [] | Prod [] | Img _ _ [] | IntInt [] | ExtInt [] | Par [] => True
  | _ => False
  end.
Definition speakable (t : term) : Prop := forall x, occurs x t -> ~ blank x.
