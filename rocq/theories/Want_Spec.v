(** Boards from which the game can still be won. *)
From Coq Require Import String Ascii List.
From Verif Require Import Base Env_Model Env_Spec Ttt_Model Ttt_Spec Vocab_Spec.
Import ListNotations.

(** Player a is to move and can win, at once or later, if the opponent lets it happen. *)
Inductive winnable : list ascii -> Prop :=
| wn_now : forall f i f1, placed "a" i f f1 -> wins "a" f1 -> winnable f
| wn_later : forall f i f1 j f2, placed "a" i f f1 -> placed "b" j f1 f2 -> unfinished f2 -> winnable f2 -> winnable f.
(** winning itself, or a board of an unfinished game that can be won *)
Definition hopeful (s : string) : Prop := s = "w"%string \/ exists f, unfinished f /\ readsAs f s /\ winnable f.
