(** Which questions were asked. *)
From Coq Require Import String Ascii ZArith Bool List.
From Verif Require Import Base F64_Model Term_Model Tv_Model Sentence_Model Parser_Model Hear_Spec.
Import ListNotations.

(** the question [q] is among the texts; only questions typed as events are taken, Nar.rs 80-82 *)
Definition asked (pf : text -> option f64) (texts : list text) (q : term) : Prop := exists v, In (q, v, QUESTION, true) (readings pf texts).
