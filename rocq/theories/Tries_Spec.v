(** Vocabulary: beliefs with counted successes. *)
From Coq Require Import String ZArith List.
From Verif Require Import Base F64_Model Term_Model Tv_Model Sentence_Model PMem_Model Proc_Model.
Import ListNotations.
Local Open Scope list_scope.
Local Open Scope Z_scope.

(** belief [a] says that [O] in the situation [A] leads to [C]; this came true [p] times
    out of [c] *)
Definition tried (n : pnar) (A O C : term) (a : nat) (p c : Z) : Prop :=
  s_term (rd (cells (n_mem n)) a) = Stmt PREDIMPL (Seq [A; O]) C /\ ~ In (-1) (s_stamp (rd (cells (n_mem n)) a)) /\
  s_evi (rd (cells (n_mem n)) a) = Some (CNT p c).
