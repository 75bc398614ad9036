(** What is done as long as what is wanted never happened. *)
From Coq Require Import String ZArith List.
From Verif Require Import Base Term_Model Sentence_Model PMem_Model Goal_Model Proc_Model ProcS_Model ProcX_Model Vocab_Spec.
Import ListNotations.

(** the operator that the drawn number stands for: each operator is drawn once out of nine times
    the number of operators, and it has to be one that may be tried *)
Definition luck (ops : list op) (p : nat) : option string :=
  match nth_error ops (Nat.modulo p (length ops * 9)) with
  | Some o => if op_babble o then Some (op_name o) else None
  | None => None
  end.
(** a reasoner as in C111 that is asked for nothing but [w], again and again, and never sees it *)
Inductive longing (ops : list op) (F : string -> Prop) (w : string) : psys -> Prop :=
| lg_start : forall cfg tab t nMax depth, c_nOpsMax cfg = 1%nat -> longing ops F w (ystart (mkPnar cfg ops tab t [] [] pmemMake (makeGoalSystem nMax depth)))
| lg_step : forall us y a y', longing ops F w y ->
    match a with XEvent e => fact F e /\ e <> Name w | XGoal s => s_term s = Name w | XBelief _ _ _ _ => False | _ => True end ->
    yact us y a = Ok (Some y') -> longing ops F w y'.
