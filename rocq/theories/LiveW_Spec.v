(** What a step adds to a life, and what of it was typed. *)
From Coq Require Import String Ascii ZArith Bool List.
From Verif Require Import Base F64_Model Term_Model Stamp_Model Tv_Model Sentence_Model Cycle_Model Goal_Model Proc_Model ProcS_Model ProcX_Model Parser_Model Nar_Model Hear_Spec Live_Spec.
Import ListNotations.
Local Open Scope list_scope.

Definition enters (y : psys) (a : act) (x : list happening) : Prop :=
  match a with
  | XEvent e => x = [LEvent (mkEvent e (n_t (y_nar y)) (n_t (y_nar y)))]
  | XGoal s => x = [LGoal s]
  | XBelief t id u _ => x = [LBelief (userBelief t id u)]
  | XStep1 _ _ => forall z, In z x -> (exists t evs, z = LBabble t evs) \/ exists g evs, z = LAct g evs
  | _ => x = []
  end.
(** what a happening says that was typed; desires count, the truth of events and
    temporal beliefs does not *)
Definition said (x : happening) : list (term * option tv * punct * bool) :=
  match x with
  | LEvent e => [(ev_name e, None, JUGEMENT, true)]
  | LBelief s => [(s_term s, None, JUGEMENT, false)]
  | LGoal g => [(s_term g, retTv g, GOAL, true)]
  | _ => []
  end.
(** what of a sentence is about time *)
Definition aboutTime (r : term * tv * punct * bool) : list (term * option tv * punct * bool) :=
  match r with
  | (t, _, JUGEMENT, true) => [(t, None, JUGEMENT, true)]
  | (t, v, GOAL, true) => [(t, Some v, GOAL, true)]
  | (t, _, JUGEMENT, false) => if isTemporal t then [(t, None, JUGEMENT, false)] else []
  | _ => []
  end.
