(** What it means that the program knows something and tells it. *)
From Coq Require Import ZArith List.
From Verif Require Import Base F64_Model Term_Model Term_Spec Unify_Spec Tv_Model Sentence_Model Mem_Model Cycle_Model Cycle_Spec Mem_Spec Sched_Model PMem_Model Proc_Model ProcS_Model Parser_Model Nar_Model Whole_Model.
Import ListNotations.
Local Open Scope list_scope.

(** the memory in which a question is looked up: the one of the procedural part for
    questions about time, NarWorkingCycle.rs 1733-1745 *)
Definition knowledge (w : whole) (q : term) : mem :=
  match q with
  | Stmt PREDIMPL _ _ => map (fun e => (fst e, mkConcept (pc_name (snd e)) (map (rd (cells (n_mem (y_nar (w_proc w))))) (pExp (snd e))) (map (rd (cells (n_mem (y_nar (w_proc w))))) (pUse (snd e))))) (pcs (n_mem (y_nar (w_proc w))))
  | _ => memory (y_sh (w_decl w))
  end.
(** [b] is in one of the two tables of the concept [u] *)
Definition filedUnder (m : mem) (u : term) (b : sentence) : Prop :=
  exists m1 c m2, m = m1 ++ (u, c) :: m2 /\ ~ In u (map fst m1) /\ (In b (byExp c) \/ In b (byUsage c)).
(** [b], with expectation [e], would answer the question [q] *)
Definition knows (w : whole) (q : term) (b : sentence) (e : f64) : Prop :=
  exists u, occurs u q /\ filedUnder (knowledge w q) u b /\ s_punct b = JUGEMENT /\ instanceOf (s_term b) q /\ hasExp b e.
(** the storing thread waits and no message is on its way to it *)
Definition stored (w : whole) : Prop := y_chan (w_proc w) = [] /\ y_work (w_proc w) = WIdle.
