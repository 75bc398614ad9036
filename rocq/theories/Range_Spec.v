(** The integers that the program keeps and computes with, and how much it has done.
    Rust's [i64] wraps around or panics beyond 2^63; the model computes with
    unbounded integers. *)
From Coq Require Import ZArith List.
From Verif Require Import Base Term_Model Sentence_Model Cycle_Model Sched_Model PMem_Model Goal_Model Goal_Spec Proc_Model ProcS_Model ProcX_Model Nar_Model Whole_Model.
Import ListNotations.
Local Open Scope Z_scope.

(** what an operation with 64 bits gives instead of the integer [z] *)
Definition wrap64 (z : Z) : Z := (z + 2 ^ 63) mod 2 ^ 64 - 2 ^ 63.

(** the counts of evidence of a sentence *)
Definition countOf (s : sentence) (z : Z) : Prop := exists p c, s_evi s = Some (CNT p c) /\ (z = p \/ z = c).

(** times that a thread of the declarative part carries along *)
Definition clientTime (c : cpc) (z : Z) : Prop :=
  match c with
  | CIdle => False
  | CAdd x _ => z = ar_now x
  | CCycle y p => z = cy_now y \/ match p with YTouch m | YSend m => z = m_cycle m | _ => False end
  end.
Definition deriverTime (w : wphase) (z : Z) : Prop :=
  match w with
  | Sched_Model.WIdle => False
  | WDerive m | WAnswer m _ _ | Sched_Model.WAdd m _ => z = m_cycle m
  | WAdding m x _ _ => z = m_cycle m \/ z = ar_now x
  end.
(** sentences with a time that are on their way into the procedural memory *)
Definition underWay (y : psys) (s : sentence) (now : Z) : Prop :=
  match y_main y with MSend ms => In (s, now) ms | MAdd t l => In s l /\ now = t | _ => False end \/
  In (s, now) (y_chan y) \/
  match y_work y with WMerge s' t _ _ => s = s' /\ now = t | WAdd t l => In s l /\ now = t | WIdle => False end.

(** every integer of the state that is ever added to or subtracted from another one.
    Ids of evidence and the interval index of a belief are only copied and compared. *)
Inductive number (w : whole) : Z -> Prop :=
| nb_ids : number w (stampCtr (y_sh (w_decl w)))
| nb_tasks : number w (taskCtr (y_sh (w_decl w)))
| nb_cycles : number w (cycleCtr (y_sh (w_decl w)))
| nb_clock : number w (w_time w)
| nb_derived : forall t, In t (heap (y_sh (w_decl w))) -> number w (derivTime t)
| nb_used : forall a, number w (lastUsed (usages (y_sh (w_decl w)) a))
| nb_uses : forall a, number w (useCount (usages (y_sh (w_decl w)) a))
| nb_queue : forall m, In m (y_queue (w_decl w)) -> number w (m_cycle m)
| nb_client : forall c z, In c (y_clients (w_decl w)) -> clientTime c z -> number w z
| nb_deriver : forall z, deriverTime (y_worker (w_decl w)) z -> number w z
| nb_call : forall t args, In (JRel t args) (w_jobs w) -> number w t
| nb_time : number w (n_t (y_nar (w_proc w)))
| nb_event : forall e, In e (n_trace (y_nar (w_proc w))) -> number w (ev_occ e)
| nb_deadline : forall a d, In (a, d) (n_ant (y_nar (w_proc w))) -> number w d
| nb_missed : forall l a d, y_main (w_proc w) = MNeg l -> In (a, d) l -> number w d
| nb_goal : forall e, stored (n_goals (y_nar (w_proc w))) e -> number w (e_create e)
| nb_depth : forall e, stored (n_goals (y_nar (w_proc w))) e -> number w (e_depth e)
| nb_belief : forall s z, In s (cells (n_mem (y_nar (w_proc w)))) -> countOf s z -> number w z
| nb_msgCount : forall s now z, underWay (w_proc w) s now -> countOf s z -> number w z
| nb_msgTime : forall s now, underWay (w_proc w) s now -> number w now
| nb_table : forall z, In z (n_table (y_nar (w_proc w))) -> number w z
| nb_operator : forall o, In o (n_ops (y_nar (w_proc w))) -> number w (op_evi o).

(** how much was done: a step of a thread counts one, and the derivations of goals that
    are made for a line count one each *)
Definition workOf (a : wact) : Z :=
  match a with ARead _ r => 1 + Z.of_nat (length (i_derive (ln_step r))) | _ => 1 end.
Definition totalWork (l : list wact) : Z := fold_right (fun a n => workOf a + n) 0 l.

(** the program as it is started, its intervals and the evidence its operators count at most [M] *)
Definition freshWithin (M : Z) (p : pnar) : Prop :=
  exists cfg ops tab nMax depth, p = mkPnar cfg ops tab 0 [] [] pmemMake (makeGoalSystem nMax depth) /\
    (forall o, In o ops -> 0 <= op_evi o <= M) /\ (forall z, In z tab -> 0 <= z <= M).
