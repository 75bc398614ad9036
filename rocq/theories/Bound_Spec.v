(** What the program keeps in mind at one time. *)
From Coq Require Import ZArith List.
From Verif Require Import Base PMem_Model Goal_Model Proc_Model ProcS_Model Cycle_Model Sched_Model Whole_Model.
Import ListNotations.
Local Open Scope Z_scope.

(** effects that are waited for, and effects that did not come and are being counted *)
Definition waitedFor (w : whole) : nat := length (n_ant (y_nar (w_proc w))).
Definition beingCounted (w : whole) : nat := match y_main (w_proc w) with MNeg l => length l | _ => O end.
(** messages between the threads *)
Definition toDeriver (w : whole) : nat := length (y_queue (w_decl w)).
Definition toStorage (w : whole) : nat := length (y_chan (w_proc w)).
Definition toSend (w : whole) : nat := match y_main (w_proc w) with MSend l => length l | _ => O end.

(** the program as it is started, all its intervals from 1 to [M] *)
Definition freshIntervals (M : Z) (p : pnar) : Prop :=
  exists cfg ops tab nMax depth, p = mkPnar cfg ops tab 0 [] [] pmemMake (makeGoalSystem nMax depth) /\ forall z, In z tab -> 1 <= z <= M.
