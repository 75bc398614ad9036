(** What the procedural reasoner needs so that no step of it panics. *)
From Coq Require Import String ZArith List Sorted.
From Verif Require Import Base F64_Model Term_Model Term_Spec Speak_Spec Stamp_Model Tv_Model Tv_Spec Sentence_Model Mem_Model PMem_Model
  Goal_Model Goal_Spec Proc_Model Proc_Spec ProcS_Model ProcX_Model.
Import ListNotations.
Local Open Scope Z_scope.

(** [x] is a term that makes up the call of an operation: the call, its
    arguments or the name *)
Definition callPart (ops : list op) (x : term) : Prop :=
  opTerm x \/ (exists args, x = Prod args \/ x = SetExt [Prod args]) \/ exists o, In o ops /\ x = Name (op_name o).
(** an event that can be learned from: it has a text, and no part of a call has
    a property *)
Definition safeEvent (ops : list op) (e : term) : Prop :=
  speakable e /\ forall x l, e = Stmt INH x (SetInt l) -> ~ callPart ops x.
(** evidence counts, usage counters and the clock are 64 bit numbers *)
Definition fits (us : nat -> usage) (y : psys) : Prop :=
  (forall a, 0 <= useCount (us a) < 2 ^ 63 /\ 0 <= lastUsed (us a)) /\ n_t (y_nar y) < 2 ^ 63 /\
  (forall s p c, In s (cells (n_mem (y_nar y))) -> s_evi s = Some (CNT p c) -> c < 2 ^ 63).
(** all events the reasoner remembers can be learned from *)
Definition calm (us : nat -> usage) (y : psys) : Prop :=
  (forall e, In e (n_trace (y_nar y)) -> safeEvent (n_ops (y_nar y)) (ev_name e)) /\ fits us y.

(** the inputs: goals with a truth value; no temporal beliefs; there is a
    declarative memory; goals lose value with age; the names of introduced
    variables can be made *)
Definition fairAct (a : act) : Prop :=
  match a with
  | XGoal s => s_punct s = GOAL /\ exists v, retTv s = Some v /\ tvInRange v
  | XBelief _ _ _ _ => False
  | XStep1 decl r => decl = true /\ forall z, 0 <= z -> unit64 (i_decay r z)
  | XWork draws => forall d, In d (firstn 24 draws) -> Nat.modulo d 16 <> 15%nat
  | _ => True
  end.
(** configurations: at least one operation per observation, a table of
    increasing intervals, operations with evidence, room for goals *)
Definition fairStart (y : psys) : Prop :=
  exists cfg ops tab nMax depth, y = ystart (mkPnar cfg ops tab 0 [] [] pmemMake (makeGoalSystem nMax depth)) /\
    (1 <= c_nOpsMax cfg)%nat /\ (forall o, In o ops -> 1 <= op_evi o < 2 ^ 63) /\ StronglySorted Z.lt tab /\ tab <> [] /\ 0 <= nMax /\ 1 <= depth.
(** executions whose states are all calm *)
Inductive calmRun (us : nat -> usage) : psys -> Prop :=
| cr_start : forall y, fairStart y -> calm us y -> calmRun us y
| cr_step : forall y a y', calmRun us y -> fairAct a -> yact us y a = Ok (Some y') -> calm us y' -> calmRun us y'.
