(** The procedural reasoner and its storage worker as two threads.

    Main thread: NarProc.rs 503-1031 and the temporal inputs of Nar.rs 66-124.
    Worker: NarProc.rs 376-440. They share the evidence memory and a channel of
    capacity 4 (NarProc.rs 377). A step of this model is one section under one
    lock: one cell is updated at a time, one belief is filed at a time.
    [narStep1] is one step; it only reads the cells. The read guard that the
    worker holds while it merges is not modelled, so more interleavings are
    possible here than in the program. A step that panics is not a step. *)
From Coq Require Import String ZArith Bool List.
From Verif Require Import Base F64_Model Term_Model Stamp_Model Tv_Model Sentence_Model Mem_Model PMem_Model Goal_Model Proc_Model.
Import ListNotations.
Local Open Scope list_scope.
Local Open Scope Z_scope.

(** what the main thread is doing: between calls; counting missed predictions
    (561-589); sending observations (527-531); filing a belief (468-478) *)
Inductive mainPc := MFree | MNeg (todo : list (nat * Z)) | MSend (todo : list msg) | MAdd (now : Z) (todo : list sentence).
(** what the worker is doing: waiting; merging (401-434); filing (437-440) *)
Inductive workPc := WIdle | WMerge (s : sentence) (now : Z) (rest : list nat) (revised : bool) | WAdd (now : Z) (todo : list sentence).
Record psys := mkPsys { y_nar : pnar; y_main : mainPc; y_chan : list msg; y_work : workPc }.

Definition chanCap : nat := 4.
(** Nar.rs 108-113: the temporal belief made from an input *)
Definition userBelief (t : term) (id : Z) (u : nat) : sentence :=
  mkSentence t None JUGEMENT (newStamp [id]) None (Some (CNT 10 10)) u.
Definition setCells (n : pnar) (h : list sentence) : pnar := setMem n (mkPmem h (pcs (n_mem n))).

Inductive ystep (us : nat -> usage) : psys -> psys -> Prop :=
(** Nar.rs 88-91 *)
| y_event : forall n c w e, ystep us (mkPsys n MFree c w)
    (mkPsys (setTrace n (event_happened (n_trace n) (mkEvent e (n_t n) (n_t n)))) MFree c w)
(** Nar.rs 81-84 *)
| y_goal : forall n c w s g, addEntry (n_goals n) (n_t n) s None 0 = Ok g ->
    ystep us (mkPsys n MFree c w) (mkPsys (setGoals n g) MFree c w)
(** Nar.rs 108-113, then NarProc.rs 468-478 *)
| y_belief : forall n c w t id u draws vs, matchandintro_var1_sentence (userBelief t id u) draws = Ok vs ->
    ystep us (mkPsys n MFree c w) (mkPsys n (MAdd (n_t n) (userBelief t id u :: vs)) c w)
| y_filed : forall n c w now s todo nB m, mem_add_evidence_internal us (n_mem n) s nB now = Ok m ->
    ystep us (mkPsys n (MAdd now (s :: todo)) c w) (mkPsys (setMem n m) (MAdd now todo) c w)
| y_allfiled : forall n c w now, ystep us (mkPsys n (MAdd now []) c w) (mkPsys n MFree c w)
(** NarProc.rs 537-560 *)
| y_step0 : forall n c w ant, confirm n = Ok ant ->
    ystep us (mkPsys n MFree c w)
      (mkPsys (setAnt n (filter (fun a => snd a >? n_t n) ant)) (MNeg (filter (fun a => snd a <=? n_t n) ant)) c w)
(** NarProc.rs 561-589 *)
| y_miss : forall n c w a todo h, negConfirm (cells (n_mem n)) a = Ok h ->
    ystep us (mkPsys n (MNeg (a :: todo)) c w) (mkPsys (setCells n h) (MNeg todo) c w)
(** NarProc.rs 592-594 and 503-533 *)
| y_trace : forall n c w rs g ms, traceStep n rs = Ok (g, ms) ->
    ystep us (mkPsys n (MNeg []) c w) (mkPsys (setGoals n g) (MSend ms) c w)
| y_send : forall n c w m ms, (length c < chanCap)%nat ->
    ystep us (mkPsys n (MSend (m :: ms)) c w) (mkPsys n (MSend ms) (c ++ [m]) w)
| y_sent : forall n c w, ystep us (mkPsys n (MSend []) c w) (mkPsys n MFree c w)
(** NarProc.rs 600-1031 *)
| y_step1 : forall n c w decl r n', narStep1 n decl r = Ok n' -> ystep us (mkPsys n MFree c w) (mkPsys n' MFree c w)
(** NarProc.rs 386-401 *)
| y_recv : forall n p s now c l, mergeTargets (n_mem n) s = Ok l ->
    ystep us (mkPsys n p ((s, now) :: c) WIdle) (mkPsys n p c (WMerge s now l false))
(** NarProc.rs 402-432 *)
| y_merge : forall n p c s now a l rv h b, mergeInto s (cells (n_mem n)) a = Ok (h, b) ->
    ystep us (mkPsys n p c (WMerge s now (a :: l) rv)) (mkPsys (setCells n h) p c (WMerge s now l (rv || b)))
| y_revised : forall n p c s now, ystep us (mkPsys n p c (WMerge s now [] true)) (mkPsys n p c WIdle)
(** NarProc.rs 436-439 *)
| y_new : forall n p c s now draws vs, matchandintro_var1_sentence s draws = Ok vs ->
    ystep us (mkPsys n p c (WMerge s now [] false)) (mkPsys n p c (WAdd now (s :: vs)))
| y_wfiled : forall n p c now s todo m, mem_add_evidence_internal us (n_mem n) s (c_nBeliefs (n_cfg n)) now = Ok m ->
    ystep us (mkPsys n p c (WAdd now (s :: todo))) (mkPsys (setMem n m) p c (WAdd now todo))
| y_wallfiled : forall n p c now, ystep us (mkPsys n p c (WAdd now [])) (mkPsys n p c WIdle).

(** NarProc.rs 331-374: the start, for any configuration and operations that
    give at least one unit of evidence *)
Definition ystart (n : pnar) : psys := mkPsys n MFree [] WIdle.
Inductive yReach (us : nat -> usage) : psys -> Prop :=
| yr_start : forall cfg ops tab nMax depth, (1 <= c_nOpsMax cfg)%nat -> (forall o, In o ops -> 1 <= op_evi o) ->
    yReach us (ystart (mkPnar cfg ops tab 0 [] [] pmemMake (makeGoalSystem nMax depth)))
| yr_step : forall y y', yReach us y -> ystep us y y' -> yReach us y'.
(** executions from a state *)
Inductive ysteps (us : nat -> usage) : psys -> psys -> Prop :=
| ys_refl : forall y, ysteps us y y
| ys_more : forall y y1 y2, ysteps us y y1 -> ystep us y1 y2 -> ysteps us y y2.
(** executions in which only the worker moves *)
Inductive workerRuns (us : nat -> usage) : psys -> psys -> Prop :=
| wr_none : forall y, workerRuns us y y
| wr_more : forall y y1 y2, ystep us y y1 -> y_work y1 <> y_work y -> workerRuns us y1 y2 -> workerRuns us y y2.
