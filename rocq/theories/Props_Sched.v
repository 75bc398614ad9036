(** Property C49: every interleaving of clients and the deriver worker. *)
From Coq Require Import String ZArith Bool Lia List.
From Verif Require Import Base F64_Model Term_Model Term_Spec Term_Proofs Unify_Spec Stamp_Model Tv_Model Sentence_Model
  Infer_Model Infer_Spec Mem_Model Mem_Spec Mem_Proofs Props_Mem Cycle_Model Cycle_Spec Cycle_Proofs Task_Proofs Run_Proofs Props_Cycle
  Sched_Model Sched_Spec Sched_Proofs Sched2_Proofs Sched3_Proofs.
Import ListNotations.
Local Open Scope string_scope.
Local Open Scope list_scope.

(** * What holds at any moment of any schedule *)
(** the task tables *)
Theorem c49_tasks : forall Inp maxC nB wN k st, (1 <= wN <= nB)%nat -> reach (choiceOk Inp nB) maxC wN k st -> tasksAny maxC st.
Proof.
  intros Inp maxC nB wN k st HW R.
  destruct (reach_inv (derivable Inp) maxC nB (closed_derivable Inp) Inp wN k st (fun s A B => dv_input Inp s A B) HW R) as [[[[T1 T2 T3 T4 T5 T6 T7 T8 T9] _ _] _ _ _ _] _].
  constructor; auto. intros a Ha. apply T3. apply in_or_app. auto.
Qed.
(** the ids of all tasks ever made differ *)
Theorem c49_ids : forall Inp maxC nB wN k st, (1 <= wN <= nB)%nat -> reach (choiceOk Inp nB) maxC wN k st ->
  forall a b, (a < length (heap (y_sh st)))%nat -> (b < length (heap (y_sh st)))%nat ->
  tk_id (hget (heap (y_sh st)) a) = tk_id (hget (heap (y_sh st)) b) -> a = b.
Proof.
  intros Inp maxC nB wN k st HW R a b Ha Hb. destruct (c49_tasks _ _ _ _ _ _ HW R) as [T _ _ _ _ _ _ _ _]. rewrite !T by auto. lia.
Qed.
(** the belief tables, and where beliefs and tasks come from: any property that
    inputs have and single reasoning steps preserve *)
Theorem c49_beliefs : forall (G Inp : sentence -> Prop) maxC nB wN k st, closed G -> (forall s, Inp s -> s_punct s = JUGEMENT -> G s) ->
  (1 <= wN <= nB)%nat -> reach (choiceOk Inp nB) maxC wN k st -> memAny G maxC nB (memory (y_sh st)).
Proof.
  intros G Inp maxC nB wN k st CL GI HW R. destruct (reach_inv G maxC nB CL Inp wN k st GI HW R) as [[[_ _ M] _ _ _ _] _]. exact M.
Qed.
Theorem c49_heap : forall (G Inp : sentence -> Prop) maxC nB wN k st, closed G -> (forall s, Inp s -> s_punct s = JUGEMENT -> G s) ->
  (1 <= wN <= nB)%nat -> reach (choiceOk Inp nB) maxC wN k st ->
  forall a, (a < length (heap (y_sh st)))%nat -> G (tk_s (hget (heap (y_sh st)) a)).
Proof.
  intros G Inp maxC nB wN k st CL GI HW R. destruct (reach_inv G maxC nB CL Inp wN k st GI HW R) as [[[_ H _] _ _ _ _] _]. exact H.
Qed.
(** beliefs and tasks follow from the inputs by the inference schemas and revision *)
Theorem c49_derivable : forall Inp maxC nB wN k st, (1 <= wN <= nB)%nat -> reach (choiceOk Inp nB) maxC wN k st ->
  (forall a, (a < length (heap (y_sh st)))%nat -> derivable Inp (tk_s (hget (heap (y_sh st)) a))) /\
  (forall t c b, holds (memory (y_sh st)) t c -> In b (byExp c) \/ In b (byUsage c) -> derivable Inp b).
Proof.
  intros Inp maxC nB wN k st HW R. split.
  - apply (c49_heap _ _ _ _ _ _ _ (closed_derivable Inp) (fun s A B => dv_input Inp s A B) HW R).
  - intros t c b Hc Hb. destruct (c49_beliefs _ _ _ _ _ _ _ (closed_derivable Inp) (fun s A B => dv_input Inp s A B) HW R) as [_ M].
    apply (ba_all _ _ _ _ (M t c Hc) b Hb).
Qed.
(** the channel *)
Theorem c49_queue : forall Inp maxC nB wN k st, (1 <= wN <= nB)%nat -> reach (choiceOk Inp nB) maxC wN k st -> queueAny st.
Proof.
  intros Inp maxC nB wN k st HW R.
  destruct (reach_inv (derivable Inp) maxC nB (closed_derivable Inp) Inp wN k st (fun s A B => dv_input Inp s A B) HW R) as [[_ _ _ Q _] _]. exact Q.
Qed.
(** every reported answer is an instance of its question, and follows from the
    inputs unless the question is about time *)
Theorem c49_answers : forall Inp maxC nB wN k st, (1 <= wN <= nB)%nat -> reach (choiceOk Inp nB) maxC wN k st -> answersAny (derivable Inp) st.
Proof.
  intros Inp maxC nB wN k st HW R.
  destruct (reach_inv (derivable Inp) maxC nB (closed_derivable Inp) Inp wN k st (fun s A B => dv_input Inp s A B) HW R) as [[_ _ _ _ L] _]. exact L.
Qed.
(** evidence is never counted twice *)
Theorem c49_stamps : forall (Inp : sentence -> Prop) maxC nB wN k st, (forall s, Inp s -> s_punct s = JUGEMENT -> NoDup (s_stamp s)) ->
  (1 <= wN <= nB)%nat -> reach (choiceOk Inp nB) maxC wN k st ->
  (forall a, (a < length (heap (y_sh st)))%nat -> NoDup (s_stamp (tk_s (hget (heap (y_sh st)) a)))) /\
  (forall t c b, holds (memory (y_sh st)) t c -> In b (byExp c) \/ In b (byUsage c) -> NoDup (s_stamp b)).
Proof.
  intros Inp maxC nB wN k st HI HW R. split.
  - apply (c49_heap (fun s => NoDup (s_stamp s)) _ _ _ _ _ _ closed_nodup HI HW R).
  - intros t c b Hc Hb. destruct (c49_beliefs (fun s => NoDup (s_stamp s)) _ _ _ _ _ _ closed_nodup HI HW R) as [_ M].
    apply (ba_all _ _ _ _ (M t c Hc) b Hb).
Qed.

(** * Progress *)
(** a client that has work to do waits only to send to a full channel, and then the worker can move *)
Theorem c49_client_waits : forall maxC n st i, exec maxC n (ChClient i) st = Ok None ->
  match nth_error (y_clients st) i with
  | None | Some CIdle => True
  | Some (CCycle _ (YSend _)) => (4 <= length (y_queue st))%nat /\ exec maxC n ChWorker st <> Ok None
  | _ => False
  end.
Proof. exact client_blocked. Qed.
Theorem c49_worker_waits : forall maxC n st, exec maxC n ChWorker st = Ok None <-> y_worker st = WIdle /\ y_queue st = [].
Proof. exact worker_blocked. Qed.
Theorem c49_no_deadlock : forall maxC n st, (forall i, exec maxC n (ChClient i) st = Ok None) -> exec maxC n ChWorker st = Ok None ->
  Forall (fun p => p = CIdle) (y_clients st) /\ y_worker st = WIdle /\ y_queue st = [].
Proof. exact all_blocked. Qed.
(** every operation of a client ends, whatever the other threads do in between *)
Theorem c49_clients_finish : well_founded (fun p' p => clientMoves p p').
Proof. exact clients_finish. Qed.
(** so does the handling of one message by the worker *)
Theorem c49_worker_finishes : forall maxC n, well_founded (fun p' p => workerMoves maxC n p p').
Proof. exact worker_finishes. Qed.

(** * Uninterrupted operations are the sequential functions *)
Theorem c49_add_alone : forall maxC n st i x, nth_error (y_clients st) i = Some CIdle ->
  exists k, execAll maxC n (ChStart i (OpAdd x) :: repeat (ChClient i) k) st =
    do sh <- memAddTask (y_sh st) (ar_s x) (ar_cc x) maxC (ar_n x) (ar_mul x) (ar_now x);
    Ok (Some (mkSys sh (y_queue st) (y_clients st) (y_worker st) (y_log st))).
Proof. exact add_alone. Qed.
Theorem c49_cycle_alone : forall maxC n st i y, nth_error (y_clients st) i = Some CIdle -> (length (y_queue st) < 4)%nat ->
  exists k, execAll maxC n (ChStart i (OpCycle y) :: repeat (ChClient i) k) st =
    do r <- reasonCycle (cy_exp y) (cy_sel y) (y_sh st) (cy_now y - 1);
    let '(sh, _, ans, msg) := r in
    Ok (Some (mkSys sh (y_queue st ++ match msg with Some m => [m] | None => [] end) (y_clients st) (y_worker st) (y_log st ++ ans))).
Proof. exact cycle_alone. Qed.
Theorem c49_worker_alone : forall maxC n st m qu, y_worker st = WIdle -> y_queue st = m :: qu -> (primary m < length (heap (y_sh st)))%nat ->
  exists k, execAll maxC n (repeat ChWorker k) st =
    do r <- workerStep maxC n (y_sh st) m;
    Ok (Some (mkSys (fst r) qu (y_clients st) WIdle (y_log st ++ snd r))).
Proof. exact worker_alone. Qed.

(** * Selection *)
(** if only one client cycles and flushes, its selection finds a task *)
Theorem c49_select : forall (C : choice -> Prop) maxC wN k j st i y, (forall c, C c -> oneCycler j c) -> reach C maxC wN k st ->
  nth_error (y_clients st) i = Some (CCycle y YSelect) -> exists st', exec maxC wN (ChClient i) st = Ok (Some st').
Proof. exact select_safe. Qed.

(** * Concrete schedules *)
Definition sArg (s : sentence) : addArgs := mkAddArgs s true f1 10 0.
Definition sCyc : cycArgs := mkCycArgs expOne f0 1.
Definition sAdd (i : nat) (s : sentence) (k : nat) : list choice := ChStart i (OpAdd (sArg s)) :: repeat (ChClient i) k.
Definition sAll (cs : list choice) (k : nat) : option sys := match execAll 50 10 cs (sysMake k) with Ok o => o | Panic => None end.
Definition jAX := mJ (mStmt "a" "x") [1%Z] (mT 9 10) 0.
Definition jXB := mJ (mStmt "x" "b") [2%Z] (mT 9 10) 1.
Definition jAB := mJ (mStmt "a" "b") [3%Z] (mT 9 10) 2.
Definition inp3 (s : sentence) : Prop := In s [jAX; jXB; jAB].
Lemma sReach : forall (C : choice -> Prop) maxC wN k cs st st', Forall C cs -> reach C maxC wN k st ->
  execAll maxC wN cs st = Ok (Some st') -> reach C maxC wN k st'.
Proof.
  intros C maxC wN k. induction cs as [|c cs IH]; intros st st' F R H; cbn [execAll] in H; [now injection H as <-|].
  inversion F; subst. destruct (exec maxC wN c st) as [[s1|]|] eqn:E; cbn [rbind] in H; try discriminate.
  eapply IH; [auto| |exact H]. eapply re_step; eauto.
Qed.
Definition sStart : list choice := sAdd 0 jAX 9 ++ sAdd 0 jXB 9 ++ ChStart 0 (OpCycle sCyc) :: repeat (ChClient 0) 14.
(** the worker derives a-->b {1,2} up to the point of filing it; the client finds
    nothing to revise for its a-->b {3}; both file *)
Definition sTwin : list choice := sStart ++ repeat ChWorker 9 ++ sAdd 0 jAB 4 ++ [ChWorker; ChClient 0].
Lemma inp3_ok : forall cs, Forall (fun c => match c with ChStart _ (OpAdd x) => inp3 (ar_s x) /\ ar_n x = 10%nat | _ => True end) cs ->
  Forall (choiceOk inp3 10) cs.
Proof. intros cs. apply Forall_impl. intros [i [x|q| |y]|i|]; simpl; auto. intros [H ->]. split; [auto|lia]. Qed.
Lemma sRun : forall cs k (P : sys -> Prop), Forall (fun c => match c with ChStart _ (OpAdd x) => inp3 (ar_s x) /\ ar_n x = 10%nat | _ => True end) cs ->
  match execAll 50 10 cs (sysMake k) with Ok (Some st) => P st | _ => False end ->
  exists st, reach (choiceOk inp3 10) 50 10 k st /\ P st.
Proof.
  intros cs k P F H. destruct (execAll 50 10 cs (sysMake k)) as [[st|]|] eqn:E; try contradiction.
  exists st. split; [|auto]. eapply sReach; [apply inp3_ok; exact F|constructor|exact E].
Qed.
Ltac inps := repeat (apply Forall_cons || apply Forall_nil); try exact Logic.I; (split; [unfold inp3; simpl; auto|reflexivity]).
(** what holds for sequential runs (c56_tables) fails here: two beliefs about one statement with independent evidence *)
Theorem c49_twins_refuted : exists st t c, reach (choiceOk inp3 10) 50 10 1 st /\ holds (memory (y_sh st)) t c /\
  exists b1 b2, byExp c = [b1; b2] /\ s_term b1 = s_term b2 /\ revisable b1 b2.
Proof.
  destruct (sRun sTwin 1 (fun st => match mget (mStmt "a" "b") (memory (y_sh st)) with
      | Some c => match byExp c with [b1; b2] => s_term b1 = s_term b2 /\ checkOverlap (s_stamp b2) (s_stamp b1) = false | _ => False end
      | None => False end)) as (st & R & X); [inps|vm_compute; split; reflexivity|].
  destruct (mget (mStmt "a" "b") (memory (y_sh st))) as [c|] eqn:M; [|contradiction].
  destruct (byExp c) as [|b1 [|b2 [|b3 l]]] eqn:B; try contradiction. destruct X as [X1 X2].
  exists st, (mStmt "a" "b"), c. split; [auto|]. split; [now apply mget_in|].
  exists b1, b2. split; [auto|]. split; [auto|]. split; [auto|]. intros K. apply Stamp_Proofs.checkOverlap_iff in K. congruence.
Qed.
(** and a task may be queued twice: two clients add the same sentence *)
Definition sDup : list choice := sAdd 0 jAB 5 ++ sAdd 1 jAB 5 ++ [ChClient 0; ChClient 1; ChClient 0; ChClient 1].
Theorem c49_duplicate_refuted : exists st a b, reach (choiceOk inp3 10) 50 10 2 st /\ In a (judg (y_sh st)) /\ In b (judg (y_sh st)) /\ a <> b /\
  tk_s (hget (heap (y_sh st)) a) = tk_s (hget (heap (y_sh st)) b).
Proof.
  destruct (sRun sDup 2 (fun st => judg (y_sh st) = [0; 1]%nat /\ tk_s (hget (heap (y_sh st)) 0) = tk_s (hget (heap (y_sh st)) 1)))
    as (st & R & X1 & X2); [inps|vm_compute; split; reflexivity|].
  exists st, 0%nat, 1%nat. split; [auto|]. rewrite X1. split; [now left|]. split; [right; now left|]. split; [lia|auto].
Qed.
(** with two cycling clients the selection can panic: both see the only task, one takes it *)
Definition sSel : list choice := sAdd 0 jAB 9 ++ [ChStart 0 (OpCycle sCyc); ChStart 1 (OpCycle sCyc)] ++
  repeat (ChClient 0) 4 ++ repeat (ChClient 1) 4 ++ [ChClient 0].
Theorem c49_select_refuted : exists st, reach (choiceOk inp3 10) 50 10 2 st /\ exec 50 10 (ChClient 1) st = Panic.
Proof. apply (sRun sSel 2 (fun st => exec 50 10 (ChClient 1) st = Panic)); [inps|vm_compute; reflexivity]. Qed.

(** the hypotheses are reachable: the same schedule continued to its end, the
    conclusion is queued, and the client's sentence and its task are there too *)
Definition sEnd : list choice := sTwin ++ repeat ChWorker 5 ++ repeat (ChClient 0) 4.
Example c49_ex : match sAll sEnd 1 with
  | Some st => y_clients st = [CIdle] /\ y_worker st = WIdle /\ y_queue st = [] /\
      map (fun a => (s_term (tk_s (hget (heap (y_sh st)) a)), s_stamp (tk_s (hget (heap (y_sh st)) a)))) (judg (y_sh st)) =
        [(mStmt "x" "b", [2%Z]); (mStmt "a" "b", [1%Z; 2%Z]); (mStmt "a" "b", [3%Z])] /\ map tk_id (heap (y_sh st)) = [1000; 1001; 1002; 1003]%Z
  | None => False end.
Proof. vm_compute. repeat split; reflexivity. Qed.
(** a task that is built but not yet in the table, then in the table but not yet indexed *)
Example c49_ex_flight : match sAll (sAdd 0 jAB 6) 1, sAll (sAdd 0 jAB 7) 1, sAll (sAdd 0 jAB 8) 1 with
  | Some s1, Some s2, Some s3 =>
      inFlight unpushed s1 = [0%nat] /\ judg (y_sh s1) = [] /\
      inFlight unpushed s2 = [] /\ inFlight unindexed s2 = [0%nat] /\ judg (y_sh s2) = [0%nat] /\ byTerm (y_sh s2) = [] /\
      inFlight unindexed s3 = [] /\ mget (Name "a") (byTerm (y_sh s3)) = Some [0%nat]
  | _, _, _ => False end.
Proof. vm_compute. repeat split; reflexivity. Qed.
(** a full channel: the fifth send waits *)
Definition sFill : list choice := sAdd 0 jAX 9 ++ sAdd 0 jXB 9 ++ sAdd 0 jAB 9 ++ sAdd 0 (mJ (mStmt "p" "q") [4%Z] (mT 1 2) 4) 9 ++
  sAdd 0 (mJ (mStmt "r" "s") [5%Z] (mT 1 2) 5) 9 ++
  flat_map (fun _ => ChStart 0 (OpCycle sCyc) :: repeat (ChClient 0) 14) [1; 2; 3; 4]%nat ++ ChStart 0 (OpCycle sCyc) :: repeat (ChClient 0) 10.
Example c49_ex_full : match sAll sFill 1 with
  | Some st => length (y_queue st) = 4%nat /\ exec 50 10 (ChClient 0) st = Ok None /\ judg (y_sh st) = [] /\
      match exec 50 10 ChWorker st with Ok (Some st') => match exec 50 10 (ChClient 0) st' with Ok (Some st2) => length (y_queue st2) = 4%nat | _ => False end | _ => False end
  | None => False end.
Proof. vm_compute. repeat split; reflexivity. Qed.

Print Assumptions c49_tasks.
Print Assumptions c49_beliefs.
Print Assumptions c49_answers.
Print Assumptions c49_no_deadlock.
Print Assumptions c49_clients_finish.
Print Assumptions c49_worker_finishes.
Print Assumptions c49_cycle_alone.
Print Assumptions c49_worker_alone.
Print Assumptions c49_select.
Print Assumptions c49_twins_refuted.
