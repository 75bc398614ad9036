(** Property C84: no step of the declarative reasoner panics. *)
From Coq Require Import Floats.SpecFloat String.
From Coq Require Import ZArith Bool Lia List.
From Verif Require Import Base F64_Model Term_Model Term_Spec Term_Proofs Unify_Spec Stamp_Model Tv_Model Tv_Spec Sentence_Model
  Infer_Model Infer_Spec Mem_Model Mem_Spec Mem_Proofs Props_Mem Cycle_Model Cycle_Spec Cycle_Proofs Props_Cycle
  Sched_Model Sched_Spec Sched_Proofs Props_Sched Eval_Model Eval_Proofs Safe_Spec Safe_Proofs Safe2_Proofs Safe3_Proofs Safe4_Proofs Safe5_Proofs.
Import ListNotations.
Local Open Scope string_scope.
Local Open Scope list_scope.

(** Whatever clients and worker did before and whatever others wrote in between: the next step
    of any thread does not panic. *)
Theorem c84_never_panics : forall (Inp : sentence -> Prop) maxC nB wN j k st c,
  (forall s, Inp s -> fairInput s) -> tempered Inp -> (maxC < 2 ^ 63)%Z -> (1 <= wN <= nB)%nat ->
  sreach (safeChoice Inp nB j) maxC wN k st -> inTime st -> exec maxC wN c st <> Panic.
Proof. intros Inp maxC nB wN j k st c HI HT HM HW. apply (never_panics Inp maxC nB wN j k HI HT HM HW). Qed.
(** Every schedule of clients and worker from the start, with room for 301 uses of a belief per step. *)
Theorem c84_runs : forall (Inp : sentence -> Prop) maxC nB wN j k cs,
  (forall s, Inp s -> fairInput s) -> tempered Inp -> (maxC < 2 ^ 63)%Z -> (1 <= wN <= nB)%nat ->
  Forall (safeChoice Inp nB j) cs -> (301 * Z.of_nat (length cs) < 2 ^ 63)%Z -> execAll maxC wN cs (sysMake k) <> Panic.
Proof. intros Inp maxC nB wN j k cs HI HT HM HW. apply (runs Inp maxC nB wN j k HI HT HM HW). Qed.
(** At most 120 observations, each with a confidence of at most 0.999999, never give full confidence. *)
Theorem c84_tempered : forall ids (Inp : sentence -> Prop), (length ids <= 120)%nat -> (forall s, Inp s -> observed ids s) -> tempered Inp.
Proof. exact observed_tempered. Qed.
(** so no schedule with such inputs panics *)
Theorem c84_observed : forall ids (Inp : sentence -> Prop) maxC nB wN j k cs,
  (length ids <= 120)%nat -> (forall s, Inp s -> observed ids s) -> (maxC < 2 ^ 63)%Z -> (1 <= wN <= nB)%nat ->
  Forall (safeChoice Inp nB j) cs -> (301 * Z.of_nat (length cs) < 2 ^ 63)%Z -> execAll maxC wN cs (sysMake k) <> Panic.
Proof.
  intros ids Inp maxC nB wN j k cs L H. apply c84_runs; [|now apply (c84_tempered ids)].
  intros s Is. destruct (H s Is) as [W K]. split; [exact W|]. intros P. destruct (K P) as (i & v & _ & _ & E & R & _). eauto.
Qed.
(** the benchmark comes to its result: it can always go on until then *)
Theorem c84_benchmark : forall (Inp : sentence -> Prop) maxC nB wN j k st e,
  (forall s, Inp s -> fairInput s) -> tempered Inp -> (maxC < 2 ^ 63)%Z -> (1 <= wN <= nB)%nat ->
  nth_error (y_clients st) 0 = Some CIdle -> esteps maxC wN (evalStart st) e ->
  sreach (safeChoice Inp nB j) maxC wN k (es_sys e) -> inTime (es_sys e) ->
  (exists r, es_pc e = EDone r) \/ exists e', estep maxC wN e e'.
Proof.
  intros Inp maxC nB wN j k st e HI HT HM HW Ni H R T.
  destruct (eval_moves maxC wN st e Ni H) as [D|[D|[D|D]]]; [auto|auto| |]; exfalso; revert D;
  apply (c84_never_panics Inp maxC nB wN j k); auto.
Qed.

(** * What the conditions are needed for *)
(** Finding: with 241 observations of one statement, each of confidence 0.9, a judgement with confidence 1.0
    follows, and from it one with frequency NaN (each id counted once per stamp, but stamps keep 120 ids) *)
Theorem c84_overflow_refuted : exists ids (Inp : sentence -> Prop), (length ids = 241)%nat /\ (forall s, Inp s -> observed ids s) /\ ~ tempered Inp /\
  exists s v, derivable Inp s /\ retTv s = Some v /\ tvf v = S754_nan.
Proof.
  exists rIds, rInp. split; [reflexivity|]. split; [exact rInp_observed|]. split.
  - intros T. destruct full_confidence as (s & D & _ & _ & E). specialize (T s _ D E). unfold uncertain in T. rewrite full_val in T. discriminate.
  - destruct then_nan as (L & s & D & _ & _ & E). exists s, (mkTv S754_nan S754_nan). rewrite nan_val in E. auto.
Qed.
(** Finding: a product with one component panics in the worker *)
Definition pShort : sentence := mJ (Stmt INH (Prod [Name "a"]) (Name "b")) [1%Z] (mT 9 10) 0.
Theorem c84_short_refuted : exists cs, Forall (safeChoice (eq pShort) 10 0) cs /\ execAll 50 10 cs (sysMake 1) = Panic /\
  retTv pShort = Some (mT 9 10) /\ proper (s_term pShort) /\ forall x, component x (s_term pShort) -> x = Name "b" \/ x = Prod [Name "a"].
Proof.
  exists (sAdd 0 pShort 10 ++ ChStart 0 (OpCycle sCyc) :: repeat (ChClient 0) 15 ++ [ChWorker; ChWorker]). split.
  - assert (U : unit64 f1) by (repeat split). assert (X : expLike expOne) by (intros x _; repeat split).
    assert (Ad : safeChoice (eq pShort) 10 0 (ChStart 0 (OpAdd (sArg pShort)))) by (simpl; unfold i64; repeat split; auto; lia).
    assert (Cy : safeChoice (eq pShort) 10 0 (ChStart 0 (OpCycle sCyc))) by (simpl; unfold i64; repeat split; lia).
    unfold sAdd. cbn [repeat app]. repeat (apply Forall_cons; [exact Ad || exact Cy || exact I|]). constructor.
  - split; [vm_compute; reflexivity|]. split; [reflexivity|]. split; [exact I|]. intros x C. inversion C; auto.
Qed.
(** Finding: inputs of full confidence panic the next addition *)
Definition pFull (i : Z) : sentence := mJ (mStmt "a" "b") [i] (mkTv f1 f1) 0.
Definition pNext : sentence := mJ (mStmt "a" "c") [3%Z] (mT 9 10) 0.
Definition pFullInp (s : sentence) : Prop := In s [pFull 1; pFull 2; pNext].
Theorem c84_full_refuted : exists cs, Forall (safeChoice pFullInp 10 0) cs /\ execAll 50 10 cs (sysMake 1) = Panic /\ forall s, pFullInp s -> fairInput s.
Proof.
  exists (sAdd 0 (pFull 1) 9 ++ sAdd 0 (pFull 2) 11 ++ sAdd 0 pNext 5). split.
  - assert (U : unit64 f1) by (repeat split).
    assert (Ad : forall s, pFullInp s -> safeChoice pFullInp 10 0 (ChStart 0 (OpAdd (sArg s)))) by (intros s Hs; simpl; unfold i64; repeat split; auto; lia).
    assert (A1 := Ad (pFull 1) (or_introl eq_refl)). assert (A2 := Ad (pFull 2) (or_intror (or_introl eq_refl))).
    assert (A3 := Ad pNext (or_intror (or_intror (or_introl eq_refl)))).
    unfold sAdd. cbn [repeat app]. repeat (apply Forall_cons; [exact A1 || exact A2 || exact A3 || exact I|]). constructor.
  - split; [vm_compute; reflexivity|]. intros s [<-|[<-|[<-|[]]]]; (split; [unfold pFull, pNext, mStmt; cbn [s_term mJ]; apply wf_stmt; split; apply wf_name|]);
    intros _; eexists; (split; [reflexivity|]); repeat split.
Qed.

(** * A schedule *)
(** two clients add, one of them asks and runs cycles while the worker derives *)
Definition pAsk : task2 := mkTask2 (mkSentence (mStmt "a" "b") None QUESTION [9%Z] None None 0) false f0 f1.
Definition pRun : list choice := sAdd 0 jAX 9 ++ [ChStart 0 (OpAsk pAsk); ChStart 1 (OpAdd (sArg jXB))] ++ repeat (ChClient 1) 5 ++
  [ChStart 0 (OpCycle sCyc)] ++ repeat (ChClient 0) 1 ++ repeat (ChClient 1) 4 ++ repeat (ChClient 0) 17 ++ repeat ChWorker 15.
Example c84_ex : (forall s, inp3 s -> observed [1; 2; 3]%Z s) /\ Forall (safeChoice inp3 10 0) pRun /\
  execAll 50 10 pRun (sysMake 2) <> Panic /\
  match execAll 50 10 pRun (sysMake 2) with Ok (Some st) => (length (judg (y_sh st)) = 2)%nat /\ exists b, y_log st = [(mStmt "a" "b", b)] /\ s_stamp b = [1; 2]%Z | _ => False end.
Proof.
  assert (O : forall s, inp3 s -> observed [1; 2; 3]%Z s).
  { intros s [<-|[<-|[<-|[]]]]; (split; [unfold jAX, jXB, jAB, mStmt; cbn [s_term mJ]; apply wf_stmt; split; apply wf_name|]);
    intros _; eexists; eexists; (split; [reflexivity|]); (split; [simpl; auto|]); (split; [reflexivity|]); repeat split. }
  assert (F : Forall (safeChoice inp3 10 0) pRun).
  { assert (U : unit64 f1) by (repeat split).
    assert (Ad : forall i s, inp3 s -> safeChoice inp3 10 0 (ChStart i (OpAdd (sArg s)))) by (intros i s Hs; simpl; unfold i64; repeat split; auto; lia).
    assert (A1 := Ad 0%nat jAX (or_introl eq_refl)). assert (A2 := Ad 1%nat jXB (or_intror (or_introl eq_refl))).
    assert (Aq : safeChoice inp3 10 0 (ChStart 0 (OpAsk pAsk))).
    { split; [apply wf_speaks, wf_stmt; split; apply wf_name|]. split; [now left|repeat split]. }
    assert (Cy : safeChoice inp3 10 0 (ChStart 0 (OpCycle sCyc))) by (simpl; unfold i64, expLike; repeat split; lia).
    unfold pRun, sAdd. cbn [repeat app]. repeat (apply Forall_cons; [exact A1 || exact A2 || exact Aq || exact Cy || exact I|]). constructor. }
  split; [exact O|]. split; [exact F|]. split.
  - apply (c84_observed [1; 2; 3]%Z inp3 50 10 10 0 2 pRun); auto; try (simpl; lia).
  - vm_compute. split; [reflexivity|]. eexists. split; reflexivity.
Qed.

Print Assumptions c84_never_panics. Print Assumptions c84_runs. Print Assumptions c84_tempered. Print Assumptions c84_observed. Print Assumptions c84_benchmark.
Print Assumptions c84_overflow_refuted. Print Assumptions c84_short_refuted. Print Assumptions c84_full_refuted.
