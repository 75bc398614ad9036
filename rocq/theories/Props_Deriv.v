(** Properties C57-C60: premise selection, credit flow, completeness of the
    deriver, distribution of answers. *)
From Coq Require Import String ZArith Bool Lia List Permutation Sorted Relations SpecFloat.
From Verif Require Import Base F64_Model F64_Proofs Sort_Proofs Term_Model Term_Spec Term_Proofs Unify_Model Unify_Spec Stamp_Model Tv_Model
  Sentence_Model Infer_Model Infer_Spec Mem_Model Mem_Spec Mem_Proofs Props_Mem Cycle_Model Cycle_Spec Cycle_Proofs Select_Proofs Task_Proofs Run_Proofs
  Props_Cycle Deriv_Proofs.
Import ListNotations.
Local Open Scope string_scope.
Local Open Scope list_scope.

(** C57 *)
Theorem c57_secondary : forall maxC sh t, tasksOk maxC sh ->
  NoDup (secondaryFor sh t) /\ (length (secondaryFor sh t) <= 300)%nat /\
  StronglySorted (fun a b => (calcComplexity (taskTerm sh a) <= calcComplexity (taskTerm sh b))%Z) (secondaryFor sh t) /\
  (forall a, In a (secondaryFor sh t) -> exists u, occurs u t /\ occurs u (taskTerm sh a) /\ indexed sh u a) /\
  (forall u l a, occurs u t -> In (u, l) (byTerm sh) -> In a (firstn 51 l) -> ~ In a (secondaryFor sh t) ->
     length (secondaryFor sh t) = 300%nat /\ forall b, In b (secondaryFor sh t) -> (calcComplexity (taskTerm sh b) <= calcComplexity (taskTerm sh a))%Z).
Proof. exact secondary_spec. Qed.
(** Small task tables: exactly the tasks sharing a subterm. *)
Theorem c57_small_exact : forall maxC sh t, tasksOk maxC sh -> (forall u l, In (u, l) (byTerm sh) -> (length l <= 51)%nat) ->
  (length (heap sh) < 300)%nat -> forall a, In a (secondaryFor sh t) <-> exists u, occurs u t /\ indexed sh u a.
Proof.
  intros maxC sh t OK HL HB a. destruct (secondary_spec maxC sh t OK) as (N & L & _ & S & C). split.
  - intros H. destruct (S a H) as (u & O & _ & I). eauto.
  - intros (u & O & l & Hl & Ha). destruct (in_dec Nat.eq_dec a (secondaryFor sh t)) as [H|H]; auto.
    destruct (C u l a O Hl) as [E _]; auto; [rewrite firstn_all2; auto; eapply HL; eauto|].
    assert (K : (length (secondaryFor sh t) <= length (seq 0 (length (heap sh))))%nat).
    { apply NoDup_incl_length; auto. intros x Hx. apply in_seq. destruct (S x Hx) as (v & _ & _ & I).
      apply (ok_index _ _ OK) in I. lia. }
    rewrite seq_length in K. lia.
Qed.
Definition sh3 := addL [ab1; ac4; mJ (mStmt "d" "e") [7%Z] (mT 1 2) 4].
Example c57_ex : secondaryFor sh3 (mStmt "a" "x") = [0; 1]%nat /\ secondaryFor sh3 (Name "e") = [2]%nat.
Proof. split; vm_compute; reflexivity. Qed.
(** A flooded index hides tasks: with more than 51 tasks under a term a newer
    task is never selected as a premise through that term. *)
Definition flood : shared := Eval vm_compute in addL (map (fun i => mJ (mStmt "a" (String (Ascii.ascii_of_nat (48 + i)) "")) [Z.of_nat i] (mT 1 2) i) (seq 1 60)).
Theorem c57_flood_refuted : exists sh t a, (exists Inp, run Inp 20 10 sh []) /\ In a (judg sh) /\
  (exists u, occurs u t /\ occurs u (taskTerm sh a)) /\ ~ In a (secondaryFor sh t).
Proof.
  exists flood, (Name "a"), 59%nat. split; [exists (fun _ => True)|].
  - assert (A : forall l sh, run (fun _ => True) 20 10 sh [] -> run (fun _ => True) 20 10 (addTo l sh) []).
    { intros l sh R. apply addTo_run; auto. }
    replace flood with (addTo (map (fun i => mJ (mStmt "a" (String (Ascii.ascii_of_nat (48 + i)) "")) [Z.of_nat i] (mT 1 2) i) (seq 1 60)) sharedMake) by (vm_compute; reflexivity).
    apply A. constructor.
  - split; [vm_compute; tauto|]. split.
    + exists (Name "a"). split; apply retSubterms_iff; vm_compute; auto.
    + vm_compute. intuition discriminate.
Qed.

(** C58. Asking a question raises exactly the tasks sharing a term with it. *)
Theorem c58_questions : forall sh a, NoDup (map fst (byTerm sh)) -> (a < length (heap sh))%nat -> exists ps,
  gotQa (hget (heap sh) a) (hget (heap (transferCredits sh)) a) ps /\
  (forall p, In p ps <-> exists q u, In q (questions sh) /\ p = prio q /\ occurs u (s_term (q_s q)) /\ indexed sh u a).
Proof. exact transfer_spec. Qed.
Theorem c58_base : forall maxC sh a, tasksOk maxC sh -> (a < length (heap sh))%nat ->
  let t := hget (heap sh) a in let t' := hget (heap (baseCredits sh)) a in let c := f_of_Z (calcComplexity (taskTerm sh a)) in
  (In a (judg sh) -> frame t t' /\ credit t' = fdiv (fadd (credit t) f05) c /\ qaCredit t' = fdiv (qaCredit t) c) /\
  (~ In a (judg sh) -> t' = t).
Proof. exact base_spec. Qed.
Theorem c58_usage : forall m now sh x,
  let k := length (filter (fun a => Nat.eqb (cellOf sh a) x) (primary m :: secondary m)) in
  usages (touchAll (Some m) now sh) x = if Nat.eqb k 0 then usages sh x else mkUsage now (useCount (usages sh x) + Z.of_nat k).
Proof. exact touch_spec. Qed.
Theorem c58_flush : forall sh, judg (flushTasks sh) = [] /\ (forall t a, ~ indexed (flushTasks sh) t a) /\
  heap (flushTasks sh) = heap sh /\ memory (flushTasks sh) = memory sh /\ questions (flushTasks sh) = questions sh.
Proof. intros sh. split; [reflexivity|]. split; [intros t a (l & [] & _)|]. repeat split; reflexivity. Qed.
Definition asked := setQuestions [qAny] sh3.
Example c58_ex : map qaCredit (heap (transferCredits asked)) = [f1; f0; f0] /\
  map credit (heap sh3) = [f_frac 1 3; f_frac 1 3; f_frac 1 3].
Proof. split; vm_compute; reflexivity. Qed.
Example c58_ex_usage : useCount (usages (touchAll (Some (mkMsg 0 [0; 1]%nat 1)) 9 sh3) 0) = 2%Z /\
  usages (touchAll (Some (mkMsg 0 [0; 1]%nat 1)) 9 sh3) 3 = mkUsage 9 1 /\ usages (touchAll (Some (mkMsg 0 [0; 1]%nat 1)) 9 sh3) 4 = mkUsage 0 0.
Proof. repeat split; vm_compute; reflexivity. Qed.

(** C59. What follows from the selected task and any of its partners by one
    inference schema is queued after the worker step. *)
Theorem c59_complete : forall (Inp : sentence -> Prop) maxC n, (forall s, Inp s -> s_punct s = JUGEMENT -> s_stamp s <> []) -> (1 <= n)%nat ->
  forall sh msg ps sh' ans, run Inp maxC n sh (msg :: ps) -> workerStep maxC n sh msg = Ok (sh', ans) ->
  let p := tk_s (hget (heap sh) (primary msg)) in
  (forall b t tr v, partner sh msg b -> ~ shareEvidence p b ->
     schema JUGEMENT (s_term p) JUGEMENT (s_term b) t tr \/ schema JUGEMENT (s_term b) JUGEMENT (s_term p) t tr ->
     truthVal tr (retTv p) (retTv b) = Some v -> (calcComplexity t <= maxC)%Z -> queued sh' t (merge (s_stamp p) (s_stamp b))) /\
  (forall t mir bias w, struct JUGEMENT (s_term p) t mir bias -> retTv p = Some w -> (calcComplexity t <= maxC)%Z -> queued sh' t (s_stamp p)).
Proof. exact worker_conclusions. Qed.
Theorem c59_keeps : forall (Inp : sentence -> Prop) maxC n, (forall s, Inp s -> s_punct s = JUGEMENT -> s_stamp s <> []) -> (1 <= n)%nat ->
  forall sh msg ps sh' ans, run Inp maxC n sh (msg :: ps) -> workerStep maxC n sh msg = Ok (sh', ans) ->
  forall t st, queued sh t st -> queued sh' t st.
Proof.
  intros Inp maxC n HI Hn sh msg ps sh' ans R H. destruct (worker_queues Inp maxC n HI Hn sh msg ps sh' ans R H) as (d & _ & _ & K & _). exact K.
Qed.
(** Two cycles of chaining: a-->b, b-->c, c-->d; the worker reaches a-->c and then a-->d *)
Definition chain := addL [mJ (mStmt "a" "b") [1%Z] (mT 9 10) 0; mJ (mStmt "b" "c") [2%Z] (mT 9 10) 1; mJ (mStmt "c" "d") [3%Z] (mT 9 10) 2].
Definition stepChain := getOk (sharedMake, []) (workerStep 20 10 chain (mkMsg 0 (secondaryFor chain (mStmt "a" "b")) 1)).
Definition stepChain2 := getOk (sharedMake, []) (workerStep 20 10 (fst stepChain) (mkMsg 3 (secondaryFor (fst stepChain) (mStmt "a" "c")) 1)).
Example c59_ex : map (fun t => (s_term (tk_s t), s_stamp (tk_s t))) (skipn 3 (heap (fst stepChain))) = [(mStmt "a" "c", [1; 2]%Z)] /\
  existsb (fun t => checkEqTerm (s_term (tk_s t)) (mStmt "a" "d")) (heap (fst stepChain2)) = true.
Proof. split; vm_compute; reflexivity. Qed.
(** The truth value of a conclusion can get lost: a second conclusion with the
    same statement and stamp is dropped, even if it is stronger. *)
Theorem c59_truth_lost_refuted : exists sh s sh', run (fun _ => True) 20 10 sh [] /\ memAddTask sh s true 20 10 f1 5%Z = Ok sh' /\
  s_punct s = JUGEMENT /\ forall a, In a (judg sh') -> taskTerm sh' a = s_term s -> s_stamp (tk_s (hget (heap sh') a)) = s_stamp s ->
  retTv (tk_s (hget (heap sh') a)) <> retTv s.
Proof.
  set (strong := mJ (mStmt "a" "b") [1%Z] (mT 9 10) 7).
  set (sh := addTo [ab1] sharedMake).
  assert (E : memAddTask sh strong true 20 10 f1 5%Z = Ok (addTo [strong] sh)) by (vm_compute; reflexivity).
  exists sh, strong, (addTo [strong] sh). split; [apply addTo_run; [auto|constructor]|]. split; [exact E|]. split; [reflexivity|].
  intros a Ha _ _. assert (J : judg (addTo [strong] sh) = [0%nat]) by (vm_compute; reflexivity). rewrite J in Ha.
  destruct Ha as [<-|[]]. vm_compute. discriminate.
Qed.

(** A revised belief becomes a task as well (part of C25). *)
Theorem c25_revised_queued : forall maxC sh s cc nB mul now sh' m nb u, tasksOk maxC sh -> mapOk (memory sh) ->
  (forall t c b, holds (memory sh) t c -> In b (byExp c) \/ In b (byUsage c) -> s_punct b = JUGEMENT) ->
  memAddTask sh s cc maxC nB mul now = Ok sh' ->
  (calcComplexity (s_term s) <= maxC)%Z -> memReviseBelief (memory sh) s (nextU sh) = Ok (m, Some nb, u) ->
  ~ queued sh (s_term s) (s_stamp s) -> queued sh' (s_term nb) (s_stamp nb).
Proof. exact add_revised. Qed.

(** C60. Every open question gets to see every derived judgement. *)
Theorem c60_all_questions : forall cs qs qs' ans, answerAll qs cs = Ok (qs', ans) ->
  let js := filter (fun c => punct_eqb (s_punct c) JUGEMENT) cs in
  exists parts, length parts = length qs /\ length qs' = length qs /\ Permutation ans (concat parts) /\
  forall i q, nth_error qs i = Some q -> exists q' a, nth_error qs' i = Some q' /\ nth_error parts i = Some a /\ answeredBy js q q' a.
Proof. exact answerAll_spec. Qed.
Theorem c60_best : forall cs qs qs' ans i q, answerAll qs cs = Ok (qs', ans) -> nth_error qs i = Some q -> fis_nan (bestAnswerExp q) = false ->
  exists q' a, nth_error qs' i = Some q' /\ q_s q' = q_s q /\ incl a ans /\ answersFor q q' (filter (fun c => punct_eqb (s_punct c) JUGEMENT) cs) a.
Proof.
  intros cs qs qs' ans i q H Hq Hn. destruct (answerAll_spec _ _ _ _ H) as (parts & _ & _ & PM & S).
  destruct (S i q Hq) as (q' & a & N1 & N2 & A). destruct (qaTryAll_spec _ _ _ _ A Hn) as [E F]. exists q', a.
  split; [auto|]. split; [auto|]. split; [|exact F]. intros x Hx. apply (Permutation_in _ (Permutation_sym PM)).
  apply in_concat. exists a. split; [eapply nth_error_In; eauto|auto].
Qed.
Theorem c60_worker : forall (Inp : sentence -> Prop) maxC n, (forall s, Inp s -> s_punct s = JUGEMENT -> s_stamp s <> []) -> (1 <= n)%nat ->
  forall sh msg ps sh' ans, run Inp maxC n sh (msg :: ps) -> workerStep maxC n sh msg = Ok (sh', ans) ->
  exists d, derive sh msg = Ok d /\ answerAll (questions sh) (map fst (fst d)) = Ok (questions sh', ans).
Proof.
  intros Inp maxC n HI Hn sh msg ps sh' ans R H. destruct (worker_queues Inp maxC n HI Hn sh msg ps sh' ans R H) as (d & D & _ & _ & qa & A & E).
  exists d. rewrite E. auto.
Qed.
Theorem c60_sampled : forall sv sh sh' ans, sampleQuestion sv sh = Ok (sh', ans) ->
  (questions sh = [] /\ sh' = sh /\ ans = []) \/
  exists i q q' cs, nth_error (questions sh) i = Some q /\ qaTryAll q cs = Ok (q', ans) /\
    sh' = setQuestions (replace_at i q' (questions sh)) sh /\
    let m := match s_term (q_s q) with Stmt PREDIMPL _ _ => procMem sh | _ => memory sh end in
    (mapOk m -> forall b, In b cs <-> exists u c, occurs u (s_term (q_s q)) /\ holds m u c /\ (In b (byExp c) \/ In b (byUsage c))).
Proof. exact sample_spec. Qed.
Example c60_ex : match sampleQuestion f05 asked with Ok (_, ans) => map (fun a => s_term (snd a)) ans = [mStmt "a" "b"] | Panic => False end.
Proof. vm_compute. reflexivity. Qed.
Definition qC := mkTask2 (mkSentence (Stmt INH (QVar "x") (Name "c")) None QUESTION [] None None 0) true f0 f1.
Example c60_ex_worker : match workerStep 20 10 (setQuestions [qAny; qC] chain) (mkMsg 0 (secondaryFor chain (mStmt "a" "b")) 1) with
  | Ok (sh', ans) => map (fun a => s_term (snd a)) ans = [mStmt "a" "c"] /\ length (questions sh') = 2%nat | Panic => False end.
Proof. vm_compute. split; reflexivity. Qed.

Print Assumptions c57_secondary.
Print Assumptions c57_small_exact.
Print Assumptions c57_flood_refuted.
Print Assumptions c58_questions.
Print Assumptions c58_base.
Print Assumptions c58_usage.
Print Assumptions c59_complete.
Print Assumptions c25_revised_queued.
Print Assumptions c60_all_questions.
Print Assumptions c60_best.
Print Assumptions c60_sampled.
