(** Property C96: what follows from added statements is reported as an answer. *)
From Coq Require Import String ZArith Arith Bool Lia List.
From Verif Require Import Base F64_Model Term_Model Term_Spec Term_Proofs Unify_Spec Stamp_Model Tv_Model Tv_Spec Tv_Proofs Sentence_Model Infer_Spec Infer_Proofs
  Mem_Model Mem_Spec Mem_Proofs Cycle_Model Cycle_Spec Cycle_Proofs Task_Proofs Deriv_Proofs Sched_Model Sched_Spec Sched_Proofs Reply_Spec Reply_Proofs Reply2_Proofs Reply3_Proofs Props_Mem Props_Cycle Props_Sched.
Import ListNotations.
Local Open Scope nat_scope.

(** When the deriver has taken a message, then, whatever the other threads do
    meanwhile, every question that was open is answered at least as well as each
    conclusion from the chosen task, alone or with any of its partners, allows. *)
Theorem c96_handled : forall maxC wN nB j k ops0 st m st1 ops st' z t v,
  1 <= wN <= nB -> spath maxC wN ops0 (sysMake k) st -> Forall (fair nB j) ops0 ->
  y_worker st = WDerive m -> exec maxC wN ChWorker st = Ok (Some st1) ->
  spath maxC wN ops st1 st' -> Forall (fair nB j) ops -> y_worker st' = WIdle ->
  In z (questions (y_sh st)) ->
  (let p := tk_s (hget (heap (y_sh st)) (primary m)) in
   follows1 p t v \/ exists b, partner (y_sh st) m b /\ s_punct b = JUGEMENT /\ follows p b t v) ->
  instanceOf t (s_term (q_s z)) -> fltb f0 (calcExp v) = true -> told st' (s_term (q_s z)) (calcExp v).
Proof.
  intros maxC wN nB j k ops0 st m st1 ops st' z t v HW P0 F0 W E P F W' Hz FO IN PO. cbv zeta in FO.
  assert (R : reach (fairC nB j) maxC wN k st) by (eapply path_reach; [exact P0|exact F0|constructor]).
  destruct (reach_sys _ _ _ _ _ _ HW R) as (INV & _ & _). destruct INV as [[T _ M] _ WK _ _]. rewrite W in WK. cbn [wkOk] in WK.
  assert (P2 : spath maxC wN ops0 (sysMake k) st1) by (replace ops0 with (ops0 ++ begun ChWorker) by apply app_nil_r; eapply sp_move; eauto).
  assert (P3 := path_trans _ _ _ _ _ P _ _ P2). assert (F3 : Forall (fair nB j) (ops0 ++ ops)) by (apply Forall_app; auto).
  apply In_nth_error in Hz. destruct Hz as (i & Hz). cbn [exec] in E. rewrite W in E. cbn [workStep] in E.
  destruct (derive (y_sh st) m) as [d|] eqn:D; [|discriminate]. cbn [rbind] in E. injection E as <-.
  destruct (derive_gives (y_sh st) m d t v) as (c & Hc & Ht & Hv & Hj); auto.
  { apply M. }
  { apply (ti_punct _ _ _ _ T). apply WK. auto. }
  match type of P with spath _ _ _ ?s _ => set (st1 := s) in * end.
  assert (A1 : asked i (q_s z) st1) by (exists z; auto).
  assert (A2 : answering t v st1) by (exists m, (fst d), (map fst (fst d)), c; auto).
  destruct (answering_path maxC wN nB j i (q_s z) t v IN ops st1 st' P F A1 (or_introl A2)) as [(z' & Hz' & Ez) [(m' & cs & todo & c' & Wc & _)|(z2 & Hz2 & B)]]; [congruence|].
  assert (z2 = z') by congruence. subst z2. rewrite <- Ez. apply (told_by st' i z' (calcExp v)); auto.
  - eapply path_log; [exact P3|exact F3|apply log_start].
  - eapply path_num in P3; [apply P3; eapply nth_error_In; eauto|exact F3|apply num_start].
Qed.

(** A cycle that chooses a task hands it to the deriver with every statement found
    among the first 51 tasks of one of its subterms, and, unless there are more
    than 300 tasks, what follows from them is reported by the time everything is
    quiet again; the other threads may add statements and questions meanwhile. *)
Theorem c96_cycle : forall maxC wN nB j k ops0 st y st1 ops st',
  1 <= wN <= nB -> spath maxC wN ops0 (sysMake k) st -> Forall (fair nB j) ops0 ->
  nth_error (y_clients st) j = Some (CCycle y YSelect) -> exec maxC wN (ChClient j) st = Ok (Some st1) ->
  spath maxC wN ops st1 st' -> Forall (fair nB j) ops -> length (heap (y_sh st')) <= 300 -> quiet j st' ->
  exists a, In a (judg (y_sh st)) /\ forall z t v, In z (questions (y_sh st)) ->
  (let h := heap (y_sh st) in
   follows1 (tk_s (hget h a)) t v \/
   exists b u l, occurs u (s_term (tk_s (hget h a))) /\ In (u, l) (byTerm (y_sh st)) /\ In b (firstn 51 l) /\ follows (tk_s (hget h a)) (tk_s (hget h b)) t v) ->
  instanceOf t (s_term (q_s z)) -> fltb f0 (calcExp v) = true -> told st' (s_term (q_s z)) (calcExp v).
Proof.
  intros maxC wN nB j k ops0 st y st1 ops st' HW P0 F0 EJ E P F LH QT.
  assert (R : reach (fairC nB j) maxC wN k st) by (eapply path_reach; [exact P0|exact F0|constructor]).
  destruct (reach_sys _ _ _ _ _ _ HW R) as (INV & _ & _). destruct INV as [[T _ M] _ _ _ _].
  assert (P2 : spath maxC wN ops0 (sysMake k) st1) by (replace ops0 with (ops0 ++ begun (ChClient j)) by apply app_nil_r; eapply sp_move; eauto).
  assert (R1 : reach (fairC nB j) maxC wN k st1) by (eapply path_reach; [exact P2|exact F0|constructor]).
  assert (P3 := path_trans _ _ _ _ _ P _ _ P2). assert (F3 : Forall (fair nB j) (ops0 ++ ops)) by (apply Forall_app; auto).
  cbn [exec] in E. rewrite EJ in E. cbn [cliStep cycStep] in E. set (ix := taskSelByCreditTop _ _ _) in E. unfold idx in E.
  destruct (nth_error (judg (y_sh st)) ix) as [a|] eqn:Na; [|discriminate]. cbn [unwrap rbind] in E. injection E as <-.
  assert (Ia := nth_error_In _ _ Na). exists a. split; auto. intros z t v Hz FO IN PO. cbv zeta in FO.
  assert (La : a < length (heap (y_sh st))) by (apply (ti_live _ _ _ _ T); apply in_or_app; auto).
  apply In_nth_error in Hz. destruct Hz as (i & Hz). match type of P with spath _ _ _ ?s _ => set (st1 := s) in * end.
  assert (C1 : nth_error (y_clients st1) j = Some (CCycle y (YCollect a (retUniqueSubterms (taskTerm (y_sh st) a)) []))) by (unfold st1; cbn [y_clients]; eapply nth_this; eauto).
  set (p := tk_s (hget (heap (y_sh st)) a)) in *.
  assert (G0 : forall sec, (forall b, In b sec -> found (byTerm (y_sh st1)) (retUniqueSubterms (s_term p)) b) -> collecting j a sec st1).
  { intros sec HS. exists y, (retUniqueSubterms (s_term p)), []. split; [exact C1|]. split; [constructor|]. split; [intros x []|auto]. }
  assert (ST : exists sec, going j a sec p i (q_s z) t v st1).
  { destruct FO as [FO|(b & u & l & O & Hl & Hb & FO)].
    - exists []. split; [|left; apply G0; intros b []]. split; [exists z; auto|]. auto.
    - assert (El : mget u (byTerm (y_sh st)) = Some l) by (apply in_mget; auto; apply T).
      assert (Lb : b < length (heap (y_sh st))) by (apply (ti_index _ _ _ _ T u); exists l; split; auto; eapply firstn_in; eauto).
      exists [b]. split.
      + split; [exists z; auto|]. split; auto. split; auto. right. exists b. split; [simpl; auto|]. auto.
      + left. apply G0. intros b' [<-|[]]. exists u, l. split; [now apply retUniqueSubterms_in|]. auto. }
  destruct ST as (sec & G). assert (GE := going_path maxC wN nB k j a sec p i (q_s z) t v HW IN ops st1 st' P F R1 LH G).
  assert (PE : pending a sec p i (q_s z) t v st') by (destruct GE as [[PE _]|[PE _]]; exact PE). destruct PE as ((z1 & Hz1 & Ez1) & _).
  destruct (going_end j a sec p i (q_s z) t v st' GE QT) as (z' & Hz' & B). assert (z1 = z') by congruence. subst z1. rewrite <- Ez1.
  apply (told_by st' i z' (calcExp v)); auto.
  - eapply path_log; [exact P3|exact F3|apply log_start].
  - eapply path_num in P3; [apply P3; eapply nth_error_In; eauto|exact F3|apply num_start].
Qed.

(** Some statements, no two the same and with at most 51 parts in all, and some
    questions are added to an empty reasoner, then a cycle runs, then other
    additions, cycles and flushes may follow: when everything is quiet again, one of the statements was chosen, and every question that what
    follows from it, alone or with another statement, is an instance of has an
    answer that is at least as good. *)
Theorem c96_session : forall maxC wN nB xs y rest st',
  1 <= wN <= nB -> spath maxC wN (map (fun x => (0, OpAdd x)) xs ++ (0, OpCycle y) :: rest) (sysMake 1) st' -> Forall (fair nB 0) rest -> quiet 0 st' ->
  Forall (fun x => 1 <= ar_n x <= nB) xs -> distinct xs -> list_sum (map (fun x => nodes (s_term (ar_s x))) xs) <= 51 ->
  (exists s, statement maxC xs s) ->
  exists p, statement maxC xs p /\ forall q t v, question maxC xs q ->
  (follows1 p t v \/ exists b, statement maxC xs b /\ sharePart (s_term p) (s_term b) /\ follows p b t v) ->
  instanceOf t (s_term q) -> fltb f0 (calcExp v) = true -> told st' (s_term q) (calcExp v).
Proof.
  intros maxC wN nB xs y rest st' HW P FR QT F DI SZ (s & x & Hx & Es & Js & Ax). subst s.
  destruct (session_told maxC wN nB HW xs y rest st' P FR) as (p & Hp & Jp & Fp & H); auto.
  - now apply good_of.
  - now rewrite size_nodes.
  - exists x. split; auto. split; auto. now apply fits_accepted.
  - exists (ar_s p). split; [exists p; split; auto; split; auto; split; auto; now apply fits_accepted|].
    intros q t v (xq & Hq & <- & Jq & Aq) FO IN PO. apply (H xq t v); auto; [now apply fits_accepted|].
    destruct FO as [FO|(b & (xb & Hb & <- & Jb & Ab) & SP & FO)]; auto. right. exists xb. split; auto. split; auto. split; [now apply fits_accepted|auto].
Qed.

(** In particular A-->C is answered from A-->B and B-->C, whichever is chosen, and
    the same for the other two transitive copulas. *)
Theorem c96_syllogism : forall maxC wN nB xs y rest st' k a b c s1 s2 v1 v2 q,
  1 <= wN <= nB -> spath maxC wN (map (fun x => (0, OpAdd x)) xs ++ (0, OpCycle y) :: rest) (sysMake 1) st' -> Forall (fair nB 0) rest -> quiet 0 st' ->
  Forall (fun x => 1 <= ar_n x <= nB) xs -> distinct xs -> list_sum (map (fun x => nodes (s_term (ar_s x))) xs) <= 51 ->
  k = PREDIMPL \/ k = IMPL \/ k = INH -> a <> c ->
  statement maxC xs s1 -> s_term s1 = Stmt k a b -> retTv s1 = Some v1 -> tvInRange v1 ->
  statement maxC xs s2 -> s_term s2 = Stmt k b c -> retTv s2 = Some v2 -> tvInRange v2 ->
  ~ shareEvidence s1 s2 -> ~ shareEvidence s2 s1 -> (forall s, statement maxC xs s -> s = s1 \/ s = s2) ->
  question maxC xs q -> instanceOf (Stmt k a c) (s_term q) ->
  told st' (s_term q) (calcExp (ded v1 v2)).
Proof.
  intros maxC wN nB xs y rest st' k a b c s1 s2 v1 v2 q HW P FR QT F DI SZ HK NE S1 E1 V1 R1 S2 E2 V2 R2 NS NS2 ON HQ IN.
  destruct (c96_session maxC wN nB xs y rest st' HW P FR QT F DI SZ (ex_intro _ s1 S1)) as (p & Hp & H).
  assert (SC : schema JUGEMENT (s_term s1) JUGEMENT (s_term s2) (Stmt k a c) (TBoth ded)) by (rewrite E1, E2; now apply sc_trans).
  assert (O1 : occurs b (s_term s1)) by (rewrite E1; apply Relation_Operators.rt_step; constructor).
  assert (O2 : occurs b (s_term s2)) by (rewrite E2; apply Relation_Operators.rt_step; constructor).
  apply (H q (Stmt k a c)); auto using ded_pos. right. destruct (ON p Hp) as [->| ->].
  - exists s2. split; auto. split; [exists b; auto|]. split; auto. exists (TBoth ded). split; auto. now rewrite V1, V2.
  - exists s1. split; auto. split; [exists b; auto|]. split; auto. exists (TBoth ded). split; auto. rewrite V1, V2. cbn [truthVal]. now rewrite ded_comm.
Qed.

(** ** Example: a-->x, x-->b, and the question a-->b *)
Definition rQ : sentence := mkSentence (mStmt "a" "b") None QUESTION [3%Z] None None 7.
Fixpoint drive (n : nat) (st : sys) : sys :=
  match n with
  | O => st
  | S n => match exec 50 10 (ChClient 0) st with
           | Ok (Some st') => drive n st'
           | _ => match exec 50 10 ChWorker st with Ok (Some st') => drive n st' | _ => st end
           end
  end.
Definition begin (o : op) (st : sys) : sys := match exec 50 10 (ChStart 0 o) st with Ok (Some st') => drive 80 st' | _ => st end.
Definition idle0 (st : sys) : bool := match y_clients st with [CIdle] => true | _ => false end.
Lemma drive_path : forall n st0 st ops, spath 50 10 ops st0 st -> spath 50 10 ops st0 (drive n st).
Proof.
  induction n as [|n IH]; intros st0 st ops P; cbn [drive]; auto.
  destruct (exec 50 10 (ChClient 0) st) as [[st'|]|] eqn:E; [apply IH; rewrite <- (app_nil_r ops); eapply (sp_move _ _ ops _ _ (ChClient 0)); eauto| |];
  (destruct (exec 50 10 ChWorker st) as [[st'|]|] eqn:E2; auto; apply IH; rewrite <- (app_nil_r ops); eapply (sp_move _ _ ops _ _ ChWorker); eauto).
Qed.
Lemma begin_path : forall o st0 st ops, spath 50 10 ops st0 st -> idle0 st = true -> spath 50 10 (ops ++ [(0, o)]) st0 (begin o st).
Proof.
  intros o st0 st ops P H. unfold begin. unfold idle0 in H. cbn [exec]. destruct (y_clients st) as [|[| |] [|]] eqn:E; try discriminate. cbn [nth_error].
  destruct (opStart 50 o (y_sh st)) as [sh q] eqn:E1. apply drive_path. eapply (sp_move _ _ ops _ _ (ChStart 0 o)); eauto. cbn [exec]. rewrite E. cbn [nth_error]. rewrite E1. reflexivity.
Qed.
Definition rXs : list addArgs := [sArg jAX; sArg rQ; sArg jXB].
Definition r1 := begin (OpAdd (sArg jAX)) (sysMake 1).
Definition r2 := begin (OpAdd (sArg rQ)) r1.
Definition r3 := begin (OpAdd (sArg jXB)) r2.
Definition r4 := begin (OpCycle sCyc) r3.
Lemma r_path : spath 50 10 (map (fun x => (0, OpAdd x)) rXs ++ [(0, OpCycle sCyc)]) (sysMake 1) r4.
Proof.
  change (map (fun x => (0, OpAdd x)) rXs ++ [(0, OpCycle sCyc)]) with (((([] ++ [(0, OpAdd (sArg jAX))]) ++ [(0, OpAdd (sArg rQ))]) ++ [(0, OpAdd (sArg jXB))]) ++ [(0, OpCycle sCyc)]).
  unfold r4. apply begin_path; [|vm_compute; reflexivity]. unfold r3. apply begin_path; [|vm_compute; reflexivity].
  unfold r2. apply begin_path; [|vm_compute; reflexivity]. unfold r1. apply begin_path; [constructor|reflexivity].
Qed.
Lemma r_quiet : quiet 0 r4.
Proof.
  assert (H : match y_clients r4 with [CIdle] => true | _ => false end && match y_worker r4 with WIdle => true | _ => false end && match y_queue r4 with [] => true | _ => false end = true) by (vm_compute; reflexivity).
  unfold quiet. destruct (y_clients r4) as [|[| |] [|]], (y_worker r4), (y_queue r4); try discriminate H. auto.
Qed.
Definition rV : tv := ded (mT 9 10) (mT 9 10).
Example c96_ex : told r4 (s_term rQ) (calcExp rV).
Proof.
  apply (c96_syllogism 50 10 10 rXs sCyc [] r4 INH (Name "a") (Name "x") (Name "b") jAX jXB (mT 9 10) (mT 9 10) rQ); auto using r_path, r_quiet; try reflexivity.
  - lia.
  - repeat constructor; simpl; lia.
  - unfold distinct. simpl. repeat constructor; simpl; intuition discriminate.
  - simpl. lia.
  - discriminate.
  - exists (sArg jAX). split; [simpl; auto|]. split; [reflexivity|]. split; [reflexivity|]. unfold accepted. simpl. lia.
  - vm_compute. auto.
  - exists (sArg jXB). split; [simpl; auto|]. split; [reflexivity|]. split; [reflexivity|]. unfold accepted. simpl. lia.
  - vm_compute. auto.
  - intros (x & H1 & H2). simpl in H1, H2. intuition lia.
  - intros (x & H1 & H2). simpl in H1, H2. intuition lia.
  - intros s (x & [<-|[<-|[<-|[]]]] & <- & J & _); simpl; auto. discriminate J.
  - exists (sArg rQ). split; [simpl; auto|]. split; [reflexivity|]. split; [reflexivity|]. unfold accepted. simpl. lia.
  - exists (fun v => Name "a"). split; [intros v _ _ []|reflexivity].
Qed.
(** the answer is the derived statement; before the deriver moved there was none *)
Example c96_ex_log : map (fun z => checkEqTerm (s_term (snd z)) (mStmt "a" "b")) (y_log r4) = [true] /\ y_log r3 = [].
Proof. vm_compute. auto. Qed.

Print Assumptions c96_handled.
Print Assumptions c96_cycle.
Print Assumptions c96_session.
Print Assumptions c96_syllogism.
