(** Typed rules are followed; plans of two steps. *)
From Coq Require Import String Ascii ZArith Bool Lia List.
From Verif Require Import Base F64_Model Term_Model Term_Spec Term_Proofs Unify_Proofs Stamp_Model Tv_Model Sentence_Model Mem_Model Mem_Spec Mem_Proofs PMem_Model PMem_Proofs
  Goal_Model Goal_Spec Goal_Proofs Goal2_Proofs Goal3_Proofs Goal4_Proofs Proc_Model Proc_Spec ProcA_Proofs ProcB_Proofs ProcV_Proofs Parser_Model Nar_Model Nar_Spec Nar_Proofs Nar2_Proofs Serial_Spec Teach_Spec Teach_Proofs Teach2_Proofs Plan_Spec.
Import ListNotations.
Local Open Scope string_scope.
Local Open Scope list_scope.
Local Open Scope Z_scope.

(** * Two beliefs, one after the other *)
Lemma back1 : forall s P v u S vs, s_term s = Stmt PREDIMPL S P -> ~ In (-1) (s_stamp s) -> retTv s = Some vs ->
  infGoalBelief (newEternalSentenceByTv P GOAL v (newStamp [-1]) u) s u = Ok (Some (newEternalSentenceByTv S GOAL (dedGoal v vs) (merge (newStamp [-1]) (s_stamp s)) u)).
Proof.
  intros s P v u S vs T N V. unfold infGoalBelief. rewrite T. cbn [newEternalSentenceByTv s_term s_stamp]. rewrite checkEqTerm_refl. cbn [negb].
  destruct (checkOverlap (newStamp [-1]) (s_stamp s)) eqn:Ov.
  - exfalso. apply N. unfold checkOverlap, newStamp in Ov. cbn [existsb] in Ov. rewrite orb_false_r in Ov. apply existsb_exists in Ov. destruct Ov as (y & Y & E). apply Z.eqb_eq in E. now subst.
  - rewrite V. reflexivity.
Qed.
Section Two.
  Variables (n : pnar) (r : step1In) (n' : pnar) (tr : list event) (e : event) (A O1 B O2 C : term) (v : tv) (args : list term) (name : string) (o : op).
  Hypothesis R : narStep1 n true r = Ok n'.
  Hypothesis GR : gReach (n_goals n).
  Hypothesis TR : n_trace n = tr ++ [e].
  Hypothesis EA : ev_name e = A.
  Hypothesis OC : opCall O1 args name.
  Hypothesis FN : firstNamed (n_ops n) name o.
  Hypothesis PL : op_kind o = OpPlain.
  Hypothesis TH : fltb f0 (c_thresh (n_cfg n)) = true.
  Hypothesis BS : exists a, relevant n A a.
  Hypothesis BA : forall a, relevant n A a -> leads n A O1 B a /\ strong n a.
  Hypothesis BS2 : exists b, relevant n B b.
  Hypothesis BA2 : forall b, relevant n B b -> leads n B O2 C b.
  Hypothesis BV : forall a b, relevant n A a -> relevant n B b -> reaches n v a b.
  Hypothesis UB : unwanted n B.
  Hypothesis WA : wants n C v.
  Hypothesis NO : noneFor n O1.
  Lemma plan2 : forall b1, planForward n (i_u r) (i_plan r) None = Ok b1 ->
    exists a x, relevant n A a /\ b1 = Some (mkBest (Seq [A; O1]) x (Some a)) /\ fltb (c_thresh (n_cfg n)) x = true.
  Proof.
    intros b1 H. unfold planForward in H. rewrite (recent_last n tr e TR) in H. rewrite term_clone_id, EA in H. cbn [plan] in H.
    destruct (query_by_antecedent A (n_mem n)) as [qr|] eqn:Q; [|discriminate]. cbn [rbind] in H. pose proof (antecedent_spec _ _ _ Q) as Sp.
    destruct BS as (a0 & B1 & B2). destruct qr as [|q0 qr]; [exfalso; apply (Sp a0); split; [exact B1|exact B2]|]. set (l := q0 :: qr) in *.
    destruct (idx l (Nat.modulo (hd 0%nat (i_plan r)) (length l))) as [a|] eqn:I; [|discriminate]. cbn [rbind] in H.
    assert (Ha : In a l) by (unfold idx, unwrap in I; destruct (nth_error l _) eqn:E; [injection I as <-; eapply nth_error_In; eauto|discriminate]).
    apply Sp in Ha. assert (Rv : relevant n A a) by exact Ha. destruct (BA a Rv) as ((T & St) & _).
    rewrite T in H. cbn [retPred rbind app] in H. rewrite term_clone_id in H. destruct WA as (GS & GA & _).
    pose proof (query_spec (n_goals n) B) as G. destruct (query (n_goals n) B) as [hit|].
    { exfalso. destruct G as (G1 & G2). apply (UB hit); [|exact G2]. apply stored_iff. apply in_app_or in G1. destruct G1 as [G1|G1]; [exact G1|]. unfold retEntries. apply in_or_app. now right. }
    clear G. destruct (query_by_antecedent B (n_mem n)) as [qr2|] eqn:Q2; [|discriminate]. cbn [rbind] in H. pose proof (antecedent_spec _ _ _ Q2) as Sp2.
    destruct BS2 as (b0 & C1 & C2). destruct qr2 as [|q1 qr2]; [exfalso; apply (Sp2 b0); split; [exact C1|exact C2]|]. set (l2 := q1 :: qr2) in *.
    destruct (idx l2 (Nat.modulo (hd 0%nat (tl (i_plan r))) (length l2))) as [b|] eqn:I2; [|discriminate]. cbn [rbind] in H.
    assert (Hb : In b l2) by (unfold idx, unwrap in I2; destruct (nth_error l2 _) eqn:E; [injection I2 as <-; eapply nth_error_In; eauto|discriminate]).
    apply Sp2 in Hb. assert (Rv2 : relevant n B b) by exact Hb. destruct (BA2 b Rv2) as (T2 & St2). destruct (BV a b Rv Rv2) as (va & vb & Va & Vb & X).
    rewrite T2 in H. cbn [retPred rbind app] in H. rewrite term_clone_id in H.
    pose proof (query_spec (n_goals n) C) as G. destruct (query (n_goals n) C) as [hit|].
    2: { exfalso. destruct GS as (en & G1 & G2). apply (G en); [apply in_or_app; left; now apply stored_iff|exact G2]. }
    assert (Hv : retTv (e_sentence hit) = Some v).
    { destruct G as (G1 & G2). apply GA; [|exact G2]. apply stored_iff. apply in_app_or in G1. destruct G1 as [G1|G1]; [exact G1|]. unfold retEntries. apply in_or_app. now right. }
    unfold chainBack in H. rewrite Hv in H. cbn [unwrap rbind List.rev app rfold] in H. rewrite (back1 _ C v (i_u r) (Seq [B; O2]) vb T2 St2 Vb) in H.
    cbn [unwrap rbind] in H. change (retTv (newEternalSentenceByTv (Seq [B; O2]) GOAL (dedGoal v vb) (merge (newStamp [-1]) (s_stamp (rd (cells (n_mem n)) b))) (i_u r))) with (Some (dedGoal v vb)) in H.
    cbn [unwrap rbind s_term newEternalSentenceByTv retSeqCond2 idx nth_error] in H.
    rewrite (back1 _ B (dedGoal v vb) (i_u r) (Seq [A; O1]) va T St Va) in H.
    unfold newEternalSentenceByTv in H. cbn [retTv s_evi evidenceTv s_term s_punct retSeqCond2 idx nth_error unwrap rbind punct_eqb negb] in H.
    destruct (convTermToStr (Seq [A; O1])) as [txt|]; [|discriminate]. cbn [rbind better] in H. injection H as <-. eexists a, _. split; [exact Rv|]. split; [reflexivity|]. exact X.
  Qed.
  Theorem act2 : exists a iv, relevant n A a /\
    nth_error (n_table n) (Z.to_nat (match s_expDt (rd (cells (n_mem n)) a) with Some d => d | None => 0 end)) = Some iv /\
    n_trace n' = traceLimit (n_trace n ++ [mkEvent O1 (n_t n) (n_t n)]) /\
    n_ant n' = n_ant n ++ (if c_anticipate (n_cfg n) then [(a, n_t n + iv)] else []) /\ cells (n_mem n') = cells (n_mem n) /\ n_t n' = n_t n + 1.
  Proof.
    apply (actG n r n' A O1 args name o (relevant n A)); auto.
    - exact plan2.
    - intros a Ha. apply BA. exact Ha.
    - apply WA.
    - apply WA.
  Qed.
End Two.

(** * Nothing planned, nothing done *)
Section IdleG.
  Variables (n : pnar) (r : step1In) (n' : pnar).
  Hypothesis R : narStep1 n true r = Ok n'.
  Hypothesis BB : c_babble (n_cfg n) = false.
  Hypothesis NN : noOrders n.
  Hypothesis PN : forall b1, planForward n (i_u r) (i_plan r) None = Ok b1 -> decide n true (i_u r) b1 = Ok n.
  Theorem idleG : n_trace n' = traceLimit (n_trace n) /\ n_ant n' = n_ant n.
  Proof.
    pose proof R as H. unfold narStep1 in H. destruct NN as (N1 & N2). rewrite noSeq_best in H by (intros en l K; apply N1; now apply stored_iff). cbn [rbind] in H.
    destruct (planForward n (i_u r) (i_plan r) None) as [b1|] eqn:P; [|discriminate]. cbn [rbind] in H. rewrite (PN _ eq_refl) in H. clear P. cbn [rbind] in H.
    unfold execGoal in H. destruct (pickGoal _ _) as [pk|] eqn:Pk; [|discriminate]. cbn [rbind] in H.
    assert (pk = None). { unfold pickGoal in Pk. destruct (rfold _ _ _) as [st|] eqn:F; [|discriminate]. apply pick_none in F; [|exact N2]. subst st. cbn [rbind] in Pk. congruence. }
    subst pk. cbn [rbind] in H. unfold babble in H. rewrite BB in H. cbn [andb rbind execAction] in H. cbv zeta in H.
    destruct (Z.rem _ 101 =? 1).
    - destruct (pLimit _ _) as [m|]; [|discriminate]. cbn [rbind setMem n_t n_goals] in H. destruct (Z.rem _ 13 =? 1).
      + cbn [enforce rbind] in H. destruct (limitGoals _ _ _); [|discriminate]. cbn [rbind] in H. destruct (rfold _ _ _); [|discriminate]. cbn [rbind] in H. injection H as <-. cbn. auto.
      + cbn [rbind] in H. destruct (rfold _ _ _); [|discriminate]. cbn [rbind] in H. injection H as <-. cbn. auto.
    - cbn [rbind n_t n_goals] in H. destruct (Z.rem _ 13 =? 1).
      + cbn [enforce rbind] in H. destruct (limitGoals _ _ _); [|discriminate]. cbn [rbind] in H. destruct (rfold _ _ _); [|discriminate]. cbn [rbind] in H. injection H as <-. cbn. auto.
      + cbn [rbind] in H. destruct (rfold _ _ _); [|discriminate]. cbn [rbind] in H. injection H as <-. cbn. auto.
  Qed.
End IdleG.

(** * Three beliefs are too many *)
Section Far.
  Variables (n : pnar) (r : step1In) (n' : pnar) (tr : list event) (e : event) (A : term).
  Hypothesis R : narStep1 n true r = Ok n'.
  Hypothesis TR : n_trace n = tr ++ [e].
  Hypothesis EA : ev_name e = A.
  Hypothesis BB : c_babble (n_cfg n) = false.
  Hypothesis NN : noOrders n.
  (** what one or two beliefs lead to is not wanted *)
  Hypothesis U1 : forall a rest B, In a (pBeliefs (n_mem n) [A]) -> s_term (rd (cells (n_mem n)) a) = Stmt PREDIMPL (Seq (A :: rest)) B ->
    unwanted n B /\ forall b rest' D, In b (pBeliefs (n_mem n) [B]) -> s_term (rd (cells (n_mem n)) b) = Stmt PREDIMPL (Seq (B :: rest')) D -> unwanted n D.
  Lemma notHit : forall B, unwanted n B -> query (n_goals n) B = None.
  Proof.
    intros B U. pose proof (query_spec (n_goals n) B) as G. destruct (query (n_goals n) B) as [hit|]; [|reflexivity]. exfalso. destruct G as (G1 & G2). apply (U hit); [|exact G2]. apply stored_iff.
    apply in_app_or in G1. destruct G1 as [G1|G1]; [exact G1|]. unfold retEntries. apply in_or_app. now right.
  Qed.
  Lemma picked : forall l k (a : nat), idx l k = Ok a -> In a l.
  Proof. intros l k a I. unfold idx, unwrap in I. destruct (nth_error l _) eqn:E; [injection I as <-; eapply nth_error_In; eauto|discriminate]. Qed.
  Lemma plan3 : forall b1, planForward n (i_u r) (i_plan r) None = Ok b1 -> b1 = None.
  Proof.
    intros b1 H. unfold planForward in H. rewrite (recent_last n tr e TR) in H. rewrite term_clone_id, EA in H. cbn [plan] in H.
    destruct (query_by_antecedent A (n_mem n)) as [qr|] eqn:Q; [|discriminate]. cbn [rbind] in H. pose proof (antecedent_spec _ _ _ Q) as Sp.
    destruct qr as [|q0 qr]; [congruence|]. set (l := q0 :: qr) in *.
    destruct (idx l _) as [a|] eqn:I; [|discriminate]. cbn [rbind] in H. apply picked in I. apply Sp in I. destruct I as (Ha & rest & B & T). destruct (U1 a rest B Ha T) as (UB & U2).
    rewrite T in H. cbn [retPred rbind app] in H. rewrite term_clone_id, (notHit B UB) in H.
    destruct (query_by_antecedent B (n_mem n)) as [qr2|] eqn:Q2; [|discriminate]. cbn [rbind] in H. pose proof (antecedent_spec _ _ _ Q2) as Sp2.
    destruct qr2 as [|q1 qr2]; [congruence|]. set (l2 := q1 :: qr2) in *.
    destruct (idx l2 _) as [b|] eqn:I; [|discriminate]. cbn [rbind] in H. apply picked in I. apply Sp2 in I. destruct I as (Hb & rest' & D & T2). specialize (U2 b rest' D Hb T2).
    rewrite T2 in H. cbn [retPred rbind app] in H. rewrite term_clone_id, (notHit D U2) in H.
    destruct (query_by_antecedent D (n_mem n)) as [qr3|] eqn:Q3; [|discriminate]. cbn [rbind] in H. pose proof (antecedent_spec _ _ _ Q3) as Sp3.
    destruct qr3 as [|q2 qr3]; [congruence|]. set (l3 := q2 :: qr3) in *.
    destruct (idx l3 _) as [c|] eqn:I; [|discriminate]. cbn [rbind] in H. apply picked in I. apply Sp3 in I. destruct I as (_ & rest3 & E & T3). rewrite T3 in H. cbn [retPred rbind] in H. congruence.
  Qed.
  Theorem idle : n_trace n' = traceLimit (n_trace n) /\ n_ant n' = n_ant n.
  Proof. apply (idleG n r n' R BB NN). intros b1 P. apply plan3 in P. now subst b1. Qed.
End Far.
