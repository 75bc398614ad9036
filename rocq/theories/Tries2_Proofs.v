(** Beliefs with counted evidence: when they are acted on and when they are given up. *)
From Coq Require Import String Ascii ZArith Bool Lia List.
From Verif Require Import Base F64_Model Term_Model Term_Spec Term_Proofs Unify_Proofs Stamp_Model Tv_Model Sentence_Model Mem_Model Mem_Spec Mem_Proofs PMem_Model PMem_Proofs
  Goal_Model Goal_Spec Goal_Proofs Goal2_Proofs Goal3_Proofs Goal4_Proofs Proc_Model Proc_Spec ProcA_Proofs ProcB_Proofs ProcV_Proofs Parser_Model Nar_Model Nar_Spec Nar_Proofs Nar2_Proofs Serial_Spec Teach_Spec Teach_Proofs Teach2_Proofs Plan_Spec Plan_Proofs Tries_Spec Tries_Proofs.
Import ListNotations.
Local Open Scope string_scope.
Local Open Scope list_scope.
Local Open Scope Z_scope.

Section Weak.
  Variables (n : pnar) (r : step1In) (n' : pnar) (tr : list event) (e : event) (A C : term).
  Hypothesis R : narStep1 n true r = Ok n'.
  Hypothesis TR : n_trace n = tr ++ [e].
  Hypothesis EA : ev_name e = A.
  Hypothesis BB : c_babble (n_cfg n) = false.
  Hypothesis TH : c_thresh (n_cfg n) = usual.
  Hypothesis NN : noOrders n.
  Hypothesis WA : forall en, stored (n_goals n) en -> e_term en = C -> retTv (e_sentence en) = Some defaultTv.
  Hypothesis WE : exists en, stored (n_goals n) en /\ e_term en = C.
  Hypothesis W : forall a, relevant n A a -> exists O p c, tried n A O C a p c /\ 0 <= p <= c /\ 1 <= c < 2 ^ 20 /\ 45 * p * (2 * p - c) < 8 * c * (c + 1).
  Lemma planW : forall b1, planForward n (i_u r) (i_plan r) None = Ok b1 -> b1 = None \/ exists q x a, b1 = Some (mkBest q x a) /\ fltb usual x = false.
  Proof.
    intros b1 H. unfold planForward in H. rewrite (recent_last n tr e TR) in H. rewrite term_clone_id, EA in H. cbn [plan] in H.
    destruct (query_by_antecedent A (n_mem n)) as [qr|] eqn:Q; [|discriminate]. cbn [rbind] in H. pose proof (antecedent_spec _ _ _ Q) as Sp.
    destruct qr as [|q0 qr]; [left; congruence|]. set (l := q0 :: qr) in *.
    destruct (idx l _) as [a|] eqn:I; [|discriminate]. cbn [rbind] in H. apply picked in I. apply Sp in I. destruct (W a I) as (O & p & c & (T & St & Ev) & P & Cc & L).
    rewrite T in H. cbn [retPred rbind app] in H. rewrite term_clone_id in H.
    pose proof (query_spec (n_goals n) C) as G. destruct (query (n_goals n) C) as [hit|].
    2: { exfalso. destruct WE as (en & G1 & G2). apply (G en); [apply in_or_app; left; now apply stored_iff|exact G2]. }
    assert (Hv : retTv (e_sentence hit) = Some defaultTv).
    { destruct G as (G1 & G2). apply WA; [|exact G2]. apply stored_iff. apply in_app_or in G1. destruct G1 as [G1|G1]; [exact G1|]. unfold retEntries. apply in_or_app. now right. }
    assert (Va : retTv (rd (cells (n_mem n)) a) = Some (evidenceTv (CNT p c))) by (unfold retTv; now rewrite Ev).
    unfold chainBack in H. rewrite Hv in H. cbn [unwrap rbind List.rev app rfold] in H. rewrite (back1 _ C defaultTv (i_u r) (Seq [A; O]) _ T St Va) in H. cbn [unwrap rbind] in H.
    change (retTv (newEternalSentenceByTv (Seq [A; O]) GOAL (dedGoal defaultTv (evidenceTv (CNT p c))) (merge (newStamp [-1]) (s_stamp (rd (cells (n_mem n)) a))) (i_u r))) with (Some (dedGoal defaultTv (evidenceTv (CNT p c)))) in H.
    cbn [unwrap rbind s_term newEternalSentenceByTv retSeqCond2 idx nth_error] in H.
    destruct (convTermToStr (Seq [A; O])) as [txt|]; [|discriminate]. cbn [rbind better] in H. injection H as <-. right. eexists _, _, _. split; [reflexivity|].
    destruct (fltb usual (calcExp (dedGoal defaultTv (evidenceTv (CNT p c))))) eqn:E; [|exact E]. exfalso. apply wished_only in E; lia.
  Qed.
  Theorem resigned : n_trace n' = traceLimit (n_trace n) /\ n_ant n' = n_ant n.
  Proof.
    apply (idleG n r n' R BB NN). intros b1 P. apply planW in P. destruct P as [->|(q & x & a & -> & X)]; [reflexivity|]. cbn [decide]. destruct a as [a|]; [|reflexivity]. unfold fgtb. rewrite TH. unfold fltb in X. now rewrite X.
  Qed.
End Weak.

Lemma tried_advises : forall n A O C a p c, c_thresh (n_cfg n) = usual -> tried n A O C a p c -> 0 <= p <= c -> 1 <= c < 2 ^ 20 -> 8 * c * (c + 1) < 45 * p * (2 * p - c) -> advises n A O C defaultTv a.
Proof.
  intros n A O C a p c TH (T & St & Ev) P Cc L. split; [exact T|]. split; [exact St|]. exists (evidenceTv (CNT p c)). rewrite TH. split; [unfold retTv; now rewrite Ev|].
  assert (2 ^ 20 < 2 ^ 40) by now vm_compute. split; [apply strong_if; try lia; apply wished_strong; lia|now apply wished_if].
Qed.
