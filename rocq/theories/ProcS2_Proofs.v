(** Proofs for ProcS_Model: the worker without interference. *)
From Coq Require Import String ZArith Bool List Lia.
From Verif Require Import Base Term_Model Stamp_Model Tv_Model Sentence_Model Mem_Model PMem_Model Goal_Model Proc_Model ProcS_Model Goal_Proofs.
Import ListNotations.
Local Open Scope Z_scope.
Definition fileAll (us : nat -> usage) (nB : nat) (now : Z) (todo : list sentence) (m : pmem) : res pmem :=
  rfold (fun m s => mem_add_evidence_internal us m s nB now) todo m.
Lemma worker_chan : forall us y y', workerRuns us y y' -> (length (y_chan y') <= length (y_chan y))%nat /\ y_main y' = y_main y.
Proof.
  intros us y y' H. induction H as [|y y1 y2 S W H (IH1 & IH2)]; [auto|]. destruct S; cbn [y_chan y_main y_work length] in *; try contradiction; split; auto; lia.
Qed.
Definition worksOff (us : nat -> usage) (y : psys) (n' : pnar) : Prop :=
  let n := y_nar y in
  match y_work y with
  | WIdle => n' = n
  | WMerge s now l rv => exists h rv', rfold (mergeStep s) l (cells (n_mem n), rv) = Ok (h, rv') /\
      if rv' then n' = setCells n h
      else exists draws vs m', matchandintro_var1_sentence s draws = Ok vs /\ fileAll us (c_nBeliefs (n_cfg n)) now (s :: vs) (mkPmem h (pcs (n_mem n))) = Ok m' /\ n' = setMem n m'
  | WAdd now todo => exists m', fileAll us (c_nBeliefs (n_cfg n)) now todo (n_mem n) = Ok m' /\ n' = setMem n m'
  end.
Lemma setMem_self : forall n, setMem n (n_mem n) = n. Proof. now intros []. Qed.
Lemma setMem_twice : forall n a b, setMem (setMem n a) b = setMem n b. Proof. now intros []. Qed.
Lemma mem_setMem : forall n a, n_mem (setMem n a) = a. Proof. now intros []. Qed.
Lemma cfg_setMem : forall n a, n_cfg (setMem n a) = n_cfg n. Proof. now intros []. Qed.
Lemma pmem_self : forall m, mkPmem (cells m) (pcs m) = m. Proof. now intros []. Qed.
Lemma worker_alone : forall us y y', workerRuns us y y' -> y_work y' = WIdle -> length (y_chan y') = length (y_chan y) -> worksOff us y (y_nar y').
Proof.
  intros us y y' H Wi. induction H as [y|y y1 y2 S W H IH]; intros Lc.
  - unfold worksOff. rewrite Wi. reflexivity.
  - specialize (IH Wi). destruct (worker_chan _ _ _ H) as (Lc' & _).
    destruct S; cbn [y_chan y_main y_work y_nar length worksOff] in *; try contradiction; try lia; unfold worksOff in IH; cbn [y_work y_nar] in IH; unfold worksOff; cbn [y_work y_nar].
    + destruct (IH Lc) as (h' & rv' & R & X). unfold setCells in *. rewrite !mem_setMem, ?cfg_setMem, ?setMem_twice in *. cbn [cells pcs] in R. exists h', rv'. split.
      * cbn [rfold]. unfold mergeStep at 1. cbn [fst snd]. rewrite H0. cbn [rbind]. exact R.
      * destruct rv'; [exact X|]. destruct X as (dr & vs & m' & X1 & X2 & X3). rewrite ?cfg_setMem, ?mem_setMem in X2. cbn [pcs] in X2. rewrite ?setMem_twice in X3. eauto 6.
    + rewrite (IH Lc). exists (cells (n_mem n)), true. split; [reflexivity|]. unfold setCells. now rewrite pmem_self, setMem_self.
    + destruct (IH Lc) as (m' & R & X). exists (cells (n_mem n)), false. split; [reflexivity|]. rewrite pmem_self. eauto 6.
    + destruct (IH Lc) as (m' & R & X). rewrite cfg_setMem, mem_setMem in R. rewrite setMem_twice in X. exists m'. split; [|exact X]. unfold fileAll. cbn [rfold]. rewrite H0. exact R.
    + rewrite (IH Lc). exists (n_mem n). split; [reflexivity|]. now rewrite setMem_self.
Qed.
Lemma cons_neq : forall X (a : X) l, l <> a :: l.
Proof. intros X a l E. apply (f_equal (@length X)) in E. cbn in E. lia. Qed.
Lemma files : forall us p c now todo n m', fileAll us (c_nBeliefs (n_cfg n)) now todo (n_mem n) = Ok m' ->
  workerRuns us (mkPsys n p c (WAdd now todo)) (mkPsys (setMem n m') p c WIdle).
Proof.
  intros us p c now. induction todo as [|s todo IH]; intros n m' H.
  - injection H as <-. rewrite setMem_self. eapply wr_more; [apply y_wallfiled|discriminate|apply wr_none].
  - unfold fileAll in H. cbn [rfold] in H. destruct (mem_add_evidence_internal us (n_mem n) s (c_nBeliefs (n_cfg n)) now) as [m|] eqn:E; [|discriminate]. cbn [rbind] in H.
    eapply wr_more; [apply y_wfiled, E|cbn; intros X; injection X as X; now apply cons_neq in X|].
    rewrite <- (setMem_twice n m m'). apply IH. rewrite cfg_setMem, mem_setMem. exact H.
Qed.
Lemma merges : forall us p c s now draws l n rv h rv' m', rfold (mergeStep s) l (cells (n_mem n), rv) = Ok (h, rv') ->
  (if rv' then m' = mkPmem h (pcs (n_mem n)) else exists vs, matchandintro_var1_sentence s draws = Ok vs /\ fileAll us (c_nBeliefs (n_cfg n)) now (s :: vs) (mkPmem h (pcs (n_mem n))) = Ok m') ->
  workerRuns us (mkPsys n p c (WMerge s now l rv)) (mkPsys (setMem n m') p c WIdle).
Proof.
  intros us p c s now draws. induction l as [|a l IH]; intros n rv h rv' m' R X.
  - injection R as <- <-. rewrite pmem_self in X. destruct rv.
    + subst. rewrite setMem_self. eapply wr_more; [apply y_revised|discriminate|apply wr_none].
    + destruct X as (vs & V & Fi). eapply wr_more; [apply y_new with (1 := V)|discriminate|]. now apply files.
  - cbn [rfold] in R. unfold mergeStep at 1 in R. cbn [fst snd] in R. destruct (mergeInto s (cells (n_mem n)) a) as [(h1, b)|] eqn:M; [|discriminate]. cbn [rbind] in R.
    eapply wr_more; [apply y_merge with (1 := M)|cbn; intros Y; injection Y as Y; now apply cons_neq in Y|]. unfold setCells. rewrite <- (setMem_twice n (mkPmem h1 (pcs (n_mem n))) m'). eapply IH; rewrite ?mem_setMem; cbn [cells pcs]; [exact R|].
    rewrite cfg_setMem. exact X.
Qed.
Theorem worker_is_store : forall us n p s now c n', workerRuns us (mkPsys n p ((s, now) :: c) WIdle) (mkPsys n' p c WIdle) <->
  exists draws m', storeEvidence us (n_mem n) s now (c_nBeliefs (n_cfg n)) draws = Ok m' /\ n' = setMem n m'.
Proof.
  intros us n p s now c n'. split.
  - intros H. inversion H as [y E1 E2|y y1 y2 S W H1]; subst; [exfalso; eapply cons_neq; symmetry; eassumption|].
    inversion S; subst; cbn [y_work] in W; try contradiction. apply worker_alone in H1; [|reflexivity|reflexivity]. unfold worksOff in H1. cbn [y_work y_nar] in H1. destruct H1 as (h & rv' & R & X).
    destruct rv'.
    + exists [], (mkPmem h (pcs (n_mem n))). unfold storeEvidence. match goal with M : mergeTargets _ _ = Ok _ |- _ => rewrite M end. cbn [rbind]. rewrite R. cbn [rbind]. auto.
    + destruct X as (dr & vs & m' & V & Fi & ->). exists dr, m'. split; auto. unfold storeEvidence. match goal with M : mergeTargets _ _ = Ok _ |- _ => rewrite M end. cbn [rbind]. rewrite R. cbn [rbind].
      unfold fileAll in Fi. cbn [rfold] in Fi. unfold mem_add_evidence. destruct (mem_add_evidence_internal _ _ _ _ _) as [m1|]; [|discriminate]. cbn [rbind] in *. rewrite V. cbn [rbind]. exact Fi.
  - intros (dr & m' & St & ->). unfold storeEvidence in St. destruct (mergeTargets (n_mem n) s) as [l|] eqn:M; [|discriminate]. cbn [rbind] in St. destruct (rfold (mergeStep s) l (cells (n_mem n), false)) as [(h, rv)|] eqn:R; [|discriminate]. cbn [rbind] in St.
    eapply wr_more; [apply y_recv with (1 := M)|discriminate|]. eapply (merges us p c s now dr l n false h rv m' R). destruct rv; [now injection St as <-|].
    unfold mem_add_evidence in St. destruct (mem_add_evidence_internal _ _ _ _ _) as [m1|] eqn:I; [|discriminate]. cbn [rbind] in St. destruct (matchandintro_var1_sentence s dr) as [vs|] eqn:V; [|discriminate]. cbn [rbind] in St.
    exists vs. split; auto. unfold fileAll. cbn [rfold]. rewrite I. exact St.
Qed.
