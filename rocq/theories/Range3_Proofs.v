(** The integers of the whole program stay small. *)
From Coq Require Import String Ascii ZArith Bool List Lia.
From Verif Require Import Base F64_Model Term_Model Stamp_Model Tv_Model Sentence_Model Mem_Model Cycle_Model Sched_Model
  PMem_Model Goal_Model Proc_Model ProcS_Model ProcX_Model Parser_Model Nar_Model Whole_Model
  Goal_Spec Goal_Proofs Goal2_Proofs Range_Spec Range_Proofs Range2_Proofs.
Import ListNotations.
Local Open Scope list_scope.
Local Open Scope Z_scope.

Section Whole.
Variable M : Z.
Hypothesis M10 : 10 <= M.
Variable pf : text -> option f64.

Definition jobFine (k : Z) (j : job) : Prop :=
  match j with JRel t _ => upto k t | JOp o => upto M (op_evi o) | _ => True end.
Record wFine (k : Z) (w : whole) : Prop := mkWFine {
  wf_decl : dOk k (w_decl w);
  wf_stamp : upto k (stampCtr (y_sh (w_decl w)));
  wf_time : upto k (w_time w);
  wf_proc : pFine M k (w_proc w);
  wf_jobs : Forall (jobFine k) (w_jobs w)
}.
Definition need (j : job) : Z := match j with JStep1 r => Z.of_nat (length (i_derive r)) | _ => 0 end.
Definition pend (l : list job) : Z := fold_right (fun j n => need j + n) 0 l.
Lemma pend_pos : forall l, 0 <= pend l.
Proof. induction l as [|j l IH]; cbn; [lia|]. fold (pend l). assert (0 <= need j) by (destruct j; cbn; lia). lia. Qed.
Lemma pend_app : forall a b, pend (a ++ b) = pend a + pend b.
Proof. induction a as [|j a IH]; intros b; [reflexivity|]. change (pend ((j :: a) ++ b)) with (need j + pend (a ++ b)). change (pend (j :: a)) with (need j + pend a). rewrite IH. lia. Qed.
Lemma pend_none : forall l, (forall j, In j l -> need j = 0) -> pend l = 0.
Proof. induction l as [|j l IH]; intros H; cbn; [lia|]. fold (pend l). rewrite IH by (intros; apply H; now right). rewrite (H j) by now left. lia. Qed.
Lemma jobFine_more : forall k k' j, k <= k' -> jobFine k j -> jobFine k' j.
Proof. intros k k' j L H. destruct j; cbn in *; auto. eapply upto_more; eauto. Qed.
Lemma wFine_more : forall k k' w, k <= k' -> wFine k w -> wFine k' w.
Proof.
  intros k k' w L [A B C D E]. constructor.
  - eapply dOk_more; eauto.
  - eapply upto_more; eauto.
  - eapply upto_more; eauto.
  - eapply pFine_more; eauto.
  - eapply Forall_impl; [|exact E]. intros j. now apply jobFine_more.
Qed.
Lemma seen_ok : forall k w, dOk k (w_decl w) -> dOk k (seen w).
Proof.
  intros k w [A B C D]. unfold seen. destruct (w_wired w); [|now constructor]. constructor; auto. cbn [y_sh withSh]. eapply shOk_same; eauto.
Qed.
Lemma seen_stamp : forall w, stampCtr (y_sh (seen w)) = stampCtr (y_sh (w_decl w)).
Proof. intros w. unfold seen. destruct (w_wired w); reflexivity. Qed.
Lemma decl_fine : forall k s maxC w c w', 0 <= k -> dOk k (w_decl w) -> upto s (stampCtr (y_sh (w_decl w))) -> k + 1 <= s -> upto s (w_time w) -> pFine M s (w_proc w) -> Forall (jobFine s) (w_jobs w) ->
  (forall i o, c = ChStart i o -> opTime (k + 1) o) -> declStep maxC w c = Ok (Some w') -> wFine s w' /\ w_jobs w' = w_jobs w.
Proof.
  intros k s maxC w c w' K A B L C D E Hc H. unfold declStep in H. destruct (exec maxC (w_nB w) c (seen w)) as [[d|]|] eqn:X; cbn [rbind] in H; [|discriminate|discriminate]. injection H as <-.
  destruct (exec_ok k _ _ _ _ _ K (seen_ok _ _ A) Hc X) as (Y1 & Y2). rewrite seen_stamp in Y2. split; [|reflexivity]. constructor; cbn [w_decl w_time w_proc w_jobs wDecl]; auto.
  - apply (dOk_more (k + 1)); auto.
  - now rewrite Y2.
Qed.
Lemma proc_fine' : forall k s w a w', 0 <= k -> k + 1 + derivs a <= s -> pFine M k (w_proc w) -> wFine s w -> procStep w a = Ok (Some w') -> wFine s w' /\ w_jobs w' = w_jobs w.
Proof.
  intros k s w a w' K L P F H. unfold procStep in H. destruct (yact _ _ a) as [[y|]|] eqn:X; cbn [rbind] in H; [|discriminate|discriminate]. injection H as <-.
  assert (Y := act_fine M M10 _ k _ _ _ K P X). apply (pFine_more M M10 _ s) in Y; auto.
  destruct F as [A B C D E]. split; [|reflexivity]. constructor; auto.
Qed.
Lemma proc_fine : forall k w a w', 0 <= k -> wFine k w -> procStep w a = Ok (Some w') -> wFine (k + 1 + derivs a) w' /\ w_jobs w' = w_jobs w.
Proof.
  intros k w a w' K F H. assert (0 <= derivs a) by (destruct a; cbn; lia). apply (proc_fine' k (k + 1 + derivs a)) in H; auto; [lia|apply F|]. apply (wFine_more k); auto; lia.
Qed.
Lemma take_fine : forall k w id u d, wFine k w -> takeId (y_sh (w_decl w)) = (id, u, d) ->
  let w1 := wDecl w (withSh (w_decl w) d) in
  dOk k (w_decl w1) /\ upto (k + 1) (stampCtr (y_sh (w_decl w1))) /\ upto (k + 1) (w_time w1) /\ pFine M (k + 1) (w_proc w1) /\ Forall (jobFine (k + 1)) (w_jobs w1) /\ wFine (k + 1) w1.
Proof.
  intros k w id u d F T w1. unfold takeId in T. injection T as <- <- <-. assert (S := wf_stamp _ _ F). assert (D := wf_decl _ _ F). apply (wFine_more k (k + 1)) in F; [|lia]. destruct F as [A B C P E].
  assert (X : dOk k (w_decl w1)).
  { destruct D as [D1 D2 D3 D4]. constructor; auto. cbn [y_sh withSh w_decl wDecl w1]. eapply shOk_same; eauto. }
  assert (Y : upto (k + 1) (stampCtr (y_sh (w_decl w1)))) by (cbn; unfold upto in *; lia).
  split; [auto|]. split; [auto|]. split; [auto|]. split; [auto|]. split; [auto|]. constructor; auto. apply (dOk_more k); auto. lia.
Qed.
Lemma put_fine : forall k w t p v ev draws w', 0 <= k -> wFine k w -> putIn w t p v ev draws = Ok (Some w') -> exists k', k' <= k + 1 /\ wFine k' w' /\ w_jobs w' = w_jobs w.
Proof.
  intros k w t p v ev draws w' K F H. unfold putIn in H. destruct (takeId (y_sh (w_decl w))) as [[id u] d] eqn:T.
  assert (Nt : upto k (n_t (y_nar (w_proc w)))) by apply (wf_proc _ _ F).
  destruct (take_fine _ _ _ _ _ F T) as (A & B & C & D & E & F1). set (w1 := wDecl w (withSh (w_decl w) d)) in *.
  assert (Nt1 : n_t (y_nar (w_proc w1)) = n_t (y_nar (w_proc w))) by reflexivity. assert (J : w_jobs w1 = w_jobs w) by reflexivity. assert (Pe : w_proc w1 = w_proc w) by reflexivity. clearbody w1. cbv zeta in H.
  set (s := newEternalSentenceByTv t p v (newStamp [id]) u) in *. destruct (if w_verb w1 >=? 1 then _ else _) as [[]|]; [|discriminate]. cbn [rbind] in H.
  assert (Ad : forall w', declStep (w_maxC w1) w1 (ChStart 0 (OpAdd (mkAddArgs s true f1 (w_nB w1) (n_t (y_nar (w_proc w1)))))) = Ok (Some w') -> exists k', k' <= k + 1 /\ wFine k' w' /\ w_jobs w' = w_jobs w).
  { intros w2 H2. exists (k + 1). split; [lia|]. rewrite <- J. apply (decl_fine k (k + 1) _ _ _ _ K A B) in H2; auto; try lia. intros i o [= _ <-]. cbn [opTime ar_now]. rewrite Nt1. apply (upto_more k); auto. lia. }
  assert (Pr : forall a w', derivs a = 0 -> procStep w1 a = Ok (Some w') -> exists k', k' <= k + 1 /\ wFine k' w' /\ w_jobs w' = w_jobs w).
  { intros a w2 Da H2. apply (proc_fine' k (k + 1)) in H2; auto; [|rewrite Da; lia|rewrite Pe; apply F]. rewrite J in H2. exists (k + 1). split; [lia|exact H2]. }
  destruct ev; [destruct p|destruct (isTemporal t); destruct p]; try (apply Ad; exact H); try (eapply Pr; [|exact H]; reflexivity);
    (injection H as <-; exists (k + 1); split; [lia|]; now split).
Qed.
Definition noLater (k : Z) (w w' : whole) (c : Z) : Prop := exists k', 0 <= k' /\ wFine k' w' /\ k' + pend (w_jobs w') <= k + pend (w_jobs w) + c.
Lemma job_fine : forall k w j w', 0 <= k -> wFine k w -> jobFine k j -> startJob pf w j = Ok (Some w') -> noLater k w w' (1 + need j).
Proof.
  intros k w j w' K F Fj H. destruct j as [i draws| |r|t args|expf sel| |o|b| | |]; cbn [startJob need] in *.
  - destruct (parseNarsese pf i) as [[[[[t v] p] ev]|]|]; cbn [rbind] in H; [| |discriminate].
    + destruct (put_fine _ _ _ _ _ _ _ _ K F H) as (k' & L & W & J). exists (Z.max k k'). split; [lia|]. split; [apply (wFine_more k'); auto; lia|]. rewrite J. lia.
    + injection H as <-. exists k. split; [auto|]. split; [auto|lia].
  - destruct (proc_fine k _ _ _ K F H) as (W & J). cbn [derivs] in W. exists (k + 1 + 0). split; [lia|]. split; [auto|]. rewrite J. lia.
  - destruct (nlpOf _ _) as [calls|]; [|discriminate]. cbn [rbind] in H. destruct (procStep w (XStep1 true r)) as [[w2|]|] eqn:X; cbn [rbind] in H; [|discriminate|discriminate]. injection H as <-.
    destruct (proc_fine k _ _ _ K F X) as (W & J). cbn [derivs] in W. set (k1 := k + 1 + Z.of_nat (length (i_derive r))) in *. exists k1. split; [lia|]. split.
    + assert (Nt : upto k (n_t (y_nar (w_proc w)))) by apply (wf_proc _ _ F). destruct W as [A B C D E]. constructor; auto. cbn [w_jobs wJobs]. apply Forall_app. split; auto.
      apply Forall_forall. intros j Hj. apply in_map_iff in Hj. destruct Hj as (x & <- & _). cbn. apply (upto_more k); auto. lia.
    + cbn [w_jobs wJobs]. rewrite pend_app, J, pend_none; [lia|]. intros j Hj. apply in_map_iff in Hj. destruct Hj as (x & <- & _). reflexivity.
  - assert (Same : Ok (Some w) = Ok (Some w') -> noLater k w w' (1 + 0)) by (intros Q; injection Q as <-; exists k; split; [auto|]; split; [auto|lia]).
    destruct args as [|x [|rel [|y l]]]; try (apply Same; exact H). destruct (rewriteRel rel) as [rel'|]; [|discriminate]. cbn [rbind] in H. destruct (convTermToStr rel); [|discriminate]. cbn [rbind] in H. destruct (convTermToStr rel'); [|discriminate]. cbn [rbind] in H.
    destruct (takeId (y_sh (w_decl w))) as [[id u] d] eqn:T. destruct (take_fine _ _ _ _ _ F T) as (A & B & C & D & E & F1). set (w1 := wDecl w (withSh (w_decl w) d)) in *.
    assert (J : w_jobs w1 = w_jobs w) by reflexivity. clearbody w1.
    apply (decl_fine k (k + 1) _ _ _ _ K A B) in H; auto; try lia.
    + destruct H as (W & J'). exists (k + 1). split; [lia|]. split; [auto|]. rewrite J', J. lia.
    + intros i o [= _ <-]. cbn [opTime ar_now]. cbn in Fj. apply (upto_more k); auto. lia.
  - assert (Tm := wf_time _ _ F). assert (F0 := F). apply (wFine_more k (k + 1)) in F; [|lia]. destruct F as [A B C D E].
    apply (decl_fine k (k + 1)) in H; auto; try lia.
    + destruct H as (W & J'). exists (k + 1). split; [lia|]. split; [auto|]. rewrite J'. cbn [w_jobs wTime]. lia.
    + apply F0.
    + cbn. unfold upto in *. lia.
    + intros i o [= _ <-]. cbn [opTime cy_now]. unfold upto in *. lia.
  - assert (F0 := F). apply (wFine_more k (k + 1)) in F; [|lia]. destruct F as [A B C D E]. apply (decl_fine k (k + 1)) in H; auto; try lia.
    + destruct H as (W & J'). exists (k + 1). split; [lia|]. split; [auto|]. rewrite J'. lia.
    + apply F0.
    + intros i o [= _ <-]. exact I.
  - destruct (w_proc w) as [n p c x] eqn:Ep. injection H as <-. exists k. split; [auto|]. split; [|cbn [w_jobs wProc wQuit]; lia]. destruct F as [A B C D E]. constructor; auto. cbn [w_proc wProc]. rewrite Ep in D.
    destruct D as [D1 D2 D3]. constructor; auto. cbn [y_nar] in *. destruct D1. constructor; auto. cbn [n_ops setOps]. intros q Hq. apply in_app_iff in Hq. destruct Hq as [Hq|[<-|[]]]; auto.
  - destruct (w_proc w) as [n p c x] eqn:Ep. injection H as <-. exists k. split; [auto|]. split; [|cbn [w_jobs wProc wQuit]; lia]. destruct F as [A B C D E]. constructor; auto. cbn [w_proc wProc]. rewrite Ep in D.
    destruct D as [D1 D2 D3]. constructor; auto. cbn [y_nar] in *. destruct D1. constructor; auto.
  - destruct (debugEvidence _); [|discriminate]. cbn [rbind] in H. injection H as <-. exists k. split; [auto|]. split; [auto|lia].
  - destruct (debugTasks _); [|discriminate]. cbn [rbind] in H. injection H as <-. exists k. split; [auto|]. split; [auto|lia].
  - injection H as <-. exists k. split; [auto|]. split; [|cbn [w_jobs wProc wQuit]; lia]. destruct F. constructor; auto.
Qed.
Lemma line_fine : forall line r l k, lineJobs line r = Ok l -> Forall (jobFine k) l /\ pend l <= Z.of_nat (length (i_derive (ln_step r))).
Proof.
  intros line r l k H. assert (Z0 : 0 <= Z.of_nat (length (i_derive (ln_step r)))) by lia.
  assert (E : Forall (jobFine k) [] /\ pend [] <= Z.of_nat (length (i_derive (ln_step r)))) by (split; [constructor|cbn [pend fold_right]; lia]).
  assert (Sy : forall j, jobFine k j -> need j = 0 -> Forall (jobFine k) [j] /\ pend [j] <= Z.of_nat (length (i_derive (ln_step r)))).
  { intros j Hj Nj. split; [constructor; auto|]. rewrite pend_none; [lia|]. intros x [<-|[]]. exact Nj. }
  unfold lineJobs in H. cbv zeta in H. set (i := trimNewline line) in *. clearbody i.
  destruct (beginsWith (tx "//") i) as [[]|]; cbn [rbind] in H; [injection H as <-; exact E| |discriminate].
  destruct (beginsWith (tx "!sp") i) as [[]|]; cbn [rbind] in H; [injection H as <-; split; [repeat constructor|cbn [pend fold_right need]; lia]| |discriminate].
  destruct (beginsWith (tx "!s") i) as [[]|]; cbn [rbind] in H; [| |discriminate].
  { destruct (if Nat.ltb 2 (length i) then _ else _) as [n|]; cbn [rbind] in H; [|discriminate]. injection H as <-. split.
    - apply Forall_forall. intros j Hj. apply in_map_iff in Hj. destruct Hj as (x & <- & _). exact I.
    - rewrite pend_none; [lia|]. intros j Hj. apply in_map_iff in Hj. destruct Hj as (x & <- & _). reflexivity. }
  destruct (text_eqb i (tx "!dtf")); [injection H as <-; now apply Sy|].
  destruct (beginsWith (tx "!por ") i) as [[]|]; cbn [rbind] in H; [| |discriminate].
  { destruct (registered _) as [o|] eqn:R; injection H as <-; [|exact E]. apply Sy; [|reflexivity]. cbn [jobFine]. unfold registered in R. unfold upto. destruct (words (skipn 5 i)) as [|x [|y [|z l]]]; try discriminate R.
    - destruct (text_eqb x (tx "execinj")); [injection R as <-; cbn [op_evi]; lia|]. destruct (text_eqb x (tx "nlpRel0")); [injection R as <-; cbn [op_evi]; lia|discriminate R].
    - destruct (text_eqb x (tx "NOP")); [injection R as <-; cbn [op_evi]; lia|discriminate R]. }
  destruct (text_eqb i (tx "!pse")); [injection H as <-; now apply Sy|].
  destruct (text_eqb i (tx "!peb 0")); [injection H as <-; now apply Sy|].
  destruct (text_eqb i (tx "!peb 1")); [injection H as <-; now apply Sy|].
  destruct (if Nat.ltb 6 (length i) then _ else _) as [[]|]; cbn [rbind] in H; [| |discriminate].
  { destruct (ln_net r _) as [ts|]; cbn [rbind] in H; [|discriminate]. injection H as <-. split.
    - apply Forall_forall. intros j Hj. apply in_map_iff in Hj. destruct Hj as (x & <- & _). exact I.
    - rewrite pend_none; [lia|]. intros j Hj. apply in_map_iff in Hj. destruct Hj as (x & <- & _). reflexivity. }
  destruct (text_eqb i (tx "!dt")); [injection H as <-; now apply Sy|].
  destruct (text_eqb i (tx "!dmd")); [injection H as <-; exact E|].
  destruct (text_eqb i (tx "!QQ")); [injection H as <-; now apply Sy|].
  destruct (text_eqb i []); injection H as <-; [exact E|now apply Sy].
Qed.
Lemma step_fine : forall a k w w', 0 <= k -> wFine k w -> wstep pf a w = Ok (Some w') -> noLater k w w' (workOf a).
Proof.
  intros a k w w' K F H. assert (Dc : forall c, (forall i o, c <> ChStart i o) -> declStep (w_maxC w) w c = Ok (Some w') -> noLater k w w' 1).
  { intros c Hc X. assert (F0 := F). apply (wFine_more k (k + 1)) in F; [|lia]. destruct F as [A B C D E]. apply (decl_fine k (k + 1)) in X; auto; try lia; [|apply F0|intros i o ->; now elim (Hc i o)].
    destruct X as (W & J). exists (k + 1). split; [lia|]. split; [auto|]. rewrite J. lia. }
  assert (Pr : forall x, derivs x = 0 -> procStep w x = Ok (Some w') -> noLater k w w' 1).
  { intros x Dx X. apply (proc_fine k) in X; auto. rewrite Dx in X. destruct X as (W & J). exists (k + 1 + 0). split; [lia|]. split; [auto|]. rewrite J. lia. }
  destruct a as [line r|rs| |draws]; cbn [wstep workOf] in *.
  - destruct (mainFree w); [|discriminate]. destruct (w_jobs w) as [|j l] eqn:J; [|discriminate]. destruct (w_quit w); [discriminate|].
    destruct (lineJobs line r) as [l|] eqn:L; cbn [rbind] in H; [|discriminate]. injection H as <-. destruct (line_fine _ _ _ k L) as (X & Y). exists k. split; [auto|]. split.
    + destruct F. constructor; auto.
    + cbn [w_jobs wJobs]. rewrite J. cbn [pend fold_right]. lia.
  - destruct (y_main (w_proc w)) eqn:Em; try (eapply Pr; [|exact H]; reflexivity). destruct (y_clients (w_decl w)) as [|[|x f|y p] cs].
    + apply (Dc (ChClient 0)); [discriminate|exact H].
    + destruct (w_jobs w) as [|j l] eqn:J; [discriminate|]. assert (Fj := wf_jobs _ _ F). rewrite J in Fj. inversion Fj as [|? ? Hj Hl]; subst.
      assert (F1 : wFine k (wJobs w l)) by (destruct F; constructor; auto). destruct (job_fine k (wJobs w l) j w' K F1 Hj H) as (k' & K' & W & L). exists k'. split; [auto|]. split; [auto|].
      cbn [w_jobs wJobs] in L. rewrite J. change (pend (j :: l)) with (need j + pend l). lia.
    + apply (Dc (ChClient 0)); [discriminate|exact H].
    + apply (Dc (ChClient 0)); [discriminate|exact H].
  - apply (Dc ChWorker); [discriminate|exact H].
  - eapply Pr; [|exact H]. reflexivity.
Qed.
Lemma run_fine : forall acts k w w', 0 <= k -> wFine k w -> wrun pf acts w = Ok w' -> noLater k w w' (totalWork acts).
Proof.
  induction acts as [|a acts IH]; intros k w w' K F H; cbn [wrun] in H.
  - injection H as <-. exists k. split; [auto|]. split; [auto|]. cbn [totalWork fold_right]. lia.
  - destruct (wstep pf a w) as [o|] eqn:S; [|discriminate]. cbn [rbind] in H. change (totalWork (a :: acts)) with (workOf a + totalWork acts).
    assert (0 <= workOf a) by (destruct a; cbn; lia). destruct o as [w1|].
    + destruct (step_fine _ _ _ _ K F S) as (k1 & K1 & F1 & L1). destruct (IH _ _ _ K1 F1 H) as (k2 & K2 & F2 & L2). exists k2. split; [auto|]. split; [auto|lia].
    + destruct (IH _ _ _ K F H) as (k2 & K2 & F2 & L2). exists k2. split; [auto|]. split; [auto|lia].
Qed.
Lemma start_fine : forall p verb nB maxC wired, freshWithin M p -> wFine 0 (wholeMake p verb nB maxC wired).
Proof.
  intros p verb nB maxC wired (cfg & ops & tab & nMax & depth & -> & O & T). constructor; cbn [wholeMake w_decl w_time w_proc w_jobs]; try (unfold upto; cbn; lia); [| |constructor].
  - constructor; cbn [sysMake y_sh y_queue y_clients y_worker]; [|constructor|repeat constructor|exact I]. constructor; cbn; try (unfold upto; lia). constructor.
  - constructor; cbn [ystart y_nar y_main]; [|exact I|].
    + constructor; cbn [n_t n_trace n_ant n_goals n_mem n_table n_ops]; try (intros ? []; fail); auto; [unfold upto; lia|]. constructor; [|reflexivity]. intros e He. unfold makeGoalSystem in He.
      change (retEntries (mkGsys [] (repeat [] (Z.to_nat depth)) [] nMax depth true 15)) with (flat_map (fun b : list group => flat_map snd b) (repeat [] (Z.to_nat depth)) ++ []) in He.
      rewrite app_nil_r in He. exfalso. induction (Z.to_nat depth); cbn in He; auto.
    + intros s now [H|[H|H]]; destruct H.
Qed.
Lemma number_bound : forall k w z, 0 <= k -> wFine k w -> number w z -> upto ((k + 1) * Z.max M 1000) z.
Proof.
  intros k w z K [A B C D E] N. assert (X : 1000 <= Z.max M 1000) by lia. assert (Y : M <= Z.max M 1000) by lia. set (X1 := Z.max M 1000) in *. clearbody X1.
  destruct A as [[A1 A2 A3 A4 A5] A6 A7 A8]. destruct D as [[D1 D2 D3 [D4 _] D5 D6 D7] D8 D9].
  assert (Up : forall b z, b <= (k + 1) * X1 -> upto b z -> upto ((k + 1) * X1) z) by (intros; eapply upto_more; eauto).
  assert (Lk : k <= (k + 1) * X1) by nia.
  assert (Lm : M <= (k + 1) * X1) by nia.
  assert (Ld : k + M <= (k + 1) * X1) by nia.
  rewrite Forall_forall in A3, A6, A7, E.
  destruct N as [| | | |t H|a|a|m H|c z H Hz|z H|t args H| |e H|a d H|l a d H H1|e H|e H|s z H Hz|s now z H Hz|s now H|z H|o H].
  - apply (Up k); auto.
  - apply (Up (1000 + k)); auto. nia.
  - apply (Up k); auto.
  - apply (Up k); auto.
  - apply (Up k); auto.
  - apply (Up k); auto.
  - apply (Up (301 * k)); auto. nia.
  - apply (Up k); auto. now apply A6.
  - apply A7 in H. apply (Up k); auto. destruct c as [|x f|y p]; cbn in *; [contradiction|subst; auto|]. destruct H as [H H']. destruct Hz as [->|Hz]; auto. destruct p; try contradiction; subst z; apply H'.
  - apply (Up k); auto. destruct (y_worker (w_decl w)) as [|m|m cs todo|m cs|m x f cs]; cbn in *; try contradiction; try (subst z; apply A8). destruct H; subst z; apply A8.
  - apply E in H. apply (Up k); auto.
  - apply (Up k); auto.
  - apply (Up k); auto.
  - apply (Up (k + M)); auto. exact (D3 _ H).
  - rewrite H in D8. apply (Up (k + M)); auto. exact (D8 _ H1).
  - apply (Up k); auto. apply stored_iff in H. apply (D4 _ H).
  - apply (Up (16 * k)); [nia|]. apply stored_iff in H. apply (D4 _ H).
  - apply (Up (M * (k + 1))); [nia|]. now apply (D5 s).
  - apply (Up M); auto. now apply (D9 _ _ H).
  - apply (Up k); auto. apply (D9 _ _ H).
  - apply (Up M); auto.
  - apply (Up M); auto.
Qed.
Theorem small : forall acts p verb nB maxC wired w z, freshWithin M p -> wrun pf acts (wholeMake p verb nB maxC wired) = Ok w -> number w z ->
  0 <= z <= (totalWork acts + 1) * Z.max M 1000.
Proof.
  intros acts p verb nB maxC wired w z P H N. destruct (run_fine acts 0 _ _ (Z.le_refl 0) (start_fine p verb nB maxC wired P) H) as (k & K & F & L).
  assert (Q := number_bound k w z K F N). assert (R := pend_pos (w_jobs w)). cbn [wholeMake w_jobs pend fold_right] in L. fold (pend (w_jobs w)) in L. unfold upto in Q. nia.
Qed.
End Whole.
