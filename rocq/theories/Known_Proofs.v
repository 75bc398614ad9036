(** What is known is told when it is asked for. *)
From Coq Require Import String Ascii ZArith Bool Lia List.
From Verif Require Import Base F64_Model Term_Model Term_Spec Term_Proofs Unify_Spec Stamp_Model Tv_Model Sentence_Model Mem_Model Mem_Spec Mem_Proofs Cycle_Model Cycle_Spec Cycle_Proofs Select_Proofs
  PMem_Model Proc_Model ProcS_Model ProcX_Model Sched_Model Sched_Spec Sched_Proofs Parser_Model Nar_Model Whole_Model Whole_Proofs Whole3_Proofs Reply_Spec Reply_Proofs Typed_Spec Typed_Proofs Known_Spec.
Import ListNotations.
Local Open Scope list_scope.
Local Open Scope Z_scope.

Lemma first_mget : forall m u b, filedUnder m u b -> exists l, ret_beliefs_of_concept m u = Some l /\ In b l.
Proof.
  intros m u b (m1 & c & m2 & -> & N & H). unfold ret_beliefs_of_concept. replace (mget u (m1 ++ (u, c) :: m2)) with (Some c).
  - exists (byExp c ++ byUsage c). split; auto. apply in_or_app. exact H.
  - induction m1 as [|[k d] m1 IH]; cbn [app mget]; [now rewrite checkEqTerm_refl|]. cbn [map fst In] in N. destruct (checkEqTerm k u) eqn:E; [apply checkEqTerm_eq in E; tauto|]. apply IH. tauto.
Qed.
Lemma knowledge_is : forall w q, knowledge w q = if isTemporal q then viewMem (n_mem (y_nar (w_proc w))) else memory (y_sh (w_decl w)).
Proof. intros w q. unfold knowledge, isTemporal, viewMem. destruct q; auto. destruct c; auto. Qed.
(** the log only grows *)
Lemma exec_log : forall maxC n c st st', exec maxC n c st = Ok (Some st') -> exists ans, y_log st' = y_log st ++ ans.
Proof.
  intros maxC n c st st' H. destruct c as [i o|i|]; cbn [exec] in H.
  - destruct (nth_error _ _) as [[| |]|]; try discriminate. destruct (opStart _ _ _). injection H as <-. exists []. now rewrite app_nil_r.
  - destruct (nth_error _ _); [|discriminate]. destruct (cliStep _ _ _) as [[[[[sh qu] ans] p']|]|]; try discriminate. injection H as <-. exists ans. reflexivity.
  - destruct (workStep _ _ _ _ _) as [[[[[sh qu] ans] p']|]|]; try discriminate. injection H as <-. exists ans. reflexivity.
Qed.
Lemma seen_log : forall w, y_log (seen w) = y_log (w_decl w).
Proof. intros w. unfold seen. destruct (w_wired w); reflexivity. Qed.
Lemma wstep_log : forall pf a w w', wstep pf a w = Ok (Some w') -> exists ans, y_log (w_decl w') = y_log (w_decl w) ++ ans.
Proof.
  intros pf a w w' H.
  assert (Sm : forall w0 : whole, y_log (w_decl w0) = y_log (w_decl w) -> exists ans, y_log (w_decl w0) = y_log (w_decl w) ++ ans) by (intros w0 ->; exists []; now rewrite app_nil_r).
  assert (De : forall mc w0 c w2, declStep mc w0 c = Ok (Some w2) -> y_log (w_decl w0) = y_log (w_decl w) -> exists ans, y_log (w_decl w2) = y_log (w_decl w) ++ ans).
  { intros mc w0 c w2 Hd El. apply decl_inv in Hd. destruct Hd as (d & Ed & ->). cbn [wDecl w_decl]. apply exec_log in Ed. rewrite seen_log, El in Ed. exact Ed. }
  assert (Pr : forall w0 c w2, procStep w0 c = Ok (Some w2) -> y_log (w_decl w0) = y_log (w_decl w) -> exists ans, y_log (w_decl w2) = y_log (w_decl w) ++ ans).
  { intros w0 c w2 Hd El. apply proc_inv in Hd. destruct Hd as (d & Ed & ->). cbn [wProc w_decl]. exists []. now rewrite app_nil_r. }
  destruct a as [line r|rs| |dr]; cbn [wstep] in H.
  - destruct (mainFree w); [|discriminate]. destruct (w_jobs w); [|discriminate]. destruct (w_quit w); [discriminate|]. destruct (lineJobs line r); [|discriminate]. injection H as <-. apply Sm. reflexivity.
  - assert (Cl : declStep (w_maxC w) w (ChClient 0) = Ok (Some w') -> exists ans, y_log (w_decl w') = y_log (w_decl w) ++ ans) by (intros Hc; eapply De; eauto).
    destruct (y_main (w_proc w)); try (eapply Pr; eauto; fail). destruct (y_clients (w_decl w)) as [|[| |] cs]; auto. destruct (w_jobs w) as [|j l]; [discriminate|]. destruct j; cbn [startJob] in H.
    + destruct (parseNarsese pf i) as [[[[[t v] p] ev]|]|]; cbn [rbind] in H; [| |discriminate]; [|injection H as <-; apply Sm; reflexivity].
      unfold putIn, takeId in H. cbn zeta in H.
      match type of H with context[if ?c then printSentence ?s else Ok tt] => destruct (if c then printSentence s else Ok tt) as [[]|] end; [|discriminate]. cbn [rbind] in H.
      destruct ev; [destruct p|destruct (isTemporal t); destruct p]; try (eapply Pr; [exact H|reflexivity]); try (eapply De; [exact H|reflexivity]); injection H as <-; apply Sm; reflexivity.
    + eapply Pr; [exact H|reflexivity].
    + destruct (nlpOf _ r); [|discriminate]. cbn [rbind] in H. destruct (procStep _ _) as [[w2|]|] eqn:E; try discriminate. cbn [rbind] in H. injection H as <-. cbn [wJobs w_decl]. eapply Pr; [exact E|reflexivity].
    + destruct args as [|x [|y [|z l2]]]; try (injection H as <-; apply Sm; reflexivity). destruct (rewriteRel y); [|discriminate]. cbn [rbind] in H. destruct (convTermToStr y); [|discriminate]. cbn [rbind] in H.
      destruct (convTermToStr _); [|discriminate]. cbn [rbind] in H. unfold takeId in H. eapply De; [exact H|reflexivity].
    + eapply De; [exact H|reflexivity].
    + eapply De; [exact H|reflexivity].
    + cbn [wJobs w_proc] in H. destruct (w_proc w). injection H as <-. apply Sm. reflexivity.
    + cbn [wJobs w_proc] in H. destruct (w_proc w). injection H as <-. apply Sm. reflexivity.
    + destruct (debugEvidence _); [|discriminate]. injection H as <-. apply Sm. reflexivity.
    + destruct (debugTasks _); [|discriminate]. injection H as <-. apply Sm. reflexivity.
    + injection H as <-. apply Sm. reflexivity.
  - eapply De; eauto.
  - eapply Pr; eauto.
Qed.
(** the settings stay *)
Definition settings (w : whole) : Z * bool := (w_maxC w, w_wired w).
Lemma wstep_settings : forall pf a w w', wstep pf a w = Ok (Some w') -> settings w' = settings w.
Proof.
  intros pf a w w' H.
  assert (De : forall mc w0 c w2, declStep mc w0 c = Ok (Some w2) -> settings w0 = settings w -> settings w2 = settings w).
  { intros mc w0 c w2 Hd El. apply decl_inv in Hd. destruct Hd as (d & _ & ->). exact El. }
  assert (Pr : forall w0 c w2, procStep w0 c = Ok (Some w2) -> settings w0 = settings w -> settings w2 = settings w).
  { intros w0 c w2 Hd El. apply proc_inv in Hd. destruct Hd as (d & _ & ->). exact El. }
  destruct a as [line r|rs| |dr]; cbn [wstep] in H.
  - destruct (mainFree w); [|discriminate]. destruct (w_jobs w); [|discriminate]. destruct (w_quit w); [discriminate|]. destruct (lineJobs line r); [|discriminate]. injection H as <-. reflexivity.
  - assert (Cl : declStep (w_maxC w) w (ChClient 0) = Ok (Some w') -> settings w' = settings w) by (intros Hc; eapply De; eauto).
    destruct (y_main (w_proc w)); try (eapply Pr; eauto; fail). destruct (y_clients (w_decl w)) as [|[| |] cs]; auto. destruct (w_jobs w) as [|j l]; [discriminate|]. destruct j; cbn [startJob] in H.
    + destruct (parseNarsese pf i) as [[[[[t v] p] ev]|]|]; cbn [rbind] in H; [| |discriminate]; [|injection H as <-; reflexivity].
      unfold putIn, takeId in H. cbn zeta in H.
      match type of H with context[if ?c then printSentence ?s else Ok tt] => destruct (if c then printSentence s else Ok tt) as [[]|] end; [|discriminate]. cbn [rbind] in H.
      destruct ev; [destruct p|destruct (isTemporal t); destruct p]; try (eapply Pr; [exact H|reflexivity]); try (eapply De; [exact H|reflexivity]); injection H as <-; reflexivity.
    + eapply Pr; [exact H|reflexivity].
    + destruct (nlpOf _ r); [|discriminate]. cbn [rbind] in H. destruct (procStep _ _) as [[w2|]|] eqn:E; try discriminate. cbn [rbind] in H. injection H as <-. eapply (Pr _ _ w2); [exact E|reflexivity].
    + destruct args as [|x [|y [|z l2]]]; try (injection H as <-; reflexivity). destruct (rewriteRel y); [|discriminate]. cbn [rbind] in H. destruct (convTermToStr y); [|discriminate]. cbn [rbind] in H.
      destruct (convTermToStr _); [|discriminate]. cbn [rbind] in H. unfold takeId in H. eapply De; [exact H|reflexivity].
    + eapply De; [exact H|reflexivity].
    + eapply De; [exact H|reflexivity].
    + cbn [wJobs w_proc] in H. destruct (w_proc w). injection H as <-. reflexivity.
    + cbn [wJobs w_proc] in H. destruct (w_proc w). injection H as <-. reflexivity.
    + destruct (debugEvidence _); [|discriminate]. injection H as <-. reflexivity.
    + destruct (debugTasks _); [|discriminate]. injection H as <-. reflexivity.
    + injection H as <-. reflexivity.
  - eapply De; eauto.
  - eapply Pr; eauto.
Qed.
Lemma wrun_settings : forall pf l w w', wrun pf l w = Ok w' -> settings w' = settings w.
Proof.
  intros pf. induction l as [|a l IH]; intros w w' R; cbn [wrun] in R; [injection R as <-; reflexivity|]. destruct (wstep pf a w) as [[w1|]|] eqn:E; [| |discriminate]; cbn [rbind] in R; [|now apply IH].
  apply IH in R. apply wstep_settings in E. congruence.
Qed.
Lemma told_more : forall st st' q e ans, told st q e -> y_log st' = y_log st ++ ans -> told st' q e.
Proof. intros st st' q e ans (c & ec & I & R) E. exists c, ec. split; [|exact R]. rewrite E. apply in_or_app. now left. Qed.

Section Asked.
  Variables (pf : text -> option f64) (w0 : whole) (q : term) (ql cl : text) (vq : tv) (k : nat).
  Hypothesis ease : atEase w0.
  Hypothesis rest : stored w0.
  Hypothesis none : questions (y_sh (w_decl w0)) = [].
  Hypothesis wired : isTemporal q = true -> w_wired w0 = true.
  Hypothesis qText : plainText ql.
  Hypothesis qHeard : heard pf (trimNewline ql) = [(q, vq, QUESTION)].
  Hypothesis qSmall : small (w_maxC w0) q.
  Hypothesis cText : cycleLine cl k.
  Hypothesis cSome : (1 <= k)%nat.

  Record base (w : whole) : Prop := mkBase {
    b_proc : w_proc w = w_proc w0;
    b_cfg : w_maxC w = w_maxC w0 /\ w_wired w = w_wired w0;
    b_mem : memory (y_sh (w_decl w)) = memory (y_sh (w_decl w0));
    b_idle : y_worker (w_decl w) = Sched_Model.WIdle /\ y_queue (w_decl w) = [];
    b_log : logInv (w_decl w) /\ numInv (w_decl w)
  }.
  Definition match1 (u : term) (b : sentence) (e : f64) : Prop :=
    filedUnder (knowledge w0 q) u b /\ s_punct b = JUGEMENT /\ instanceOf (s_term b) q /\ hasExp b e.
  Definition one (w : whole) (z : task2) : Prop := questions (y_sh (w_decl w)) = [z] /\ s_term (q_s z) = q.
  Definition client (w : whole) (p : cpc) : Prop := exists l, y_clients (w_decl w) = p :: l.
  Definition asking (w : whole) : Prop :=
    base w /\
    ((exists r, w_jobs w = [JText (trimNewline ql) r] /\ client w CIdle /\ questions (y_sh (w_decl w)) = []) \/
     (w_jobs w = [] /\ exists x f, client w (CAdd x f) /\ s_term (ar_s x) = q /\ s_punct (ar_s x) = QUESTION /\
        ((questions (y_sh (w_decl w)) = [] /\ (f = FRevise [] None \/ f = FStore \/ f = FCheck [ar_s x])) \/ (f = FCheck [] /\ exists z, one w z))) \/
     (w_jobs w = [] /\ client w CIdle /\ exists z, one w z)).
  Definition looking (w : whole) : Prop :=
    base w /\ exists z, one w z /\
    ((exists e s l, w_jobs w = JCycle e s :: l /\ client w CIdle) \/
     exists y p, client w (CCycle y p) /\ (p = YTransfer \/ p = YBase \/ p = YSample \/
       exists ts, p = YAsk 0 ts /\ forall u, occurs u q -> In u ts \/ forall b e, match1 u b e -> fltb (bestAnswerExp z) e = false)).
  Definition toldAll (w : whole) : Prop := forall u b e, occurs u q -> match1 u b e -> fltb f0 e = true -> told (w_decl w) q e.
  Definition stage (lines : list text) (w : whole) : Prop :=
    (lines = [] /\ w = w0) \/ (lines = [ql] /\ asking w) \/ (lines = [ql; cl] /\ looking w) \/ (exists more, lines = ql :: cl :: more /\ toldAll w).

  Lemma free0 : y_main (w_proc w0) = MFree /\ client w0 CIdle.
  Proof.
    destruct ease as (M & _). unfold mainFree in M. destruct (y_main (w_proc w0)); try discriminate. destruct (y_clients (w_decl w0)) as [|[| |] l] eqn:E; try discriminate. split; auto. exists l. exact E.
  Qed.
  Lemma base0 : base w0.
  Proof.
    destruct ease as (_ & _ & E3 & E4). constructor; auto. split; intros z Hz; rewrite none in Hz; destruct Hz.
  Qed.
  Lemma base_moves : forall w a w', base w -> wstep pf a w = Ok (Some w') ->
    (exists line r js, a = ARead line r /\ mainFree w = true /\ w_jobs w = [] /\ lineJobs line r = Ok js /\ w' = wJobs w js) \/
    ((forall line r, a <> ARead line r) /\ ((exists j l, client w CIdle /\ w_jobs w = j :: l /\ startJob pf (wJobs w l) j = Ok (Some w')) \/
     exists p, client w p /\ p <> CIdle /\ declStep (w_maxC w) w (ChClient 0) = Ok (Some w'))).
  Proof.
    intros w a w' B H. destruct B as [B1 B2 B3 [B4 B5] B6]. destruct free0 as [M0 _]. destruct rest as [R1 R2]. destruct a as [line r|rs| |dr]; cbn [wstep] in H.
    - left. destruct (mainFree w) eqn:MF; [|discriminate]. destruct (w_jobs w) eqn:J; [|discriminate]. destruct (w_quit w); [discriminate|]. destruct (lineJobs line r) as [js|] eqn:EL; [|discriminate].
      injection H as <-. exists line, r, js. auto.
    - right. split; [discriminate|]. rewrite B1, M0 in H. destruct (y_clients (w_decl w)) as [|p cs] eqn:E.
      + apply decl_inv in H. destruct H as (d & Ed & _). cbn [exec] in Ed. replace (y_clients (seen w)) with (@nil cpc) in Ed; [discriminate|]. unfold seen. destruct (w_wired w); symmetry; exact E.
      + assert (C : client w p) by (exists cs; exact E). destruct p as [|x f|y p].
        * left. destruct (w_jobs w) as [|j l] eqn:J; [discriminate|]. exists j, l. auto.
        * right. exists (CAdd x f). split; auto. split; [discriminate|exact H].
        * right. exists (CCycle y p). split; auto. split; [discriminate|exact H].
    - apply decl_inv in H. destruct H as (d & Ed & _). cbn [exec] in Ed. exfalso. replace (y_worker (seen w)) with Sched_Model.WIdle in Ed by (unfold seen; destruct (w_wired w); now rewrite ?B4).
      replace (y_queue (seen w)) with (@nil workMsg) in Ed by (unfold seen; destruct (w_wired w); now rewrite ?B5). discriminate Ed.
    - apply proc_inv in H. destruct H as (p & Ep & _). exfalso. rewrite B1 in Ep. destruct (w_proc w0) as [n m c wk]. cbn [y_chan y_work] in R1, R2. subst. cbn in Ep. destruct m; discriminate Ep.
  Qed.

  Lemma client_move : forall mc w w' p, client w p -> declStep mc w (ChClient 0) = Ok (Some w') ->
    exists sh qu ans p' l, cliStep p (y_sh (seen w)) (y_queue (w_decl w)) = Ok (Some (sh, qu, ans, p')) /\ w' = wDecl w (mkSys sh qu (p' :: l) (y_worker (w_decl w)) (y_log (w_decl w) ++ ans)).
  Proof.
    intros mc w w' p (l & C) H. apply decl_inv in H. destruct H as (d & Ed & ->). cbn [exec] in Ed.
    replace (y_clients (seen w)) with (p :: l) in Ed by (unfold seen; destruct (w_wired w); now rewrite <- ?C). replace (y_queue (seen w)) with (y_queue (w_decl w)) in Ed by (unfold seen; destruct (w_wired w); reflexivity).
    replace (y_worker (seen w)) with (y_worker (w_decl w)) in Ed by (unfold seen; destruct (w_wired w); reflexivity). rewrite seen_log in Ed. cbn [nth_error] in Ed.
    destruct (cliStep p (y_sh (seen w)) (y_queue (w_decl w))) as [[[[[sh qu] ans] p']|]|]; try discriminate. injection Ed as <-. exists sh, qu, ans, p', l. split; [reflexivity|]. reflexivity.
  Qed.
  Lemma decl_logs : forall mc w c w', declStep mc w c = Ok (Some w') -> Forall (fair 1 0) (begun c) \/ (exists x, c = ChStart 0 (OpAdd x)) -> logInv (w_decl w) /\ numInv (w_decl w) -> logInv (w_decl w') /\ numInv (w_decl w').
  Proof.
    intros mc w c w' H F [L N]. apply decl_inv in H. destruct H as (d & Ed & ->). cbn [wDecl w_decl].
    assert (L' : logInv (seen w)) by (unfold seen; destruct (w_wired w); exact L). assert (N' : numInv (seen w)) by (unfold seen; destruct (w_wired w); exact N).
    destruct F as [F|(x & ->)].
    - assert (P : spath mc (w_nB w) ([] ++ begun c) (seen w) d) by (eapply sp_move; [constructor|exact Ed]). split; [exact (path_log _ _ _ _ _ _ _ P F L')|exact (path_num _ _ _ _ _ _ _ P F N')].
    - cbn [exec] in Ed. destruct (nth_error _ _) as [[| |]|]; try discriminate. cbn [opStart] in Ed. injection Ed as <-. split; [exact L'|exact N'].
  Qed.
  Lemma seen_same : forall w, questions (y_sh (seen w)) = questions (y_sh (w_decl w)) /\ memory (y_sh (seen w)) = memory (y_sh (w_decl w)) /\ y_worker (seen w) = y_worker (w_decl w) /\ y_queue (seen w) = y_queue (w_decl w) /\
    y_clients (seen w) = y_clients (w_decl w) /\ (w_wired w = true -> procMem (y_sh (seen w)) = viewMem (n_mem (y_nar (w_proc w)))).
  Proof. intros w. unfold seen. destruct (w_wired w); repeat (split; [reflexivity|]); [reflexivity|discriminate]. Qed.
  Lemma client_fun : forall w p p', client w p -> client w p' -> p = p'.
  Proof. intros w p p' (l & E) (l' & E'). congruence. Qed.
  Lemma parsed : exists v, parseNarsese pf (trimNewline ql) = Ok (Some (q, v, QUESTION, true)).
  Proof.
    revert qHeard. unfold heard. destruct (parseNarsese pf (trimNewline ql)) as [[[[[t v] p] ev]|]|]; try discriminate. destruct p, ev; try discriminate.
    - destruct t; try discriminate. destruct c; discriminate.
    - intros E. injection E as -> ->. exists vq. reflexivity.
  Qed.
  Lemma startAsk : forall x, s_term (ar_s x) = q -> s_punct (ar_s x) = QUESTION -> startAdd (w_maxC w0) x = Some (FRevise [] None).
  Proof.
    intros x E1 E2. unfold startAdd. rewrite E1, E2. assert (L : calcComplexity q <= w_maxC w0) by (rewrite complexity_split; exact qSmall).
    destruct (Z.gtb_spec (calcComplexity q) (w_maxC w0)); [lia|reflexivity].
  Qed.
  Lemma ask_step : forall w a w', asking w -> wstep pf a w = Ok (Some w') -> (forall line r, a <> ARead line r) -> asking w'.
  Proof.
    intros w a w' (B & ST) H Na. assert (B' := B). destruct B' as [B1 [B2 Bw] B3 [B4 B5] B6]. destruct (base_moves _ _ _ B H) as [(line & r & js & -> & _)|(_ & MV)]; [destruct (Na line r eq_refl)|].
    destruct (seen_same w) as (Sq & Sm & Sw & Su & Sc & _). destruct ST as [(r & J & C & Q)|[(J & x & f & C & Tx & Px & ST)|(J & C & Z)]].
    - destruct MV as [(j & l & _ & J2 & K)|(p & C2 & NC & _)]; [|destruct NC; exact (client_fun _ _ _ C2 C)]. rewrite J in J2. injection J2 as <- <-. cbn [startJob] in K. destruct parsed as (v & P). rewrite P in K. cbn [rbind] in K.
      unfold putIn, takeId in K. cbn zeta in K. match type of K with context[if ?c then printSentence ?s else Ok tt] => destruct (if c then printSentence s else Ok tt) as [[]|] end; [|discriminate]. cbn [rbind] in K.
      match type of K with declStep _ ?w1 (ChStart 0 (OpAdd ?x)) = _ => set (w2 := w1) in *; set (x0 := x) in * end.
      assert (LN : logInv (w_decl w') /\ numInv (w_decl w')) by (eapply decl_logs; [exact K|right; eauto|exact B6]).
      apply decl_inv in K. destruct K as (d & Ed & ->). destruct (seen_same w2) as (Sq2 & Sm2 & Sw2 & Su2 & Sc2 & _). destruct C as (l & C). cbn [exec] in Ed. rewrite Sc2 in Ed. change (y_clients (w_decl w2)) with (y_clients (w_decl w)) in Ed. rewrite C in Ed.
      cbn [nth_error opStart] in Ed. change (w_maxC w2) with (w_maxC w) in Ed. rewrite B2, startAsk in Ed by reflexivity. injection Ed as <-.
      split; [constructor; cbn [wDecl w_proc w_maxC w_wired w_decl y_sh y_worker y_queue]; auto; [rewrite Sm2; exact B3|rewrite Sw2, Su2; auto]|]. right. left. split; [reflexivity|].
      exists x0, (FRevise [] None). split; [exists l; reflexivity|]. split; [reflexivity|]. split; [reflexivity|]. left. split; [|auto]. cbn [wDecl w_decl y_sh]. rewrite Sq2. exact Q.
    - destruct MV as [(j & l & _ & J2 & K)|(p & C2 & NC & K)]; [congruence|]. clear NC. assert (p = CAdd x f) by exact (client_fun _ _ _ C2 C). subst p.
      assert (LN : logInv (w_decl w') /\ numInv (w_decl w')) by (eapply decl_logs; [exact K|left; constructor|exact B6]).
      destruct (client_move _ _ _ _ C K) as (sh & qu & ans & p' & l & E & ->). cbn [cliStep] in E. destruct (addStep x f (y_sh (seen w))) as [[sh1 o]|] eqn:EA; [|discriminate]. cbn [rbind fst snd] in E. injection E as <- <- <- <-.
      assert (Mk : memory sh1 = memory (y_sh (w_decl w)) -> base (wDecl w (mkSys sh1 (y_queue (w_decl w)) (match o with Some f' => CAdd x f' | None => CIdle end :: l) (y_worker (w_decl w)) (y_log (w_decl w) ++ [])))).
      { intros Em. constructor; cbn [wDecl w_proc w_maxC w_wired w_decl y_sh y_worker y_queue]; auto. congruence. }
      destruct ST as [(Q & [->|[->| ->]])|(-> & z & Z1 & Z2)]; cbn [addStep] in EA.
      + injection EA as <- <-. split; [apply Mk; exact Sm|]. right. left. split; [exact J|]. exists x, FStore. split; [exists l; reflexivity|]. split; auto. split; auto. left. split; [cbn [wDecl w_decl y_sh]; congruence|auto].
      + unfold storeInConcepts, storeInConcepts2 in EA. rewrite Px in EA. cbn [punct_eqb negb rbind] in EA. injection EA as <- <-. split; [apply Mk; exact Sm|]. right. left. split; [exact J|]. exists x, (FCheck [ar_s x]). split; [exists l; reflexivity|].
        split; auto. split; auto. left. split; [cbn [wDecl w_decl y_sh setMemory questions]; congruence|auto].
      + rewrite Px in EA. injection EA as <- <-. split; [apply Mk; exact Sm|]. right. left. split; [exact J|]. exists x, (FCheck []). split; [exists l; reflexivity|]. split; auto. split; auto. right. split; auto.
        eexists. split; [cbn [wDecl w_decl y_sh setQuestions questions]; rewrite Sq, Q; reflexivity|exact Tx].
      + injection EA as <- <-. split; [apply Mk; exact Sm|]. right. right. split; [exact J|]. split; [exists l; reflexivity|]. exists z. split; [|exact Z2]. cbn [wDecl w_decl y_sh]. congruence.
    - destruct MV as [(j & l & _ & J2 & K)|(p & C2 & NC & K)]; [congruence|]. destruct NC. exact (client_fun _ _ _ C2 C).
  Qed.
  Lemma look_read : forall w r js, asking w -> mainFree w = true -> w_jobs w = [] -> lineJobs cl r = Ok js -> looking (wJobs w js).
  Proof.
    intros w r js (B & ST) MF J E. rewrite (line_cycles _ _ _ cText) in E. injection E as <-. assert (B' : base (wJobs w (map (fun n => JCycle (ln_exp r) (ln_sel r n)) (List.rev (seq 0 k))))) by (destruct B; constructor; auto).
    split; [exact B'|]. destruct ST as [(r0 & J2 & _)|[(_ & x & f & (l & C) & _)|(_ & C & z & Z)]]; [congruence| |].
    - exfalso. unfold mainFree in MF. rewrite C in MF. destruct (y_main (w_proc w)); discriminate.
    - exists z. split; [exact Z|]. left. destruct k as [|k']; [lia|]. rewrite seq_S, rev_app_distr. cbn [List.rev app map wJobs w_jobs]. eauto.
  Qed.
  Lemma tried : forall m z z' ans u ts, qaTryAll z (match ret_beliefs_of_concept m u with Some l => l | None => [] end) = Ok (z', ans) -> m = knowledge w0 q -> s_term (q_s z) = q -> fis_nan (bestAnswerExp z) = false ->
    (forall u', occurs u' q -> In u' (u :: ts) \/ forall b e, match1 u' b e -> fltb (bestAnswerExp z) e = false) ->
    s_term (q_s z') = q /\ forall u', occurs u' q -> In u' ts \/ forall b e, match1 u' b e -> fltb (bestAnswerExp z') e = false.
  Proof.
    intros m z z' ans u ts H Em Eq V D. destruct (qaTryAll_spec _ _ _ _ H V) as [E A]. split; [congruence|]. assert (M := tryAll_more _ _ _ _ H). intros u' Hu. destruct (D u' Hu) as [[<-|I]|I]; auto.
    - right. intros b e (F & P & I & X). rewrite <- Em in F. destruct (first_mget _ _ _ F) as (l & El & Il). rewrite El in A. eapply (af_complete _ _ _ _ A); eauto. now rewrite Eq.
    - right. intros b e Hb. specialize (I b e Hb). destruct M as [_ [->|(L & _)]]; [exact I|]. destruct (fltb (bestAnswerExp z') e) eqn:F; auto. rewrite (fltb_trans2 _ _ _ L F) in I. discriminate.
  Qed.
  Lemma look_step : forall w a w', looking w -> wstep pf a w = Ok (Some w') -> (forall line r, a <> ARead line r) -> looking w' \/ toldAll w'.
  Proof.
    intros w a w' (B & z & (Z1 & Z2) & ST) H Na. assert (B' := B). destruct B' as [B1 [B2 Bw] B3 [B4 B5] B6]. destruct (base_moves _ _ _ B H) as [(line & r & js & -> & _)|(_ & MV)]; [destruct (Na line r eq_refl)|].
    destruct (seen_same w) as (Sq & Sm & Sw & Su & Sc & Sp). destruct ST as [(e & s & l & J & C)|(y & p & C & ST)].
    - left. destruct MV as [(j & l2 & _ & J2 & K)|(p & C2 & NC & _)]; [|destruct NC; exact (client_fun _ _ _ C2 C)]. rewrite J in J2. injection J2 as <- <-. cbn [startJob] in K.
      assert (LN : logInv (w_decl w') /\ numInv (w_decl w')) by (eapply decl_logs; [exact K|left; constructor; [reflexivity|constructor]|exact B6]).
      match type of K with declStep _ ?w1 _ = _ => set (w2 := w1) in * end. apply decl_inv in K. destruct K as (d & Ed & ->). destruct (seen_same w2) as (Sq2 & Sm2 & Sw2 & Su2 & Sc2 & _). destruct C as (l2 & C).
      cbn [exec] in Ed. rewrite Sc2 in Ed. change (y_clients (w_decl w2)) with (y_clients (w_decl w)) in Ed. rewrite C in Ed. cbn [nth_error opStart] in Ed. injection Ed as <-.
      split; [constructor; cbn [wDecl w_proc w_maxC w_wired w_decl y_sh y_worker y_queue setCycleCtr memory]; auto; [rewrite Sm2; exact B3|rewrite Sw2, Su2; auto]|].
      exists z. split; [split; [cbn [wDecl w_decl y_sh setCycleCtr questions]; rewrite Sq2; exact Z1|exact Z2]|]. right. eexists _, YTransfer. split; [exists l2; reflexivity|auto].
    - destruct MV as [(j & l2 & C2 & _)|(p2 & C2 & NC & K)]; [discriminate (client_fun _ _ _ C2 C)|]. clear NC. assert (p2 = CCycle y p) by exact (client_fun _ _ _ C2 C). subst p2.
      assert (LN : logInv (w_decl w') /\ numInv (w_decl w')) by (eapply decl_logs; [exact K|left; constructor|exact B6]).
      destruct (client_move _ _ _ _ C K) as (sh & qu & ans & p' & l & E & Ew). cbn [cliStep] in E.
      destruct (cycStep y p (y_sh (seen w)) (y_queue (w_decl w))) as [[[[[sh1 qu1] ans1] o]|]|] eqn:EC; try discriminate. cbn [rbind] in E. injection E as <- <- <- <-.
      assert (Mk : memory sh1 = memory (y_sh (w_decl w)) -> qu1 = y_queue (w_decl w) -> base w').
      { intros Em Eq1. rewrite Ew in *. constructor; cbn [wDecl w_proc w_maxC w_wired w_decl y_sh y_worker y_queue]; auto; [congruence|]. split; congruence. }
      destruct ST as [->|[->|[->|(ts & -> & D)]]]; cbn [cycStep] in EC.
      + injection EC as <- <- <- <-. left. split; [apply Mk; [exact Sm|reflexivity]|]. exists z. split; [split; [rewrite Ew; cbn [wDecl w_decl y_sh]; unfold transferCredits; cbn [setHeap questions]; congruence|exact Z2]|].
        right. exists y, YBase. split; [rewrite Ew; exists l; reflexivity|auto].
      + injection EC as <- <- <- <-. left. split; [apply Mk; [exact Sm|reflexivity]|]. exists z. split; [split; [rewrite Ew; cbn [wDecl w_decl y_sh]; unfold baseCredits; cbn [setHeap questions]; congruence|exact Z2]|].
        right. exists y, YSample. split; [rewrite Ew; exists l; reflexivity|auto].
      + rewrite Sq, Z1 in EC. destruct (task2SelByCreditRandom _ _) as [i|]; [|discriminate]. cbn [rbind] in EC. unfold idx in EC. destruct i as [|i]; cbn [nth_error unwrap rbind] in EC; [|destruct i; discriminate].
        injection EC as <- <- <- <-. left. split; [apply Mk; [exact Sm|reflexivity]|]. exists z. split; [split; [rewrite Ew; cbn [wDecl w_decl y_sh]; congruence|exact Z2]|].
        right. exists y, (YAsk 0 (retUniqueSubterms (s_term (q_s z)))). split; [rewrite Ew; exists l; reflexivity|]. right. right. right. eexists. split; [reflexivity|]. intros u Hu. left. rewrite Z2. now apply retUniqueSubterms_in.
      + destruct ts as [|u ts].
        * right. injection EC as <- <- <- <-. intros u b e Hu Hb Pe. destruct (D u Hu) as [[]|D']. rewrite <- Z2. destruct LN as [L N].
          assert (N0 : nth_error (questions (y_sh (w_decl w'))) 0 = Some z) by (rewrite Ew; cbn [wDecl w_decl y_sh]; rewrite Sq, Z1; reflexivity).
          apply (told_by _ 0%nat z); auto; [eauto|]. apply N. eapply nth_error_In; eauto.
        * rewrite Sq, Z1 in EC. unfold idx in EC. cbn [nth_error unwrap rbind] in EC.
          destruct (qaTryAll z _) as [[z' a']|] eqn:T; [|discriminate]. cbn [rbind fst snd] in EC. injection EC as <- <- <- <-. left. split; [apply Mk; [exact Sm|reflexivity]|].
          assert (V : fis_nan (bestAnswerExp z) = false) by (apply (proj2 B6); rewrite Z1; now left).
          assert (MM : (if isTemporal (s_term (q_s z)) then procMem (y_sh (seen w)) else memory (y_sh (seen w))) = knowledge w0 q).
          { rewrite knowledge_is, Z2. destruct (isTemporal q) eqn:T2; [rewrite Sp by (rewrite Bw; auto); now rewrite B1|congruence]. }
          destruct (tried _ _ _ _ _ _ T MM Z2 V D) as [Z2' D']. exists z'. split; [split; [rewrite Ew; reflexivity|exact Z2']|]. right. exists y, (YAsk 0 ts). split; [rewrite Ew; exists l; reflexivity|].
          right. right. right. exists ts. auto.
  Qed.
  Lemma stage_talk : forall lines wa w, talk pf lines wa w -> wa = w0 -> forall more l2, lines ++ l2 = ql :: cl :: more -> stage lines w.
  Proof.
    intros lines wa w T. induction T as [wa|lines wa w1 line r w2 T IH H|lines wa w1 a w2 T IH N H]; intros Ea more l2 E.
    - left. auto.
    - rewrite <- app_assoc in E. specialize (IH Ea more _ E). cbn [app] in E. destruct IH as [(-> & ->)|[(-> & A)|[(-> & L)|(m & -> & A)]]].
      + injection E as -> _. cbn [app]. right. left. split; auto. destruct (base_moves _ _ _ base0 H) as [(ln & r' & js & E2 & _ & J & EL & ->)|(N & _)]; [|destruct (N _ _ eq_refl)].
        injection E2 as <- <-. rewrite (line_plain _ _ qText) in EL. injection EL as <-. split; [destruct base0; constructor; auto|]. left. exists (ln_draws r 0). split; [reflexivity|]. split; [destruct free0; auto|exact none].
      + injection E as -> _. cbn [app]. right. right. left. split; auto. destruct A as (B & A). destruct (base_moves _ _ _ B H) as [(ln & r' & js & E2 & MF & J & EL & ->)|(N & _)]; [|destruct (N _ _ eq_refl)].
        injection E2 as <- <-. eapply look_read; eauto. split; auto.
      + exfalso. destruct L as (B & z & Z & ST). destruct (base_moves _ _ _ B H) as [(ln & r' & js & E2 & MF & J & EL & _)|(N & _)]; [|destruct (N _ _ eq_refl)].
        destruct ST as [(e & s & l & J2 & _)|(y & p & (l & C) & _)]; [congruence|]. unfold mainFree in MF. rewrite C in MF. destruct (y_main (w_proc w1)); discriminate.
      + right. right. right. exists (m ++ [line]). split; [reflexivity|]. destruct (wstep_log _ _ _ _ H) as (ans & El). intros u b e Hu Hb Pe. eapply told_more; [apply (A u b e); auto|exact El].
    - specialize (IH Ea more _ E). destruct IH as [(-> & ->)|[(-> & A)|[(-> & L)|(m & -> & A)]]].
      + exfalso. destruct (base_moves _ _ _ base0 H) as [(ln & r' & js & E2 & _)|(_ & [(j & l & _ & J & _)|(p & C & NC & _)])].
        * exact (N _ _ E2).
        * destruct ease as (_ & J0 & _). congruence.
        * apply NC. exact (client_fun _ _ _ C (proj2 free0)).
      + right. left. split; auto. eapply ask_step; eauto.
      + right. right. destruct (look_step _ _ _ L H N) as [L'|A']; [left; auto|]. right. exists []. auto.
      + right. right. right. exists m. split; auto. destruct (wstep_log _ _ _ _ H) as (ans & El). intros u b e Hu Hb Pe. eapply told_more; [apply (A u b e); auto|exact El].
  Qed.
  Lemma asked_told : forall more w, talk pf (ql :: cl :: more) w0 w -> mainFree w = true -> w_jobs w = [] -> forall b e, knows w0 q b e -> fltb f0 e = true -> told (w_decl w) q e.
  Proof.
    intros more w T MF J b e (u & Ou & F & P & I & X) Pe. destruct (stage_talk _ _ _ T eq_refl more [] (app_nil_r _)) as [(E & _)|[(E & _)|[(E & L)|(m & E & A)]]]; try discriminate E.
    - exfalso. destruct L as (B & z & Z & [(e1 & s & l & J2 & _)|(y & p & (l & C) & _)]); [congruence|]. unfold mainFree in MF. rewrite C in MF. destruct (y_main (w_proc w)); discriminate.
    - apply (A u b e); auto. split; auto.
  Qed.
End Asked.
