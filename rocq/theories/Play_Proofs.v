(** Goals that can be printed, and what a half step does to the clock. *)
From Coq Require Import String ZArith Bool Lia List Relations Sorted.
From Verif Require Import Base F64_Model Term_Model Term_Spec Term_Proofs Unify_Model Stamp_Model Tv_Model Tv_Spec Sentence_Model Mem_Model Cycle_Model PMem_Model
  Goal_Model Goal_Spec Goal_Proofs Goal2_Proofs Goal3_Proofs Proc_Model Proc_Spec ProcA_Proofs ProcC_Proofs ProcS_Model ProcX_Model Speak_Spec Speak_Proofs ProcX_Spec ProcX_Proofs
  ProcX2_Proofs ProcX3_Proofs ProcX4_Proofs Parser_Model Nar_Model Nar3_Proofs.
Import ListNotations.
Local Open Scope list_scope.
Local Open Scope Z_scope.

Definition spk (g : gsys) : Prop := forall e, stored g e -> speakable (e_term e).
Lemma spk_add : forall g t goal evi depth g', spk g -> speakable (s_term goal) -> addEntry g t goal evi depth = Ok g' -> spk g'.
Proof.
  intros g t goal evi depth g' S G H. apply addEntry_cases in H. destruct H as (_ & [[_ ->]|H]); [exact S|]. intros e He. apply stored_iff in He.
  apply (added_from _ _ _ _ H) in He. destruct He as [He|He]; [apply S; now apply stored_iff|]. apply sameButAcc_fields in He. destruct He as (E & _). unfold e_term. rewrite E. exact G.
Qed.
Lemma spk_event : forall g ev, spk g -> spk (event_occurred g ev).
Proof. intros g ev S x Hx. apply event_stored in Hx. destruct Hx as (e & He & ->). replace (e_term (satisfy _ _ e)) with (e_term e); [now apply S|]. unfold satisfy. destruct (_ && _); reflexivity. Qed.
Lemma spk_exec : forall g i, spk g -> spk (setActive g (remove_at i (g_active g))).
Proof. intros g i S e [He|He]; apply S; [now left|]. right. cbn in He. eapply remove_at_in; eauto. Qed.
Lemma spk_limit : forall g decay t g', gReach g -> spk g -> limitGoals decay g t = Ok g' -> spk g'.
Proof.
  intros g decay t g' R S H. destruct (Goal2_Proofs.limit_spec _ _ _ _ R H) as (_ & B & _). intros x Hx. destruct (B x Hx) as (e & He & (E1 & _) & _). unfold e_term. rewrite E1. now apply S.
Qed.
Lemma chain_spk : forall tab m n g ev c, cellsOk tab m -> goalChain (believed m) n g ev c -> speakable (s_term g) -> speakable (s_term c).
Proof.
  intros tab m n g ev c C H S.
  assert (St : forall g ev c, goalStep (believed m) g ev c -> speakable (s_term g) -> speakable (s_term c)).
  { clear - C. intros g ev c H S. destruct H as [g x rest v c T _ (E & _)|g a b subj vg vb c _ B T _ _ _ (E & _)].
    - rewrite E. rewrite T in S. apply sp_seq in S. destruct S as (_ & S). now inversion S.
    - rewrite E. destruct (believed_ok _ _ _ _ C B) as (_ & _ & Bo & _). apply (term_plan _ _ _ _ Bo T). }
  induction H; eauto.
Qed.
Lemma spk_infer : forall tab u g t m r1 r2 rnd g', cellsOk tab m -> spk g -> sampleAndInference u g t m r1 r2 rnd = Ok g' -> spk g'.
Proof.
  intros tab u g t m r1 r2 rnd g' C S H x Hx. destruct (infer_sound _ _ _ _ _ _ _ _ _ H Hx) as [Hx0|(e & i & n & At & Ch & _)]; [now apply S|].
  eapply chain_spk; eauto. apply S. left. eauto.
Qed.
Lemma spk_infers : forall tab u t m l g g', cellsOk tab m -> spk g ->
  rfold (fun g (d : f64 * f64 * (nat -> roundRnd)) => do _ <- enforce true; sampleAndInference u g t m (fst (fst d)) (snd (fst d)) (snd d)) l g = Ok g' -> spk g'.
Proof.
  intros tab u t m l. induction l as [|d l IH]; intros g g' C S H; cbn [rfold enforce rbind] in H; [now injection H as <-|].
  destruct (sampleAndInference _ _ _ _ _ _ _) as [g1|] eqn:E; [|discriminate]. eapply IH; [exact C| |exact H]. eapply spk_infer; eauto.
Qed.
Lemma spk_step1 : forall n r n', nOk n -> texts n -> (forall z, 0 <= z -> unit64 (i_decay r z)) -> spk (n_goals n) -> narStep1 n true r = Ok n' -> spk (n_goals n').
Proof.
  intros n r n' H T Dc S E. unfold narStep1 in E. destruct (best_total n H) as (b0 & E0). rewrite E0 in E. cbn [rbind] in E.
  destruct (forward_total n (i_u r) (i_plan r) b0 H) as (b1 & E1). rewrite E1 in E. cbn [rbind] in E.
  assert (B1 : forall x, b1 = Some x -> bestOk n x).
  { intros x ->. apply candidate_ok; auto. destruct (best_spec _ _ E0) as (G0 & C0). destruct (forward_spec _ _ _ _ _ E1 G0 C0) as (F & _). now apply F. }
  destruct (decide_total n (i_u r) b1 H B1) as (g & D & G). assert (S1 : spk g).
  { revert D. unfold decide. assert (Same : Ok n = Ok (setGoals n g) -> spk g) by (intros [= Q]; rewrite Q in S; exact S). destruct b1 as [[sq x [a|]]|]; auto. destruct (fgtb _ _); auto.
    destruct (B1 _ eq_refl a eq_refl) as (L & (pre & o & Eq & O) & Sp). cbn [b_seq] in *. subst sq. destruct (sp_text _ Sp) as (txt & ->). cbn [rbind is_seq enforce].
    unfold is_seqAndLastOp. rewrite seqLast_ok. cbn [rbind]. destruct (op_decode _ O) as (args & name & ->). cbn [enforce rbind].
    rewrite (cell_text _ _ _ (no_cells _ H) L). cbn [rbind]. pose proof (op_sp _ _ Sp) as So. destruct (sp_text _ So) as (txo & ->). cbn [rbind].
    destruct (unwrap _) as [v|]; [|discriminate]. cbn [rbind]. destruct (addEntry _ _ _ _ _) as [g1|] eqn:A; [|discriminate]. cbn [rbind]. intros Q.
    assert (g1 = g) by (injection Q; auto). subst g1. eapply spk_add; [exact S| |exact A]. cbn [newEternalSentenceByTv s_term]. rewrite term_clone_id. exact So. }
  rewrite D in E. cbn [rbind] in E. clear D.
  assert (H1 : nOk (setGoals n g)) by (destruct H; constructor; auto). set (n1 := setGoals n g) in *.
  destruct (exec_total n1 H1) as (n2 & p & X & G2 & M2 & T2 & Tb2 & Tr2 & O2 & C2 & A2 & P2). rewrite X in E. cbn [rbind] in E.
  assert (S2 : spk (n_goals n2)).
  { revert X. unfold execGoal. destruct (pickGoal _ _) as [[[i e]|]|]; [| |discriminate]; cbn [rbind].
    - destruct (e_evi e) as [a|]; [|intros [= <- _]; exact S1]. destruct (decodeOp _); [|intros [= <- _]; exact S1]. destruct (idxZ _ _); [|discriminate]. cbn [rbind]. intros [= <- _].
      destruct (c_anticipate _); cbn [setAnt setGoals n_goals]; now apply spk_exec.
    - intros [= <- _]. exact S1. }
  destruct (babble_total n2 (i_babble r) p P2) as (p' & X' & P'). rewrite X' in E. cbn [rbind] in E. clear X X'.
  destruct (action_total n2 p' P') as (tr & X). rewrite X in E. cbn [rbind] in E. clear X.
  set (n4 := setTrace (setTrace n2 tr) (traceLimit (n_trace (setTrace n2 tr)))) in *.
  match type of E with rbind ?x _ = _ => destruct x as [n5|] eqn:E5; [|discriminate] end. cbn [rbind] in E.
  assert (K5 : cellsOk (n_table n) (n_mem n5) /\ n_goals n5 = n_goals n2).
  { destruct (Z.rem (n_t n4) 101 =? 1).
    - change (n_mem n4) with (n_mem n2) in E5. rewrite M2 in E5. destruct (plimit_total (n_table n) (n_mem n) (c_nConcepts (n_cfg n4)) (no_cells _ H)) as (m & Q & Cm & _).
      change (n_mem n1) with (n_mem n) in E5. rewrite Q in E5. cbn [rbind] in E5. injection E5 as <-. split; [exact Cm|reflexivity].
    - injection E5 as <-. split; [|reflexivity]. change (n_mem n4) with (n_mem n2). rewrite M2. exact (no_cells _ H). }
  destruct K5 as (C5 & G5).
  match type of E with rbind ?x _ = _ => destruct x as [n6|] eqn:E6; [|discriminate] end. cbn [rbind] in E.
  assert (K6 : n_mem n6 = n_mem n5 /\ spk (n_goals n6)).
  { destruct (Z.rem (n_t n5) 13 =? 1).
    - cbn [enforce rbind] in E6. destruct (limitGoals _ _ _) as [g6|] eqn:L; [|discriminate]. cbn [rbind] in E6. injection E6 as <-. split; [reflexivity|]. rewrite G5 in L.
      eapply spk_limit; [|exact S2|exact L]. apply (go_reach _ _ _ G2).
    - injection E6 as <-. split; [reflexivity|]. now rewrite G5. }
  destruct K6 as (M6 & S6). destruct (rfold _ (i_derive r) _) as [g7|] eqn:E7; [|discriminate]. cbn [rbind] in E. injection E as <-. cbn [setTime setGoals n_goals].
  eapply spk_infers; [|exact S6|exact E7]. rewrite M6. exact C5.
Qed.
Lemma spk_trace : forall n rs g ms, spk (n_goals n) -> traceStep n rs = Ok (g, ms) -> spk g.
Proof.
  intros n rs g ms S H. unfold traceStep in H. destruct (Nat.leb _ _).
  - destruct (rmapM _ _); [|discriminate]. cbn [rbind] in H. injection H as <- _. destruct (List.rev (n_trace n)); [exact S|now apply spk_event].
  - injection H as <- _. destruct (List.rev (n_trace n)); [exact S|now apply spk_event].
Qed.
Lemma spk_act : forall us y a y', calm us y -> yX y -> fairAct a -> (forall s, a = XGoal s -> speakable (s_term s)) -> spk (n_goals (y_nar y)) ->
  yact us y a = Ok (Some y') -> spk (n_goals (y_nar y')).
Proof.
  intros us y a y' Cm Y Fa Sg S H. pose proof (yx_nOk us _ Cm Y) as (N & Tx). destruct y as [n p c w]. cbn [y_nar] in *. unfold yact in H.
  destruct a as [e|s|t id u draws| |decl r|nB rs|draws].
  - destruct p; try discriminate. injection H as <-. exact S.
  - destruct p; try discriminate. destruct (addEntry _ _ _ _ _) eqn:A; [|discriminate]. injection H as <-. eapply spk_add; [exact S|now apply Sg|exact A].
  - destruct Fa.
  - destruct p; try discriminate. destruct (confirm n); [|discriminate]. injection H as <-. exact S.
  - destruct p; try discriminate. destruct (narStep1 n decl r) eqn:S1; [|discriminate]. injection H as <-. destruct Fa as (-> & Fa). eapply spk_step1; eauto.
  - destruct p as [|[|x todo]|[|m ms]|now [|s todo]]; try discriminate.
    + destruct (traceStep n rs) as [[g ms]|] eqn:T; [|discriminate]. injection H as <-. eapply spk_trace; eauto.
    + destruct (negConfirm _ _); [|discriminate]. injection H as <-. exact S.
    + injection H as <-. exact S.
    + destruct (Nat.ltb _ _); [|discriminate]. injection H as <-. exact S.
    + injection H as <-. exact S.
    + destruct (mem_add_evidence_internal _ _ _ _ _); [|discriminate]. injection H as <-. exact S.
  - destruct w as [|s now [|x l] rv|now [|s todo]].
    + destruct c as [|[s now] c]; [now destruct p|]. destruct (mergeTargets _ _); [|now destruct p]. destruct p; injection H as <-; exact S.
    + destruct rv; [destruct p; injection H as <-; exact S|]. destruct (matchandintro_var1_sentence _ _); [|now destruct p]. destruct p; injection H as <-; exact S.
    + destruct (mergeInto _ _ _) as [[h b]|]; [|now destruct p]. destruct p; injection H as <-; exact S.
    + destruct p; injection H as <-; exact S.
    + destruct (mem_add_evidence_internal _ _ _ _ _); [|now destruct p]. destruct p; injection H as <-; exact S.
Qed.
Lemma texts_ok : forall h now g, goalsOk h now g -> spk g -> rfold (fun _ e => sentenceText (e_sentence e)) (retEntries g) tt = Ok tt.
Proof.
  intros h now g G S. assert (K : forall l, (forall e, In e l -> stored g e) -> rfold (fun _ e => sentenceText (e_sentence e)) l tt = Ok tt).
  { induction l as [|e l IH]; intros H; cbn [rfold]; [reflexivity|]. assert (Se := H e (or_introl eq_refl)). destruct (go_all _ _ _ G e Se) as [_ (v & V & _) _ _].
    destruct (sp_text _ (S e Se)) as (s & Q). unfold e_term in Q. unfold sentenceText at 1. rewrite Q, V. cbn [rbind unwrap]. destruct (negb _); cbn [rbind]; apply IH; intros x Hx; apply H; now right. }
  apply K. intros e He. now apply stored_iff.
Qed.

(** * The clock and the place in the code *)
Lemma act_time : forall us y a y', yact us y a = Ok (Some y') -> n_t (y_nar y') = n_t (y_nar y) + (match a with XStep1 _ _ => 1 | _ => 0 end) /\
  (match a with XWork _ => y_main y' = y_main y | XStep1 _ _ | XEvent _ | XGoal _ => y_main y = MFree /\ y_main y' = MFree | XStep0 => y_main y = MFree | _ => True end).
Proof.
  intros us y a y' H. destruct y as [n p c w]. cbn [y_nar y_main] in *. unfold yact in H.
  destruct a as [e|s|t id u draws| |decl r|nB rs|draws].
  - destruct p; try discriminate. injection H as <-. cbn. split; [lia|auto].
  - destruct p; try discriminate. destruct (addEntry _ _ _ _ _) eqn:A; [|discriminate]. injection H as <-. cbn. split; [lia|auto].
  - destruct p; try discriminate. destruct (matchandintro_var1_sentence _ _); [|discriminate]. injection H as <-. cbn. split; [lia|auto].
  - destruct p; try discriminate. destruct (confirm n); [|discriminate]. injection H as <-. cbn. split; [lia|auto].
  - destruct p; try discriminate. destruct (narStep1 n decl r) eqn:S1; [|discriminate]. injection H as <-. apply step1_spec in S1. cbn [y_nar y_main]. split; [apply S1|auto].
  - destruct p as [|[|x todo]|[|m ms]|now [|s todo]]; try discriminate.
    + destruct (traceStep n rs) as [[g ms]|] eqn:T; [|discriminate]. injection H as <-. cbn. split; [lia|auto].
    + destruct (negConfirm _ _); [|discriminate]. injection H as <-. cbn. split; [lia|auto].
    + injection H as <-. cbn. split; [lia|auto].
    + destruct (Nat.ltb _ _); [|discriminate]. injection H as <-. cbn. split; [lia|auto].
    + injection H as <-. cbn. split; [lia|auto].
    + destruct (mem_add_evidence_internal _ _ _ _ _); [|discriminate]. injection H as <-. cbn. split; [lia|auto].
  - destruct w as [|s now [|x l] rv|now [|s todo]].
    + destruct c as [|[s now] c]; [now destruct p|]. destruct (mergeTargets _ _); [|now destruct p]. destruct p; injection H as <-; cbn; (split; [lia|auto]).
    + destruct rv; [destruct p; injection H as <-; cbn; (split; [lia|auto])|]. destruct (matchandintro_var1_sentence _ _); [|now destruct p]. destruct p; injection H as <-; cbn; (split; [lia|auto]).
    + destruct (mergeInto _ _ _) as [[h b]|]; [|now destruct p]. destruct p; injection H as <-; cbn; (split; [lia|auto]).
    + destruct p; injection H as <-; cbn; (split; [lia|auto]).
    + destruct (mem_add_evidence_internal _ _ _ _ _); [|now destruct p]. destruct p; injection H as <-; cbn; (split; [lia|auto]).
Qed.
(** the events the worker and the parts of the first half step leave alone *)
Lemma act_events : forall us y a y', yact us y a = Ok (Some y') -> match a with XWork _ | XMain _ _ | XStep0 | XGoal _ => n_trace (y_nar y') = n_trace (y_nar y) | _ => True end.
Proof.
  intros us y a y' H. destruct y as [n p c w]. cbn [y_nar] in *. unfold yact in H.
  destruct a as [e|s|t id u draws| |decl r|nB rs|draws]; auto.
  - destruct p; try discriminate. destruct (addEntry _ _ _ _ _) eqn:A; [|discriminate]. injection H as <-. reflexivity.
  - destruct p; try discriminate. destruct (confirm n); [|discriminate]. injection H as <-. reflexivity.
  - destruct p as [|[|x todo]|[|m ms]|now [|s todo]]; try discriminate.
    + destruct (traceStep n rs) as [[g ms]|] eqn:T; [|discriminate]. injection H as <-. reflexivity.
    + destruct (negConfirm _ _); [|discriminate]. injection H as <-. reflexivity.
    + injection H as <-. reflexivity.
    + destruct (Nat.ltb _ _); [|discriminate]. injection H as <-. reflexivity.
    + injection H as <-. reflexivity.
    + destruct (mem_add_evidence_internal _ _ _ _ _); [|discriminate]. injection H as <-. reflexivity.
  - destruct w as [|s now [|x l] rv|now [|s todo]].
    + destruct c as [|[s now] c]; [now destruct p|]. destruct (mergeTargets _ _); [|now destruct p]. destruct p; injection H as <-; reflexivity.
    + destruct rv; [destruct p; injection H as <-; reflexivity|]. destruct (matchandintro_var1_sentence _ _); [|now destruct p]. destruct p; injection H as <-; reflexivity.
    + destruct (mergeInto _ _ _) as [[h b]|]; [|now destruct p]. destruct p; injection H as <-; reflexivity.
    + destruct p; injection H as <-; reflexivity.
    + destruct (mem_add_evidence_internal _ _ _ _ _); [|now destruct p]. destruct p; injection H as <-; reflexivity.
Qed.
