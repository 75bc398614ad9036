(** Where beliefs, goals and deeds come from. *)
From Coq Require Import String ZArith Bool Lia List Permutation Sorted.
From Verif Require Import Base F64_Model Sort_Proofs Term_Model Term_Spec Term_Proofs Unify_Model Unify_Spec Stamp_Model Stamp_Proofs Tv_Model Sentence_Model Mem_Model Mem_Proofs
  PMem_Model PMem_Proofs PMem2_Proofs Goal_Model Goal_Spec Goal_Proofs Goal2_Proofs Goal3_Proofs Goal4_Proofs Run_Proofs Proc_Model Proc_Spec ProcA_Proofs ProcP_Proofs ProcB_Proofs
  ProcC_Proofs ProcV_Proofs ProcS_Model ProcS_Proofs ProcX_Model ProcX3_Proofs ProcX4_Proofs Parser_Model Nar_Model Live_Spec.
Import ListNotations.
Local Open Scope list_scope.
Local Open Scope Z_scope.

(** * More history, more operations *)
Lemma events_more : forall H x, eventsIn (H ++ x) = eventsIn H ++ eventsIn x.
Proof. intros. unfold eventsIn. apply flat_map_app. Qed.
Lemma source_mono : forall ops ops' tab H x s, (forall o, In o ops -> In o ops') -> source ops tab H s -> source ops' tab (H ++ x) s.
Proof.
  intros ops ops' tab H x s I [B|(pre & tr & post & ops0 & E & J & O)]; [left; apply in_app_iff; auto|]. right.
  exists pre, tr, (post ++ eventsIn x), ops0. rewrite events_more, E, <- !app_assoc. auto.
Qed.
Lemma learned_mono : forall ops ops' tab H x s, (forall o, In o ops -> In o ops') -> learned ops tab H s -> learned ops' tab (H ++ x) s.
Proof.
  intros ops ops' tab H x s I (o & os & k & R & S & A). exists o, os, k. split; auto. split; [eapply source_mono; eauto|].
  intros z Hz. eapply source_mono; eauto.
Qed.
Lemma leads_mono : forall (L L' : sentence -> Prop) p q, (forall b, L b -> L' b) -> leads L p q -> leads L' p q.
Proof. intros L L' p q I H. induction H; [constructor|econstructor; eauto]. Qed.
Lemma step_mono : forall (B B' : nat -> sentence -> Prop) g ev c, (forall a b, B a b -> B' a b) -> goalStep B g ev c -> goalStep B' g ev c.
Proof. intros B B' g ev c I H. destruct H; [eapply gs_detach; eauto|eapply gs_belief; eauto]. Qed.
Lemma wanted_mono : forall (L L' G G' : sentence -> Prop) s, (forall b, L b -> L' b) -> (forall g, G g -> G' g) -> wanted L G s -> wanted L' G' s.
Proof.
  intros L L' G G' s I J H. induction H.
  - apply wt_typed; auto.
  - eapply wt_sub; eauto. eapply step_mono; [|eassumption]. cbn. auto.
  - eapply wt_do; eauto. eapply leads_mono; eauto.
Qed.
Lemma reason_mono : forall (L L' G G' : sentence -> Prop) t b, (forall b, L b -> L' b) -> (forall g, G g -> G' g) -> reason L G t b -> reason L' G' t b.
Proof.
  intros L L' G G' t b I J (Lb & g & q & p & E & D & Ld & W). split; auto. exists g, q, p. repeat split; auto.
  - eapply leads_mono; eauto.
  - eapply wanted_mono; eauto.
Qed.

(** * Evidence *)
Lemma obs_shape : forall ops tab tr s, observation ops tab tr s -> s_punct s = JUGEMENT /\ exists p, s_evi s = Some (CNT p p).
Proof. intros ops tab tr s (i & js & k & e0 & es & ek & lo & o & _ & _ & _ & _ & _ & _ & _ & _ & _ & _ & _ & _ & _ & _ & Ev & P & _). eauto. Qed.
Definition typedOnly (H : list happening) : Prop := forall s, In (LBelief s) H -> exists t id u, s = userBelief t id u.
Lemma source_shape : forall ops tab H s, typedOnly H -> source ops tab H s -> s_punct s = JUGEMENT /\ exists p, s_evi s = Some (CNT p p).
Proof.
  intros ops tab H s T [B|(_ & tr & _ & ops0 & _ & _ & O)]; [|eapply obs_shape; eauto]. destruct (T _ B) as (t & id & u & ->). split; [reflexivity|]. exists 10. reflexivity.
Qed.
Ltac conjs := unfold restsOn; repeat match goal with |- _ /\ _ => split end.
Lemma rests_self : forall o s p, s_evi s = s_evi o -> s_stamp s = s_stamp o -> s_expDt s = s_expDt o -> s_punct s = JUGEMENT -> s_evi o = Some (CNT p p) ->
  general o s -> restsOn s o [] 0.
Proof.
  intros o s p E1 E2 E3 P Ev G. conjs; auto; try lia; try contradiction.
  - rewrite E1, Ev. cbn. unfold posOf, cntOf. rewrite Ev. now rewrite !Z.add_0_r.
  - intros i Hi. exists o. split; [now left|congruence].
  - intros _. cbn. rewrite app_nil_r, E2. repeat split; auto; contradiction.
Qed.
Lemma learn_self : forall ops tab H s, typedOnly H -> source ops tab H s -> learned ops tab H s.
Proof.
  intros ops tab H s T S. destruct (source_shape _ _ _ _ T S) as (P & p & Ev). exists s, [], 0. split; [|split; auto; contradiction].
  eapply rests_self; eauto. now left.
Qed.
Lemma learn_general : forall ops tab H s draws vs v, typedOnly H -> source ops tab H s -> matchandintro_var1_sentence s draws = Ok vs -> In v vs -> learned ops tab H v.
Proof.
  intros ops tab H s draws vs v T S M Hv. destruct (source_shape _ _ _ _ T S) as (P & p & Ev). exists s, [], 0. split; [|split; auto; contradiction].
  destruct (intro_spec _ _ _ M) as [->|(subj & prop & o & e & x & w & E1 & _ & -> & E2 & E3)]; [contradiction|]. destruct Hv as [<-|[]].
  apply rests_self with (p := p); try (rewrite E2; reflexivity); auto.
  - rewrite E2. exact P.
  - right. exists subj, prop, o, e, x. split; auto. intros Nx. now apply E3.
Qed.
Lemma rests_missed : forall s o os k p c, restsOn s o os k -> s_evi s = Some (CNT p c) -> restsOn (setEvi s (s_stamp s) (CNT p (c + 1))) o os (k + 1).
Proof.
  intros s o os k p c (G & D & P & K & A & Ev & St & Un) E. conjs; auto; try lia.
  cbn [setEvi s_evi]. rewrite Ev in E. assert (p = total posOf (o :: os) /\ c = total cntOf (o :: os) + k) as [-> ->] by (split; congruence). f_equal. f_equal. lia.
Qed.
Lemma rests_merged : forall s e e' o os k, restsOn e o os k -> supports s e -> countedOnce s e e' -> restsOn e' o (s :: os) k.
Proof.
  intros s e e' o os k (G & D & P & K & A & Ev & St & Un) (S1 & S2 & S3) (p & c & pos & cnt & E1 & E2 & ->). conjs; auto; cbn [s_stamp s_term s_evi s_expDt].
  - intros x [<-|Hx]; [split; auto; congruence|now apply A].
  - assert (pos = total posOf (o :: os) /\ cnt = total cntOf (o :: os) + k) as [-> ->] by (split; congruence).
    assert (posOf s = p /\ cntOf s = c) as [Q1 Q2] by (unfold posOf, cntOf; rewrite E1; auto). cbn [total fold_right]. fold (total posOf os) (total cntOf os). rewrite Q1, Q2. f_equal. f_equal; lia.
  - intros i Hi. apply merge_from in Hi. destruct Hi as [Hi|Hi].
    + destruct (St i Hi) as (x & [->|Hx] & Hxi); exists x; split; auto; [now left|right; now right].
    + exists s. split; auto. right. now left.
  - intros L0. assert (L : (length (concat (map s_stamp (o :: os))) <= 120)%nat) by (cbn in *; rewrite !app_length in *; lia). destruct (Un L) as (Pm & (Ap1 & Ap2)).
    assert (Len := Permutation_length Pm). cbn [map concat] in *. rewrite !app_length in *. split.
    + rewrite merge_small by lia. rewrite Pm, <- app_assoc. apply Permutation_app_head. apply Permutation_app_comm.
    + split; [|split; auto].
      * intros x i [<-|Hx] Hi; [|now apply Ap1]. apply S3. eapply Permutation_in; [apply Permutation_sym; exact Pm|]. apply in_app_iff. now left.
      * intros x i Hx Hi Hc. apply (S3 i); auto. eapply Permutation_in; [apply Permutation_sym; exact Pm|]. apply in_app_iff. right. apply in_concat. exists (s_stamp x). split; auto. now apply in_map.
Qed.

(** * The goals after a second half step *)
Section Goals.
Variable P : sentence -> option nat -> Prop.
Definition allP (g : gsys) : Prop := forall x, stored g x -> P (e_sentence x) (e_evi x).
Lemma add_P : forall g t goal evi depth g', allP g -> P goal evi -> addEntry g t goal evi depth = Ok g' -> allP g'.
Proof.
  intros g t goal evi depth g' A Hp H x Hx. apply addEntry_cases in H. destruct H as (_ & [[_ ->]|H]); [auto|].
  apply stored_iff in Hx. apply (added_from _ _ _ _ H) in Hx. destruct Hx as [Hx|Hx]; [apply A; now apply stored_iff|].
  apply sameButAcc_fields in Hx. cbn in Hx. destruct Hx as (-> & -> & _). exact Hp.
Qed.
Lemma event_P : forall g ev, allP g -> allP (event_occurred g ev).
Proof. intros g ev A x Hx. apply event_stored in Hx. destruct Hx as (e & He & ->). replace (e_sentence (satisfy (g_sat g) ev e)) with (e_sentence e); [|unfold satisfy; destruct (_ && _); reflexivity].
  replace (e_evi (satisfy (g_sat g) ev e)) with (e_evi e); [auto|unfold satisfy; destruct (_ && _); reflexivity].
Qed.
Lemma limit_P : forall g decay t g', gReach g -> allP g -> limitGoals decay g t = Ok g' -> allP g'.
Proof.
  intros g decay t g' R A H x Hx. destruct (Goal2_Proofs.limit_spec _ _ _ _ R H) as (_ & B & _). destruct (B x Hx) as (e & He & (-> & -> & _) & _). auto.
Qed.
Lemma infer_P : forall u g t m r1 r2 rnd g', (forall g0 ev0 k ev c, P g0 ev0 -> goalChain (believed m) k g0 ev c -> P c ev) ->
  allP g -> sampleAndInference u g t m r1 r2 rnd = Ok g' -> allP g'.
Proof.
  intros u g t m r1 r2 rnd g' C A H x Hx. destruct (infer_sound _ _ _ _ _ _ _ _ _ H Hx) as [Hx0|(e & i & n & At & Ch & _)]; auto.
  eapply C; [|exact Ch]. apply A. left. eauto.
Qed.
Lemma remove_P : forall g pre e post, allP g -> g_active g = pre ++ e :: post -> allP (setActive g (pre ++ post)).
Proof.
  intros g pre e post A E x [Hx|Hx]; apply A; [now left|]. right. rewrite E. cbn in Hx. apply in_app_iff in Hx. apply in_app_iff. destruct Hx; auto. right. now right.
Qed.
Lemma step1_P : forall n decl r n', narStep1 n decl r = Ok n' -> gReach (n_goals n) -> allP (n_goals n) ->
  (forall g0 ev0 k ev c, P g0 ev0 -> goalChain (believed (n_mem n')) k g0 ev c -> P c ev) ->
  (forall b a pre opT e, candidate n b -> b_evi b = Some a -> b_seq b = Seq (pre ++ [opT]) -> opTerm opT -> decisionGoal n a opT e -> P (e_sentence e) (Some a)) ->
  allP (n_goals n').
Proof.
  intros n decl r n' H R A Ch Dc. unfold narStep1 in H.
  destruct (bestByState n) as [b0|] eqn:E0; [|discriminate]. cbn [rbind] in H.
  destruct (planForward n (i_u r) (i_plan r) b0) as [b1|] eqn:E1; [|discriminate]. cbn [rbind] in H.
  destruct (decide n decl (i_u r) b1) as [n1|] eqn:E2; [|discriminate]. cbn [rbind] in H.
  destruct (execGoal n1) as [[n2 pk]|] eqn:E3; [|discriminate]. cbn [rbind] in H.
  destruct (babble n2 (i_babble r) pk) as [pk'|] eqn:E4; [|discriminate]. cbn [rbind] in H.
  destruct (execAction n2 pk') as [n3|] eqn:E5; [|discriminate]. cbn [rbind] in H.
  set (n4 := setTrace n3 (traceLimit (n_trace n3))) in *.
  destruct (if Z.rem (n_t n4) 101 =? 1 then _ else _) as [n5|] eqn:E6; [|discriminate]. cbn [rbind] in H.
  destruct (if Z.rem (n_t n5) 13 =? 1 then _ else _) as [n6|] eqn:E7; [|discriminate]. cbn [rbind] in H.
  destruct (rfold _ (i_derive r) (n_goals n6)) as [g|] eqn:E8; [|discriminate]. cbn [rbind] in H.
  assert (n' = setTime (setGoals n6 g) (n_t n6 + 1)) by congruence. subst n'. clear H.
  apply best_spec in E0. destruct E0 as (E0 & E0').
  pose proof (forward_spec _ _ _ _ _ E1 E0 E0') as (Cd & _).
  assert (D1 : gReach (n_goals n1) /\ allP (n_goals n1)).
  { pose proof (decide_spec _ _ _ _ _ E2) as D. destruct b1 as [[sq x [a|]]|]; try (subst n1; now split).
    destruct (fltb (c_thresh (n_cfg n)) x); [|subst n1; now split]. destruct D as (pre & opT & e & -> & Op & -> & Dg & _ & _ & _ & D4).
    split; [now apply D4|]. unfold decide in E2. rewrite fgtb_flip in E2. destruct (fltb (c_thresh (n_cfg n)) x); [|assert (n1 = n) by congruence; subst; auto].
    destruct (convTermToStr (Seq _)); [|discriminate]. cbn [rbind is_seq enforce] in E2. destruct (is_seqAndLastOp _) as [[|]|]; try discriminate. cbn [enforce rbind] in E2.
    rewrite seqLast_ok in E2. cbn [rbind] in E2. destruct (sentenceText _); [|discriminate]. cbn [rbind] in E2. destruct (convTermToStr opT); [|discriminate]. cbn [rbind] in E2.
    destruct (retTv (rd (cells (n_mem n)) a)) as [v|] eqn:V; [|discriminate]. cbn [unwrap rbind] in E2. destruct (addEntry _ _ _ _ _) as [g1|] eqn:Ad; [|discriminate]. cbn [rbind] in E2.
    assert (n1 = setGoals n g1) by congruence. subst n1. cbn [n_goals setGoals]. rewrite term_clone_id in Ad. eapply add_P; [exact A| |exact Ad].
    apply (Dc (mkBest (Seq (pre ++ [opT])) x (Some a)) a pre opT (mkEntry (newEternalSentenceByTv opT GOAL v (s_stamp (rd (cells (n_mem n)) a)) (i_u r)) (Some a) (n_t n) 0 f1 f1 f0)); auto.
    exists v. split; auto. unfold isGoal. cbn. auto 10. }
  destruct D1 as (R1 & A1).
  assert (D2 : gReach (n_goals n2) /\ allP (n_goals n2)).
  { pose proof (exec_spec _ _ _ E3) as X. destruct pk as [t|]; [|subst n2; now split].
    destruct X as (pre & e & post & x & a & iv & X1 & _ & _ & _ & _ & _ & _ & ->). cbn. split; [|eapply remove_P; eauto].
    replace (pre ++ post) with (remove_at (length pre) (g_active (n_goals n1))); [apply gr_exec; auto|]. rewrite X1. clear. induction pre; simpl; auto. now f_equal. }
  destruct D2 as (R2 & A2).
  assert (D3 : n_goals n4 = n_goals n2).
  { subst n4. cbn. pose proof (action_spec _ _ _ E5) as X. destruct pk'; [|now subst n3]. destruct X as (args & name & _ & [(_ & ->)|(o & inj & rels & _ & _ & ->)]); reflexivity. }
  assert (D5 : n_goals n5 = n_goals n2).
  { rewrite <- D3. clear - E6. clearbody n4. destruct (_ =? 1); [|congruence]. destruct (pLimit _ _); [|discriminate]. cbn [rbind] in E6. injection E6 as <-. reflexivity. }
  assert (D6 : allP (n_goals n6)).
  { destruct (Z.rem (n_t n5) 13 =? 1); [|assert (n6 = n5) by congruence; subst n6; now rewrite D5]. destruct (enforce decl); [|discriminate]. cbn [rbind] in E7.
    destruct (limitGoals _ _ _) as [g6|] eqn:L; [|discriminate]. cbn [rbind] in E7. assert (n6 = setGoals n5 g6) by congruence. subst n6. cbn.
    eapply limit_P; [|  |exact L]; now rewrite D5. }
  cbn [n_goals setGoals setTime n_mem] in *.
  revert E8 D6 Ch. clear. generalize (i_derive r) as l. generalize (n_goals n6) as g6. intros g6 l. revert g6. induction l as [|d l IH]; intros g6 E8 A6 Ch; cbn [rfold] in E8; [assert (g = g6) by congruence; now subst|].
  destruct (enforce decl); [|discriminate]. cbn [rbind] in E8. destruct (sampleAndInference _ _ _ _ _ _ _) as [g1|] eqn:I; [|discriminate]. cbn [rbind] in E8.
  apply (IH _ E8); auto. eapply infer_P; eauto.
Qed.
End Goals.

(** * The invariant *)
Definition goalOk (ops : list op) (tab : list Z) (H : list happening) (h : list sentence) (s : sentence) (evi : option nat) : Prop :=
  wanted (learned ops tab H) (typedGoal H) s /\ forall a, evi = Some a -> reason (learned ops tab H) (typedGoal H) (s_term s) (rd h a).
Record lifeInv (H : list happening) (y : psys) : Prop := mkLife {
  li_cfg : (1 <= c_nOpsMax (n_cfg (y_nar y)))%nat;
  li_typed : typedOnly H;
  li_trace : exists pre, eventsIn H = pre ++ n_trace (y_nar y);
  li_cells : forall s, In s (cells (n_mem (y_nar y))) -> learned (n_ops (y_nar y)) (n_table (y_nar y)) H s;
  li_main : match y_main y with
            | MSend ms => forall s now, In (s, now) ms -> source (n_ops (y_nar y)) (n_table (y_nar y)) H s
            | MAdd _ l => forall s, In s l -> learned (n_ops (y_nar y)) (n_table (y_nar y)) H s
            | _ => True
            end;
  li_chan : forall s now, In (s, now) (y_chan y) -> source (n_ops (y_nar y)) (n_table (y_nar y)) H s;
  li_work : match y_work y with
            | WMerge s _ _ _ => source (n_ops (y_nar y)) (n_table (y_nar y)) H s
            | WAdd _ l => forall s, In s l -> learned (n_ops (y_nar y)) (n_table (y_nar y)) H s
            | _ => True
            end;
  li_reach : gReach (n_goals (y_nar y));
  li_goals : allP (goalOk (n_ops (y_nar y)) (n_table (y_nar y)) H (cells (n_mem (y_nar y)))) (n_goals (y_nar y));
  li_log : forall H1 x H2, H = H1 ++ x :: H2 -> accounted (n_ops (y_nar y)) (n_table (y_nar y)) H1 x
}.

Lemma typedGoal_more : forall H x g, typedGoal H g -> typedGoal (H ++ x) g.
Proof. intros H x g Hg. apply in_app_iff. now left. Qed.
Lemma goalOk_more : forall ops ops' tab H x h s evi, (forall o, In o ops -> In o ops') -> goalOk ops tab H h s evi -> goalOk ops' tab (H ++ x) h s evi.
Proof.
  intros ops ops' tab H x h s evi I (W & E). split.
  - eapply wanted_mono; [|apply typedGoal_more|exact W]. intros b. now apply learned_mono.
  - intros a Ha. eapply reason_mono; [|apply typedGoal_more|apply E, Ha]. intros b. now apply learned_mono.
Qed.
Lemma learned_ops : forall ops ops' tab H s, (forall o, In o ops -> In o ops') -> learned ops tab H s -> learned ops' tab H s.
Proof. intros ops ops' tab H s I L. rewrite <- (app_nil_r H). now apply learned_mono with (ops := ops). Qed.
Lemma accounted_ops : forall ops ops' tab H x, (forall o, In o ops -> In o ops') -> accounted ops tab H x -> accounted ops' tab H x.
Proof.
  intros ops ops' tab H x I A. destruct x; cbn in *; auto.
  - destruct A as (o & ops0 & now & A1 & A2 & A3 & A4 & A5). exists o, ops0, now. auto 10.
  - destruct A as (W & (b & R) & ops0 & now & A4 & A5). split; [|split].
    + eapply wanted_mono; [|intros z Hz; exact Hz|exact W]. intros z. now apply learned_ops.
    + exists b. eapply reason_mono; [|intros z Hz; exact Hz|exact R]. intros z. now apply learned_ops.
    + exists ops0, now. auto.
Qed.
(** more history, the same beliefs and goals *)
Lemma life_more : forall H x n n' p c w, lifeInv H (mkPsys n p c w) -> n_cfg n' = n_cfg n \/ (1 <= c_nOpsMax (n_cfg n'))%nat -> (forall o, In o (n_ops n) -> In o (n_ops n')) ->
  n_table n' = n_table n -> n_mem n' = n_mem n -> n_goals n' = n_goals n -> (exists pre, eventsIn (H ++ x) = pre ++ n_trace n') ->
  (forall H1 z H2, x = H1 ++ z :: H2 -> accounted (n_ops n') (n_table n') (H ++ H1) z) -> lifeInv (H ++ x) (mkPsys n' p c w).
Proof.
  intros H x n n' p c w [A1 A2 A3 A4 A5 A6 A7 A8 A9 A10] Ec Eo Et Em Eg T Ac. cbn [y_nar y_main y_chan y_work] in *. constructor; cbn [y_nar y_main y_chan y_work]; rewrite ?Et, ?Em, ?Eg in *.
  - destruct Ec as [->|Ec]; auto.
  - intros s Hs. apply in_app_iff in Hs. destruct Hs as [Hs|Hs]; [now apply A2|]. apply in_split in Hs. destruct Hs as (H1 & H2 & E). exact (Ac _ _ _ E).
  - exact T.
  - intros s Hs. eapply learned_mono; eauto.
  - destruct p; auto; intros; [eapply source_mono; eauto|eapply learned_mono; eauto].
  - intros s now Hs. eapply source_mono; eauto.
  - destruct w; auto; intros; [eapply source_mono; eauto|eapply learned_mono; eauto].
  - exact A8.
  - intros e He. eapply goalOk_more; eauto.
  - intros H1 z H2 E. apply app_eq_app in E. destruct E as (l & [(E1 & E2)|(E1 & E2)]).
    + destruct l as [|z' l].
      * rewrite app_nil_r in E1. subst H1. cbn in E2. specialize (Ac [] z H2 (eq_sym E2)). now rewrite app_nil_r in Ac.
      * cbn in E2. injection E2 as <- E2. eapply accounted_ops; [exact Eo|]. eapply A10. exact E1.
    + subst H1. now apply (Ac l z H2).
Qed.
Lemma cell_in : forall h a q p, s_term (rd h a) = Stmt PREDIMPL q p -> (a < length h)%nat /\ In (rd h a) h.
Proof.
  intros h a q p E. destruct (Nat.lt_ge_cases a (length h)) as [L|L]; [split; auto; now apply nth_In|]. rewrite rd_out in E by auto. discriminate.
Qed.
Definition termsKept (h h' : list sentence) : Prop := forall a, (a < length h)%nat -> s_term (rd h' a) = s_term (rd h a).
Lemma goalOk_cells : forall ops tab H h h' s evi, termsKept h h' -> (forall x, In x h' -> learned ops tab H x) -> goalOk ops tab H h s evi -> goalOk ops tab H h' s evi.
Proof.
  intros ops tab H h h' s evi K A (W & E). split; auto. intros a Ha. destruct (E a Ha) as (_ & g & q & p & T & R).
  assert (T' : s_term (rd h' a) = Stmt PREDIMPL q p) by (rewrite K; auto; now apply (cell_in _ _ _ _ T)).
  split; [apply A; now apply (cell_in _ _ _ _ T')|]. exists g, q, p. auto.
Qed.
Lemma life_cells : forall H n m p c w, lifeInv H (mkPsys n p c w) -> termsKept (cells (n_mem n)) (cells m) ->
  (forall x, In x (cells m) -> learned (n_ops n) (n_table n) H x) -> lifeInv H (mkPsys (setMem n m) p c w).
Proof.
  intros H n m p c w [A1 A2 A3 A4 A5 A6 A7 A8 A9 A10] K L. cbn in *. constructor; auto. cbn. intros e He. eapply goalOk_cells; eauto.
Qed.
Lemma new_kept : forall s h h', onlyNew s h h' -> termsKept h h'.
Proof. intros s h h' (x & -> & _) a Ha. now rewrite rd_app. Qed.
Lemma life_filed : forall us H n s nB now m p c w, lifeInv H (mkPsys n p c w) -> learned (n_ops n) (n_table n) H s ->
  mem_add_evidence_internal us (n_mem n) s nB now = Ok m -> lifeInv H (mkPsys (setMem n m) p c w).
Proof.
  intros us H n s nB now m p c w I L M. apply internal_new in M. apply life_cells; auto; [now apply new_kept with (s := s)|].
  destruct M as (x & -> & X). intros z Hz. apply in_app_iff in Hz. destruct Hz as [Hz|Hz]; [now apply (li_cells _ _ I)|]. rewrite (X z Hz). exact L.
Qed.
Lemma wr_in' : forall h a (e s : sentence), In s (wr h a e) -> s = e \/ In s h.
Proof. exact ProcX3_Proofs.wr_in. Qed.
Lemma learned_cell : forall H n p c w a s, lifeInv H (mkPsys n p c w) -> s_evi (rd (cells (n_mem n)) a) = Some s -> learned (n_ops n) (n_table n) H (rd (cells (n_mem n)) a) /\ (a < length (cells (n_mem n)))%nat.
Proof.
  intros H n p c w a s I E. destruct (Nat.lt_ge_cases a (length (cells (n_mem n)))) as [L|L]; [|rewrite rd_out in E by auto; discriminate].
  split; auto. apply (li_cells _ _ I). now apply nth_In.
Qed.
Lemma life_miss : forall H n a h p c w, lifeInv H (mkPsys n p c w) -> negConfirm (cells (n_mem n)) a = Ok h -> lifeInv H (mkPsys (setCells n h) p c w).
Proof.
  intros H n a h p c w I N. apply neg_one in N. destruct N as (L & _ & p0 & c0 & Ev & ->). unfold setCells. apply life_cells; auto; cbn [cells].
  - intros b Hb. rewrite rd_wr by auto. destruct (Nat.eqb_spec b (fst a)); [subst; reflexivity|reflexivity].
  - intros x Hx. apply wr_in' in Hx. destruct Hx as [->|Hx]; [|now apply (li_cells _ _ I)].
    destruct (learned_cell _ _ _ _ _ _ _ I Ev) as ((o & os & k & R & S) & _). exists o, os, (k + 1). split; auto. now apply rests_missed.
Qed.
Lemma life_merge : forall H n s a h b p c w, lifeInv H (mkPsys n p c w) -> source (n_ops n) (n_table n) H s -> mergeInto s (cells (n_mem n)) a = Ok (h, b) ->
  lifeInv H (mkPsys (setCells n h) p c w).
Proof.
  intros H n s a h b p c w I Sr M. assert (L := merge_in _ _ _ _ M). apply mergeInto_ok in M. destruct M as (Eb & M). destruct b.
  2:{ subst h. unfold setCells. apply life_cells; auto; [intros z Hz; reflexivity|apply (li_cells _ _ I)]. }
  symmetry in Eb. apply supportsb_iff in Eb. destruct M as (e' & C & ->). unfold setCells. apply life_cells; auto; cbn [cells].
  - intros z Hz. rewrite rd_wr by auto. destruct (Nat.eqb_spec z a); [subst|reflexivity]. destruct C as (? & ? & ? & ? & _ & _ & ->). reflexivity.
  - intros x Hx. apply wr_in' in Hx. destruct Hx as [->|Hx]; [|now apply (li_cells _ _ I)].
    assert (exists v, s_evi (rd (cells (n_mem n)) a) = Some v) as (v & Ev) by (destruct C as (? & ? & ? & ? & _ & E & _); eauto).
    destruct (learned_cell _ _ _ _ _ _ _ I Ev) as ((o & os & k & R & S & A) & _). exists o, (s :: os), k. split; [eapply rests_merged; eauto|]. split; auto.
    intros x [<-|Hx]; auto.
Qed.

(** * Goals and deeds *)
Section Reasons.
Variables (ops : list op) (tab : list Z) (H : list happening).
Notation L := (learned ops tab H).
Notation G := (typedGoal H).
Lemma chain_ok : forall m k g0 ev0 ev c, (forall x, In x (cells m) -> L x) -> goalOk ops tab H (cells m) g0 ev0 -> goalChain (believed m) k g0 ev c -> goalOk ops tab H (cells m) c ev.
Proof.
  intros m k g0 ev0 ev c A O Ch.
  assert (St : forall g ev c, wanted L G g -> goalStep (believed m) g ev c -> goalOk ops tab H (cells m) c ev).
  { intros g ev' c' W S. destruct S as [g x rest v c' E V I|g a b subj vg vb c' N (-> & _) E Sh V1 V2 I].
    - split; [|discriminate]. eapply wt_sub; [exact W|]. eapply gs_detach; eauto.
    - assert (Lb : L (rd (cells m) a)) by (apply A; now apply (cell_in _ _ _ _ E)). split.
      + eapply wt_sub; [exact W|]. eapply gs_belief with (a := a); eauto.
      + intros a' Ea. injection Ea as <-. split; auto. exists g, subj, (s_term g). split; auto. split; [left; symmetry; apply I|]. split; [constructor|exact W]. }
  revert ev0 O. induction Ch as [g ev c S|n g ev1 c1 ev c Ch IH S]; intros ev0 O.
  - eapply St; eauto. apply O.
  - eapply St; [|exact S]. apply (IH ev0 O).
Qed.
Lemma plan_leads : forall m ev l p, (forall x, In x (cells m) -> L x) -> planChain m ev l p ->
  match l with [] => p = ev | a :: _ => exists sq p0, s_term (rd (cells m) a) = Stmt PREDIMPL sq p0 /\ leads L p0 p end.
Proof.
  intros m ev l p A Pl. induction Pl as [|l p a rest p' Pl IH Ha E]; [reflexivity|].
  assert (Lb : L (rd (cells m) a)) by (apply A; now apply (cell_in _ _ _ _ E)).
  destruct l as [|a0 l]; cbn.
  - subst p. exists (Seq (ev :: rest)), p'. split; auto. constructor.
  - destruct IH as (sq & p0 & E0 & Ld). exists sq, p0. split; auto. eapply ld_more; eauto.
Qed.
Lemma decision_ok : forall n b a pre opT e, (forall x, In x (cells (n_mem n)) -> L x) -> allP (goalOk ops tab H (cells (n_mem n))) (n_goals n) ->
  candidate n b -> b_evi b = Some a -> b_seq b = Seq (pre ++ [opT]) -> opTerm opT -> decisionGoal n a opT e -> goalOk ops tab H (cells (n_mem n)) (e_sentence e) (Some a).
Proof.
  intros n b a pre opT e A Al Cd Eb Es Op (v & V & I & _).
  assert (R : reason L G opT (rd (cells (n_mem n)) a)).
  { destruct Cd as [ev en ut v0 He St (pre' & op' & asg & T & U & ->) V0|tr ev a0 l p hit v0 v' sq p0 Et Pl St Eh V0 Cb T Ln]; cbn [b_evi b_seq] in *.
    - destruct (Al en St) as (W & Rs). destruct (Rs a Eb) as (Lb & g & q & p & E & D & Ld & Wg). split; auto. exists g, q, p. split; auto. split; [|split; auto].
      right. split; auto. exists pre. right. exists asg. destruct D as [->|((args & name & _ & D) & _)]; [exact Es|]. unfold e_term in T. rewrite D in T. discriminate T.
    - assert (a0 = a) by congruence. subst a0. destruct (plan_leads _ _ _ _ A Pl) as (sq' & p1 & T' & Ld). assert (sq' = sq /\ p1 = p0) as [-> ->] by (rewrite T in T'; split; congruence).
      destruct (Al hit St) as (W & _). split; [apply A; now apply (cell_in _ _ _ _ T)|]. exists (e_sentence hit), sq, p0. split; auto. split.
      + right. split; auto. exists pre. now left.
      + split; auto. unfold e_term in Eh. now rewrite Eh. }
  assert (Te : s_term (e_sentence e) = opT) by apply I. split; [|intros a' Ea; injection Ea as <-; now rewrite Te].
  destruct R as (Lb & g & q & p & E & D & Ld & Wg). eapply wt_do with (b := rd (cells (n_mem n)) a); eauto; rewrite Te; auto.
Qed.
End Reasons.
Lemma last_part : forall k (l : list event), exists pre, l = pre ++ lastEvents k l.
Proof. intros k l. exists (firstn (length l - k) l). unfold lastEvents. symmetry. apply firstn_skipn. Qed.
Lemma setTrace_back : forall n tr, setTrace (setTrace n tr) (n_trace n) = n.
Proof. now destruct n. Qed.
Lemma life_step1 : forall H n c w decl r n', lifeInv H (mkPsys n MFree c w) -> narStep1 n decl r = Ok n' ->
  lifeInv H (mkPsys (setTrace n' (n_trace n)) MFree c w).
Proof.
  intros H n c w decl r n' I S. assert (Sc := step1_cells _ _ _ _ S). assert (Sp := step1_spec _ _ _ _ S). destruct Sp as (_ & S1 & S2 & S3 & _ & _ & S4).
  assert (Sg := step1_P (goalOk (n_ops n) (n_table n) H (cells (n_mem n))) _ _ _ _ S (li_reach _ _ I) (li_goals _ _ I)).
  destruct I as [A1 A2 A3 A4 A5 A6 A7 A8 A9 A10]. cbn [y_nar y_main y_chan y_work] in *.
  constructor; cbn [y_nar y_main y_chan y_work n_cfg n_ops n_table n_trace n_mem n_goals setTrace]; rewrite ?S1, ?S2, ?S3, ?Sc in *; auto.
  apply Sg.
  - intros g0 ev0 k ev cc P Ch. rewrite <- Sc in *. eapply chain_ok; eauto.
  - intros b a pre opT e Cd E1 E2 Op Dg. eapply decision_ok; eauto.
Qed.
Lemma trace_goals : forall n rs g ms, traceStep n rs = Ok (g, ms) -> g = n_goals n \/ exists ev, g = event_occurred (n_goals n) ev.
Proof.
  intros n rs g ms T. unfold traceStep in T. assert (E : g = match List.rev (n_trace n) with [] => n_goals n | e :: _ => event_occurred (n_goals n) (ev_name e) end).
  { destruct (Nat.leb _ _); [|congruence]. destruct (rmapM _ _); [|discriminate]. cbn [rbind] in T. congruence. }
  destruct (List.rev (n_trace n)); eauto.
Qed.
Lemma life_pcs : forall H n p c w p' c' w', lifeInv H (mkPsys n p c w) ->
  match p' with MSend ms => forall s now, In (s, now) ms -> source (n_ops n) (n_table n) H s | MAdd _ l => forall s, In s l -> learned (n_ops n) (n_table n) H s | _ => True end ->
  (forall s now, In (s, now) c' -> source (n_ops n) (n_table n) H s) ->
  match w' with WMerge s _ _ _ => source (n_ops n) (n_table n) H s | WAdd _ l => forall s, In s l -> learned (n_ops n) (n_table n) H s | _ => True end ->
  lifeInv H (mkPsys n p' c' w').
Proof. intros H n p c w p' c' w' [A1 A2 A3 A4 A5 A6 A7 A8 A9 A10] P C W. cbn in *. constructor; auto. Qed.
Lemma life_goals : forall H n p c w g, lifeInv H (mkPsys n p c w) -> gReach g -> allP (goalOk (n_ops n) (n_table n) H (cells (n_mem n))) g -> lifeInv H (mkPsys (setGoals n g) p c w).
Proof. intros H n p c w g [A1 A2 A3 A4 A5 A6 A7 A8 A9 A10] R A. cbn in *. constructor; auto. Qed.
Lemma life_ant : forall H n p c w l, lifeInv H (mkPsys n p c w) -> lifeInv H (mkPsys (setAnt n l) p c w).
Proof. intros H n p c w l [A1 A2 A3 A4 A5 A6 A7 A8 A9 A10]. cbn in *. constructor; auto. Qed.
Lemma one_entry : forall (A : Type) (P : list A -> A -> Prop) (x : A), P [] x -> forall H1 z H2, [x] = H1 ++ z :: H2 -> P H1 z.
Proof. intros A P x Px H1 z H2 E. destruct H1 as [|y H1]; cbn in E; [congruence|]. exfalso. destruct H1; discriminate E. Qed.
Lemma life_entry : forall H x n n' p c w, lifeInv H (mkPsys n p c w) -> n_cfg n' = n_cfg n -> n_ops n' = n_ops n ->
  n_table n' = n_table n -> n_mem n' = n_mem n -> n_goals n' = n_goals n -> (exists pre, eventsIn (H ++ [x]) = pre ++ n_trace n') ->
  accounted (n_ops n) (n_table n) H x -> lifeInv (H ++ [x]) (mkPsys n' p c w).
Proof.
  intros H x n n' p c w I E1 E2 E3 E4 E5 T A. apply (life_more H [x] n n' p c w); auto; [rewrite E2; auto|].
  apply (one_entry _ (fun H1 z => accounted (n_ops n') (n_table n') (H ++ H1) z)). now rewrite app_nil_r, E2, E3.
Qed.
Lemma life_quiet : forall H n n' p c w, lifeInv H (mkPsys n p c w) -> n_cfg n' = n_cfg n \/ (1 <= c_nOpsMax (n_cfg n'))%nat -> (forall o, In o (n_ops n) -> In o (n_ops n')) ->
  n_table n' = n_table n -> n_mem n' = n_mem n -> n_goals n' = n_goals n -> (exists pre, eventsIn H = pre ++ n_trace n') -> lifeInv H (mkPsys n' p c w).
Proof.
  intros H n n' p c w I E1 E2 E3 E4 E5 T. rewrite <- (app_nil_r H). apply (life_more H [] n n' p c w); auto; [now rewrite app_nil_r|].
  intros H1 z H2 E. destruct H1; discriminate E.
Qed.

Lemma life_else : forall us H y a y', lifeInv H y -> yact us y a = Ok (Some y') -> match a with XStep0 | XMain _ _ | XWork _ => True | _ => False end -> lifeInv H y'.
Proof.
  intros us H [n p c w] a y' I Y K. assert (Sm := li_main _ _ I). assert (Sc := li_chan _ _ I). assert (Sw := li_work _ _ I). cbn [y_nar y_main y_chan y_work] in *.
  destruct a as [| | | | |nB rs|draws]; try contradiction; cbn [yact] in Y.
  - destruct p; try discriminate. destruct (confirm n) as [ant|]; [|discriminate]. cbn [rbind] in Y. injection Y as <-.
    apply (life_pcs H _ MFree c w); auto. now apply life_ant.
  - destruct p as [|[|a todo]|[|m ms]|now [|s todo]]; try discriminate.
    + destruct (traceStep n rs) as [[g ms]|] eqn:T; [|discriminate]. cbn [rbind] in Y. injection Y as <-.
      apply (life_pcs H _ (MNeg []) c w); auto.
      * apply life_goals; auto; destruct (trace_goals _ _ _ _ T) as [->|(ev & ->)]; try apply (li_reach _ _ I); try apply (li_goals _ _ I).
        -- apply gr_event. apply (li_reach _ _ I).
        -- apply event_P. apply (li_goals _ _ I).
      * intros s now Hs. destruct (trace_sends _ _ _ _ T (li_cfg _ _ I) _ _ Hs) as (_ & O). right. destruct (li_trace _ _ I) as (pre & Et).
        exists pre, (n_trace n), [], (n_ops n). rewrite app_nil_r. auto.
    + destruct (negConfirm _ _) as [h|] eqn:N; [|discriminate]. cbn [rbind] in Y. injection Y as <-.
      apply (life_pcs H _ (MNeg (a :: todo)) c w); auto. eapply life_miss; eauto.
    + injection Y as <-. apply (life_pcs H _ (MSend []) c w); auto.
    + destruct (Nat.ltb _ _); [|discriminate]. injection Y as <-. apply (life_pcs H _ (MSend (m :: ms)) c w); auto.
      * intros s now Hs. apply (Sm s now). now right.
      * intros s now Hs. apply in_app_iff in Hs. destruct Hs as [Hs|[->|[]]]; [eauto|]. apply (Sm s now). now left.
    + injection Y as <-. apply (life_pcs H _ (MAdd now []) c w); auto.
    + destruct (mem_add_evidence_internal _ _ _ _ _) as [m|] eqn:M; [|discriminate]. cbn [rbind] in Y. injection Y as <-.
      apply (life_pcs H _ (MAdd now (s :: todo)) c w); auto; cbn [n_ops n_table setMem].
      * eapply life_filed; eauto. apply Sm. now left.
      * intros x Hx. apply Sm. now right.
  - assert (Y' : match w with
      | WIdle => match c with (s, now) :: c' => do l <- mergeTargets (n_mem n) s; Ok (Some (mkPsys n p c' (WMerge s now l false))) | [] => Ok None end
      | WMerge s now (a :: l) rv => do '(h, b) <- mergeInto s (cells (n_mem n)) a; Ok (Some (mkPsys (setCells n h) p c (WMerge s now l (rv || b))))
      | WMerge s now [] true => Ok (Some (mkPsys n p c WIdle))
      | WMerge s now [] false => do vs <- matchandintro_var1_sentence s draws; Ok (Some (mkPsys n p c (WAdd now (s :: vs))))
      | WAdd now (s :: todo) => do m <- mem_add_evidence_internal us (n_mem n) s (c_nBeliefs (n_cfg n)) now; Ok (Some (mkPsys (setMem n m) p c (WAdd now todo)))
      | WAdd now [] => Ok (Some (mkPsys n p c WIdle)) end = Ok (Some y')) by (destruct p; exact Y). clear Y.
    destruct w as [|s now [|a l] rv|now [|s todo]].
    + destruct c as [|[s now] c]; [discriminate|]. destruct (mergeTargets _ _) as [l|]; [|discriminate]. cbn [rbind] in Y'. injection Y' as <-.
      apply (life_pcs H n p ((s, now) :: c) WIdle); auto.
      * intros s0 now0 Hs. apply (Sc s0 now0). now right.
      * apply (Sc s now). now left.
    + destruct rv.
      * injection Y' as <-. apply (life_pcs H n p c (WMerge s now [] true)); auto.
      * destruct (matchandintro_var1_sentence s draws) as [vs|] eqn:M; [|discriminate]. cbn [rbind] in Y'. injection Y' as <-.
        apply (life_pcs H n p c (WMerge s now [] false)); auto. intros x [<-|Hx]; [apply learn_self; auto; apply (li_typed _ _ I)|].
        eapply learn_general; eauto. apply (li_typed _ _ I).
    + destruct (mergeInto _ _ _) as [[h b]|] eqn:M; [|discriminate]. cbn [rbind] in Y'. injection Y' as <-.
      apply (life_pcs H _ p c (WMerge s now (a :: l) rv)); auto. eapply life_merge; eauto.
    + injection Y' as <-. apply (life_pcs H _ p c (WAdd now [])); auto.
    + destruct (mem_add_evidence_internal _ _ _ _ _) as [m|] eqn:M; [|discriminate]. cbn [rbind] in Y'. injection Y' as <-.
      apply (life_pcs H _ p c (WAdd now (s :: todo))); auto; cbn [n_ops n_table setMem].
      * eapply life_filed; eauto. apply Sw. now left.
      * intros x Hx. apply Sw. now right.
Qed.
Theorem lived_inv : forall H y, lived H y -> lifeInv H y.
Proof.
  intros H y Lv. induction Lv as [cfg ops tab nMax depth Hc|us H y e y' Lv I Y|us H y s y' Lv I Y|us H y t id u draws y' Lv I Y|us H y decl r y' Lv I Y T
    |us H y decl r y' o evs Lv I Y B Ho Bo t D T|us H y decl r y' g evs Lv I Y M D T|us H y a y' Lv I Y K|H n p c w o Lv I|H n p c w b Lv I].
  - constructor; cbn; auto; try (intros; contradiction).
    + intros s [].
    + exists []. reflexivity.
    + constructor.
    + intros x Hx. exfalso. destruct Hx as [(i & b & gr & E & Hg & _)|[]]. cbn in E. apply nth_error_In in E. apply repeat_spec in E. subst b. destruct Hg.
    + intros H1 x H2 E. destruct H1; discriminate E.
  - destruct y as [n p c w]. cbn [yact] in Y. destruct p; try discriminate. injection Y as <-. cbn [y_nar]. apply (life_entry H _ n); auto; [|reflexivity].
    destruct (li_trace _ _ I) as (pre & E). exists pre. rewrite events_more, E. cbn. unfold event_happened. now rewrite app_assoc.
  - destruct y as [n p c w]. cbn [yact] in Y. destruct p; try discriminate. destruct (addEntry _ _ _ _ _) as [g|] eqn:Ad; [|discriminate]. cbn [rbind] in Y. injection Y as <-.
    assert (I' : lifeInv (H ++ [LGoal s]) (mkPsys n MFree c w)).
    { apply (life_entry H _ n); auto.
      - destruct (li_trace _ _ I) as (pre & E). exists pre. rewrite events_more, E. cbn. apply app_nil_r.
      - cbn. apply addEntry_cases in Ad. apply Ad. }
    apply life_goals; auto; [eapply gr_add; [apply (li_reach _ _ I)|exact Ad]|]. eapply add_P; [apply (li_goals _ _ I')| |exact Ad].
    split; [|discriminate]. apply wt_typed. apply in_app_iff. right. now left.
  - destruct y as [n p c w]. cbn [yact] in Y. destruct p; try discriminate. destruct (matchandintro_var1_sentence _ _) as [vs|] eqn:Mi; [|discriminate]. cbn [rbind] in Y. injection Y as <-.
    assert (I' : lifeInv (H ++ [LBelief (userBelief t id u)]) (mkPsys n MFree c w)).
    { apply (life_entry H _ n); auto.
      - destruct (li_trace _ _ I) as (pre & E). exists pre. rewrite events_more, E. cbn. apply app_nil_r.
      - cbn. eauto. }
    apply (life_pcs _ n MFree c w); auto; [|apply (li_chan _ _ I')|apply (li_work _ _ I')].
    assert (S : source (n_ops n) (n_table n) (H ++ [LBelief (userBelief t id u)]) (userBelief t id u)) by (left; apply in_app_iff; right; now left).
    intros x [<-|Hx]; [apply learn_self; auto; apply (li_typed _ _ I')|]. eapply learn_general; eauto. apply (li_typed _ _ I').
  - destruct y as [n p c w]. cbn [yact] in Y. destruct p; try discriminate. destruct (narStep1 _ _ _) as [n'|] eqn:S; [|discriminate]. cbn [rbind] in Y. injection Y as <-. cbn [y_nar] in *.
    apply (life_quiet H (setTrace n' (n_trace n))); cbn; auto; [eapply life_step1; eauto|].
    destruct (li_trace _ _ I) as (pre & E). cbn [y_nar] in E. destruct (last_part 20 (n_trace n)) as (pre' & E'). exists (pre ++ pre'). rewrite T, E, <- app_assoc. now rewrite <- E'.
  - destruct y as [n p c w]. cbn [yact] in Y. destruct p; try discriminate. destruct (narStep1 _ _ _) as [n'|] eqn:S; [|discriminate]. cbn [rbind] in Y. injection Y as <-. cbn [y_nar] in *.
    apply (life_entry H _ (setTrace n' (n_trace n))); cbn; auto; [eapply life_step1; eauto| |].
    + destruct (li_trace _ _ I) as (pre & E). cbn [y_nar] in E. destruct (last_part 20 (n_trace n ++ evs)) as (pre' & E'). exists (pre ++ pre'). rewrite events_more, T, E. cbn.
      rewrite app_nil_r, <- !app_assoc. now rewrite <- E'.
    + destruct (step1_spec _ _ _ _ S) as (_ & _ & S2 & S3 & _). rewrite S2. exists o, (n_ops n), (n_t n). auto 10.
  - destruct y as [n p c w]. cbn [yact] in Y. destruct p; try discriminate. destruct (narStep1 _ _ _) as [n'|] eqn:S; [|discriminate]. cbn [rbind] in Y. injection Y as <-. cbn [y_nar] in *.
    apply (life_entry H _ (setTrace n' (n_trace n))); cbn; auto; [eapply life_step1; eauto| |].
    + destruct (li_trace _ _ I) as (pre & E). cbn [y_nar] in E. destruct (last_part 20 (n_trace n ++ evs)) as (pre' & E'). exists (pre ++ pre'). rewrite events_more, T, E. cbn.
      rewrite app_nil_r, <- !app_assoc. now rewrite <- E'.
    + destruct (step1_spec _ _ _ _ S) as (_ & _ & S2 & S3 & _). rewrite S2, S3. destruct M as (e & a & x & -> & Ea & Mo & El).
      assert (O : goalOk (n_ops n) (n_table n) H (cells (n_mem n)) (e_sentence e) (Some a)).
      { destruct Mo as [Ha|(b & pre & e0 & Cd & _ & Eb & Es & Dg & Sb)].
        - assert (O := li_goals _ _ I e (or_intror Ha)). now rewrite Ea in O.
        - apply sameButAcc_fields in Sb. destruct Sb as (Q1 & _). rewrite Q1. eapply decision_ok; eauto; [apply (li_cells _ _ I)|apply (li_goals _ _ I)|].
          destruct D as (args & name & (N & E) & _). exists args, name. auto. }
      destruct O as (W & R). split; auto. split; [eauto|]. exists (n_ops n), (n_t n). auto.
  - eapply life_else; eauto.
  - apply (life_quiet H n); cbn; auto; [intros o' Ho; apply in_app_iff; auto|apply (li_trace _ _ I)].
  - apply (life_quiet H n); cbn; auto; [right; exact (li_cfg _ _ I)|apply (li_trace _ _ I)].
Qed.
