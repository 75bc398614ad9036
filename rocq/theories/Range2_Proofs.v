(** The integers of the procedural part and of the whole program stay small. *)
From Coq Require Import ZArith Bool List Lia Permutation.
From Verif Require Import Base F64_Model Term_Model Stamp_Model Tv_Model Sentence_Model Mem_Model Cycle_Model Sched_Model
  PMem_Model Goal_Model Proc_Model ProcS_Model ProcX_Model Parser_Model Nar_Model Whole_Model
  Goal_Spec Goal_Proofs Goal2_Proofs Goal3_Proofs Proc_Spec ProcB_Proofs ProcC_Proofs ProcS_Proofs ProcV_Proofs Live_Proofs Sort_Proofs Range_Spec Range_Proofs.
Import ListNotations.
Local Open Scope list_scope.
Local Open Scope Z_scope.

(** * Goals *)
Record gFine (c d : Z) (g : gsys) : Prop := mkGFine {
  gf_entries : forall e, In e (retEntries g) -> upto c (e_create e) /\ upto d (e_depth e);
  gf_rounds : g_rounds g = 15
}.
Lemma gFine_more : forall c d c' d' g, c <= c' -> d <= d' -> gFine c d g -> gFine c' d' g.
Proof. intros c d c' d' g L1 L2 [A B]. constructor; auto. intros e He. destruct (A e He). unfold upto in *. lia. Qed.
Lemma add_fine : forall c d g t goal evi depth g', gFine c d g -> upto c t -> upto d depth -> addEntry g t goal evi depth = Ok g' -> gFine c d g'.
Proof.
  intros c d g t goal evi depth g' [A B] Ht Hd H. apply addEntry_cases in H. destruct H as (_ & [[_ ->]|H]); [now constructor|]. constructor.
  - intros x Hx. apply (added_from _ _ _ _ H) in Hx. destruct Hx as [Hx|Hx]; [auto|]. apply sameButAcc_fields in Hx. cbn in Hx. destruct Hx as (_ & _ & -> & -> & _). auto.
  - apply added_cfg in H. destruct H as (_ & _ & _ & ->). exact B.
Qed.
Lemma event_fine : forall c d g ev, gFine c d g -> gFine c d (event_occurred g ev).
Proof.
  intros c d g ev [A B]. constructor; [|exact B]. intros x Hx. rewrite event_entries in Hx. apply in_map_iff in Hx. destruct Hx as (e & <- & He).
  destruct (A e He). unfold satisfy. destruct (_ && _); auto.
Qed.
Lemma limit_fine : forall c d decay g t g', gFine c d g -> limitGoals decay g t = Ok g' -> gFine c d g'.
Proof.
  intros c d decay g t g' [A B] H. apply limit_unfold in H. destruct H as (arr & srt & E1 & E2 & _ & H). apply addAll_spec in H. rewrite emptyEntries in H. destruct H as (_ & F & _ & _ & _ & _ & _ & _ & R).
  constructor; [|rewrite R; exact B]. intros x Hx. destruct (F x Hx) as [[]|(e & He & S)]. apply sameButAcc_fields in S. destruct S as (_ & _ & -> & -> & _).
  assert (Ha : In e arr).
  { apply Mem_Proofs.firstn_in in He. apply fsort_desc_ok in E2. destruct E2 as (Q & _). eapply Permutation_in; [apply Permutation_sym; exact Q|exact He]. }
  destruct (rmapM_back _ _ _ _ _ _ E1 Ha) as (e0 & He0 & R0). unfold refreshUtil in R0. destruct (retTv _); [|discriminate]. cbn [unwrap rbind] in R0. injection R0 as <-.
  cbn [setUtil e_create e_depth]. apply A. apply in_app_iff in He0. destruct He0 as [He0|He0]; auto. unfold retEntries. apply in_app_iff. now right.
Qed.
Lemma remove_fine : forall c d g i, gFine c d g -> gFine c d (setActive g (remove_at i (g_active g))).
Proof.
  intros c d g i [A B]. constructor; [|exact B]. intros x Hx. apply A. unfold retEntries in *. cbn [g_batches g_active setActive] in Hx. apply in_app_iff in Hx. apply in_app_iff. destruct Hx as [Hx|Hx]; auto.
  right. clear A. revert i Hx. induction (g_active g) as [|y l IH]; intros [|i] Hx; cbn in *; try contradiction; [now right|]. destruct Hx as [->|Hx]; [now left|right; eauto].
Qed.
Definition within (d : Z) (j : nat) (z : Z) : Prop := d <= z <= d + Z.of_nat j.
Lemma rounds_depth : forall u m d rs j ws cs ws' cs', rfold (subRound u m) rs (ws, cs) = Ok (ws', cs') ->
  (forall w, In w ws -> within d j (snd w)) -> (forall h, In h cs -> within d j (h_depth h)) ->
  forall h, In h cs' -> within d (j + length rs) (h_depth h).
Proof.
  intros u m d rs. induction rs as [|r rs IH]; intros j ws cs ws' cs' H W C; cbn [rfold] in H.
  - assert (cs' = cs) by congruence. subst. cbn [length]. rewrite Nat.add_0_r. exact C.
  - destruct (subRound u m (ws, cs) r) as [[ws1 cs1]|] eqn:E; cbn [rbind] in H; [|discriminate].
    cbn [length]. replace (j + S (length rs))%nat with (S j + length rs)%nat by lia. unfold subRound in E. destruct ws as [|w0 ws0].
    { assert (ws1 = [] /\ cs1 = cs) as [-> ->] by (split; congruence). apply (IH (S j) _ _ _ _ H); [intros w []|]. intros h Hh. apply C in Hh. unfold within in *. lia. }
    destruct r as [[k i] j0]. cbv beta iota zeta in E. set (ws := w0 :: ws0) in *.
    unfold idx in E. destruct (nth_error ws (Nat.modulo k (length ws))) as [w|] eqn:N; cbn [unwrap rbind] in E; [|discriminate].
    destruct (deriveGoalsHelper u (fst w) (snd w) (SAMPLE_2 i j0) m) as [hs|] eqn:D; cbn [rbind] in E; [|discriminate].
    assert (E1 : swap_remove (Nat.modulo k (length ws)) ws ++ map (fun h => (h_goal h, h_depth h)) hs = ws1) by congruence.
    assert (E2 : cs ++ hs = cs1) by congruence. clear E. subst ws1 cs1.
    apply helper_spec in D. destruct D as (G & _). rewrite Forall_forall in G.
    assert (Hw : within d j (snd w)) by (apply W; eapply nth_error_In; eauto).
    assert (Hh : forall h, In h hs -> within d (S j) (h_depth h)).
    { intros h Hh. destruct (G h Hh) as (_ & ->). unfold within in *. lia. }
    apply (IH (S j) _ _ _ _ H).
    + intros x Hx. apply in_app_iff in Hx. destruct Hx as [Hx|Hx].
      * assert (within d j (snd x)); [|unfold within in *; lia]. apply W. apply (Permutation_in _ (Run_Proofs.swap_remove_spec _ _ _ _ N)). now right.
      * apply in_map_iff in Hx. destruct Hx as (h & <- & Hx). cbn [snd]. auto.
    + intros h Hx. apply in_app_iff in Hx. destruct Hx as [Hx|Hx]; auto. apply C in Hx. unfold within in *. lia.
Qed.
Lemma infer_fine : forall c d u g t m r1 r2 rnd g', gFine c d g -> upto c t -> sampleAndInference u g t m r1 r2 rnd = Ok g' -> gFine c (d + 16) g'.
Proof.
  intros c d u g t m r1 r2 rnd g' F Ht H. assert (F' := F). destruct F' as [A B]. apply infer_unfold in H. destruct H as [[_ ->]|(goal & depth & ws & cs & hs & Sm & Rd & Hp & H)].
  { apply (gFine_more c d); auto; lia. }
  apply sample_in in Sm. destruct Sm as (e & i & At & Eg & Ed). assert (He : upto d depth) by (rewrite <- Ed; apply A, stored_iff; left; eauto).
  assert (Hd : forall h, In h (cs ++ hs) -> upto (d + 16) (h_depth h)).
  { intros h Hh. apply in_app_iff in Hh. destruct Hh as [Hh|Hh].
    - assert (X := rounds_depth u m depth _ 0 _ _ _ _ Rd). assert (Y : within depth (0 + length (map rnd (seq 0 (Z.to_nat (g_rounds g))))) (h_depth h)).
      { apply X; auto; [|intros h0 []]. intros w [<-|[]]. unfold within. cbn. lia. }
      rewrite map_length, seq_length, B in Y. unfold within, upto in *. change (0 + Z.to_nat 15)%nat with 15%nat in Y. lia.
    - apply helper_spec in Hp. destruct Hp as (G & _). rewrite Forall_forall in G. destruct (G h Hh) as (_ & ->). unfold upto in *. lia. }
  clear - F Ht H Hd. revert H Hd. generalize (cs ++ hs). intros l. apply (gFine_more c d c (d + 16)) in F; try lia. revert g F. induction l as [|h l IH]; intros g F H Hd; cbn [rfold] in H.
  - assert (g' = g) by congruence. now subst.
  - destruct (addEntry _ _ _ _ _) as [g1|] eqn:E; [|discriminate]. cbn [rbind] in H. apply (IH g1); auto; [|intros h0 H0; apply Hd; now right]. eapply add_fine; eauto. apply Hd. now left.
Qed.
Lemma step1_fine : forall n decl r n' c d, narStep1 n decl r = Ok n' -> gFine c d (n_goals n) -> upto c (n_t n) -> 0 <= d ->
  gFine c (d + 16 * Z.of_nat (length (i_derive r))) (n_goals n').
Proof.
  intros n decl r n' c d H F Ht D0. unfold narStep1 in H.
  destruct (bestByState n) as [b0|]; [|discriminate]. cbn [rbind] in H.
  destruct (planForward n (i_u r) (i_plan r) b0) as [b1|]; [|discriminate]. cbn [rbind] in H.
  destruct (decide n decl (i_u r) b1) as [n1|] eqn:E2; [|discriminate]. cbn [rbind] in H.
  destruct (execGoal n1) as [[n2 pk]|] eqn:E3; [|discriminate]. cbn [rbind] in H.
  destruct (babble n2 (i_babble r) pk) as [pk'|]; [|discriminate]. cbn [rbind] in H.
  destruct (execAction n2 pk') as [n3|] eqn:E5; [|discriminate]. cbn [rbind] in H.
  set (n4 := setTrace n3 (traceLimit (n_trace n3))) in *.
  destruct (if Z.rem (n_t n4) 101 =? 1 then _ else _) as [n5|] eqn:E6; [|discriminate]. cbn [rbind] in H.
  destruct (if Z.rem (n_t n5) 13 =? 1 then _ else _) as [n6|] eqn:E7; [|discriminate]. cbn [rbind] in H.
  destruct (rfold _ (i_derive r) (n_goals n6)) as [g|] eqn:E8; [|discriminate]. cbn [rbind] in H.
  assert (n' = setTime (setGoals n6 g) (n_t n6 + 1)) by congruence. subst n'. clear H.
  assert (D1 : gFine c d (n_goals n1) /\ n_t n1 = n_t n).
  { unfold decide in E2. destruct b1 as [[sq x [a|]]|]; try (assert (n1 = n) by congruence; subst n1; now split).
    destruct (fgtb x (c_thresh (n_cfg n))); [|assert (n1 = n) by congruence; subst n1; now split].
    destruct (convTermToStr sq); [|discriminate]. cbn [rbind] in E2. destruct (enforce (is_seq sq)) as [[]|]; [|discriminate]. cbn [rbind] in E2. destruct (is_seqAndLastOp sq) as [b|]; [|discriminate]. cbn [rbind] in E2.
    destruct (enforce b) as [[]|]; [|discriminate]. cbn [rbind] in E2. destruct (retSeqLast sq) as [opT|]; [|discriminate]. cbn [rbind] in E2. cbv zeta in E2.
    destruct (sentenceText _); [|discriminate]. cbn [rbind] in E2. destruct (convTermToStr opT); [|discriminate]. cbn [rbind] in E2.
    destruct (retTv _) as [v|]; [|discriminate]. cbn [unwrap rbind] in E2. destruct (enforce decl) as [[]|]; [|discriminate]. cbn [rbind] in E2.
    destruct (addEntry _ _ _ _ _) as [g1|] eqn:Ad; [|discriminate]. cbn [rbind] in E2.
    assert (n1 = setGoals n g1) by congruence. subst n1. cbn [n_goals setGoals n_t]. split; auto. eapply add_fine; eauto. unfold upto. lia. }
  destruct D1 as (F1 & T1).
  assert (D2 : gFine c d (n_goals n2) /\ n_t n2 = n_t n).
  { unfold execGoal in E3. destruct (pickGoal _ _) as [[[i e]|]|]; [| |discriminate]; cbn [rbind] in E3; [|injection E3 as <- <-; auto].
    destruct (e_evi e) as [evi|]; [|injection E3 as <- <-; auto]. destruct (decodeOp _); [|injection E3 as <- <-; auto]. cbv zeta in E3.
    destruct (idxZ _ _) as [iv|]; [|discriminate]. cbn [rbind] in E3. injection E3 as <- <-. destruct (c_anticipate _); cbn [n_goals setAnt setGoals n_t]; split; auto; now apply remove_fine. }
  destruct D2 as (F2 & T2).
  assert (D3 : n_goals n4 = n_goals n2 /\ n_t n4 = n_t n2).
  { subst n4. cbn. unfold execAction in E5. destruct pk' as [t|]; [|injection E5 as <-; auto]. destruct (decodeOp t) as [dec|]; [|discriminate]. cbn [unwrap rbind] in E5.
    destruct (ret_op_by_name _ _) as [o|]; [|injection E5 as <-; auto]. cbv zeta in E5. destruct (convTermToStr t); [|discriminate]. cbn [rbind] in E5. injection E5 as <-. auto. }
  assert (D5 : n_goals n5 = n_goals n2 /\ n_t n5 = n_t n2).
  { destruct D3 as (D3 & D3'). clear - E6 D3 D3'. clearbody n4. destruct (_ =? 1); [|split; congruence]. destruct (pLimit _ _); [|discriminate]. cbn [rbind] in E6. injection E6 as <-. auto. }
  destruct D5 as (D5 & T5).
  assert (D6 : gFine c d (n_goals n6) /\ n_t n6 = n_t n).
  { destruct (Z.rem (n_t n5) 13 =? 1); [|assert (n6 = n5) by congruence; subst n6; rewrite D5; split; auto; congruence]. destruct (enforce decl); [|discriminate]. cbn [rbind] in E7.
    destruct (limitGoals _ _ _) as [g6|] eqn:L; [|discriminate]. cbn [rbind] in E7. assert (n6 = setGoals n5 g6) by congruence. subst n6. cbn. split; [|congruence].
    eapply limit_fine; [|exact L]. now rewrite D5. }
  destruct D6 as (F6 & T6). cbn [n_goals setGoals setTime].
  rewrite T6 in E8. clear - E8 F6 Ht. revert E8 F6. generalize (n_goals n6). revert d. induction (i_derive r) as [|x l IH]; intros d g6 E8 F6; cbn [rfold] in E8.
  - assert (g = g6) by congruence. subst. cbn [length]. apply (gFine_more c d); auto; lia.
  - destruct (enforce decl); [|discriminate]. cbn [rbind] in E8. destruct (sampleAndInference _ _ _ _ _ _ _) as [g1|] eqn:I; [|discriminate]. cbn [rbind] in E8.
    apply infer_fine with (c := c) (d := d) in I; auto. specialize (IH (d + 16) _ E8 I). cbn [length]. replace (d + 16 * Z.of_nat (S (length l))) with (d + 16 + 16 * Z.of_nat (length l)) by lia. exact IH.
Qed.

(** * The procedural part *)
Section Proc.
Variable M : Z.
Hypothesis M10 : 10 <= M.
Definition countsTo (b : Z) (s : sentence) : Prop := forall z, countOf s z -> upto b z.
Record nFine (k : Z) (n : pnar) : Prop := mkNFine {
  nf_t : upto k (n_t n);
  nf_trace : forall e, In e (n_trace n) -> upto k (ev_occ e);
  nf_ant : forall a, In a (n_ant n) -> upto (k + M) (snd a);
  nf_goals : gFine k (16 * k) (n_goals n);
  nf_cells : forall s, In s (cells (n_mem n)) -> countsTo (M * (k + 1)) s;
  nf_table : forall z, In z (n_table n) -> upto M z;
  nf_ops : forall o, In o (n_ops n) -> upto M (op_evi o)
}.
Definition sentFine (k : Z) (s : sentence) (now : Z) : Prop := countsTo M s /\ upto k now.
Record pFine (k : Z) (y : psys) : Prop := mkPFine {
  pf_nar : nFine k (y_nar y);
  pf_neg : match y_main y with MNeg l => forall a, In a l -> upto (k + M) (snd a) | _ => True end;
  pf_way : forall s now, underWay y s now -> sentFine k s now
}.
Lemma upto_more : forall k k' z, k <= k' -> upto k z -> upto k' z.
Proof. unfold upto. intros; lia. Qed.
Lemma nFine_more : forall k k' n, k <= k' -> nFine k n -> nFine k' n.
Proof.
  intros k k' n L [A B C D E F G]. constructor; auto.
  - eapply upto_more; eauto.
  - intros e He. eapply upto_more; eauto.
  - intros a Ha. apply (upto_more (k + M)); auto. lia.
  - apply (gFine_more k (16 * k)); auto; lia.
  - intros s Hs z Hz. apply (upto_more (M * (k + 1))); [nia|]. now apply E with s.
Qed.
Lemma sentFine_more : forall k k' s now, k <= k' -> sentFine k s now -> sentFine k' s now.
Proof. intros k k' s now L [A B]. split; auto. eapply upto_more; eauto. Qed.
Lemma pFine_more : forall k k' y, k <= k' -> pFine k y -> pFine k' y.
Proof.
  intros k k' y L [A B C]. constructor.
  - eapply nFine_more; eauto.
  - destruct (y_main y); auto. intros a Ha. apply (upto_more (k + M)); auto. lia.
  - intros s now H. apply (sentFine_more k); auto.
Qed.
Lemma intro_fine : forall s draws vs v, matchandintro_var1_sentence s draws = Ok vs -> countsTo M s -> In v vs -> countsTo M v.
Proof.
  intros s draws vs v H Hs Hv. unfold matchandintro_var1_sentence in H. destruct (matchandintro_var1 _ _); [|discriminate]. cbn [rbind] in H.
  assert (vs = map (fun t => setTerm (shallowCopySentence s) t) a) by congruence. subst vs. apply in_map_iff in Hv. destruct Hv as (t & <- & _). exact Hs.
Qed.
Lemma perceive_fine : forall n r s, (forall o, In o (n_ops n) -> upto M (op_evi o)) -> perceive n r = Ok (Some s) -> countsTo M s.
Proof.
  intros n r s O H. unfold perceive in H. destruct (calcIdxsOfOps _ _) as [|i0 is0] eqn:Ei; [discriminate|]. rewrite <- Ei in H. clear Ei.
  destruct (selOps _ _ _ _) as [sel|]; [|discriminate]. destruct (Nat.ltb 0 (minOf sel)); [|discriminate].
  destruct (idx (n_trace n) _) as [prev|]; [|discriminate]. cbn [rbind] in H. cbv zeta in H.
  destruct (rmapM _ _) as [items|]; [|discriminate]. cbn [rbind] in H. destruct (try_build_implSeq _ _) as [[cand|]|]; [| |discriminate]; cbn [rbind] in H; [|discriminate].
  destruct (idx items (length items - 1)) as [iLast|]; [|discriminate]. cbn [rbind] in H. destruct (idx items (length items - 2)) as [iPrev|]; [|discriminate]. cbn [rbind] in H.
  destruct (retImplSeqOp cand) as [opT|]; [|discriminate]. cbn [rbind] in H. destruct (decodeOp opT) as [dec|]; [|discriminate]. cbn [unwrap rbind] in H.
  set (e := match ret_op_by_name (n_ops n) (snd dec) with Some o => op_evi o | None => 3 end) in H.
  assert (He : upto M e).
  { subst e. unfold ret_op_by_name. destruct (find _ _) as [o|] eqn:Ef; [|unfold upto; lia]. apply O. now apply find_some in Ef. }
  injection H as <-. intros z (p & c & Ev & Hz). cbn [s_evi] in Ev. assert (p = e /\ c = e) as [-> ->] by (split; congruence). destruct Hz; subst z; auto.
Qed.
Lemma trace_fine : forall k n rs g ms, nFine k n -> traceStep n rs = Ok (g, ms) -> gFine k (16 * k) g /\ forall s now, In (s, now) ms -> sentFine k s now.
Proof.
  intros k n rs g ms F T. unfold traceStep in T. set (g0 := match List.rev (n_trace n) with [] => _ | _ => _ end) in T.
  assert (G0 : gFine k (16 * k) g0) by (subst g0; destruct (List.rev (n_trace n)); [apply F|apply event_fine, F]).
  destruct (Nat.leb 3 (length (n_trace n))).
  2:{ assert (g = g0 /\ ms = []) as [-> ->] by (split; congruence). split; auto. intros s now []. }
  destruct (rmapM _ _) as [os|] eqn:Mo; [|discriminate]. cbn [rbind] in T.
  assert (g = g0 /\ ms = map (fun s => (s, n_t n)) (somes os)) as [-> ->] by (split; congruence). split; auto.
  intros s now Hs. apply in_map_iff in Hs. destruct Hs as (s' & E & Hs). assert (s' = s /\ now = n_t n) as [-> ->] by (split; congruence). split; [|apply F].
  apply somes_in in Hs. destruct (rmapM_back _ _ _ _ _ _ Mo Hs) as (i & _ & P). eapply perceive_fine; [apply F|exact P].
Qed.
Lemma rd_counts : forall b h a, 0 <= b -> (forall s, In s h -> countsTo b s) -> countsTo b (rd h a).
Proof.
  intros b h a B H. destruct (Nat.lt_ge_cases a (length h)) as [L|L]; [apply H; now apply nth_In|]. rewrite rd_out by auto. intros z (p & c & E & _). discriminate E.
Qed.

(** what comes from outside *)
Definition derivs (a : act) : Z := match a with XStep1 _ r => Z.of_nat (length (i_derive r)) | _ => 0 end.
Lemma act_fine : forall us k y a y', 0 <= k -> pFine k y -> yact us y a = Ok (Some y') -> pFine (k + 1 + derivs a) y'.
Proof.
  intros us k [n p c w] a y' K F Y. assert (Q : k <= k + 1 + derivs a) by (destruct a; cbn [derivs]; lia).
  assert (F1 := pFine_more k (k + 1 + derivs a) _ Q F). set (k1 := k + 1 + derivs a) in *. destruct F1 as [N1 G1 W1]. cbn [y_nar y_main] in *.
  assert (N0 : nFine k n) by apply F.
  assert (Store : forall s nB now m, countsTo M s -> mem_add_evidence_internal us (n_mem n) s nB now = Ok m -> nFine k1 (setMem n m)).
  { intros s nB now m Hs E. apply internal_new in E. destruct E as (x & Ex & X). destruct N1 as [A B C D Ce T O]. constructor; auto. cbn [n_mem setMem]. rewrite Ex. intros z Hz. apply in_app_iff in Hz.
    destruct Hz as [Hz|Hz]; auto. rewrite (X z Hz). intros v Hv. apply (upto_more M); auto. nia. }
  assert (Cells : forall h, (forall s, In s h -> countsTo (M * (k1 + 1)) s) -> nFine k1 (setCells n h)).
  { intros h Hh. destruct N1 as [A B C D Ce T O]. constructor; auto. }
  assert (U : forall s, countsTo M s -> forall draws vs, matchandintro_var1_sentence s draws = Ok vs -> forall v, In v (s :: vs) -> countsTo M v).
  { intros s Hs draws vs E v [<-|Hv]; auto. eapply intro_fine; eauto. }
  destruct a as [e|s|t id u draws| |decl r|nB rs|draws].
  - destruct p; try discriminate. cbn [yact] in Y. injection Y as <-. constructor; auto. cbn [y_nar]. assert (Nt := nf_t _ _ N1). destruct N1 as [A B C D Ce T O]. constructor; auto.
    cbn [n_trace setTrace]. intros x Hx. apply in_app_iff in Hx. destruct Hx as [Hx|[<-|[]]]; auto.
  - destruct p; try discriminate. cbn [yact] in Y. destruct (addEntry _ _ _ _ _) as [g|] eqn:E; [|discriminate]. cbn [rbind] in Y. injection Y as <-. constructor; auto. cbn [y_nar].
    destruct N1 as [A B C D Ce T O]. constructor; auto. cbn [n_goals setGoals]. eapply add_fine; eauto. unfold upto. lia.
  - destruct p; try discriminate. cbn [yact] in Y. destruct (matchandintro_var1_sentence _ _) as [vs|] eqn:E; [|discriminate]. cbn [rbind] in Y. injection Y as <-. constructor; auto; cbn [y_main]; auto.
    assert (Ub : countsTo M (userBelief t id u)).
    { intros z (q & r & Ev & Hz). cbn in Ev. unfold upto. assert (q = 10 /\ r = 10) as [-> ->] by (split; congruence). destruct Hz; subst; lia. }
    intros s now H. unfold underWay in *. cbn [y_main y_chan y_work] in *. destruct H as [[H ->]|H]; [|apply W1; auto]. split; [eapply U; eauto|apply N1].
  - destruct p; try discriminate. cbn [yact] in Y. destruct (confirm n) as [ant|] eqn:E; [|discriminate]. cbn [rbind] in Y. injection Y as <-. apply confirm_ok in E.
    assert (A1 : forall a, In a ant -> upto (k1 + M) (snd a)) by (intros a Ha; subst ant; apply filter_In in Ha; now apply N1).
    constructor; auto; cbn [y_main y_nar].
    + destruct N1 as [A B C D Ce T O]. constructor; auto. cbn [n_ant setAnt]. intros a Ha. apply filter_In in Ha. now apply A1.
    + intros a Ha. apply filter_In in Ha. now apply A1.
  - destruct p; try discriminate. cbn [yact] in Y. destruct (narStep1 n decl r) as [n'|] eqn:S; [|discriminate]. cbn [rbind] in Y. injection Y as <-. constructor; auto. cbn [y_nar].
    assert (Sc := step1_cells _ _ _ _ S). assert (Sf := step1_fine n decl r n' k (16 * k) S (nf_goals _ _ N0) (nf_t _ _ N0)). apply step1_spec in S. destruct S as (S1 & S2 & S3 & S4 & _ & (evs & ant & Ho & Ht & Ha) & _).
    assert (Oc : (forall e, In e evs -> ev_occ e = n_t n) /\ (forall a, In a ant -> exists iv, In iv (n_table n) /\ snd a = n_t n + iv)).
    { assert (Ex : forall t evs, executed n t evs -> forall e, In e evs -> ev_occ e = n_t n).
      { intros t0 evs0 (args & name & _ & [(_ & ->)|(o & inj & rels & _ & _ & ->)]) e He; [destruct He|]. apply in_map_iff in He. destruct He as (z & <- & _). reflexivity. }
      destruct Ho as [|e x a iv evs _ _ _ Hiv Hex|o evs _ _ _ Hex].
      - split; intros ? [].
      - split; [eauto|]. apply nth_error_In in Hiv. destruct (c_anticipate (n_cfg n)); [|intros ? []]. intros z [<-|[]]. eauto.
      - split; [eauto|intros ? []]. }
    destruct Oc as (Oc1 & Oc2). cbn [derivs] in k1. assert (D0 : 0 <= Z.of_nat (length (i_derive r))) by lia.
    destruct N0 as [A B C D Ce T O]. constructor; rewrite ?S3, ?S4, ?Sc; auto.
    + rewrite S1. subst k1. unfold upto in *. lia.
    + rewrite Ht. intros e He. destruct (last_part 20 (n_trace n ++ evs)) as (pre & Ep). assert (He' : In e (n_trace n ++ evs)) by (rewrite Ep; apply in_app_iff; now right).
      apply in_app_iff in He'. destruct He' as [He'|He']; [apply (upto_more k); [lia|auto]|]. rewrite (Oc1 e He'). apply (upto_more k); [lia|auto].
    + rewrite Ha. intros a Hin. apply in_app_iff in Hin. destruct Hin as [Hin|Hin]; [apply (upto_more (k + M)); [lia|auto]|]. destruct (Oc2 a Hin) as (iv & Hiv & ->). apply T in Hiv. subst k1. unfold upto in *. lia.
    + apply (gFine_more k (16 * k + 16 * Z.of_nat (length (i_derive r)))); [lia|subst k1; lia|]. apply Sf. lia.
    + intros s Hs z Hz. apply (upto_more (M * (k + 1))); [subst k1; nia|]. now apply Ce with s.
  - cbn [yact] in Y. destruct p as [|[|a todo]|[|m ms]|now [|s todo]]; try discriminate.
    + destruct (traceStep n rs) as [[g ms]|] eqn:E; [|discriminate]. cbn [rbind] in Y. injection Y as <-. destruct (trace_fine k1 _ _ _ _ N1 E) as (Gf & Sf). constructor; cbn [y_main y_nar]; auto.
      * destruct N1. constructor; auto.
      * intros s now H. unfold underWay in *. cbn [y_main y_chan y_work] in *. destruct H as [H|H]; [auto|]. apply W1; auto.
    + destruct (negConfirm _ _) as [h|] eqn:E; [|discriminate]. cbn [rbind] in Y. injection Y as <-. constructor; cbn [y_main y_nar]; auto.
      * apply Cells. apply neg_one in E. destruct E as (L & _ & p0 & c0 & Ev & ->). intros s Hs. apply wr_in' in Hs.
        destruct Hs as [->|Hs]; [|now apply N1]. assert (R := rd_counts (M * (k + 1)) (cells (n_mem n)) (fst a) ltac:(nia) (nf_cells _ _ N0)). intros z (q & r & Eq & Hz). cbn [setEvi s_evi] in Eq. assert (q = p0 /\ r = c0 + 1) as [-> ->] by (split; congruence).
        assert (X1 : upto (M * (k + 1)) p0) by (apply R; exists p0, c0; auto). assert (X2 : upto (M * (k + 1)) c0) by (apply R; exists p0, c0; auto). subst k1. cbn [derivs]. unfold upto in *. destruct Hz; subst z; nia.
      * intros a0 Ha. apply G1. now right.
    + injection Y as <-. constructor; cbn [y_main y_nar]; [exact N1|exact I|]. intros s now H. apply W1. unfold underWay in *. cbn [y_main y_chan y_work] in *. destruct H as [[]|H]. auto.
    + destruct (Nat.ltb (length c) chanCap); [|discriminate]. injection Y as <-. constructor; cbn [y_main y_nar]; [exact N1|exact I|]. intros s now H. apply W1. unfold underWay in *. cbn [y_main y_chan y_work] in *.
      destruct H as [H|[H|H]]; auto; [left; now right|]. apply in_app_iff in H. destruct H as [H|[<-|[]]]; auto. left. now left.
    + injection Y as <-. constructor; cbn [y_main y_nar]; [exact N1|exact I|]. intros s now0 H. apply W1. unfold underWay in *. cbn [y_main y_chan y_work] in *. destruct H as [[]|H]. auto.
    + destruct (mem_add_evidence_internal _ _ _ _ _) as [m|] eqn:E; [|discriminate]. cbn [rbind] in Y. injection Y as <-. constructor; cbn [y_main y_nar]; auto.
      * eapply Store; [|exact E]. apply (W1 s now). left. split; [now left|auto].
      * intros s0 now0 H. apply W1. unfold underWay in *. cbn [y_main y_chan y_work] in *. destruct H as [[H ->]|H]; auto. left. split; [now right|auto].
  - assert (Gx : forall n' c' w', (nFine k1 n') -> (forall s now, underWay (mkPsys n' p c' w') s now -> sentFine k1 s now) -> pFine k1 (mkPsys n' p c' w')) by (intros; constructor; auto).
    assert (Y' : match w with
      | ProcS_Model.WIdle => match c with (s, now) :: c' => do l <- mergeTargets (n_mem n) s; Ok (Some (mkPsys n p c' (WMerge s now l false))) | [] => Ok None end
      | WMerge s now (a :: l) rv => do '(h, b) <- mergeInto s (cells (n_mem n)) a; Ok (Some (mkPsys (setCells n h) p c (WMerge s now l (rv || b))))
      | WMerge s now [] true => Ok (Some (mkPsys n p c ProcS_Model.WIdle))
      | WMerge s now [] false => do vs <- matchandintro_var1_sentence s draws; Ok (Some (mkPsys n p c (ProcS_Model.WAdd now (s :: vs))))
      | ProcS_Model.WAdd now (s :: todo) => do m <- mem_add_evidence_internal us (n_mem n) s (c_nBeliefs (n_cfg n)) now; Ok (Some (mkPsys (setMem n m) p c (ProcS_Model.WAdd now todo)))
      | ProcS_Model.WAdd now [] => Ok (Some (mkPsys n p c ProcS_Model.WIdle))
      end = Ok (Some y')) by (destruct p; exact Y).
    clear Y. destruct w as [|s now [|a l] rv|now [|s todo]].
    + destruct c as [|[s now] c']; [discriminate|]. destruct (mergeTargets _ _) as [l|]; [|discriminate]. cbn [rbind] in Y'. injection Y' as <-. apply Gx; auto.
      intros s0 now0 H. apply W1. unfold underWay in *. cbn [y_main y_chan y_work] in *. destruct H as [H|[H|[-> ->]]]; auto; right; left; [now right|now left].
    + destruct rv.
      * injection Y' as <-. apply Gx; auto. intros s0 now0 H. apply W1. unfold underWay in *. cbn [y_main y_chan y_work] in *. destruct H as [H|[H|[]]]; auto.
      * destruct (matchandintro_var1_sentence _ _) as [vs|] eqn:E; [|discriminate]. cbn [rbind] in Y'. injection Y' as <-. apply Gx; auto.
        assert (Hs : sentFine k1 s now) by (apply W1; right; right; cbn; auto).
        intros s0 now0 H. unfold underWay in *. cbn [y_main y_chan y_work] in *. destruct H as [H|[H|[H ->]]]; [apply W1; auto|apply W1; auto|]. split; [|apply Hs]. eapply U; [|exact E|exact H]. apply Hs.
    + destruct (mergeInto _ _ _) as [[h b]|] eqn:E; [|discriminate]. cbn [rbind] in Y'. injection Y' as <-.
      assert (Hs : countsTo M s) by (apply (W1 s now); right; right; cbn; auto). apply Gx.
      * apply Cells. assert (La := merge_in _ _ _ _ E). apply mergeInto_ok in E. destruct E as (_ & E). destruct b; [|subst h; apply N1]. destruct E as (e' & (p0 & c0 & pos & cnt & E1 & E2 & ->) & ->).
        intros x Hx. apply wr_in' in Hx. destruct Hx as [->|Hx]; [|now apply N1]. intros z (q & r & Eq & Hz). cbn [s_evi] in Eq. assert (q = pos + p0 /\ r = cnt + c0) as [-> ->] by (split; congruence).
        assert (R := rd_counts (M * (k + 1)) (cells (n_mem n)) a ltac:(nia) (nf_cells _ _ N0)).
        assert (X1 : upto (M * (k + 1)) pos) by (apply R; exists pos, cnt; auto). assert (X2 : upto (M * (k + 1)) cnt) by (apply R; exists pos, cnt; auto).
        assert (X3 : upto M p0) by (apply Hs; exists p0, c0; auto). assert (X4 : upto M c0) by (apply Hs; exists p0, c0; auto). subst k1. cbn [derivs]. unfold upto in *. destruct Hz; subst z; nia.
      * intros s0 now0 H. apply W1. unfold underWay in *. cbn [y_main y_chan y_work] in *. auto.
    + injection Y' as <-. apply Gx; auto. intros s0 now0 H. apply W1. unfold underWay in *. cbn [y_main y_chan y_work] in *. destruct H as [H|[H|[]]]; auto.
    + destruct (mem_add_evidence_internal _ _ _ _ _) as [m|] eqn:E; [|discriminate]. cbn [rbind] in Y'. injection Y' as <-. apply Gx.
      * eapply Store; [|exact E]. apply (W1 s now). right. right. cbn. auto.
      * intros s0 now0 H. apply W1. unfold underWay in *. cbn [y_main y_chan y_work] in *. destruct H as [H|[H|[H ->]]]; auto. right. right. split; [now right|auto].
Qed.
End Proc.
