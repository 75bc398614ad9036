(** Evidence counts in all executions of the procedural reasoner. *)
From Coq Require Import String ZArith Bool Lia List Sorted Permutation.
From Verif Require Import Base F64_Model Sort_Proofs Term_Model Term_Spec Term_Proofs Unify_Model Stamp_Model Stamp_Proofs Tv_Model Sentence_Model Mem_Model Mem_Proofs PMem_Model PMem_Proofs PMem2_Proofs
  Goal_Model Goal_Spec Goal_Proofs Goal2_Proofs Goal3_Proofs Goal4_Proofs Run_Proofs Proc_Model Proc_Spec ProcA_Proofs ProcP_Proofs ProcB_Proofs ProcC_Proofs ProcS_Model.
Import ListNotations.
Local Open Scope list_scope.
Local Open Scope Z_scope.

Lemma grows_refl : forall s, grows s s.
Proof. intros s. repeat split; auto. intros p c H. exists p, c. split; auto. lia. Qed.
Lemma grows_trans : forall a b c, grows a b -> grows b c -> grows a c.
Proof.
  intros a b c (A1 & A2 & A3 & A4) (B1 & B2 & B3 & B4). split; [congruence|]. split; [congruence|]. split; [congruence|]. intros p q H.
  destruct (A4 _ _ H) as (p1 & c1 & H1 & ?). destruct (B4 _ _ H1) as (p2 & c2 & H2 & ?). exists p2, c2. split; auto. lia.
Qed.
Lemma grows_counts : forall s s', grows s s' -> okCounts s -> okCounts s'.
Proof. intros s s' (_ & _ & _ & G) (p & c & E & B & L). destruct (G _ _ E) as (p' & c' & E' & ?). exists p', c'. split; auto. lia. Qed.

Definition allCounts (h : list sentence) : Prop := forall a, (a < length h)%nat -> okCounts (rd h a).
Definition heapGrows (h h' : list sentence) : Prop := (length h <= length h')%nat /\ forall a, (a < length h)%nat -> grows (rd h a) (rd h' a).
Lemma heapGrows_refl : forall h, heapGrows h h.
Proof. intros h. split; auto. intros. apply grows_refl. Qed.
Lemma heapGrows_trans : forall a b c, heapGrows a b -> heapGrows b c -> heapGrows a c.
Proof. intros a b c (L1 & G1) (L2 & G2). split; [lia|]. intros x Hx. eapply grows_trans; [apply G1|apply G2]; lia. Qed.

(** * The parts of a step *)
Lemma neg_grows : forall h a h', negConfirm h a = Ok h' -> heapGrows h h'.
Proof.
  intros h a h' H. apply neg_one in H. destruct H as (L & E & p & c & Ev & ->). split; [lia|]. intros b Hb. rewrite rd_wr by auto.
  destruct (Nat.eqb_spec b (fst a)); [|apply grows_refl]. subst b. repeat split. intros p' c' Q. exists p', (c' + 1). cbn. split; [congruence|lia].
Qed.
Lemma merge_grows : forall s h a h' b, okCounts s -> (a < length h)%nat -> mergeInto s h a = Ok (h', b) -> heapGrows h h'.
Proof.
  intros s h a h' b (p & c & Es & Bp & Lc) Ha H. apply mergeInto_ok in H. destruct H as (_ & H). destruct b; [|subst; apply heapGrows_refl].
  destruct H as (e' & (p1 & c1 & pos & cnt & E1 & E2 & ->) & ->). split; [rewrite wr_length; lia|]. intros x Hx. rewrite rd_wr by auto.
  destruct (Nat.eqb_spec x a); [|apply grows_refl]. subst x. repeat split. intros p' c' Q. cbn. exists (pos + p1), (cnt + c1). split; auto.
  assert (p1 = p /\ c1 = c) by (split; congruence). assert (p' = pos /\ c' = cnt) by (split; congruence). lia.
Qed.
Lemma merge_in : forall s h a r, mergeInto s h a = Ok r -> (a < length h)%nat.
Proof.
  intros s h a r H. destruct (Nat.lt_ge_cases a (length h)) as [L|L]; auto. exfalso. unfold mergeInto in H. rewrite rd_out in H by auto. cbn in H. discriminate.
Qed.
Lemma copy_id : forall s, shallowCopySentence s = s.
Proof. now destruct s. Qed.
Definition onlyNew (s : sentence) (h h' : list sentence) : Prop := exists x, h' = h ++ x /\ forall c, In c x -> c = s.
Lemma onlyNew_refl : forall s h, onlyNew s h h.
Proof. intros s h. exists []. rewrite app_nil_r. split; auto. intros c []. Qed.
Lemma onlyNew_trans : forall s a b c, onlyNew s a b -> onlyNew s b c -> onlyNew s a c.
Proof.
  intros s a b c (x & -> & X) (y & -> & Y). exists (x ++ y). rewrite app_assoc. split; auto. intros z Hz. apply in_app_iff in Hz. destruct Hz; auto.
Qed.
Lemma table_new : forall key n s h l h' l', pStoreTable key n s h l = Ok (h', l') -> onlyNew s h h'.
Proof.
  intros key n s h l h' l' H. unfold pStoreTable in H. destruct (pExists h s l).
  - assert (h' = h) by congruence. subst. apply onlyNew_refl.
  - destruct (pRank _ _ _ _); [|discriminate]. cbn [rbind] in H. assert (h' = h ++ [shallowCopySentence s]) by congruence. subst.
    exists [shallowCopySentence s]. split; auto. intros c [<-|[]]. apply copy_id.
Qed.
Lemma storeIn_new : forall us s n now m t m', pStoreIn us s n now m t = Ok m' -> onlyNew s (cells m) (cells m').
Proof.
  intros us s n now m t m' H. unfold pStoreIn in H. destruct (mget _ _) as [c|].
  - destruct (pStoreTable expKey n s (cells m) (pExp c)) as [[h1 e]|] eqn:E1; [|discriminate]. cbn [rbind] in H.
    destruct (pStoreTable (usageKey us now) n s h1 (pUse c)) as [[h2 u]|] eqn:E2; [|discriminate]. cbn [rbind] in H.
    assert (cells m' = h2) by (injection H as <-; reflexivity). rewrite H0. eapply onlyNew_trans; eapply table_new; eauto.
  - assert (cells m' = cells m ++ [shallowCopySentence s; shallowCopySentence s]) by (injection H as <-; reflexivity). rewrite H0.
    exists [shallowCopySentence s; shallowCopySentence s]. split; auto. intros x [<-|[<-|[]]]; apply copy_id.
Qed.
Lemma internal_new : forall us m s nB now m', mem_add_evidence_internal us m s nB now = Ok m' -> onlyNew s (cells m) (cells m').
Proof.
  intros us m s nB now m' H. apply internal_ok in H. destruct H as (cond & pred & _ & H). unfold pStoreInConcepts2 in H.
  destruct (negb _); [assert (m' = m) by congruence; subst; apply onlyNew_refl|].
  revert m H. generalize (retSubterms cond ++ retSubterms pred). induction l as [|t l IH]; intros m H; cbn [rfold] in H.
  - assert (m' = m) by congruence. subst. apply onlyNew_refl.
  - destruct (pStoreIn us s nB now m t) as [m1|] eqn:E; [|discriminate]. cbn [rbind] in H. eapply onlyNew_trans; [eapply storeIn_new; eauto|auto].
Qed.
Lemma new_heap : forall s h h', onlyNew s h h' -> heapGrows h h'.
Proof. intros s h h' (x & -> & _). split; [rewrite app_length; lia|]. intros a Ha. rewrite rd_app by auto. apply grows_refl. Qed.
Lemma new_counts : forall s h h', onlyNew s h h' -> okCounts s -> allCounts h -> allCounts h'.
Proof.
  intros s h h' (x & -> & X) Hs Hh a Ha. unfold rd. destruct (Nat.lt_ge_cases a (length h)) as [L|L].
  - rewrite app_nth1 by auto. now apply Hh.
  - rewrite app_nth2 by auto. rewrite (X (nth (a - length h) x noSentence)); auto. apply nth_In. rewrite app_length in Ha. lia.
Qed.
Lemma grow_counts : forall h h', heapGrows h h' -> length h' = length h -> allCounts h -> allCounts h'.
Proof. intros h h' (_ & G) L A a Ha. eapply grows_counts; [apply G|apply A]; lia. Qed.
Lemma intro_counts : forall s draws vs v, matchandintro_var1_sentence s draws = Ok vs -> okCounts s -> In v vs -> okCounts v.
Proof.
  intros s draws vs v H Hs Hv. unfold matchandintro_var1_sentence in H. destruct (matchandintro_var1 _ _); [|discriminate]. cbn [rbind] in H.
  assert (vs = map (fun t => setTerm (shallowCopySentence s) t) a) by congruence. subst vs. apply in_map_iff in Hv. destruct Hv as (t & <- & _). exact Hs.
Qed.
Lemma obs_counts : forall ops tab tr s, (forall o, In o ops -> 1 <= op_evi o) -> observation ops tab tr s -> okCounts s.
Proof.
  intros ops tab tr s Ho (i & js & k & e0 & es & ek & lo & o & _ & _ & _ & _ & _ & (op1 & rest & _ & args & name & _ & (pre & post & E & _)) & _ & _ & _ & _ & _ & _ & _ & _ & Ev & _).
  exists (op_evi o), (op_evi o). split; auto. assert (1 <= op_evi o); [apply Ho; rewrite E; apply in_elt|lia].
Qed.
Lemma trace_sends : forall n rs g ms, traceStep n rs = Ok (g, ms) -> (1 <= c_nOpsMax (n_cfg n))%nat ->
  forall s now, In (s, now) ms -> now = n_t n /\ observation (n_ops n) (n_table n) (n_trace n) s.
Proof.
  intros n rs g ms T Hc s now Hs. unfold traceStep in T. destruct (Nat.leb_spec 3 (length (n_trace n))) as [L|L].
  2:{ assert (ms = []) by congruence. subst. destruct Hs. }
  destruct (rmapM _ _) as [os|] eqn:M; [|discriminate]. cbn [rbind] in T.
  assert (ms = map (fun s => (s, n_t n)) (somes os)) by congruence. subst ms. clear T.
  apply rmapM_ok in M. apply in_map_iff in Hs. destruct Hs as (s' & E & Hs). assert (s' = s /\ now = n_t n) as [-> ->] by (split; congruence).
  split; auto. apply somes_in in Hs. apply In_nth_error in Hs. destruct Hs as (k & Hk).
  assert (exists i, perceive n (rs i) = Ok (Some s)).
  { clear - M Hk. revert k Hk. induction M as [|i o is os Hi M IH]; intros [|k] Hk; try discriminate; simpl in Hk; [|eauto]. exists i. congruence. }
  destruct H as (i & P). pose proof (perceive_sound n (rs i) L Hc) as Q. rewrite P in Q. exact Q.
Qed.

(** * The invariant *)
Definition mainMsgs (p : mainPc) : list sentence := match p with MSend ms => map fst ms | MAdd _ l => l | _ => [] end.
Definition workMsgs (w : workPc) : list sentence := match w with WMerge s _ _ _ => [s] | WAdd _ l => l | WIdle => [] end.
Record yOk (y : psys) : Prop := mkYOk {
  yo_cfg : (1 <= c_nOpsMax (n_cfg (y_nar y)))%nat;
  yo_ops : forall o, In o (n_ops (y_nar y)) -> 1 <= op_evi o;
  yo_cells : allCounts (cells (n_mem (y_nar y)));
  yo_main : forall s, In s (mainMsgs (y_main y)) -> okCounts s;
  yo_chan : forall s now, In (s, now) (y_chan y) -> okCounts s;
  yo_work : forall s, In s (workMsgs (y_work y)) -> okCounts s;
  yo_cap : (length (y_chan y) <= chanCap)%nat
}.
Lemma user_counts : forall t id u, okCounts (userBelief t id u).
Proof. intros. exists 10, 10. split; auto. lia. Qed.
Lemma step1_cells : forall n decl r n', narStep1 n decl r = Ok n' -> cells (n_mem n') = cells (n_mem n).
Proof.
  intros n decl r n' H. apply step1_spec in H. destruct H as (_ & _ & _ & _ & [->|H] & _); auto. unfold pLimit in H.
  destruct (Nat.leb _ _); [congruence|]. destruct (rmapM _ _); [|discriminate]. cbn [rbind] in H. destruct (fsort_desc _ _); [|discriminate]. cbn [rbind] in H.
  injection H as <-. reflexivity.
Qed.
Lemma ystep_grows : forall us y y', yOk y -> ystep us y y' -> yOk y' /\ heapGrows (cells (n_mem (y_nar y))) (cells (n_mem (y_nar y'))).
Proof.
  intros us y y' [A1 A2 A3 A4 A5 A6 A7] H.
  assert (Refl := heapGrows_refl (cells (n_mem (y_nar y)))).
  destruct H; cbn [y_nar y_main y_chan y_work] in *.
  - split; auto. constructor; auto.
  - split; auto. constructor; auto.
  - split; auto. constructor; auto. cbn. intros s [<-|Hs]; [apply user_counts|]. eapply intro_counts; eauto. apply user_counts.
  - assert (N := internal_new _ _ _ _ _ _ H). split; [|cbn; eapply new_heap; eauto]. constructor; auto; cbn.
    + eapply new_counts; eauto. apply A4. now left.
    + intros x Hx. apply A4. now right.
  - split; auto. constructor; auto; cbn; intros s [].
  - split; auto. constructor; auto.
  - assert (G := neg_grows _ _ _ H). split; auto. constructor; auto. cbn. eapply grow_counts; eauto. now destruct (neg_one _ _ _ H) as (_ & L & _).
  - split; auto. constructor; auto. cbn. intros s Hs. apply in_map_iff in Hs. destruct Hs as ([s' now] & <- & Hs).
    eapply obs_counts; [exact A2|]. eapply trace_sends; eauto.
  - split; auto. constructor; auto; cbn.
    + intros s Hs. apply A4. now right.
    + intros s now Hs. apply in_app_iff in Hs. destruct Hs as [Hs|[E|[]]]; [eauto|]. apply A4. cbn. left. now rewrite E.
    + rewrite app_length. cbn. lia.
  - split; auto. constructor; auto; cbn; intros s [].
  - pose proof (step1_cells _ _ _ _ H) as C. pose proof (step1_spec _ _ _ _ H) as (_ & P1 & P2 & _). rewrite C. split; auto.
    constructor; auto; cbn; [now rewrite P1|now rewrite P2|now rewrite C].
  - split; auto. constructor; auto; cbn.
    + intros s0 now0 Hs. eapply A5. right. eauto.
    + intros s0 [<-|[]]. eapply A5. now left.
    + cbn in A7. lia.
  - assert (Ha := merge_in _ _ _ _ H). assert (Hs : okCounts s) by (apply A6; now left).
    assert (G := merge_grows _ _ _ _ _ Hs Ha H). split; auto. constructor; auto. cbn. eapply grow_counts; eauto.
    apply mergeInto_ok in H. destruct H as (_ & H). destruct b; [destruct H as (e' & _ & ->); apply wr_length|now subst].
  - split; auto. constructor; auto; cbn; intros s0 [].
  - split; auto. constructor; auto. cbn. assert (Hs : okCounts s) by (apply A6; now left). intros x [<-|Hx]; auto. eapply intro_counts; eauto.
  - assert (N := internal_new _ _ _ _ _ _ H). split; [|cbn; eapply new_heap; eauto]. constructor; auto; cbn.
    + eapply new_counts; eauto. apply A6. now left.
    + intros x Hx. apply A6. now right.
  - split; auto. constructor; auto; cbn; intros s0 [].
Qed.
Theorem reach_yOk : forall us y, yReach us y -> yOk y.
Proof.
  intros us y H. induction H as [cfg ops tab nMax depth Hc Ho|y y' _ IH Hs].
  - constructor; cbn; auto; try (intros; contradiction); try lia. intros a Ha. cbn in Ha. lia.
  - now destruct (ystep_grows _ _ _ IH Hs).
Qed.
Theorem counts_ok : forall us y a, yReach us y -> (a < length (cells (n_mem (y_nar y))))%nat -> okCounts (rd (cells (n_mem (y_nar y))) a).
Proof. intros us y a H Ha. apply reach_yOk in H. now apply (yo_cells _ H). Qed.
Theorem evidence_grows : forall us y y' a, yReach us y -> ysteps us y y' -> (a < length (cells (n_mem (y_nar y))))%nat ->
  (a < length (cells (n_mem (y_nar y'))))%nat /\ grows (rd (cells (n_mem (y_nar y))) a) (rd (cells (n_mem (y_nar y'))) a).
Proof.
  intros us y y' a R H Ha.
  assert (Q : yOk y' /\ heapGrows (cells (n_mem (y_nar y))) (cells (n_mem (y_nar y')))).
  { apply reach_yOk in R. clear Ha. induction H as [y|y y1 y2 H IH Hs]; [split; auto; apply heapGrows_refl|].
    destruct (IH R) as (O1 & G1). destruct (ystep_grows _ _ _ O1 Hs) as (O2 & G2). split; auto. eapply heapGrows_trans; eauto. }
  destruct Q as (_ & L & G). split; [lia|auto].
Qed.
