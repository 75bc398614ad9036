(** No step of the procedural reasoner and its storage worker panics. *)
From Coq Require Import String ZArith Bool Lia List Relations Sorted Permutation.
From Verif Require Import Base F64_Model F64_Proofs Term_Model Term_Spec Term_Proofs Unify_Model Unify_Spec Unify_Proofs Stamp_Model Stamp_Proofs Tv_Model Tv_Spec Tv_Proofs
  Sentence_Model Sentence_Proofs Sort_Proofs Mem_Model Mem_Spec Mem_Proofs PMem_Model PMem_Proofs PMem2_Proofs Safe2_Proofs
  Goal_Model Goal_Spec Goal_Proofs Goal2_Proofs Goal3_Proofs GoalW_Proofs Goal4_Proofs Proc_Model Proc_Spec ProcA_Proofs ProcP_Proofs ProcB_Proofs ProcC_Proofs ProcV_Proofs
  ProcS_Model ProcS_Proofs ProcX_Model Speak_Spec Speak_Proofs ProcX_Spec ProcX_Proofs ProcX2_Proofs.
Import ListNotations.
Local Open Scope list_scope.
Local Open Scope Z_scope.

(** * Storing *)
Lemma exp_key : forall s, okCounts s -> small s -> exists k, expKey s = Ok k /\ fis_nan k = false.
Proof.
  intros s O S. destruct (counts_tv s O S) as (v & V & R). exists (calcExp v). unfold expKey. rewrite V. cbn [unwrap rbind]. split; auto. apply unit_nan. now apply calcExp_range.
Qed.
Lemma table_total : forall key n s h l, (forall a, In a l -> (a < length h)%nat) ->
  (forall x, In x h \/ x = s -> exists k, key x = Ok k /\ fis_nan k = false) -> exists r, pStoreTable key n s h l = Ok r.
Proof.
  intros key n s h l L K. pose proof (pStoreTable_refines key n s h l L) as R. destruct (pStoreTable key n s h l) as [r|]; [eauto|]. exfalso.
  destruct (storeTable_total key n s (map (rd h) l)) as (l' & E); [|congruence].
  intros x [Hx| ->]; [|apply K; auto]. apply in_map_iff in Hx. destruct Hx as (a & <- & Ha). apply K. left. unfold rd. apply nth_In. auto.
Qed.
Lemma storeIn_total : forall us now tab s n m t, cellsOk tab m -> beliefOk tab s -> small s -> usableUs us now ->
  exists m', pStoreIn us s n now m t = Ok m' /\ cellsOk tab m'.
Proof.
  intros us now tab s n m t C B S U. assert (X : exists m', pStoreIn us s n now m t = Ok m').
  { unfold pStoreIn. rewrite term_clone_id. destruct (mget t (pcs m)) as [c|] eqn:G; [|eauto]. apply mget_in in G.
    destruct (table_total expKey n s (cells m) (pExp c)) as ([h1 e] & E1).
    - intros a Ha. eapply (proj1 (proj1 C)); eauto.
    - intros x [Hx| ->]; apply exp_key; auto; [apply (proj2 C); auto|apply (proj2 C); auto|apply B].
    - rewrite E1. cbn [rbind].
      destruct (table_total (usageKey us now) n s h1 (pUse c)) as ([h2 u] & E2).
      + intros a Ha. assert (a < length (cells m))%nat by (eapply (proj1 (proj1 C)); eauto). apply table_new in E1. destruct E1 as (x & -> & _). rewrite app_length. lia.
      + intros x _. eexists. split; [reflexivity|apply U].
      + rewrite E2. cbn [rbind]. eauto. }
  destruct X as (m' & E). exists m'. split; auto. split; [eapply pStoreIn_ok; eauto; apply C|]. apply storeIn_new in E. destruct E as (x & -> & Hx).
  intros y Hy. apply in_app_iff in Hy. destruct Hy as [Hy|Hy]; [now apply (proj2 C)|]. rewrite (Hx y Hy). auto.
Qed.
Lemma internal_total : forall us now tab s nB m, cellsOk tab m -> beliefOk tab s -> small s -> usableUs us now ->
  exists m', mem_add_evidence_internal us m s nB now = Ok m' /\ cellsOk tab m'.
Proof.
  intros us now tab s nB m C B S U. unfold mem_add_evidence_internal. destruct (bo_term _ _ B) as (c & pre & o & p & T & _). rewrite T.
  rewrite (proj2 (retSeqCond_iff _ c)) by eauto. rewrite (proj2 (retPred_iff _ p)) by eauto. cbn [rbind]. unfold pStoreInConcepts2. destruct (negb _); [eauto|].
  apply (rfold_total _ _ (cellsOk tab)); auto. intros m1 t _ C1. now apply storeIn_total.
Qed.
Lemma merge_total : forall tab s h a, beliefOk tab s -> beliefOk tab (rd h a) -> exists r, mergeInto s h a = Ok r.
Proof.
  intros tab s h a [_ _ _ (p & c & E1 & _) (d1 & D1 & _) _] [_ _ _ (p' & c' & E2 & _) (d2 & D2 & _) _]. unfold mergeInto. destruct (checkOverlap _ _); [eauto|].
  rewrite D1, D2, E1, E2. cbn [unwrap rbind]. destruct (_ && _); eauto.
Qed.
Lemma wr_in : forall h a e s, In s (wr h a e) -> s = e \/ In s h.
Proof.
  intros h a e s H. apply In_nth_error in H. destruct H as (k & H). assert (L : (k < length (wr h a e))%nat) by (apply nth_error_Some; congruence).
  apply nth_error_nth with (d := noSentence) in H. fold (rd (wr h a e) k) in H. rewrite wr_length in L.
  destruct (Nat.eq_dec k a) as [->|N].
  - rewrite rd_wr in H by assumption. rewrite Nat.eqb_refl in H. auto.
  - rewrite rd_wr_other in H by assumption. right. rewrite <- H. unfold rd. now apply nth_In.
Qed.
Lemma merged_belief : forall tab s e e', beliefOk tab s -> beliefOk tab e -> countedOnce s e e' -> beliefOk tab e'.
Proof.
  intros tab s e e' [_ _ _ (p0 & c0 & E0 & B0 & L0) _ S0] [A B C (p1 & c1 & E1 & B1 & L1) E F] (p & c & pos & cnt & Q1 & Q2 & ->).
  assert (p0 = p /\ c0 = c) as [-> ->] by (split; congruence). assert (p1 = pos /\ c1 = cnt) as [-> ->] by (split; congruence).
  constructor; cbn [s_term s_punct s_stamp s_expDt]; auto.
  - exists (pos + p), (cnt + c). cbn. split; auto. lia.
  - intros i Hi. apply merge_from in Hi. destruct Hi; auto.
Qed.
Lemma missed_belief : forall tab s p c, beliefOk tab s -> s_evi s = Some (CNT p c) -> beliefOk tab (setEvi s (s_stamp s) (CNT p (c + 1))).
Proof.
  intros tab s p c [A B C (p1 & c1 & E1 & B1 & L1) E F] Q. assert (p1 = p /\ c1 = c) as [-> ->] by (split; congruence).
  constructor; cbn [setEvi s_term s_punct s_stamp s_expDt]; auto. exists p, (c + 1). cbn. split; auto. lia.
Qed.

(** * What the threads hand over *)
Record cfgOk (n : pnar) : Prop := mkCfgOk {
  cf_ops : (1 <= c_nOpsMax (n_cfg n))%nat;
  cf_evi : forall o, In o (n_ops n) -> 1 <= op_evi o < 2 ^ 63;
  cf_sorted : StronglySorted Z.lt (n_table n);
  cf_tab : n_table n <> []
}.
Definition newS (ops : list op) (tab : list Z) (s : sentence) : Prop :=
  beliefOk tab s /\ small s /\ exists c pre o p, s_term s = Stmt PREDIMPL (Seq (c :: pre ++ [o])) p /\ callable ops o /\
    forall x l, c = Stmt INH x (SetInt l) -> ~ callPart ops x.
Definition newOk (n : pnar) (m : msg) : Prop := snd m <= n_t n /\ newS (n_ops n) (n_table n) (fst m).
Lemma forall2_in : forall A B (R : A -> B -> Prop) l l' b, Forall2 R l l' -> In b l' -> exists a, In a l /\ R a b.
Proof. intros A B R l l' b H. induction H as [|x y l l' Hxy H IH]; intros Hb; [easy|]. destruct Hb as [->|Hb]; [exists x; split; [now left|auto]|]. destruct (IH Hb) as (a & Ha & Ra). exists a. split; [now right|auto]. Qed.
Lemma observed_ok : forall n s, cfgOk n -> (forall e, In e (n_trace n) -> 0 <= ev_evi e) -> (forall e, In e (n_trace n) -> safeEvent (n_ops n) (ev_name e)) ->
  observation (n_ops n) (n_table n) (n_trace n) s -> newS (n_ops n) (n_table n) s.
Proof.
  intros n s F Ev Sf Ob. pose proof (obs_counts _ _ _ _ (fun o H => proj1 (cf_evi _ F o H)) Ob) as Oc.
  destruct Ob as (i & js & k & e0 & es & ek & lo & o & _ & N0 & Ns & Nk & _ & (op1 & rest & _ & args & name & _ & (pre0 & post0 & Eo & _)) & Cl & (pre & ->) & _ & _ & _ & T & St & (d & D & Dq) & Evi & P & _).
  assert (I0 : In e0 (n_trace n)) by (eapply nth_error_In; eauto). assert (Ik : In ek (n_trace n)) by (eapply nth_error_In; eauto).
  assert (Is : forall e, In e (pre ++ [lo]) -> In e (n_trace n)) by (intros e He; destruct (forall2_in _ _ _ _ _ _ Ns He) as (j & _ & Hj); eapply nth_error_In; eauto).
  assert (Hl : callable (n_ops n) (ev_name lo)) by (apply Cl, in_elt). rewrite map_app in T. cbn [map] in T.
  split; [|split].
  - constructor; auto.
    + exists (ev_name e0), (map ev_name pre), (ev_name lo), (ev_name ek). split; auto. destruct Hl as (a & nm & _ & Hc & _). exists a, nm. exact Hc.
    + rewrite T. apply sp_stmt. split; [|apply (Sf ek Ik)]. apply sp_seq. split; [discriminate|]. constructor; [apply (Sf e0 I0)|].
      change [ev_name lo] with (map ev_name [lo]). rewrite <- map_app. apply Forall_forall. intros x Hx. apply in_map_iff in Hx. destruct Hx as (e & <- & He). apply (Sf e (Is e He)).
    + exists d. split; auto. apply Dq; apply F.
    + intros x Hx. rewrite St in Hx. destruct Hx as [<-|Hx]; [auto|]. apply in_app_iff in Hx. destruct Hx as [Hx|[<-|[]]]; [|auto].
      apply in_map_iff in Hx. destruct Hx as (e & <- & He). auto.
  - intros p c E. rewrite Evi in E. injection E as <- <-. apply (cf_evi _ F). rewrite Eo. apply in_elt.
  - exists (ev_name e0), (map ev_name pre), (ev_name lo), (ev_name ek). split; auto. split; auto. intros x l E. apply (proj2 (Sf e0 I0) x l E).
Qed.
Lemma height_no : forall a b, (height b < height a)%nat -> checkEqTerm a b = false.
Proof. intros a b H. apply eqTerm_no. intros ->. lia. Qed.
Lemma generalised_ok : forall ops tab s draws, newS ops tab s -> (forall d, In d (firstn 24 draws) -> Nat.modulo d 16 <> 15%nat) ->
  exists vs, matchandintro_var1_sentence s draws = Ok vs /\ forall v, In v vs -> beliefOk tab v /\ small v.
Proof.
  intros ops tab s draws ([A B C D E F] & Sm & c & pre & o & p & T & Co & Np) Hd. unfold matchandintro_var1_sentence.
  apply varname_ok in Hd. destruct Hd as (x & Hx).
  assert (X : exists ts, matchandintro_var1 (s_term s) draws = Ok ts /\ forall t, In t ts -> speakable t /\ exists c pre o p, t = Stmt PREDIMPL (Seq (c :: pre ++ [o])) p /\ opTerm o).
  { assert (Nil : exists ts, Ok (@nil term) = Ok ts /\ forall t, In t ts -> speakable t /\ exists c pre o p, t = Stmt PREDIMPL (Seq (c :: pre ++ [o])) p /\ opTerm o) by (exists []; split; [auto|easy]).
    rewrite T. unfold matchandintro_var1. destruct c as [k a b| | | | | | | | | | | | | |]; auto. destruct k; auto. destruct b as [| | | | | |l| | | | | | | |]; auto.
    destruct pre as [|o1 pre]; cbn [app]; [|destruct (pre ++ [o]) eqn:Q; [now destruct pre|auto]].
    unfold intro_vars. destruct (_ <? 2); auto. rewrite Hx. cbn [rbind]. eexists. split; [reflexivity|]. intros t [<-|[]]. split.
    - apply sp_intro; [apply sp_var; exact I|]. cbn [app] in T. rewrite <- T. exact B.
    - cbn [introHelper map]. rewrite !height_no by (cbn [height fold_right]; lia).
      exists (Stmt INH (introHelper a (IndepVar x) a) (introHelper a (IndepVar x) (SetInt l))), [], (introHelper a (IndepVar x) o), (introHelper a (IndepVar x) p). split; [reflexivity|].
      eapply op_intro; eauto. }
  destruct X as (ts & -> & Ht). cbn [rbind]. eexists. split; [reflexivity|]. intros v Hv. apply in_map_iff in Hv. destruct Hv as (t & <- & Hv). destruct (Ht t Hv) as (H1 & H2).
  rewrite copy_id. split; [|exact Sm]. constructor; cbn [setTerm s_term s_punct s_stamp s_expDt]; auto.
Qed.

(** * The invariant *)
Record yX (y : psys) : Prop := mkYX {
  yx_cfg : cfgOk (y_nar y);
  yx_mem : pOk (n_mem (y_nar y));
  yx_cells : forall s, In s (cells (n_mem (y_nar y))) -> beliefOk (n_table (y_nar y)) s;
  yx_goals : goalsOk (cells (n_mem (y_nar y))) (n_t (y_nar y)) (n_goals (y_nar y));
  yx_ant : forall a, In a (n_ant (y_nar y)) -> (fst a < length (cells (n_mem (y_nar y))))%nat;
  yx_time : 0 <= n_t (y_nar y);
  yx_events : forall e, In e (n_trace (y_nar y)) -> 0 <= ev_evi e;
  yx_main : match y_main y with
            | MFree => True
            | MNeg l => forall a, In a l -> (fst a < length (cells (n_mem (y_nar y))))%nat
            | MSend l => forall m, In m l -> newOk (y_nar y) m
            | MAdd _ _ => False
            end;
  yx_chan : forall m, In m (y_chan y) -> newOk (y_nar y) m;
  yx_work : match y_work y with
            | WIdle => True
            | WMerge s now l _ => newOk (y_nar y) (s, now) /\ forall a, In a l -> (a < length (cells (n_mem (y_nar y))))%nat
            | WAdd now l => now <= n_t (y_nar y) /\ forall s, In s l -> beliefOk (n_table (y_nar y)) s /\ small s
            end
}.
Lemma yx_nOk : forall us y, calm us y -> yX y -> nOk (y_nar y) /\ texts (y_nar y).
Proof.
  intros us y (Ev & _ & _ & Sm) [A B C D E F G _ _ _]. split.
  - constructor; auto. split; auto. intros s Hs. split; auto. intros p c. now apply Sm.
  - intros e He. apply Ev, He.
Qed.
Lemma newOk_time : forall n n' m, n_ops n' = n_ops n -> n_table n' = n_table n -> n_t n <= n_t n' -> newOk n m -> newOk n' m.
Proof. intros n n' m E1 E2 L (A & B). unfold newOk. rewrite E1, E2. split; [lia|auto]. Qed.
(** the parts that a change of the memory, the goals, the anticipations, the
    events and the time leaves alone *)
Lemma yx_frame : forall n p c w n', yX (mkPsys n p c w) -> n_cfg n' = n_cfg n -> n_ops n' = n_ops n -> n_table n' = n_table n -> n_t n <= n_t n' ->
  (length (cells (n_mem n)) <= length (cells (n_mem n')))%nat -> pOk (n_mem n') -> (forall s, In s (cells (n_mem n')) -> beliefOk (n_table n') s) ->
  goalsOk (cells (n_mem n')) (n_t n') (n_goals n') -> (forall a, In a (n_ant n') -> (fst a < length (cells (n_mem n')))%nat) ->
  (forall e, In e (n_trace n') -> 0 <= ev_evi e) -> yX (mkPsys n' p c w).
Proof.
  intros n p c w n' [[C1 C2 C3 C4] _ _ _ _ T _ M Ch W] E1 E2 E3 L H1 H2 H3 H4 H5 H6. cbn [y_nar y_main y_chan y_work] in *.
  constructor; cbn [y_nar y_main y_chan y_work]; auto.
  - constructor; rewrite ?E1, ?E2, ?E3; auto.
  - lia.
  - destruct p; auto; [intros a Ha; specialize (M a Ha); lia|intros m Hm; eapply newOk_time; eauto].
  - intros m Hm. eapply newOk_time; eauto.
  - destruct w; auto.
    + destruct W as (W1 & W2). split; [eapply newOk_time; eauto|]. intros a Ha. specialize (W2 a Ha). lia.
    + rewrite E3. destruct W as (W1 & W2). split; auto. lia.
Qed.
Lemma cells_frame : forall n p c w h, yX (mkPsys n p c w) -> length h = length (cells (n_mem n)) -> (forall s, In s h -> beliefOk (n_table n) s) -> yX (mkPsys (setCells n h) p c w).
Proof.
  intros n p c w h Y L B. pose proof Y as [_ (M1 & M2 & M3 & M4) _ G A _ E _ _ _]. cbn [y_nar] in *. eapply yx_frame; [exact Y|..]; cbn [setCells setMem n_cfg n_ops n_table n_t n_mem cells n_goals n_ant n_trace]; auto; try lia.
  - split; [|auto]. intros t k a Hk Ha. cbn [cells pcs] in *. rewrite L. eapply M1; eauto.
  - eapply goalsOk_more; [| |exact G]; lia.
  - intros a Ha. rewrite L. auto.
Qed.
Lemma yx_main_set : forall n p c w p', yX (mkPsys n p c w) -> match p' with
            | MFree => True
            | MNeg l => forall a, In a l -> (fst a < length (cells (n_mem n)))%nat
            | MSend l => forall m, In m l -> newOk n m
            | MAdd _ _ => False
            end -> yX (mkPsys n p' c w).
Proof. intros n p c w p' [A B C D E F G H I J] K. constructor; auto. Qed.
Lemma yx_chan_set : forall n p c w c', yX (mkPsys n p c w) -> (forall m, In m c' -> newOk n m) -> yX (mkPsys n p c' w).
Proof. intros n p c w c' [A B C D E F G H I J] K. constructor; auto. Qed.
Lemma yx_work_set : forall n p c w w', yX (mkPsys n p c w) -> match w' with
            | WIdle => True
            | WMerge s now l _ => newOk n (s, now) /\ forall a, In a l -> (a < length (cells (n_mem n)))%nat
            | WAdd now l => now <= n_t n /\ forall s, In s l -> beliefOk (n_table n) s /\ small s
            end -> yX (mkPsys n p c w').
Proof. intros n p c w w' [A B C D E F G H I J] K. constructor; auto. Qed.
Lemma fits_usable : forall us y now, fits us y -> now <= n_t (y_nar y) -> usableUs us now.
Proof.
  intros us y now (U & T & _) L a. apply unit_nan. apply useful_range; [apply U|]. specialize (U a). lia.
Qed.
Lemma outcome_time : forall n evs ant, 0 <= n_t n -> outcome n evs ant -> forall e, In e evs -> 0 <= ev_evi e.
Proof.
  intros n evs ant T H. assert (X : forall t evs, executed n t evs -> forall e, In e evs -> 0 <= ev_evi e).
  { intros t l (args & name & _ & [(_ & ->)|(o & inj & rels & _ & _ & ->)]) e He; [easy|]. apply in_map_iff in He. destruct He as (x & <- & _). exact T. }
  inversion H; subst; [easy|eauto|eauto].
Qed.

(** * Every step *)
Theorem act_ok : forall us y a, calm us y -> yX y -> fairAct a -> exists o, yact us y a = Ok o /\ forall y', o = Some y' -> yX y'.
Proof.
  intros us [n p c w] a Cm Y Fa. pose proof (yx_nOk us _ Cm Y) as (N & Tx). cbn [y_nar] in *.
  assert (None_ : exists o, Ok (@None psys) = Ok o /\ forall y', o = Some y' -> yX y') by (exists None; split; [auto|discriminate]).
  pose proof Y as [F M Cl G A T E P Ch W]. cbn [y_nar y_main y_chan y_work] in *. destruct Cm as (Ev & Fits). cbn [y_nar] in Ev.
  unfold yact. destruct a as [e|s|t id u draws| |decl r|nB rs|draws].
  - destruct p; auto. eexists. split; [reflexivity|]. intros y' Q. injection Q as <-. eapply yx_frame; [exact Y|..]; cbn [setTrace n_cfg n_ops n_table n_t n_mem n_goals n_ant n_trace]; auto; try lia.
    intros x Hx. apply in_app_iff in Hx. destruct Hx as [Hx|[<-|[]]]; auto.
  - destruct p; auto. destruct Fa as (Pg & v & V & R). destruct (gx_add _ (n_t n) (n_goals n) (n_t n) s None 0 G) as (g & -> & Gg); auto; try lia; [eauto|discriminate|].
    cbn [rbind]. eexists. split; [reflexivity|]. intros y' Q. injection Q as <-. eapply yx_frame; [exact Y|..]; cbn [setGoals n_cfg n_ops n_table n_t n_mem n_goals n_ant n_trace]; auto; lia.
  - destruct Fa.
  - destruct p; auto. destruct (confirm_total n) as (ant & Q).
    { intros a Ha. destruct (bo_term _ _ (proj1 (cell_ok _ _ _ (no_cells _ N) (A a Ha)))) as (c0 & pre & o & p & -> & _). eauto. }
    rewrite Q. cbn [rbind]. apply confirm_ok in Q. eexists. split; [reflexivity|]. intros y' Q'. injection Q' as <-.
    assert (Sub : forall f a, In a (filter f ant) -> (fst a < length (cells (n_mem n)))%nat).
    { intros f a Ha. apply filter_In in Ha. destruct Ha as (Ha & _). rewrite Q in Ha. apply filter_In in Ha. apply A, Ha. }
    eapply yx_main_set with (p := MFree); [|cbn [setAnt n_mem]; apply Sub]. eapply yx_frame; [exact Y|..]; cbn [setAnt n_cfg n_ops n_table n_t n_mem n_goals n_ant n_trace]; auto; try lia. apply Sub.
  - destruct p; auto. destruct Fa as (-> & Dc). destruct (step1_ok n r N Tx Dc) as (n' & S1 & C1 & G1 & A1). rewrite S1. cbn [rbind]. eexists. split; [reflexivity|]. intros y' Q. injection Q as <-.
    pose proof (step1_cells _ _ _ _ S1) as Sc. apply step1_spec in S1. destruct S1 as (S1 & S2 & S3 & S4 & _ & (evs & ant & Ho & Ht & _) & _).
    eapply yx_frame; [exact Y|..]; auto; try lia.
    + rewrite Sc. lia.
    + apply C1.
    + intros s Hs. now apply C1.
    + intros e He. rewrite Ht in He. apply last_in in He. apply in_app_iff in He. destruct He as [He|He]; auto. eapply outcome_time; eauto.
  - destruct p as [|[|a l]|[|m ms]|]; auto.
    + assert (X : exists g ms, traceStep n rs = Ok (g, ms) /\ goalsOk (cells (n_mem n)) (n_t n) g).
      { unfold traceStep. set (g0 := match List.rev (n_trace n) with [] => _ | _ => _ end).
        assert (G0 : goalsOk (cells (n_mem n)) (n_t n) g0) by (unfold g0; destruct (List.rev _); [auto|now apply gx_event]).
        destruct (Nat.leb_spec 3 (length (n_trace n))) as [L|L]; [|eauto].
        destruct (rmapM_total _ _ (fun i => perceive n (rs i)) (seq 0 (c_samples (n_cfg n)))) as (os & ->); [|cbn [rbind]; eauto].
        intros i _. pose proof (perceive_sound n (rs i) L (cf_ops _ F)) as Ps. destruct (perceive n (rs i)); [eauto|contradiction]. }
      destruct X as (g & ms & Tr & Gg). rewrite Tr. cbn [rbind]. eexists. split; [reflexivity|]. intros y' Q. injection Q as <-.
      eapply yx_main_set with (p := MNeg []).
      * eapply yx_frame; [exact Y|..]; cbn [setGoals n_cfg n_ops n_table n_t n_mem n_goals n_ant n_trace]; auto; lia.
      * intros [s now] Hm. destruct (trace_sends _ _ _ _ Tr (cf_ops _ F) s now Hm) as (-> & Ob). split; [cbn; lia|]. cbn [fst setGoals n_ops n_table]. now apply observed_ok.
    + assert (La : (fst a < length (cells (n_mem n)))%nat) by (apply P; now left).
      destruct (cell_ok _ _ _ (no_cells _ N) La) as (Bo & _). destruct (bo_counts _ _ Bo) as (q & k & Eq & _).
      unfold negConfirm. rewrite Eq. cbn [unwrap rbind]. eexists. split; [reflexivity|]. intros y' Q. injection Q as <-.
      eapply yx_main_set with (p := MNeg (a :: l)).
      * apply cells_frame; auto; [apply wr_length|]. intros s Hs. apply wr_in in Hs. destruct Hs as [->|Hs]; [now apply missed_belief|auto].
      * intros b Hb. cbn [setCells setMem n_mem cells]. rewrite wr_length. apply P. now right.
    + eexists. split; [reflexivity|]. intros y' Q. injection Q as <-. now apply yx_main_set with (p := MSend []).
    + eexists. split; [reflexivity|]. intros y' Q. destruct (Nat.ltb _ _); [|discriminate]. injection Q as <-.
      eapply yx_chan_set with (c := c); [eapply yx_main_set; [exact Y|intros x Hx; apply P; now right]|].
      intros x Hx. apply in_app_iff in Hx. destruct Hx as [Hx|[<-|[]]]; [auto|apply P; now left].
    + destruct P.
  - cut (exists o, (match w with
      | WIdle =>
          match c with
          | (s, now) :: c' => do l <- mergeTargets (n_mem n) s; Ok (Some (mkPsys n p c' (WMerge s now l false)))
          | [] => Ok None
          end
      | WMerge s now (a :: l) rv =>
          do '(h, b) <- mergeInto s (cells (n_mem n)) a; Ok (Some (mkPsys (setCells n h) p c (WMerge s now l (rv || b))))
      | WMerge s now [] true => Ok (Some (mkPsys n p c WIdle))
      | WMerge s now [] false => do vs <- matchandintro_var1_sentence s draws; Ok (Some (mkPsys n p c (WAdd now (s :: vs))))
      | WAdd now (s :: todo) =>
          do m <- mem_add_evidence_internal us (n_mem n) s (c_nBeliefs (n_cfg n)) now; Ok (Some (mkPsys (setMem n m) p c (WAdd now todo)))
      | WAdd now [] => Ok (Some (mkPsys n p c WIdle))
      end) = Ok o /\ forall y', o = Some y' -> yX y'); [now destruct p|].
    destruct w as [|s now [|a l] rv|now [|s todo]].
    + destruct c as [|[s now] c]; auto. destruct (Ch (s, now)) as (L & Bo & Sm & Np); [now left|]. cbn [fst snd] in *.
      pose proof Np as (c0 & pre & o & p0 & Ts & _). rewrite (targets_ok _ _ c0 p0) by (eexists; eauto). cbn [rbind].
      assert (In_ : forall a, In a (pBeliefs (n_mem n) [c0; p0]) -> (a < length (cells (n_mem n)))%nat) by (intros a Ha; eapply pBeliefs_wf; eauto; apply M). eexists. split; [reflexivity|]. intros y' Q. injection Q as <-.
      eapply yx_work_set with (w := WIdle); [eapply yx_chan_set; [exact Y|intros m Hm; apply Ch; now right]|]. split; [split; [exact L|split; auto]|exact In_].
    + destruct W as ((L & Bo & Sm & Np) & _). cbn [fst snd] in *. destruct rv.
      { eexists. split; [reflexivity|]. intros y' Q. injection Q as <-. eapply yx_work_set; [exact Y|exact I]. }
      destruct (generalised_ok (n_ops n) (n_table n) s draws) as (vs & -> & Hv); [split; auto|exact Fa|]. cbn [rbind]. eexists. split; [reflexivity|]. intros y' Q. injection Q as <-.
      eapply yx_work_set; [exact Y|]. split; auto. intros x [<-|Hx]; auto.
    + destruct W as ((L & Bo & Sm & Np) & Ha). cbn [fst snd] in *. assert (La : (a < length (cells (n_mem n)))%nat) by (apply Ha; now left).
      destruct (cell_ok _ _ _ (no_cells _ N) La) as (Be & _). destruct (merge_total _ s _ _ Bo Be) as ([h b] & Mi). rewrite Mi. cbn [rbind]. eexists. split; [reflexivity|]. intros y' Q. injection Q as <-.
      apply mergeInto_ok in Mi. destruct Mi as (_ & Mi).
      assert (H : length h = length (cells (n_mem n)) /\ forall x, In x h -> beliefOk (n_table n) x).
      { destruct b; [destruct Mi as (e' & Co & ->); split; [apply wr_length|]|subst h; auto]. intros x Hx. apply wr_in in Hx. destruct Hx as [->|Hx]; [exact (merged_belief _ _ _ _ Bo Be Co)|auto]. }
      destruct H as (Lh & Hh). eapply yx_work_set; [apply cells_frame; [exact Y|auto|auto]|]. cbn [setCells setMem n_mem cells]. split; [split; [exact L|split; auto]|].
      intros x Hx. rewrite Lh. apply Ha. now right.
    + eexists. split; [reflexivity|]. intros y' Q. injection Q as <-. eapply yx_work_set; [exact Y|exact I].
    + destruct W as (L & Hs). destruct (Hs s) as (Bo & Sm); [now left|].
      destruct (internal_total us now (n_table n) s (c_nBeliefs (n_cfg n)) (n_mem n) (no_cells _ N) Bo Sm) as (m & Ad & Cm); [eapply fits_usable; eauto|].
      rewrite Ad. cbn [rbind]. eexists. split; [reflexivity|]. intros y' Q. injection Q as <-. apply internal_new in Ad. destruct Ad as (x & Ax & _).
      assert (Ln : (length (cells (n_mem n)) <= length (cells m))%nat) by (rewrite Ax, app_length; lia).
      eapply yx_work_set; [eapply yx_frame; [exact Y|..]; cbn [setMem n_cfg n_ops n_table n_t n_mem n_goals n_ant n_trace]; auto; try lia|].
      * apply Cm.
      * intros z Hz. now apply Cm.
      * eapply goalsOk_more; [| |exact G]; lia.
      * intros z Hz. specialize (A z Hz). lia.
      * cbn [setMem n_t n_table]. split; auto. intros z Hz. apply Hs. now right.
Qed.
Lemma start_yX : forall y, fairStart y -> yX y.
Proof.
  intros y (cfg & ops & tab & nMax & depth & -> & A & B & C & D & E & F).
  constructor; cbn [ystart y_nar y_main y_chan y_work n_cfg n_ops n_table n_t n_mem n_goals n_ant n_trace]; try exact I; try (intros ? []).
  - constructor; auto.
  - split; [intros t c a []|]. split; [constructor|]. split; [intros t c []|constructor].
  - constructor; cbn [makeGoalSystem g_maxDepth g_maxEntries]; auto; [constructor|]. intros e [(i & b0 & gr & H & Hg & _)|[]]. exfalso. apply nth_error_In in H. apply repeat_spec in H. now subst b0.
  - lia.
Qed.
Theorem run_yX : forall us y, calmRun us y -> yX y /\ calm us y.
Proof.
  intros us y H. induction H as [y S C|y a y' H (IH & C) Fa S C']; split; auto.
  - now apply start_yX.
  - destruct (act_ok us y a C IH Fa) as (o & E & K). apply K. congruence.
Qed.
