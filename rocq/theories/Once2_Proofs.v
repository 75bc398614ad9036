(** Proofs for C91, continued: the invariant of all lives. *)
From Coq Require Import String ZArith Bool List Permutation Sorted Lia.
From Verif Require Import Base F64_Model Term_Model Term_Spec Unify_Model Unify_Spec Stamp_Model Stamp_Proofs Tv_Model Sentence_Model Mem_Model Mem_Proofs PMem_Model PMem_Proofs Goal_Model Goal_Spec
  Sort_Proofs Proc_Model Proc_Spec ProcV_Proofs ProcP_Proofs ProcB_Proofs ProcC_Proofs ProcS_Model ProcS_Proofs ProcX_Model Parser_Model Nar_Model Live_Spec Live_Proofs Once_Proofs.
Import ListNotations.
Local Open Scope nat_scope.

(** * What perception sends *)
Lemma perceive_len : forall n r s, 1 <= c_nOpsMax (n_cfg n) -> perceive n r = Ok (Some s) -> length (s_stamp s) <= c_nOpsMax (n_cfg n) + 2.
Proof.
  intros n r s Hc H. unfold perceive in H. destruct (calcIdxsOfOps (n_ops n) (n_trace n)) as [|i0 idxs] eqn:E; [discriminate|].
  set (nSel := if Nat.eqb (c_nOpsMax (n_cfg n)) 1 then 1 else if r_multi r then Nat.min (length (i0 :: idxs)) (c_nOpsMax (n_cfg n)) else 1) in *.
  assert (Hn : nSel <= c_nOpsMax (n_cfg n)) by (unfold nSel; destruct (Nat.eqb _ 1); [lia|]; destruct (r_multi r); lia).
  destruct (selOps _ nSel _ _) as [sel|] eqn:S; [|discriminate]. apply selOps_spec in S; [|discriminate|constructor|intros x []]. destruct S as (_ & _ & Ls & _).
  destruct (Nat.ltb 0 (minOf sel)); [|discriminate]. destruct (idx (n_trace n) (length (n_trace n) - 1 - 1)) as [prev|]; [|discriminate]. cbn [rbind] in H.
  set (last := if _ && _ && _ then _ else _) in H. set (is := sort_by Nat.ltb _) in H.
  assert (Li : length is = length sel + 2).
  { unfold is. rewrite <- (Permutation_length (sort_perm Nat.ltb (r_first r mod minOf sel :: sel ++ [last]))). cbn [length]. rewrite app_length. cbn [length]. lia. }
  destruct (rmapM (idx (n_trace n)) is) as [items|] eqn:R; [|discriminate]. cbn [rbind] in H.
  assert (length items = length is).
  { apply rmapM_ok in R. clear - R. induction R; cbn; auto. }
  destruct (try_build_implSeq _ _) as [[ct|]|]; cbn [rbind] in H; try discriminate. destruct (idx items (length items - 1)); [|discriminate]. cbn [rbind] in H.
  destruct (idx items (length items - 2)); [|discriminate]. cbn [rbind] in H. destruct (retImplSeqOp ct); [|discriminate]. cbn [rbind] in H. destruct (unwrap _); [|discriminate]. cbn [rbind] in H.
  injection H as <-. cbn [s_stamp]. unfold newStamp. rewrite map_length. lia.
Qed.
Lemma sends_len : forall n rs g ms, traceStep n rs = Ok (g, ms) -> 1 <= c_nOpsMax (n_cfg n) -> forall s now, In (s, now) ms -> length (s_stamp s) <= c_nOpsMax (n_cfg n) + 2.
Proof.
  intros n rs g ms T Hc s now Hs. unfold traceStep in T. destruct (Nat.leb_spec 3 (length (n_trace n))) as [L|L].
  2:{ assert (ms = []) by congruence. subst. destruct Hs. }
  destruct (rmapM _ _) as [os|] eqn:M; [|discriminate]. cbn [rbind] in T.
  assert (ms = map (fun s => (s, n_t n)) (somes os)) by congruence. subst ms. clear T.
  apply in_map_iff in Hs. destruct Hs as (s' & E & Hs). assert (s' = s) as -> by congruence. apply somes_in in Hs.
  apply rmapM_ok in M. clear - M Hs Hc. induction M as [|i o l l' P M IH]; [destruct Hs|]. destruct Hs as [->|Hs]; [|auto]. eapply perceive_len; eauto.
Qed.

(** * The invariant *)
Definition idsIn (H : list happening) : list Z := map ev_evi (eventsIn H).
Lemma ids_more : forall H x, idsIn (H ++ x) = idsIn H ++ idsIn x.
Proof. intros. unfold idsIn. now rewrite events_more, map_app. Qed.
Lemma at_more : forall ids x r, r < length ids -> at_ (ids ++ x) r = at_ ids r.
Proof. intros. unfold at_. now apply app_nth1. Qed.
Lemma item_more : forall ids x Lm i, itemOk ids Lm i -> itemOk (ids ++ x) Lm i /\ idsOf (ids ++ x) (ips i) = idsOf ids (ips i).
Proof.
  intros ids x Lm i (A1 & A2 & A3 & A4 & (now & A5) & A6 & A7 & A8). split.
  - repeat (split; [first [assumption | (rewrite app_length; lia)]|]). split; [exists now; intros r Hr; rewrite at_more by lia; auto|auto].
  - unfold idsOf. apply map_ext_in. intros r Hr. apply at_more. specialize (A8 r Hr). lia.
Qed.

Section Inv.
Variable Lm : nat.
Definition msgOk (ids : list Z) (s : sentence) (i : item) : Prop := s_stamp s = idsOf ids (ips i) /\ itemOk ids Lm i.
Definition cellOk (Src : sentence -> Prop) (ids : list Z) (qs : list item) (s : sentence) : Prop :=
  (s_expDt s = None /\ exists o k, restsOn s o [] k /\ Src o) \/
  exists o os k its, restsOn s o os k /\ (forall x, In x (o :: os) -> Src x) /\ Forall2 (msgOk ids) (os ++ [o]) its /\ StronglySorted (fun i j => later j i) its /\
    ForallOrdPairs (fun a b => apartIds (idsOf ids (ips a)) (idsOf ids (ips b))) its /\ s_stamp s = stampOf (map (fun i => idsOf ids (ips i)) its) /\
    forall b i, In b qs -> In i its -> later i b.
Lemma msgs_items : forall ids l its, Forall2 (msgOk ids) l its -> Forall (itemOk ids Lm) its.
Proof. intros ids l its F. induction F as [|? ? ? ? (_ & K)]; constructor; auto. Qed.
Lemma msg_more : forall ids x s i, msgOk ids s i -> msgOk (ids ++ x) s i.
Proof. intros ids x s i (E & O). destruct (item_more ids x Lm i O) as (O' & E'). split; [congruence|auto]. Qed.
Lemma cell_more : forall (Src Src' : sentence -> Prop) ids x qs qs' s, (forall z, Src z -> Src' z) -> (forall b, In b qs' -> In b qs \/ exists b', In b' qs /\ later b' b) ->
  cellOk Src ids qs s -> cellOk Src' (ids ++ x) qs' s.
Proof.
  intros Src Src' ids x qs qs' s HS HQ [(E & o & k & R & S)|(o & os & k & its & R & S & F & St & P & Es & B)]; [left; split; auto; exists o, k; auto|right].
  exists o, os, k, its. split; auto. split; auto. assert (Ok := msgs_items _ _ _ F). rewrite Forall_forall in Ok. assert (E : forall i, In i its -> idsOf (ids ++ x) (ips i) = idsOf ids (ips i)) by (intros i Hi; now apply (item_more ids x Lm i), Ok).
  split. { clear - F. induction F; constructor; auto. now apply msg_more. }
  split; auto. split.
  { clear - P E. induction P as [|a l Fa P IH]; constructor.
    - rewrite Forall_forall in *. intros b Hb. rewrite (E a), (E b); [now apply Fa|now right|now left].
    - apply IH. intros i Hi. apply E. now right. }
  split. { rewrite Es. f_equal. apply map_ext_in. intros i Hi. symmetry. now apply E. }
  intros b i Hb Hi. destruct (HQ b Hb) as [Hb'|(b' & Hb' & (L1 & L2))]; [now apply B|]. destruct (B b' i Hb' Hi) as (L3 & L4). split; lia.
Qed.

Definition queue (y : psys) : list sentence :=
  match y_work y with WMerge s _ _ _ => [s] | _ => [] end ++ map fst (y_chan y) ++ match y_main y with MSend ms => map fst ms | _ => [] end.
Definition curOk (H : list happening) (n : pnar) (cur : item) : Prop :=
  ia cur + length (n_trace n) = length (idsIn H) /\ im cur = length (idsIn H) /\ ips cur = [] /\ ia cur <= ib cur <= im cur /\ ib cur - ia cur <= 20 /\
  forall r, ib cur <= r < im cur -> at_ (idsIn H) r = n_t n.
Record onceInv (H : list happening) (y : psys) : Prop := mkOnce {
  on_L : Lm = c_nOpsMax (n_cfg (y_nar y)) + 2;
  on_sort : sortedIds (idsIn H);
  on_le : forall v, In v (idsIn H) -> (v <= n_t (y_nar y))%Z;
  on_ex : exists qs cur, curOk H (y_nar y) cur /\ Forall2 (msgOk (idsIn H)) (queue y) qs /\ StronglySorted later (qs ++ [cur]) /\
    (forall s, In s (cells (n_mem (y_nar y))) -> cellOk (source (n_ops (y_nar y)) (n_table (y_nar y)) H) (idsIn H) (qs ++ [cur]) s) /\
    (forall now l s, y_work y = WAdd now l -> In s l -> cellOk (source (n_ops (y_nar y)) (n_table (y_nar y)) H) (idsIn H) (qs ++ [cur]) s) /\
    (forall now l s, y_main y = MAdd now l -> In s l -> s_expDt s = None /\ exists o k, restsOn s o [] k /\ source (n_ops (y_nar y)) (n_table (y_nar y)) H o)
}.
Lemma later_refl : forall i, later i i.
Proof. intros i. split; lia. Qed.
Lemma sorted_app : forall (R : item -> item -> Prop) l x, StronglySorted R (l ++ [x]) <-> StronglySorted R l /\ Forall (fun i => R i x) l.
Proof.
  induction l as [|a l IH]; intros x; cbn [app].
  - split; [intros _; split; constructor|intros _; constructor; constructor].
  - split.
    + intros S. inversion S as [|? ? S1 S2]; subst. apply IH in S1. destruct S1 as (S1 & S3). apply Forall_app in S2. destruct S2 as (S2 & S4). inversion S4; subst. split; constructor; auto.
    + intros (S & F). inversion S as [|? ? S1 S2]; subst. inversion F; subst. constructor; [apply IH; auto|]. apply Forall_app. auto.
Qed.
(** ids of new events, at the current time *)
Lemma sorted_more : forall ids x now, sortedIds ids -> (forall v, In v ids -> (v <= now)%Z) -> (forall v, In v x -> v = now) -> sortedIds (ids ++ x) /\ forall v, In v (ids ++ x) -> (v <= now)%Z.
Proof.
  intros ids x now S L E. assert (G : forall v, In v (ids ++ x) -> (v <= now)%Z) by (intros v Hv; apply in_app_iff in Hv; destruct Hv as [Hv|Hv]; [auto|rewrite (E v Hv); lia]).
  split; [|auto]. intros p q (L1 & L2). rewrite app_length in L2. destruct (Nat.lt_ge_cases q (length ids)) as [B|B].
  - rewrite !at_more by lia. apply S. lia.
  - assert (Eq : at_ (ids ++ x) q = now) by (apply E; unfold at_; rewrite app_nth2 by lia; apply nth_In; lia). rewrite Eq. apply G. unfold at_. apply nth_In. rewrite app_length. lia.
Qed.
(** The life goes on while the threads and beliefs stay as they are. *)
Lemma once_more : forall H x n n' p c w evs, onceInv H (mkPsys n p c w) -> eventsIn x = evs -> (forall e, In e evs -> ev_evi e = n_t n) ->
  c_nOpsMax (n_cfg n') = c_nOpsMax (n_cfg n) -> (forall o, In o (n_ops n) -> In o (n_ops n')) -> n_table n' = n_table n -> cells (n_mem n') = cells (n_mem n) ->
  (n_trace n' = n_trace n ++ evs /\ n_t n' = n_t n) \/ (n_trace n' = lastEvents 20 (n_trace n ++ evs) /\ n_t n' = (n_t n + 1)%Z) ->
  onceInv (H ++ x) (mkPsys n' p c w).
Proof.
  intros H x n n' p c w evs [L S Le (qs & cur & C & Q & Sq & Ce & W & M)] Ex Ev E1 E2 E3 E4 Tr. cbn [y_nar y_main y_chan y_work] in *.
  assert (Ei : idsIn (H ++ x) = idsIn H ++ map ev_evi evs) by (rewrite ids_more; unfold idsIn at 2; now rewrite Ex).
  assert (En : forall v, In v (map ev_evi evs) -> v = n_t n) by (intros v Hv; apply in_map_iff in Hv; destruct Hv as (e & <- & He); auto).
  destruct (sorted_more (idsIn H) (map ev_evi evs) (n_t n) S Le En) as (S' & Le').
  destruct C as (C1 & C2 & C3 & C4 & C5 & C6).
  assert (exists cur', curOk (H ++ x) n' cur' /\ later cur cur') as (cur' & C' & Lc).
  { unfold curOk. rewrite Ei, app_length, map_length. destruct Tr as [(T1 & T2)|(T1 & T2)].
    - exists (mkItem (ia cur) (ib cur) (length (idsIn H) + length evs) []). cbn [ia ib im ips]. rewrite T1, T2, app_length. split; [|split; cbn; lia]. repeat (split; [first [reflexivity | lia]|]).
      intros r Hr. destruct (Nat.lt_ge_cases r (length (idsIn H))) as [B|B]; [rewrite at_more by auto; apply C6; lia|]. apply En. unfold at_. rewrite app_nth2 by lia. apply nth_In. rewrite map_length. lia.
    - assert (LT : length (n_trace n') <= 20 /\ length (n_trace n') <= length (n_trace n) + length evs) by (rewrite T1; unfold lastEvents; rewrite skipn_length, app_length; lia).
      exists (mkItem (length (idsIn H) + length evs - length (n_trace n')) (length (idsIn H) + length evs) (length (idsIn H) + length evs) []). cbn [ia ib im ips].
      split; [|split; cbn; lia]. repeat (split; [first [reflexivity | lia]|]). intros r Hr. lia. }
  assert (So : forall z, source (n_ops n) (n_table n) H z -> source (n_ops n') (n_table n') (H ++ x) z) by (intros z; rewrite E3; apply source_mono; exact E2).
  assert (Hq : forall b, In b (qs ++ [cur']) -> In b (qs ++ [cur]) \/ exists b', In b' (qs ++ [cur]) /\ later b' b).
  { intros b Hb. apply in_app_iff in Hb. destruct Hb as [Hb|[<-|[]]]; [left; apply in_app_iff; auto|right]. exists cur. split; [apply in_app_iff; right; now left|auto]. }
  constructor; cbn [y_nar y_main y_chan y_work].
  - congruence.
  - now rewrite Ei.
  - rewrite Ei. intros v Hv. specialize (Le' v Hv). destruct Tr as [(_ & ->)|(_ & ->)]; lia.
  - exists qs, cur'. split; auto. rewrite Ei. split.
    { clear - Q. unfold queue in *. cbn [y_main y_chan y_work] in *. induction Q; constructor; auto. now apply msg_more. }
    split. { apply sorted_app in Sq. destruct Sq as (Sq & Fq). apply sorted_app. split; auto. eapply Forall_impl; [|exact Fq]. intros i (A & B). destruct Lc. split; lia. }
    rewrite E4. split; [intros s Hs; eapply cell_more; eauto|]. split; [intros now l s Ew Hs; eapply cell_more; eauto|].
    intros now l s Em Hs. destruct (M now l s Em Hs) as (X & o & k & R & Z). split; auto. exists o, k. auto.
Qed.
(** the threads move, the trace does not *)
Lemma once_pcs : forall H n m p c w p' c' w' g ant, onceInv H (mkPsys n p c w) ->
  (forall qs cur, curOk H n cur -> Forall2 (msgOk (idsIn H)) (queue (mkPsys n p c w)) qs -> StronglySorted later (qs ++ [cur]) ->
    (forall s, In s (cells (n_mem n)) -> cellOk (source (n_ops n) (n_table n) H) (idsIn H) (qs ++ [cur]) s) ->
    (forall now l s, w = WAdd now l -> In s l -> cellOk (source (n_ops n) (n_table n) H) (idsIn H) (qs ++ [cur]) s) ->
    (forall now l s, p = MAdd now l -> In s l -> s_expDt s = None /\ exists o k, restsOn s o [] k /\ source (n_ops n) (n_table n) H o) ->
    exists qs', Forall2 (msgOk (idsIn H)) (queue (mkPsys n p' c' w')) qs' /\ StronglySorted later (qs' ++ [cur]) /\
    (forall s, In s (cells m) -> cellOk (source (n_ops n) (n_table n) H) (idsIn H) (qs' ++ [cur]) s) /\
    (forall now l s, w' = WAdd now l -> In s l -> cellOk (source (n_ops n) (n_table n) H) (idsIn H) (qs' ++ [cur]) s) /\
    (forall now l s, p' = MAdd now l -> In s l -> s_expDt s = None /\ exists o k, restsOn s o [] k /\ source (n_ops n) (n_table n) H o)) ->
  onceInv H (mkPsys (setMem (setGoals (setAnt n ant) g) m) p' c' w').
Proof.
  intros H n m p c w p' c' w' g ant [L S Le (qs & cur & C & Q & Sq & Ce & W & M)] K. cbn [y_nar y_main y_chan y_work] in *.
  destruct (K qs cur C Q Sq Ce W M) as (qs' & Q' & Sq' & Ce' & W' & M'). constructor; auto. exists qs', cur. cbn. auto 10.
Qed.

Lemma same_nar : forall n, setMem (setGoals (setAnt n (n_ant n)) (n_goals n)) (n_mem n) = n.
Proof. now destruct n. Qed.
(** only the threads *)
Lemma once_move : forall H n p c w p' c' w', onceInv H (mkPsys n p c w) -> queue (mkPsys n p' c' w') = queue (mkPsys n p c w) ->
  (forall now l s, w' = WAdd now l -> In s l -> exists l0, w = WAdd now l0 /\ In s l0) ->
  (forall now l s, p' = MAdd now l -> In s l -> exists l0, p = MAdd now l0 /\ In s l0) -> onceInv H (mkPsys n p' c' w').
Proof.
  intros H n p c w p' c' w' I Eq W M. rewrite <- (same_nar n). apply (once_pcs H n (n_mem n) p c w p' c' w' _ _ I). intros qs cur C Q Sq Ce Wc Mc. exists qs. rewrite Eq.
  split; auto. split; auto. split; auto. split; [intros now l s E Hs; destruct (W now l s E Hs) as (l0 & E0 & H0); eapply Wc; eauto|intros now l s E Hs; destruct (M now l s E Hs) as (l0 & E0 & H0); eapply Mc; eauto].
Qed.
Lemma cell_missed : forall Src ids qs s p c, cellOk Src ids qs s -> s_evi s = Some (CNT p c) -> cellOk Src ids qs (setEvi s (s_stamp s) (CNT p (c + 1))).
Proof.
  intros Src ids qs s p c [(E & o & k & R & S)|(o & os & k & its & R & S & F)] Ev; [left|right].
  - split; auto. exists o, (k + 1)%Z. split; auto. now apply rests_missed.
  - exists o, os, (k + 1)%Z, its. split; [now apply rests_missed|]. split; auto.
Qed.
Hypothesis HL : 3 * Lm + 40 <= 120.
Lemma cell_merged : forall (Src : sentence -> Prop) ids x qs s e e', sortedIds ids -> Src s -> msgOk ids s x -> StronglySorted later (x :: qs) -> supports s e -> countedOnce s e e' ->
  cellOk Src ids (x :: qs) e -> cellOk Src ids (x :: qs) e'.
Proof.
  intros Src ids x qs s e e' So Hs (Es & Ox) Sq Sp Co [(E & _)|(o & os & k & its & R & S & F & St & P & Ee & B)].
  - exfalso. destruct Sp as (_ & (d1 & d2 & E1 & _) & _). congruence.
  - right. exists o, (s :: os), k, (x :: its). split; [eapply rests_merged; eauto|]. split; [intros z [<-|[<-|Hz]]; auto; apply S; [now left|now right]|].
    assert (Ok := msgs_items _ _ _ F). assert (Lt : Forall (fun i => later i x) its) by (apply Forall_forall; intros i Hi; apply B; auto; now left).
    split; [constructor; auto; now split|]. split; [constructor; auto|]. split.
    { constructor; auto. apply once with (Lm := Lm); auto. intros v Hv. rewrite <- Es. destruct Sp as (_ & _ & Sp). apply Sp. rewrite Ee. exact Hv. }
    split. { destruct Co as (? & ? & ? & ? & _ & _ & ->). cbn [s_stamp map]. rewrite Ee, Es. destruct its; [|reflexivity]. exfalso. inversion F; destruct os; discriminate. }
    intros b i Hb [<-|Hi]; [|now apply B]. destruct Hb as [<-|Hb]; [apply later_refl|]. inversion Sq as [|? ? _ Sb]; subst. rewrite Forall_forall in Sb. now apply Sb.
Qed.
Lemma cell_new : forall (Src : sentence -> Prop) ids x qs s v, Src s -> msgOk ids s x -> (forall b, In b qs -> later x b) -> restsOn v s [] 0%Z -> s_stamp v = s_stamp s -> cellOk Src ids qs v.
Proof.
  intros Src ids x qs s v Hs Mo L R E. right. exists s, [], 0%Z, [x]. split; auto. split; [intros z [<-|[]]; auto|]. split; [constructor; [auto|constructor]|]. split; [repeat constructor|].
  split; [repeat constructor|]. split; [rewrite E; apply Mo|]. intros b i Hb [<-|[]]. now apply L.
Qed.
Lemma intro_rests : forall s draws vs v p, matchandintro_var1_sentence s draws = Ok vs -> s_punct s = JUGEMENT -> s_evi s = Some (CNT p p) -> In v (s :: vs) ->
  restsOn v s [] 0%Z /\ s_stamp v = s_stamp s /\ s_expDt v = s_expDt s.
Proof.
  intros s draws vs v p M P Ev [<-|Hv]; [split; [apply rests_self with (p := p); auto; now left|auto]|].
  destruct (intro_spec _ _ _ M) as [->|(subj & prop & o & e & x & w & E1 & _ & -> & E2 & E3)]; [destruct Hv|]. destruct Hv as [<-|[]].
  assert (Q : s_punct w = s_punct s /\ s_stamp w = s_stamp s /\ s_expDt w = s_expDt s /\ s_evi w = s_evi s) by (rewrite E2; auto). destruct Q as (Q1 & Q2 & Q3 & Q4). split; [|auto].
  apply rests_self with (p := p); auto; [congruence|]. right. exists subj, prop, o, e, x. split; auto. intros Nx. now apply E3.
Qed.
(** places of an observation *)
Lemma observed_item : forall H n s cur, curOk H n cur -> (exists pre, eventsIn H = pre ++ n_trace n) -> observation (n_ops n) (n_table n) (n_trace n) s -> length (s_stamp s) <= Lm ->
  exists i, msgOk (idsIn H) s i /\ ia i = ia cur /\ im i = im cur.
Proof.
  intros H n s cur (C1 & C2 & C3 & C4 & C5 & C6) (pre & E) (i & js & k & e0 & es & ek & lo & o & Sr & Hi & Hj & Hk & _ & _ & _ & _ & _ & _ & _ & _ & Es & _) Ln.
  assert (El : length pre = ia cur). { unfold idsIn in *. rewrite map_length, E, app_length in C1. lia. }
  assert (At : forall j e, nth_error (n_trace n) j = Some e -> at_ (idsIn H) (ia cur + j) = ev_evi e /\ j < length (n_trace n)).
  { intros j e N. assert (Lj : j < length (n_trace n)) by (apply nth_error_Some; congruence). split; auto. unfold at_, idsIn. rewrite E, map_app, app_nth2 by (rewrite map_length; lia).
    rewrite map_length, El. replace (ia cur + j - ia cur) with j by lia. apply nth_error_nth. rewrite nth_error_map, N. reflexivity. }
  exists (mkItem (ia cur) (ib cur) (im cur) (map (fun j => ia cur + j) (i :: js ++ [k]))). cbn [ia im]. split; [|auto].
  assert (Ep : s_stamp s = idsOf (idsIn H) (map (fun j => ia cur + j) (i :: js ++ [k]))).
  { rewrite Es. unfold idsOf. cbn [map]. rewrite !map_app. cbn [map]. f_equal; [symmetry; apply (At i e0 Hi)|]. f_equal; [|f_equal; symmetry; apply (At k ek Hk)].
    clear - Hj At. induction Hj as [|j e js es N F IH]; [reflexivity|]. cbn [map]. f_equal; auto. symmetry. apply (At j e N). }
  split; [exact Ep|]. split; [cbn [ia ib]; lia|]. cbn [ia ib im ips]. split; [lia|]. split; [lia|]. split; [lia|]. split; [exists (n_t n); exact C6|]. split; [|split].
  - generalize Sr. generalize (i :: js ++ [k]). clear. induction l as [|a l IH]; intros S; [constructor|]. inversion S as [|? ? S1 F]; subst. cbn [map]. constructor; auto.
    intros Hin. apply in_map_iff in Hin. destruct Hin as (b & Eb & Hb). rewrite Forall_forall in F. specialize (F b Hb). lia.
  - assert (X := f_equal (@length Z) Ep). unfold idsOf in X. rewrite !map_length in X. rewrite map_length. lia.
  - intros r Hr. apply in_map_iff in Hr. destruct Hr as (j & <- & Hr). assert (j < length (n_trace n)).
    { destruct Hr as [<-|Hr]; [apply (At i e0 Hi)|]. apply in_app_iff in Hr. destruct Hr as [Hr|[<-|[]]]; [|apply (At k ek Hk)].
      clear - Hj Hr At. induction Hj as [|j0 e js es N F IH]; [destruct Hr|]. destruct Hr as [<-|Hr]; [apply (At j0 e N)|auto]. }
    rewrite C2. lia.
Qed.
Lemma once_else : forall us H y a y', lifeInv H y -> onceInv H y -> yact us y a = Ok (Some y') -> match a with XStep0 | XMain _ _ | XWork _ => True | _ => False end -> onceInv H y'.
Proof.
  intros us H [n p c w] a y' I O Y K. assert (Sw := li_work _ _ I). assert (EL := on_L _ _ O). assert (So := on_sort _ _ O). cbn [y_nar y_main y_chan y_work] in *.
  destruct a as [| | | | |nB rs|draws]; try contradiction; cbn [yact] in Y.
  - destruct p; try discriminate. destruct (confirm n) as [ant|]; [|discriminate]. cbn [rbind] in Y. injection Y as <-.
    change (setAnt n ?l) with (setMem (setGoals (setAnt n l) (n_goals n)) (n_mem n)). apply (once_pcs _ _ _ _ _ _ _ _ _ _ _ O). intros qs cur C Q Sq Ce W M. exists qs.
    split; [exact Q|]. split; [auto|]. split; [auto|]. split; [auto|]. discriminate.
  - destruct p as [|[|a todo]|[|m ms]|now [|s todo]]; try discriminate.
    + destruct (traceStep n rs) as [[g ms]|] eqn:T; [|discriminate]. cbn [rbind] in Y. injection Y as <-.
      change (setGoals n g) with (setMem (setGoals (setAnt n (n_ant n)) g) (n_mem n)). apply (once_pcs _ _ _ _ _ _ _ _ _ _ _ O). intros qs cur C Q Sq Ce W M.
      assert (N : exists qs', Forall2 (msgOk (idsIn H)) (map fst ms) qs' /\ Forall (fun i => ia i = ia cur /\ im i = im cur) qs').
      { assert (A : forall m, In m (map fst ms) -> exists i, msgOk (idsIn H) m i /\ ia i = ia cur /\ im i = im cur).
        { intros m Hm. apply in_map_iff in Hm. destruct Hm as ([s now] & <- & Hm). cbn [fst]. apply (observed_item H n); auto; [apply (li_trace _ _ I)| |].
          - apply (trace_sends _ _ _ _ T (li_cfg _ _ I) s now Hm).
          - rewrite EL. apply (sends_len _ _ _ _ T (li_cfg _ _ I) s now Hm). }
        clear - A. induction (map fst ms) as [|m l IH]; [exists []; split; constructor|]. destruct (A m (or_introl eq_refl)) as (i & M1 & M2). destruct IH as (l' & L1 & L2); [intros z Hz; apply A; now right|].
        exists (i :: l'). split; constructor; auto. }
      destruct N as (q' & N1 & N2). exists (qs ++ q').
      assert (Sq0 := Sq). apply sorted_app in Sq. destruct Sq as (Sq & Fq). split.
      { unfold queue in *. cbn [y_work y_chan y_main] in *. rewrite app_nil_r in Q. rewrite app_assoc. now apply Forall2_app. }
      split.
      { rewrite <- app_assoc. clear - Sq Fq N2. induction Sq as [|a l S1 IH S2]; cbn [app].
        - induction N2 as [|b l (E1 & E2) N2 IH]; cbn [app]; [repeat constructor|]. constructor; [auto|]. apply Forall_app. split; [|repeat constructor; unfold later; lia].
          eapply Forall_impl; [|exact N2]. intros z (E3 & E4). unfold later. lia.
        - inversion Fq as [|? ? F1 F2]; subst. constructor; [auto|]. apply Forall_app. split; auto. apply Forall_app. split; [|repeat constructor; apply F1].
          eapply Forall_impl; [|exact N2]. intros z (E3 & E4). destruct F1. unfold later. lia. }
      assert (Hq : forall b, In b ((qs ++ q') ++ [cur]) -> In b (qs ++ [cur]) \/ exists b', In b' (qs ++ [cur]) /\ later b' b).
      { intros b Hb. rewrite <- app_assoc in Hb. apply in_app_iff in Hb. destruct Hb as [Hb|Hb]; [left; apply in_app_iff; auto|]. apply in_app_iff in Hb.
        destruct Hb as [Hb|Hb]; [|left; apply in_app_iff; auto]. right. exists cur. split; [apply in_app_iff; right; now left|]. rewrite Forall_forall in N2. destruct (N2 b Hb). unfold later. lia. }
      split; [intros s Hs; rewrite <- (app_nil_r (idsIn H)); eapply cell_more; eauto|]. split; [intros now l s E Hs; rewrite <- (app_nil_r (idsIn H)); eapply cell_more; eauto|]. discriminate.
    + destruct (negConfirm _ _) as [h|] eqn:N; [|discriminate]. cbn [rbind] in Y. injection Y as <-. apply neg_one in N. destruct N as (L & _ & p0 & c0 & Ev & ->).
      change (setCells n ?h) with (setMem (setGoals (setAnt n (n_ant n)) (n_goals n)) (mkPmem h (pcs (n_mem n)))). apply (once_pcs _ _ _ _ _ _ _ _ _ _ _ O). intros qs cur C Q Sq Ce W M. exists qs.
      split; [exact Q|]. split; [auto|]. split; [|split; [auto|discriminate]]. cbn [cells]. intros s Hs. apply wr_in' in Hs. destruct Hs as [->|Hs]; [|auto]. apply cell_missed; auto. apply Ce. now apply nth_In.
    + injection Y as <-. apply (once_move H n (MSend []) c w); [exact O|reflexivity|intros now l s E Hs; eauto|discriminate].
    + destruct (Nat.ltb _ _); [|discriminate]. injection Y as <-. apply (once_move H n (MSend (m :: ms)) c w); [exact O| |intros now l s E Hs; eauto|discriminate].
      unfold queue. cbn [y_work y_chan y_main]. rewrite map_app, <- app_assoc. reflexivity.
    + injection Y as <-. apply (once_move H n (MAdd now []) c w); [exact O|reflexivity|intros now0 l s E Hs; eauto|discriminate].
    + destruct (mem_add_evidence_internal _ _ _ _ _) as [m|] eqn:M; [|discriminate]. cbn [rbind] in Y. injection Y as <-. apply internal_new in M. destruct M as (x & Ex & X).
      change (setMem n m) with (setMem (setGoals (setAnt n (n_ant n)) (n_goals n)) m). apply (once_pcs _ _ _ _ _ _ _ _ _ _ _ O). intros qs cur C Q Sq Ce W Mc. exists qs.
      split; [exact Q|]. split; [auto|]. split; [|split; [auto|intros now0 l s0 E Hs; injection E as <- <-; eapply Mc; [reflexivity|now right]]].
      intros z Hz. rewrite Ex in Hz. apply in_app_iff in Hz. destruct Hz as [Hz|Hz]; [auto|]. rewrite (X z Hz). left. apply (Mc now (s :: todo)); [reflexivity|now left].
  - assert (Y' : match w with
      | WIdle => match c with (s, now) :: c' => do l <- mergeTargets (n_mem n) s; Ok (Some (mkPsys n p c' (WMerge s now l false))) | [] => Ok None end
      | WMerge s now (a :: l) rv => do '(h, b) <- mergeInto s (cells (n_mem n)) a; Ok (Some (mkPsys (setCells n h) p c (WMerge s now l (rv || b))))
      | WMerge s now [] true => Ok (Some (mkPsys n p c WIdle))
      | WMerge s now [] false => do vs <- matchandintro_var1_sentence s draws; Ok (Some (mkPsys n p c (WAdd now (s :: vs))))
      | WAdd now (s :: todo) => do m <- mem_add_evidence_internal us (n_mem n) s (c_nBeliefs (n_cfg n)) now; Ok (Some (mkPsys (setMem n m) p c (WAdd now todo)))
      | WAdd now [] => Ok (Some (mkPsys n p c WIdle)) end = Ok (Some y')) by (destruct p; exact Y). clear Y.
    (* the worker is done with its message *)
    assert (Drop : forall s now rv w', w = WMerge s now [] rv -> (forall now' l v, w' = WAdd now' l -> In v l -> restsOn v s [] 0%Z /\ s_stamp v = s_stamp s) ->
      (forall s0 now' l' rv', w' <> WMerge s0 now' l' rv') -> onceInv H (mkPsys n p c w')).
    { intros s now rv w' -> Hv Nw. rewrite <- (same_nar n). apply (once_pcs _ _ _ _ _ _ _ _ _ _ _ O). intros qs cur C Q Sq Ce W M. cbn [queue y_work y_chan y_main app] in Q. inversion Q as [|? x ? qs0 Mo Q0]; subst.
      exists qs0. cbn [app] in Sq, Ce. inversion Sq as [|? ? Sq1 Sq2]; subst.
      split; [|split; [exact Sq1|]]; [|split; [|split; [|exact M]]].
      - unfold queue. cbn [y_work y_chan y_main]. destruct w'; [exact Q0|now destruct (Nw s0 now0 rest revised)|exact Q0].
      - intros z Hz. rewrite <- (app_nil_r (idsIn H)). eapply cell_more; [intros z0 Hz0; exact Hz0| |apply Ce; exact Hz]. intros b Hb. left. now right.
      - intros now' l v E Hl. destruct (Hv now' l v E Hl) as (R & Es). apply cell_new with (x := x) (s := s); auto. intros b Hb. rewrite Forall_forall in Sq2. now apply Sq2. }
    destruct w as [|s now [|a l] rv|now [|s todo]].
    + destruct c as [|[s now] c]; [discriminate|]. destruct (mergeTargets _ _) as [l|]; [|discriminate]. cbn [rbind] in Y'. injection Y' as <-.
      apply (once_move H n p ((s, now) :: c) WIdle); [exact O|reflexivity|discriminate|intros now0 l0 s0 E Hs; eauto].
    + destruct rv.
      * injection Y' as <-. apply (Drop s now true WIdle); [reflexivity|discriminate|discriminate].
      * destruct (matchandintro_var1_sentence s draws) as [vs|] eqn:M; [|discriminate]. cbn [rbind] in Y'. injection Y' as <-.
        destruct (source_shape _ _ _ _ (li_typed _ _ I) Sw) as (P & p0 & Ev).
        apply (Drop s now false (WAdd now (s :: vs))); [reflexivity| |discriminate]. intros now' l v E Hl. injection E as <- <-. destruct (intro_rests _ _ _ _ _ M P Ev Hl) as (R1 & R2 & _). auto.
    + destruct (mergeInto _ _ _) as [[h b]|] eqn:M; [|discriminate]. cbn [rbind] in Y'. injection Y' as <-.
      assert (L := merge_in _ _ _ _ M). apply mergeInto_ok in M. destruct M as (Eb & M).
      change (setCells n h) with (setMem (setGoals (setAnt n (n_ant n)) (n_goals n)) (mkPmem h (pcs (n_mem n)))). apply (once_pcs _ _ _ _ _ _ _ _ _ _ _ O). intros qs cur C Q Sq Ce W Mc. exists qs.
      split; [exact Q|]. split; [auto|]. split; [|split; [discriminate|exact Mc]]. cbn [cells]. destruct b; [|subst h; exact Ce].
      symmetry in Eb. apply supportsb_iff in Eb. destruct M as (e' & Co & ->). intros z Hz. apply wr_in' in Hz. destruct Hz as [->|Hz]; [|auto].
      cbn [queue y_work y_chan y_main app] in Q. inversion Q as [|? x ? qs0 Mo Q0]; subst. cbn [app] in *. eapply cell_merged; eauto. apply Ce. now apply nth_In.
    + injection Y' as <-. apply (once_move H n p c (WAdd now [])); [exact O|reflexivity|discriminate|intros now0 l0 s0 E Hs; eauto].
    + destruct (mem_add_evidence_internal _ _ _ _ _) as [m|] eqn:M; [|discriminate]. cbn [rbind] in Y'. injection Y' as <-. apply internal_new in M. destruct M as (x & Ex & X).
      change (setMem n m) with (setMem (setGoals (setAnt n (n_ant n)) (n_goals n)) m). apply (once_pcs _ _ _ _ _ _ _ _ _ _ _ O). intros qs cur C Q Sq Ce W Mc. exists qs.
      split; [exact Q|]. split; [auto|]. split; [|split; [intros now0 l s0 E Hs; injection E as <- <-; eapply W; [reflexivity|now right]|exact Mc]].
      intros z Hz. rewrite Ex in Hz. apply in_app_iff in Hz. destruct Hz as [Hz|Hz]; [auto|]. rewrite (X z Hz). apply (W now (s :: todo)); [reflexivity|now left].
Qed.
End Inv.

Theorem lived_once : forall H y, lived H y -> c_nOpsMax (n_cfg (y_nar y)) <= 24 -> onceInv (c_nOpsMax (n_cfg (y_nar y)) + 2) H y.
Proof.
  intros H y Lv. induction Lv as [cfg ops tab nMax depth Hc|us H y e y' Lv I Y|us H y s y' Lv I Y|us H y t id u draws y' Lv I Y|us H y decl r y' Lv I Y T
    |us H y decl r y' o evs Lv I Y B Ho Bo t D T|us H y decl r y' g evs Lv I Y M D T|us H y a y' Lv I Y K|H n p c w o Lv I|H n p c w b Lv I]; intros Le.
  - constructor; [reflexivity|intros p q Hp; cbn in Hp; lia|intros v []|]. exists [], (mkItem 0 0 0 []). split; [unfold curOk; cbn; repeat (split; [lia || reflexivity|]); intros r Hr; lia|].
    split; [constructor|]. split; [repeat constructor|]. split; [intros s []|]. split; discriminate.
  - destruct y as [n p c w]. cbn [yact] in Y. destruct p; try discriminate. injection Y as <-. cbn [y_nar] in *. specialize (I Le).
    eapply once_more with (evs := [mkEvent e (n_t n) (n_t n)]); [exact I|reflexivity|intros x [<-|[]]; reflexivity|reflexivity|auto|reflexivity|reflexivity|left; auto].
  - destruct y as [n p c w]. cbn [yact] in Y. destruct p; try discriminate. destruct (addEntry _ _ _ _ _) as [g|]; [|discriminate]. cbn [rbind] in Y. injection Y as <-. cbn [y_nar] in *. specialize (I Le).
    eapply once_more with (evs := []); [exact I|reflexivity|intros x []|reflexivity|auto|reflexivity|reflexivity|left; split; [symmetry; apply app_nil_r|reflexivity]].
  - destruct y as [n p c w]. cbn [yact] in Y. destruct p; try discriminate. destruct (matchandintro_var1_sentence _ _) as [vs|] eqn:Mi; [|discriminate]. cbn [rbind] in Y. injection Y as <-. cbn [y_nar] in *.
    specialize (I Le). assert (I' : onceInv (c_nOpsMax (n_cfg n) + 2) (H ++ [LBelief (userBelief t id u)]) (mkPsys n MFree c w)).
    { eapply once_more with (evs := []); [exact I|reflexivity|intros x []|reflexivity|auto|reflexivity|reflexivity|left; split; [symmetry; apply app_nil_r|reflexivity]]. }
    rewrite <- (same_nar n). apply (once_pcs _ _ _ _ _ _ _ _ _ _ _ _ I'). intros qs cur C Q Sq Ce W M. exists qs. split; [exact Q|]. split; [auto|]. split; [auto|]. split; [auto|].
    intros now l s E Hs. injection E as <- <-. destruct (intro_rests _ _ _ _ 10 Mi eq_refl eq_refl Hs) as (R1 & R2 & R3). split; [rewrite R3; reflexivity|]. exists (userBelief t id u), 0%Z. split; auto.
    left. apply in_app_iff. right. now left.
  - destruct y as [n p c w]. cbn [yact] in Y. destruct p; try discriminate. destruct (narStep1 _ _ _) as [n'|] eqn:S; [|discriminate]. cbn [rbind] in Y. injection Y as <-. cbn [y_nar] in *.
    assert (Sc := step1_cells _ _ _ _ S). destruct (step1_spec _ _ _ _ S) as (St & S1 & S2 & S3 & _). rewrite S1 in *. specialize (I Le). rewrite <- (app_nil_r H).
    eapply once_more with (evs := []); [exact I|reflexivity|intros x []|now rewrite S1|rewrite S2; auto|auto|auto|right; rewrite app_nil_r; auto].
  - destruct y as [n p c w]. cbn [yact] in Y. destruct p; try discriminate. destruct (narStep1 _ _ _) as [n'|] eqn:S; [|discriminate]. cbn [rbind] in Y. injection Y as <-. cbn [y_nar] in *.
    assert (Sc := step1_cells _ _ _ _ S). destruct (step1_spec _ _ _ _ S) as (St & S1 & S2 & S3 & _). rewrite S1 in *. specialize (I Le).
    eapply once_more with (evs := evs); [exact I|apply app_nil_r| |now rewrite S1|rewrite S2; auto|auto|auto|right; auto].
    intros x Hx. destruct D as (args & name & _ & [->|(o0 & inj & rels & _ & _ & ->)]); [destruct Hx|]. apply in_map_iff in Hx. destruct Hx as (z & <- & _). reflexivity.
  - destruct y as [n p c w]. cbn [yact] in Y. destruct p; try discriminate. destruct (narStep1 _ _ _) as [n'|] eqn:S; [|discriminate]. cbn [rbind] in Y. injection Y as <-. cbn [y_nar] in *.
    assert (Sc := step1_cells _ _ _ _ S). destruct (step1_spec _ _ _ _ S) as (St & S1 & S2 & S3 & _). rewrite S1 in *. specialize (I Le).
    eapply once_more with (evs := evs); [exact I|apply app_nil_r| |now rewrite S1|rewrite S2; auto|auto|auto|right; auto].
    intros x Hx. destruct D as (args & name & _ & [->|(o0 & inj & rels & _ & _ & ->)]); [destruct Hx|]. apply in_map_iff in Hx. destruct Hx as (z & <- & _). reflexivity.
  - assert (Ec : n_cfg (y_nar y') = n_cfg (y_nar y)).
    { clear - Y K. destruct y as [n p c w]. destruct a as [| | | | |nB rs|draws]; try contradiction; cbn [yact] in Y.
      - destruct p; try discriminate. destruct (confirm n); [|discriminate]. injection Y as <-. reflexivity.
      - destruct p as [|[|a todo]|[|m ms]|now [|s todo]]; try discriminate.
        + destruct (traceStep n rs) as [[g ms]|]; [|discriminate]. injection Y as <-. reflexivity.
        + destruct (negConfirm _ _); [|discriminate]. injection Y as <-. reflexivity.
        + injection Y as <-. reflexivity.
        + destruct (Nat.ltb _ _); [|discriminate]. injection Y as <-. reflexivity.
        + injection Y as <-. reflexivity.
        + destruct (mem_add_evidence_internal _ _ _ _ _); [|discriminate]. injection Y as <-. reflexivity.
      - destruct w as [|s now [|a l] [|]|now [|s todo]]; destruct p; repeat match type of Y with
          | context [match ?x with [] => _ | _ :: _ => _ end] => destruct x as [|[? ?] ?]
          | context [rbind ?x _] => destruct x as [?|]; cbn [rbind] in Y
          | context [let '(_, _) := ?x in _] => destruct x
          end; try discriminate; injection Y as <-; reflexivity. }
    rewrite Ec in *. specialize (I Le). eapply once_else; [|apply lived_inv; exact Lv|exact I|exact Y|exact K]. lia.
  - cbn [y_nar n_cfg setOps] in *. specialize (I Le). rewrite <- (app_nil_r H).
    eapply once_more with (evs := []); [exact I|reflexivity|intros x []|reflexivity|intros z Hz; apply in_app_iff; auto|reflexivity|reflexivity|left; split; [symmetry; apply app_nil_r|reflexivity]].
  - cbn [y_nar n_cfg setBabble c_nOpsMax] in *. specialize (I Le). rewrite <- (app_nil_r H).
    eapply once_more with (evs := []); [exact I|reflexivity|intros x []|reflexivity|auto|reflexivity|reflexivity|left; split; [symmetry; apply app_nil_r|reflexivity]].
Qed.

(** * What it says about beliefs *)
Lemma pairs_apart : forall Lm ids l its, Forall2 (msgOk Lm ids) l its -> ForallOrdPairs (fun a b => apartIds (idsOf ids (ips a)) (idsOf ids (ips b))) its -> apart l.
Proof.
  intros Lm ids l its F. induction F as [|s i l its (Es & _) F IH]; intros P; [exact Logic.I|]. inversion P as [|? ? P1 P2]; subst. cbn [apart]. split; [|auto].
  intros x v Hx Hv Hc. rewrite Es in Hv. clear - F P1 Hx Hv Hc. induction F as [|s0 i0 l its (Es & _) F IH]; [destruct Hx|]. inversion P1 as [|? ? Q1 Q2]; subst.
  destruct Hx as [<-|Hx]; [|auto]. rewrite Es in Hc. now apply (Q1 v).
Qed.
Lemma apart_last : forall l o, apart (l ++ [o]) -> apart (o :: l).
Proof.
  assert (A : forall l o, apart (l ++ [o]) -> apart l /\ forall x i, In x l -> In i (s_stamp x) -> ~ In i (s_stamp o)).
  { induction l as [|s l IH]; intros o H; [split; [exact Logic.I|intros x i []]|]. cbn [app apart] in H. destruct H as (H1 & H2). destruct (IH o H2) as (I1 & I2). split.
    - split; auto. intros x i Hx. apply H1. apply in_app_iff. auto.
    - intros x i [<-|Hx] Hi; [|now apply (I2 x)]. apply (H1 o i); auto. apply in_app_iff. right. now left. }
  intros l o H. destruct (A l o H) as (H1 & H2). split; auto. intros x i Hx Hi Hc. apply (H2 x i); auto.
Qed.
Theorem counted_once : forall H y s, lived H y -> c_nOpsMax (n_cfg (y_nar y)) <= 24 -> In s (cells (n_mem (y_nar y))) ->
  exists o os k, restsOn s o os k /\ (forall x, In x (o :: os) -> source (n_ops (y_nar y)) (n_table (y_nar y)) H x) /\ apart (o :: os) /\
    (os = [] \/ 3 * (length os + 1) <= length (eventsIn H)).
Proof.
  intros H y s Lv Le Hs. destruct (lived_once H y Lv Le) as [_ _ _ (qs & cur & _ & _ & _ & Ce & _)]. destruct (Ce s Hs) as [(_ & o & k & R & So)|(o & os & k & its & R & So & F & St & P & Es & _)].
  - exists o, [], k. split; auto. split; [intros x [<-|[]]; auto|]. split; [cbn; split; [intros x i []|auto]|auto].
  - exists o, os, k. split; auto. split; auto. split; [apply apart_last; eapply pairs_apart; eauto|]. destruct os as [|o1 os]; [auto|right].
    (* all of them are observations *)
    assert (Len : forall x i, In x ((o1 :: os) ++ [o]) -> msgOk (c_nOpsMax (n_cfg (y_nar y)) + 2) (idsIn H) x i -> 3 <= length (ips i)).
    { intros x i Hx (Ex & _). assert (Sx : source (n_ops (y_nar y)) (n_table (y_nar y)) H x) by (apply So; apply in_app_iff in Hx; destruct Hx as [Hx|[<-|[]]]; [now right|now left]).
      assert (D : s_expDt x <> None).
      { destruct R as (_ & R1 & _ & _ & R2 & _). apply in_app_iff in Hx. destruct Hx as [Hx|[<-|[]]].
        - destruct (R2 x Hx) as (_ & d1 & d2 & _ & E & _). congruence.
        - destruct (R2 o1 (or_introl eq_refl)) as (_ & d1 & d2 & E & _). congruence. }
      destruct Sx as [Sx|(pre & tr & post & ops0 & _ & _ & Ob)].
      - exfalso. destruct (li_typed _ _ (lived_inv _ _ Lv) x Sx) as (t & id & u & ->). now apply D.
      - destruct Ob as (i0 & js & k0 & e0 & es & ek & lo & op0 & _ & _ & _ & _ & _ & (op1 & rest & Ees & _) & _ & _ & _ & _ & _ & _ & E2 & _).
        assert (X := f_equal (@length Z) Ex). unfold idsOf in X. rewrite map_length, E2, Ees in X. cbn [length map] in X. rewrite app_length in X. cbn [length] in X. lia. }
    assert (Nd : NoDup (concat (map ips its))).
    { apply parts_nodup with (ids := idsIn H).
      - rewrite Forall_map. assert (Ok := msgs_items _ _ _ _ F). eapply Forall_impl; [|exact Ok]. intros i Oi. apply Oi.
      - clear - P. induction P as [|a l Fa P IH]; cbn [map]; constructor; auto. now rewrite Forall_map. }
    assert (In_ : incl (concat (map ips its)) (seq 0 (length (eventsIn H)))).
    { intros r Hr. apply in_concat in Hr. destruct Hr as (ps & Hp & Hr). apply in_map_iff in Hp. destruct Hp as (i & <- & Hi). assert (Ok := msgs_items _ _ _ _ F). rewrite Forall_forall in Ok.
      destruct (Ok i Hi) as (_ & _ & L1 & _ & _ & _ & _ & L2). specialize (L2 r Hr). unfold idsIn in L1. rewrite map_length in L1. apply in_seq. lia. }
    assert (Q := NoDup_incl_length Nd In_). rewrite seq_length in Q.
    assert (Z : 3 * length ((o1 :: os) ++ [o]) <= length (concat (map ips its))).
    { clear - F Len. induction F as [|x i l its M F IH]; [cbn; lia|]. cbn [length map concat]. rewrite app_length. assert (3 <= length (ips i)) by (apply (Len x i); [now left|auto]).
      assert (3 * length l <= length (concat (map ips its))) by (apply IH; intros z j Hz; apply Len; now right). lia. }
    rewrite app_length in Z. cbn [length] in Z. cbn [length]. lia.
Qed.
