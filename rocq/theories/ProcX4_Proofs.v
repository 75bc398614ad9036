(** Runs of the procedural reasoner that are determined by the inputs. *)
From Coq Require Import String ZArith Bool Lia List Relations Sorted Permutation.
From Verif Require Import Base F64_Model Term_Model Term_Spec Term_Proofs Unify_Model Unify_Spec Stamp_Model Stamp_Proofs Tv_Model Tv_Spec
  Sentence_Model Mem_Model PMem_Model PMem_Proofs PMem2_Proofs
  Goal_Model Goal_Spec Proc_Model Proc_Spec ProcA_Proofs ProcP_Proofs ProcB_Proofs ProcC_Proofs ProcV_Proofs
  ProcS_Model ProcS_Proofs ProcX_Model Speak_Spec Speak_Proofs ProcX_Spec ProcX_Proofs ProcX2_Proofs ProcX3_Proofs.
Import ListNotations.
Local Open Scope list_scope.
Local Open Scope Z_scope.

Definition below (k : Z) (s : sentence) : Prop := forall p c, s_evi s = Some (CNT p c) -> c <= k.
Record lim (us : nat -> usage) (M k : Z) (y : psys) : Prop := mkLim {
  l_us : forall a, 0 <= useCount (us a) < 2 ^ 63 /\ 0 <= lastUsed (us a);
  l_M : 1 <= M;
  l_k : 0 <= k;
  l_ops : forall o, In o (n_ops (y_nar y)) -> op_kind o <> OpExecAndInject /\ op_evi o <= M;
  l_trace : forall e, In e (n_trace (y_nar y)) -> safeEvent (n_ops (y_nar y)) (ev_name e);
  l_time : n_t (y_nar y) <= k;
  l_cells : forall s, In s (cells (n_mem (y_nar y))) -> below ((k + 1) * M) s;
  l_main : forall s, In s (mainMsgs (y_main y)) -> below M s;
  l_chan : forall s now, In (s, now) (y_chan y) -> below M s;
  l_work : forall s, In s (workMsgs (y_work y)) -> below M s
}.
Lemma lim_calm : forall us M k y, lim us M k y -> (k + 1) * M < 2 ^ 63 -> calm us y.
Proof.
  intros us M k y [A B C D E F G _ _ _] L. split; auto. split; auto. split; [nia|]. intros s p c Hs Hc. specialize (G s Hs p c Hc). lia.
Qed.
Lemma below_more : forall a b s, a <= b -> below a s -> below b s.
Proof. intros a b s L H p c E. specialize (H p c E). lia. Qed.
(** the events that a second half step adds *)
Lemma call_safe : forall ops t, opTerm t -> speakable t -> safeEvent ops t.
Proof. intros ops t (args & name & _ & ->) S. split; auto. intros x l E. discriminate. Qed.
Lemma plain_none : forall ops t evs rels, (forall o, In o ops -> op_kind o <> OpExecAndInject) -> performs ops t evs rels -> evs = [].
Proof.
  intros ops t evs rels H P. inversion P as [| | | |? ? ? ? ? ? ? ? _ (pre & post & E & _) K]; subst; auto. exfalso. eapply H; [|exact K]. apply in_elt.
Qed.
Lemma executed_safe : forall n t evs, (forall o, In o (n_ops n) -> op_kind o <> OpExecAndInject) -> speakable t -> executed n t evs -> forall e, In e evs -> safeEvent (n_ops n) (ev_name e).
Proof.
  intros n t evs K S (args & name & C & [(_ & ->)|(o & inj & rels & _ & P & ->)]) e He; [easy|]. apply plain_none in P; auto. subst inj. destruct He as [<-|[]].
  apply call_safe; auto. exists args, name. exact C.
Qed.
Lemma outcome_safe : forall n evs ant, nOk n -> texts n -> (forall o, In o (n_ops n) -> op_kind o <> OpExecAndInject) -> outcome n evs ant -> forall e, In e evs -> safeEvent (n_ops n) (ev_name e).
Proof.
  intros n evs ant N T K [|g x a iv evs' Mo _ Ev _ Ex|o evs' _ _ _ Ex]; [easy| |].
  - eapply executed_safe; eauto. destruct Mo as [Hi|(b & pre & e0 & Cd & _ & Eb & Sq & _)].
    + destruct (go_all _ _ _ (no_goals _ N) g) as [_ _ _ Eo]; [now right|]. apply (Eo a Ev).
    + destruct (candidate_ok n b N T Cd a Eb) as (_ & _ & S). rewrite Sq in S. now apply op_sp in S.
  - eapply executed_safe; eauto. apply call_sp.
Qed.
Lemma act_ops : forall us y a y', yact us y a = Ok (Some y') -> n_ops (y_nar y') = n_ops (y_nar y).
Proof.
  intros us [n p c w] a y' H. unfold yact in H. cbn [y_nar].
  destruct a as [e|s|t id u draws| |decl r|nB rs|draws].
  - destruct p; try discriminate. injection H as <-. reflexivity.
  - destruct p; try discriminate. destruct (addEntry _ _ _ _ _); [|discriminate]. injection H as <-. reflexivity.
  - destruct p; try discriminate. destruct (matchandintro_var1_sentence _ _); [|discriminate]. injection H as <-. reflexivity.
  - destruct p; try discriminate. destruct (confirm n); [|discriminate]. injection H as <-. reflexivity.
  - destruct p; try discriminate. destruct (narStep1 n decl r) eqn:E; [|discriminate]. injection H as <-. apply step1_spec in E. apply E.
  - destruct p as [|[|x l]|[|m ms]|now [|s todo]]; try discriminate.
    + destruct (traceStep n rs) as [[g ms]|]; [|discriminate]. injection H as <-. reflexivity.
    + destruct (negConfirm _ _); [|discriminate]. injection H as <-. reflexivity.
    + injection H as <-. reflexivity.
    + destruct (Nat.ltb _ _); [|discriminate]. injection H as <-. reflexivity.
    + injection H as <-. reflexivity.
    + destruct (mem_add_evidence_internal _ _ _ _ _); [|discriminate]. injection H as <-. reflexivity.
  - destruct w as [|s now [|x l] rv|now [|s todo]].
    + destruct c as [|[s now] c]; [now destruct p|]. destruct (mergeTargets _ _); [|now destruct p]. destruct p; injection H as <-; reflexivity.
    + destruct rv; [destruct p; injection H as <-; reflexivity|]. destruct (matchandintro_var1_sentence _ _); [|now destruct p]. destruct p; injection H as <-; reflexivity.
    + destruct (mergeInto _ _ _) as [[h b]|]; [|now destruct p]. destruct p; injection H as <-; reflexivity.
    + destruct p; injection H as <-; reflexivity.
    + destruct (mem_add_evidence_internal _ _ _ _ _); [|now destruct p]. destruct p; injection H as <-; reflexivity.
Qed.
Lemma lim_more : forall us M k k' y, lim us M k y -> k <= k' -> lim us M k' y.
Proof.
  intros us M k k' y [A B C D E F G H I J] L. constructor; auto; [lia|lia|]. intros s Hs. eapply below_more; [|exact (G s Hs)]. nia.
Qed.
Lemma obs_below : forall ops tab tr s M, (forall o, In o ops -> op_evi o <= M) -> observation ops tab tr s -> below M s.
Proof.
  intros ops tab tr s M Ho (i & js & k & e0 & es & ek & lo & o & _ & _ & _ & _ & _ & (op1 & rest & _ & args & name & _ & (pre & post & E & _)) & _ & _ & _ & _ & _ & _ & _ & _ & Ev & _).
  intros p c Q. rewrite Ev in Q. injection Q as <- <-. apply Ho. rewrite E. apply in_elt.
Qed.
Lemma intro_below : forall s draws vs v k, matchandintro_var1_sentence s draws = Ok vs -> below k s -> In v vs -> below k v.
Proof.
  intros s draws vs v k H Hs Hv. unfold matchandintro_var1_sentence in H. destruct (matchandintro_var1 _ _) as [ts|]; [|discriminate]. cbn [rbind] in H.
  injection H as <-. apply in_map_iff in Hv. destruct Hv as (t & <- & _). exact Hs.
Qed.
Theorem act_lim : forall us M k y a y', calm us y -> yX y -> lim us M k y -> fairAct a -> (forall e, a = XEvent e -> safeEvent (n_ops (y_nar y)) e) ->
  yact us y a = Ok (Some y') -> lim us M (k + 1) y'.
Proof.
  intros us M k y a y' Cm Y Li Fa Se H. pose proof (yx_nOk us _ Cm Y) as (N & Tx). pose proof (lim_more _ _ _ (k + 1) _ Li ltac:(lia)) as L1.
  assert (K : 0 <= k /\ 1 <= M) by (split; apply Li). pose proof (l_cells _ _ _ _ Li) as Lc. pose proof (l_time _ _ _ _ Li) as Lt.
  destruct L1 as [A B C D E F G P Q W]. destruct y as [n p c w]. cbn [y_nar y_main y_chan y_work] in *. unfold yact in H.
  assert (Ck : forall h s, onlyNew s (cells (n_mem n)) h -> below M s -> forall x, In x h -> below ((k + 1 + 1) * M) x).
  { intros h s (x & -> & Hx) Hs z Hz. apply in_app_iff in Hz. destruct Hz as [Hz|Hz]; [auto|]. rewrite (Hx z Hz). eapply below_more; [|exact Hs]. nia. }
  destruct a as [e|s|t id u draws| |decl r|nB rs|draws].
  - destruct p; try discriminate. injection H as <-. constructor; cbn; auto. intros x Hx. apply in_app_iff in Hx. destruct Hx as [Hx|[<-|[]]]; [auto|]. now apply Se.
  - destruct p; try discriminate. destruct (addEntry _ _ _ _ _); [|discriminate]. injection H as <-. constructor; auto.
  - destruct Fa.
  - destruct p; try discriminate. destruct (confirm n); [|discriminate]. injection H as <-. constructor; auto.
  - destruct p; try discriminate. destruct (narStep1 n decl r) eqn:S1; [|discriminate]. injection H as <-. pose proof (step1_cells _ _ _ _ S1) as Sc.
    apply step1_spec in S1. destruct S1 as (S1 & _ & S3 & _ & _ & (evs & ant & Ho & Ht & _) & _).
    constructor; cbn [y_nar y_main y_chan y_work]; auto; rewrite ?S3, ?Sc; auto; [|lia].
    intros x Hx. rewrite Ht in Hx. apply last_in in Hx. apply in_app_iff in Hx. destruct Hx as [Hx|Hx]; auto. eapply outcome_safe; eauto. intros o Ho'. now apply D.
  - destruct p as [|[|x l]|[|m ms]|now [|s todo]]; try discriminate.
    + destruct (traceStep n rs) as [[g ms]|] eqn:T; [|discriminate]. injection H as <-. constructor; cbn [setGoals y_nar y_main y_chan y_work n_ops n_trace n_t n_mem]; auto.
      intros s Hs. cbn [mainMsgs] in Hs. apply in_map_iff in Hs. destruct Hs as ([s0 now] & <- & Hs). destruct (trace_sends _ _ _ _ T (cf_ops _ (yx_cfg _ Y)) s0 now Hs) as (_ & Ob).
      eapply obs_below; [|exact Ob]. intros o Ho. now apply D.
    + destruct (negConfirm _ _) as [h|] eqn:Ng; [|discriminate]. injection H as <-. constructor; cbn [setCells setMem y_nar y_main y_chan y_work n_ops n_trace n_t n_mem cells]; auto.
      apply neg_one in Ng. destruct Ng as (La & _ & q & cc & Eq & ->). intros s Hs. apply wr_in in Hs. destruct Hs as [->|Hs]; auto.
      intros p0 c0 Q0. cbn in Q0. injection Q0 as <- <-. assert (cc <= (k + 1) * M); [|nia]. eapply Lc; [|exact Eq]. unfold rd. now apply nth_In.
    + injection H as <-. constructor; auto.
    + destruct (Nat.ltb _ _); [|discriminate]. injection H as <-. constructor; cbn [y_nar y_main y_chan y_work]; auto.
      * intros s Hs. apply P. now right.
      * intros s now Hs. apply in_app_iff in Hs. destruct Hs as [Hs|[->|[]]]; eauto. apply P. now left.
    + injection H as <-. constructor; auto.
    + destruct (mem_add_evidence_internal _ _ _ _ _) as [m|] eqn:Ad; [|discriminate]. injection H as <-.
      constructor; cbn [setMem y_nar y_main y_chan y_work n_ops n_trace n_t n_mem cells]; auto; [eapply Ck; [eapply internal_new; eauto|apply P; now left]|intros x Hx; apply P; now right].
  - destruct w as [|s now [|x l] rv|now [|s todo]].
    + destruct c as [|[s now] c]; [now destruct p|]. destruct (mergeTargets _ _); [|now destruct p].
      assert (Q1 : y' = mkPsys n p c (WMerge s now a false)) by (destruct p; now injection H as <-). subst y'.
      constructor; cbn [y_nar y_main y_chan y_work]; auto; [intros s' now' Hs; eapply Q; right; eauto|]. intros s' [<-|[]]. eapply Q. now left.
    + destruct rv.
      { assert (Q1 : y' = mkPsys n p c WIdle) by (destruct p; now injection H as <-). subst y'. constructor; auto. intros s' []. }
      destruct (matchandintro_var1_sentence _ _) as [vs|] eqn:In_; [|now destruct p].
      assert (Q1 : y' = mkPsys n p c (WAdd now (s :: vs))) by (destruct p; now injection H as <-). subst y'. constructor; cbn [y_nar y_main y_chan y_work]; auto.
      intros s' [<-|Hs]; [apply W; now left|]. eapply intro_below; eauto. apply W. now left.
    + destruct (mergeInto _ _ _) as [[h b]|] eqn:Mi; [|now destruct p].
      assert (Q1 : y' = mkPsys (setCells n h) p c (WMerge s now l (rv || b))) by (destruct p; now injection H as <-). subst y'.
      constructor; cbn [setCells setMem y_nar y_main y_chan y_work n_ops n_trace n_t n_mem cells]; auto.
      pose proof (merge_in _ _ _ _ Mi) as Lx. apply mergeInto_ok in Mi. destruct Mi as (_ & Mi). destruct b; [|now subst h].
      destruct Mi as (e' & (p1 & c1 & pos & cnt & E1 & E2 & ->) & ->). intros z Hz. apply wr_in in Hz. destruct Hz as [->|Hz]; auto.
      intros p0 c0 Q0. cbn in Q0. injection Q0 as <- <-. assert (cnt <= (k + 1) * M) by (eapply Lc; [|exact E2]; unfold rd; now apply nth_In).
      assert (c1 <= M) by (eapply W; [now left|exact E1]). nia.
    + assert (Q1 : y' = mkPsys n p c WIdle) by (destruct p; now injection H as <-). subst y'. constructor; auto. 
    + destruct (mem_add_evidence_internal _ _ _ _ _) as [m|] eqn:Ad; [|now destruct p].
      assert (Q1 : y' = mkPsys (setMem n m) p c (WAdd now todo)) by (destruct p; now injection H as <-). subst y'.
      constructor; cbn [setMem y_nar y_main y_chan y_work n_ops n_trace n_t n_mem cells]; auto; [eapply Ck; [eapply internal_new; eauto|apply W; now left]|intros x Hx; apply W; now right].
Qed.
Theorem runs_ok : forall us M acts y k, yX y -> lim us M k y -> (k + Z.of_nat (length acts) + 1) * M < 2 ^ 63 ->
  (forall a, In a acts -> fairAct a /\ forall e, a = XEvent e -> safeEvent (n_ops (y_nar y)) e) -> exists y', yrun us acts y = Ok y'.
Proof.
  intros us M acts. induction acts as [|a l IH]; intros y k Y Li B H; cbn [yrun]; [eauto|].
  assert (K : 0 <= k /\ 1 <= M) by (split; apply Li). cbn [length] in B. rewrite Nat2Z.inj_succ in B.
  assert (Cm : calm us y) by (eapply lim_calm; eauto; nia). destruct (H a) as (Fa & Se); [now left|].
  destruct (act_ok us y a Cm Y Fa) as (o & E & Hy). rewrite E. cbn [rbind]. destruct o as [y'|].
  - apply (IH y' (k + 1)).
    + now apply Hy.
    + eapply act_lim; eauto.
    + nia.
    + intros b Hb. rewrite (act_ops _ _ _ _ E). apply H. now right.
  - apply (IH y k); auto; [nia|]. intros b Hb. apply H. now right.
Qed.
(** the states of such a run are those of a calm run *)
Theorem runs_start : forall us M acts y, fairStart y -> (forall a, 0 <= useCount (us a) < 2 ^ 63 /\ 0 <= lastUsed (us a)) -> 1 <= M ->
  (forall o, In o (n_ops (y_nar y)) -> op_kind o <> OpExecAndInject /\ op_evi o <= M) -> (Z.of_nat (length acts) + 1) * M < 2 ^ 63 ->
  (forall a, In a acts -> fairAct a /\ forall e, a = XEvent e -> safeEvent (n_ops (y_nar y)) e) -> exists y', yrun us acts y = Ok y'.
Proof.
  intros us M acts y S U HM Ho B H. apply (runs_ok us M acts y 0); auto; [now apply start_yX|].
  destruct S as (cfg & ops & tab & nMax & depth & -> & _). constructor; cbn [ystart y_nar y_main y_chan y_work n_ops n_trace n_t n_mem cells pmemMake mainMsgs workMsgs] in *; auto; try lia; try solve [intros ? []]; solve [intros ? ? []].
Qed.
Lemma act_step : forall us y y', ystep us y y' <-> exists a, yact us y a = Ok (Some y').
Proof.
  intros us y y'. split.
  - intros [n c w e|n c w s g E|n c w t id u draws vs E|n c w now s todo nB m E|n c w now|n c w ant E|n c w x todo h E|n c w rs g ms E|n c w m ms L|n c w|n c w decl r n' E|n p s now c l E|n p c s now x l rv h b E|n p c s now|n p c s now draws vs E|n p c now s todo m E|n p c now].
    + exists (XEvent e). reflexivity.
    + exists (XGoal s). cbn. now rewrite E.
    + exists (XBelief t id u draws). cbn [yact]. now rewrite E.
    + exists (XMain nB (fun _ => mkSmp false [] 0 false 0)). cbn. now rewrite E.
    + exists (XMain 0 (fun _ => mkSmp false [] 0 false 0)). reflexivity.
    + exists XStep0. cbn. now rewrite E.
    + exists (XMain 0 (fun _ => mkSmp false [] 0 false 0)). cbn. now rewrite E.
    + exists (XMain 0 rs). cbn. now rewrite E.
    + exists (XMain 0 (fun _ => mkSmp false [] 0 false 0)). cbn [yact]. apply Nat.ltb_lt in L. now rewrite L.
    + exists (XMain 0 (fun _ => mkSmp false [] 0 false 0)). reflexivity.
    + exists (XStep1 decl r). cbn [yact]. now rewrite E.
    + exists (XWork []). destruct p; cbn [yact]; now rewrite E.
    + exists (XWork []). destruct p; cbn [yact]; now rewrite E.
    + exists (XWork []). destruct p; reflexivity.
    + exists (XWork draws). destruct p; cbn [yact]; now rewrite E.
    + exists (XWork []). destruct p; cbn [yact]; now rewrite E.
    + exists (XWork []). destruct p; reflexivity.
  - intros (a & H). destruct y as [n p c w]. unfold yact in H. destruct a as [e|s|t id u draws| |decl r|nB rs|draws].
    + destruct p; try discriminate. injection H as <-. eapply y_event; eauto.
    + destruct p; try discriminate. destruct (addEntry _ _ _ _ _) eqn:E; [|discriminate]. injection H as <-. eapply y_goal; eauto.
    + destruct p; try discriminate. destruct (matchandintro_var1_sentence _ _) eqn:E; [|discriminate]. injection H as <-. eapply y_belief; eauto.
    + destruct p; try discriminate. destruct (confirm n) eqn:E; [|discriminate]. injection H as <-. eapply y_step0; eauto.
    + destruct p; try discriminate. destruct (narStep1 n decl r) eqn:E; [|discriminate]. injection H as <-. eapply y_step1; eauto.
    + destruct p as [|[|x l]|[|m ms]|now [|s todo]]; try discriminate.
      * destruct (traceStep n rs) as [[g ms]|] eqn:E; [|discriminate]. injection H as <-. eapply y_trace; eauto.
      * destruct (negConfirm _ _) eqn:E; [|discriminate]. injection H as <-. eapply y_miss; eauto.
      * injection H as <-. eapply y_sent; eauto.
      * destruct (Nat.ltb_spec (length c) chanCap) as [L|L]; [|discriminate]. injection H as <-. eapply y_send; eauto.
      * injection H as <-. eapply y_allfiled; eauto.
      * destruct (mem_add_evidence_internal _ _ _ _ _) eqn:E; [|discriminate]. injection H as <-. eapply y_filed; eauto.
    + destruct w as [|s now [|x l] rv|now [|s todo]].
      * destruct c as [|[s now] c]; [now destruct p|]. destruct (mergeTargets _ _) eqn:E; [|now destruct p]. destruct p; injection H as <-; eapply y_recv; eauto.
      * destruct rv; [destruct p; injection H as <-; eapply y_revised; eauto|]. destruct (matchandintro_var1_sentence _ _) eqn:E; [|now destruct p]. destruct p; injection H as <-; eapply y_new; eauto.
      * destruct (mergeInto _ _ _) as [[h b]|] eqn:E; [|now destruct p]. destruct p; injection H as <-; eapply y_merge; eauto.
      * destruct p; injection H as <-; eapply y_wallfiled; eauto.
      * destruct (mem_add_evidence_internal _ _ _ _ _) eqn:E; [|now destruct p]. destruct p; injection H as <-; eapply y_wfiled; eauto.
Qed.
