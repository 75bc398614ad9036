(** The program "envPong3": what holds in all its states. *)
From Coq Require Import String ZArith Bool Lia List Relations Sorted.
From Verif Require Import Base F64_Model Term_Model Term_Spec Term_Proofs Unify_Model Stamp_Model Tv_Model Tv_Spec Tv_Proofs Sentence_Model Mem_Model Cycle_Model PMem_Model
  Goal_Model Goal_Spec Goal_Proofs Proc_Model Proc_Spec ProcA_Proofs ProcP_Proofs ProcC_Proofs ProcS_Model ProcX_Model Speak_Spec Speak_Proofs ProcX_Spec
  ProcX2_Proofs ProcX3_Proofs ProcX4_Proofs Parser_Model Nar_Model Nar3_Proofs Whole_Proofs Env_Model Env_Spec Env_Proofs Play_Model Play_Spec Play_Proofs.
Import ListNotations.
Local Open Scope list_scope.
Local Open Scope Z_scope.

(** * Single steps *)
Lemma step1_trace : forall n r n', narStep1 n true r = Ok n' -> exists n2 pk n3, chosen n r = Ok (n2, pk) /\ execAction n2 pk = Ok n3 /\ n_trace n' = lastEvents 20 (n_trace n3).
Proof.
  intros n r n' H. unfold chosen. unfold narStep1 in H. destruct (bestByState n) as [b0|]; [|discriminate]. cbn [rbind] in *.
  destruct (planForward n (i_u r) (i_plan r) b0) as [b1|]; [|discriminate]. cbn [rbind] in *.
  destruct (decide n true (i_u r) b1) as [n1|]; [|discriminate]. cbn [rbind] in *.
  destruct (execGoal n1) as [[n2 pk0]|]; [|discriminate]. cbn [rbind] in *.
  destruct (babble n2 (i_babble r) pk0) as [pk|]; [|discriminate]. cbn [rbind] in *.
  destruct (execAction n2 pk) as [n3|] eqn:X; [|discriminate]. cbn [rbind] in H. exists n2, pk, n3. split; auto. split; auto.
  set (n4 := setTrace n3 (traceLimit (n_trace n3))) in *.
  destruct (if Z.rem (n_t n4) 101 =? 1 then _ else _)%Z as [n5|] eqn:E6; [|discriminate]. cbn [rbind] in H.
  destruct (if Z.rem (n_t n5) 13 =? 1 then _ else _)%Z as [n6|] eqn:E7; [|discriminate]. cbn [rbind] in H.
  destruct (rfold _ (i_derive r) (n_goals n6)) as [g|] eqn:E8; [|discriminate]. cbn [rbind] in H.
  assert (n' = setTime (setGoals n6 g) (n_t n6 + 1)) by congruence. subst n'. clear H. cbn [n_trace setTime setGoals].
  assert (A5 : n_trace n5 = n_trace n4) by (destruct (Z.rem (n_t n4) 101 =? 1)%Z; [destruct (pLimit _ _); [|discriminate]; cbn [rbind] in E6|]; injection E6 as <-; reflexivity).
  assert (A6 : n_trace n6 = n_trace n5) by (destruct (Z.rem (n_t n5) 13 =? 1)%Z; [destruct (enforce true); [|discriminate]; cbn [rbind] in E7; destruct (limitGoals _ _ _); [|discriminate]; cbn [rbind] in E7|]; injection E7 as <-; reflexivity).
  rewrite A6, A5. cbn. apply limit_last.
Qed.
(** what is called and what is remembered of it *)
Lemma called_spec : forall n r n', narStep1 n true r = Ok n' -> (forall o, In o (n_ops n) -> op_kind o = OpPlain) ->
  match called n r with
  | Some name => exists t args, opCall t args name /\ n_trace n' = lastEvents 20 (n_trace n ++ [mkEvent t (n_t n) (n_t n)])
  | None => n_trace n' = lastEvents 20 (n_trace n)
  end.
Proof.
  intros n r n' H Pl. destruct (step1_trace _ _ _ H) as (n2 & pk & n3 & Ch & Ea & Et). pose proof (chosen_frame _ _ _ _ Ch) as (F1 & F2 & F3).
  unfold called. rewrite Ch. pose proof (action_spec _ _ _ Ea) as Ac. destruct pk as [t|].
  - destruct Ac as (args & name & A1 & A2). assert (D : decodeOp t = Some (args, name)) by now apply decodeOp_some. rewrite D.
    destruct A2 as [(A2 & ->)|(o & inj & rels & A2 & A3 & ->)].
    + apply ret_op_none in A2. rewrite A2. cbn [option_map]. now rewrite Et, F3.
    + pose proof A2 as R. apply ret_op_some in R. rewrite R. cbn [option_map]. destruct A2 as (pre & post & E & N & _). rewrite N. exists t, args. split; auto.
      cbn [n_trace setTrace] in Et. rewrite Et, F2, F3. assert (inj = []) as ->; [|reflexivity].
      eapply plain_none; [|exact A3]. intros o' Ho'. rewrite F1 in Ho'. rewrite (Pl o' Ho'). discriminate.
  - subst n3. now rewrite Et, F3.
Qed.
Lemma called_op : forall n r name, called n r = Some name -> exists o, In o (n_ops n) /\ op_name o = name.
Proof.
  intros n r name H. unfold called in H. destruct (chosen n r) as [[n2 [t|]]|] eqn:Ch; try discriminate. pose proof (chosen_frame _ _ _ _ Ch) as (F1 & _).
  destruct (decodeOp t) as [[a nm]|]; [|discriminate]. destruct (ret_op_by_name _ _) as [o|] eqn:R; [|discriminate]. injection H as <-. exists o. split; auto. rewrite <- F1.
  apply ret_op_some in R. destruct R as (pre & post & -> & _). apply in_or_app. right. now left.
Qed.

(** * The goal that is typed *)
Definition pongGoal (d : shared) : sentence := newEternalSentenceByTv (Name "0-1-xc") GOAL (mkTv f1 (f_frac 9 10)) (newStamp [stampCtr d]) (nextU d).
Definition idTaken (d : shared) : shared := setNextU (S (nextU d)) (setStampCtr (stampCtr d + 1) d).
Lemma typed_parse : forall pf, exists v, parseNarsese pf (tx "0-1-xc! :|:") = Ok (Some (Name "0-1-xc", v, GOAL, true)) /\ v = mkTv f1 (f_frac 9 10).
Proof. intros pf. eexists. split; vm_compute; reflexivity. Qed.
Lemma typed_goal : forall pf us y d, y_main y = MFree ->
  match yact us y (XGoal (pongGoal d)) with
  | Ok (Some y') => exists n', inputN pf (asNar y d) (tx "0-1-xc! :|:") [] = Ok (n', true) /\ withNar y (nr_proc n') = y' /\ nr_decl n' = idTaken d
  | Ok None => False
  | Panic => inputN pf (asNar y d) (tx "0-1-xc! :|:") [] = Panic
  end.
Proof.
  intros pf us y d M. destruct y as [n p c w]. cbn [y_main] in M. subst p. cbn [yact]. unfold inputN. destruct (typed_parse pf) as (v & -> & ->). cbn [rbind]. unfold inputT2. cbn [takeId asNar nr_decl withDecl nr_verb nr_proc Z.geb Z.compare rbind y_nar].
  fold (pongGoal d). fold (idTaken d). destruct (addEntry (n_goals n) (n_t n) (pongGoal d) None 0) as [g|]; cbn [rbind]; [|reflexivity].
  eexists. split; [reflexivity|]. cbn [withProc nr_proc nr_decl withNar y_main y_chan y_work]. auto.
Qed.

(** * All states *)
Definition reading (d : shared) : Prop := forall a, 0 <= useCount (usages d a) < 2 ^ 63 /\ 0 <= lastUsed (usages d a).
Definition nowBy (q : prog) : Z := match q_pc q with PSim | PShow | PDone _ => q_t q + 1 | _ => q_t q end.
Definition simBy (q : prog) : Z := match q_pc q with PShow | PDone _ => q_t q + 1 | _ => q_t q end.
Record qInv (n : Z) (q : prog) : Prop := mkQInv {
  qi_y : yX (q_sys q);
  qi_lim : lim us0 3 n (q_sys q);
  qi_ops : n_ops (y_nar (q_sys q)) = pongOps;
  qi_spk : spk (n_goals (y_nar (q_sys q)));
  qi_decl : reading (q_decl q);
  qi_env : pongRun makePong (q_env q);
  qi_free : q_pc q = PIn0 \/ y_main (q_sys q) = MFree;
  qi_t : 0 <= q_t q <= 5000;
  qi_end : q_pc q = PShow \/ (exists x, q_pc q = PDone x) -> q_t q = 5000;
  qi_now : n_t (y_nar (q_sys q)) = nowBy q;
  qi_sim : time (q_env q) = simBy q
}.
Lemma percept_safe : forall e, safeEvent pongOps (Name (percept e)).
Proof. intros e. split; [apply sp_name|]. intros x l H. discriminate H. Qed.
Lemma goal_fair : forall d, fairAct (XGoal (pongGoal d)) /\ speakable (s_term (pongGoal d)).
Proof.
  intros d. split; [|apply sp_name]. split; [reflexivity|]. exists (mkTv f1 (f_frac 9 10)). split; [reflexivity|]. split; (split; [|split]); vm_compute; reflexivity.
Qed.
Lemma moved_run : forall e c, pongRun makePong e -> pongRun makePong (moveBat c e).
Proof. intros e [name|] R; cbn [moveBat]; auto. destruct (String.eqb _ _); [now apply pr_op|]. destruct (String.eqb _ _); [now apply pr_op|auto]. Qed.
Lemma moved_time : forall e c, time (moveBat c e) = time e.
Proof. intros e [name|]; cbn [moveBat]; auto. destruct (String.eqb _ _); [reflexivity|]. destruct (String.eqb _ _); reflexivity. Qed.
Lemma sim_time : forall e d e', simStep e d = Ok e' -> time e' = time e + 1.
Proof. intros e d e' H. apply sim_fixed in H. tauto. Qed.
Lemma start_qInv : qInv 0 pongStart.
Proof.
  constructor; cbn [pongStart q_sys q_decl q_env q_t q_pc].
  - apply start_yX. exists defaultCfg, pongOps, defaultTable, 20, 8. split; [reflexivity|]. split; [cbn; lia|]. split; [intros o [<-|[<-|[]]]; change (1 <= 3 < 2 ^ 63); lia|].
    split; [apply build_sorted|]. split; [vm_compute; discriminate|lia].
  - constructor; cbn [ystart y_nar y_main y_chan y_work narInit n_ops n_trace n_t n_mem cells pmemMake ProcS_Proofs.mainMsgs ProcS_Proofs.workMsgs]; try lia; try exact us0_ok; try solve [intros ? []]; try solve [intros ? ? []].
    intros o [<-|[<-|[]]]; cbn; split; (discriminate || lia).
  - reflexivity.
  - intros e [(i & b0 & gr & H & Hg & _)|[]]. exfalso. apply nth_error_In in H. apply repeat_spec in H. now subst b0.
  - intros a. cbn. lia.
  - apply pr_start.
  - now right.
  - lia.
  - intros [H|(x & H)]; discriminate H.
  - reflexivity.
  - reflexivity.
Qed.

(** one step of a thread of the reasoner *)
Lemma sys_step : forall n q a, qInv n q -> (n + 1) * 3 < 2 ^ 63 -> fairAct a -> (forall e, a = XEvent e -> safeEvent pongOps e) -> (forall s, a = XGoal s -> speakable (s_term s)) ->
  exists o, yact (usages (q_decl q)) (q_sys q) a = Ok o /\ forall y', o = Some y' -> yX y' /\ lim us0 3 (n + 1) y' /\ n_ops (y_nar y') = pongOps /\ spk (n_goals (y_nar y')) /\ n_t (y_nar y') = n_t (y_nar (q_sys q)) + (match a with XStep1 _ _ => 1 | _ => 0 end).
Proof.
  intros n q a I B F Se Sg. destruct (p_step (usages (q_decl q)) 3 n (q_sys q) a (qi_y _ _ I) (qi_lim _ _ I) B (qi_decl _ _ I) F) as (o & E & H).
  { intros e ->. rewrite (qi_ops _ _ I). now apply Se. }
  exists o. split; auto. intros y' ->. destruct (H y' eq_refl) as (A1 & A2 & A3). split; auto. split; auto. split; [rewrite A3; apply I|]. split; [|now apply (act_time _ _ _ _ E)].
  apply (spk_act (usages (q_decl q)) (q_sys q) a y'); auto; [|apply I|apply I]. apply (lim_calm _ 3 n); auto. apply (lim_us us0); [apply I|]. exact (qi_decl _ _ I).
Qed.
Definition stuckEnd (q : prog) (a : pact) : Prop := q_pc q = PShow /\ pcs (n_mem (y_nar (q_sys q))) = [] /\ exists rs r d, a = AMain rs r d.
Lemma prog_ok : forall pf n q a, qInv n q -> (n + 1) * 3 < 2 ^ 63 -> fairMove a ->
  (exists o, progStep pf a q = Ok o /\ forall q', o = Some q' -> qInv (n + 1) q') \/ (stuckEnd q a /\ progStep pf a q = Panic).
Proof.
  intros pf n q a I B F. assert (S := sys_step n q). destruct q as [y d e t pc]. cbn [q_sys q_decl] in S.
  destruct a as [rs r dr|ds].
  2:{ left. destruct (S (XWork ds) I B F) as (o & E & H); [discriminate|discriminate|]. cbn [progStep]. rewrite E. cbn [rbind]. eexists. split; [reflexivity|]. intros q' Q. destruct o as [y'|]; [|discriminate Q]. injection Q as <-.
      destruct (H y' eq_refl) as (A1 & A2 & A3 & A4 & A5). destruct (act_time _ _ _ _ E) as (_ & Mn). destruct I as [I1 I2 I3 I4 I5 I6 I7 I8 I9 I10 I11]. cbn in *. constructor; cbn; auto; [rewrite Mn; auto|]. rewrite A5, Z.add_0_r. exact I10. }
  destruct F as (Fd & Fx). cbn [progStep]. pose proof I as [I1 I2 I3 I4 I5 I6 I7 I8 I9 I10 I11]. cbn [q_sys q_decl q_env q_t q_pc nowBy simBy] in *.
  destruct pc.
  - (* PTop *) left. destruct I7 as [I7|I7]; [discriminate|]. assert (L0 : lim us0 3 (n + 1) y) by (eapply lim_more; eauto; lia).
    destruct (Z.rem t 10 =? 0).
    + destruct (goal_fair d) as (Gf & Gs). destruct (S (XGoal (pongGoal d)) I B Gf) as (o & E & H); [discriminate|intros s [= <-]; auto|].
      pose proof (typed_goal pf (usages d) y d I7) as T. rewrite E in T. destruct o as [y'|]; [|destruct T]. destruct T as (n' & -> & T1 & T2). cbn [rbind]. rewrite T1, T2.
      eexists. split; [reflexivity|]. intros q' [= <-]. destruct (H y' eq_refl) as (A1 & A2 & A3 & A4 & A5). destruct (act_time _ _ _ _ E) as (_ & Mn). constructor; cbn [q_sys q_decl q_env q_t q_pc nowBy simBy]; auto.
      * right. tauto.
      * intros [Q|(x & Q)]; discriminate Q.
      * rewrite A5, Z.add_0_r. exact I10.
    + eexists. split; [reflexivity|]. intros q' [= <-]. constructor; cbn [q_sys q_decl q_env q_t q_pc nowBy simBy]; auto. intros [Q|(x & Q)]; discriminate Q.
  - (* PHalf0 *) left. destruct (S XStep0 I B Logic.I) as (o & E & H); [discriminate|discriminate|]. rewrite E. cbn [rbind]. eexists. split; [reflexivity|]. intros q' Q. destruct o as [y'|]; [|discriminate Q]. injection Q as <-.
    destruct (H y' eq_refl) as (A1 & A2 & A3 & A4 & A5). constructor; cbn [q_sys q_decl q_env q_t q_pc nowBy simBy]; auto; [intros [Q|(x & Q)]; discriminate Q|]. rewrite A5, Z.add_0_r. exact I10.
  - (* PIn0 *) left. assert (Ev : exists o, (do o0 <- yact (usages d) y (XEvent (Name (percept e))); Ok (option_map (fun y' => mkProg y' d e t PHalf1) o0)) = Ok o /\ forall q', o = Some q' -> qInv (n + 1) q').
    { destruct (S (XEvent (Name (percept e))) I B Logic.I) as (o & E & H); [intros x [= <-]; apply percept_safe|discriminate|]. rewrite E. cbn [rbind]. eexists. split; [reflexivity|]. intros q' Q. destruct o as [y'|]; [|discriminate Q]. injection Q as <-.
      destruct (H y' eq_refl) as (A1 & A2 & A3 & A4 & A5). destruct (act_time _ _ _ _ E) as (_ & Mn). constructor; cbn [q_sys q_decl q_env q_t q_pc nowBy simBy]; auto; [right; tauto|intros [Q|(x & Q)]; discriminate Q|]. rewrite A5, Z.add_0_r. exact I10. }
    assert (Mn : exists o, (do o0 <- yact (usages d) y (XMain 20 rs); Ok (option_map (fun y' => mkProg y' d e t PIn0) o0)) = Ok o /\ forall q', o = Some q' -> qInv (n + 1) q').
    { destruct (S (XMain 20 rs) I B Logic.I) as (o & E & H); [discriminate|discriminate|]. rewrite E. cbn [rbind]. eexists. split; [reflexivity|]. intros q' Q. destruct o as [y'|]; [|discriminate Q]. injection Q as <-.
      destruct (H y' eq_refl) as (A1 & A2 & A3 & A4 & A5). constructor; cbn [q_sys q_decl q_env q_t q_pc nowBy simBy]; auto. rewrite A5, Z.add_0_r. exact I10. }
    destruct (y_main y); assumption.
  - (* PHalf1 *) left. destruct (S (XStep1 true r) I B (conj eq_refl Fd)) as (o & E & H); [discriminate|discriminate|]. rewrite E. cbn [rbind]. eexists. split; [reflexivity|]. intros q' Q. destruct o as [y'|]; [|discriminate Q]. injection Q as <-.
    destruct (H y' eq_refl) as (A1 & A2 & A3 & A4 & A5). destruct (act_time _ _ _ _ E) as (_ & Mn). constructor; cbn [q_sys q_decl q_env q_t q_pc nowBy simBy]; auto.
    + now apply moved_run.
    + right. tauto.
    + intros [Q|(x & Q)]; discriminate Q.
    + rewrite A5, I10. reflexivity.
    + rewrite moved_time. exact I11.
  - (* PSim *) left. cbn in I10, I11. destruct (run_size _ I6) as (Z1 & Z2 & _). destruct (sim_total e dr) as (e' & E); try apply Fx; [rewrite Z2; exact (proj1 Fx)|rewrite Z1; tauto|]. rewrite E. cbn [rbind]. assert (L0 : lim us0 3 (n + 1) y) by (eapply lim_more; eauto; lia).
    assert (T := sim_time _ _ _ E). eexists. split; [reflexivity|]. intros q' [= <-]. destruct I7 as [I7|I7]; [discriminate|]. rewrite Z.geb_leb. destruct (Z.leb_spec 5000 t); constructor; cbn [q_sys q_decl q_env q_t q_pc nowBy simBy]; auto; try lia; try solve [eapply pr_step; eauto].
    + intros [Q|(x & Q)]; discriminate Q.
  - (* PShow *) rewrite (evidence_ok y I1). cbn [rbind]. destruct (pcs (n_mem (y_nar y))) as [|x l] eqn:P.
    + right. split; [|reflexivity]. split; [reflexivity|]. split; [exact P|]. eauto.
    + left. cbn [rbind]. unfold goalsText. rewrite (texts_ok _ _ _ (yx_goals _ I1) I4). cbn [rbind]. eexists. split; [reflexivity|]. intros q' [= <-]. destruct I7 as [I7|I7]; [discriminate|].
      constructor; cbn [q_sys q_decl q_env q_t q_pc nowBy simBy]; auto. eapply lim_more; eauto; lia.
  - (* PDone *) left. eexists. split; [reflexivity|]. discriminate.
Qed.
Lemma played_inv : forall pf n q, played pf n q -> n * 3 < 2 ^ 63 -> qInv n q.
Proof.
  intros pf n q P. assert (N : 0 <= n) by (induction P; lia). induction P as [|n q a q' P IH F E]; intros L; [exact start_qInv|].
  assert (N0 : 0 <= n) by (clear - P; induction P; lia). destruct (prog_ok pf n q a (IH N0 ltac:(lia)) ltac:(lia) F) as [(o & E1 & H)|(_ & E1)]; [|congruence]. apply H. congruence.
Qed.
