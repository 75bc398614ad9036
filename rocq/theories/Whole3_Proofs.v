(** The whole program neither gets stuck nor runs for ever without reading. *)
From Coq Require Import String Ascii ZArith Bool Lia List Sorted Wf_nat.
From Verif Require Import Base F64_Model Term_Model Term_Proofs Goal_Proofs Stamp_Model Tv_Model Sentence_Model Mem_Model Cycle_Model Sched_Model Sched_Spec Sched_Proofs Sched2_Proofs
  PMem_Model Goal_Model Proc_Model ProcS_Model ProcX_Model Parser_Model Nar_Model Eval_Model Eval_Proofs Whole_Model Whole_Spec Whole_Proofs.
Import ListNotations.
Local Open Scope list_scope.
Local Open Scope nat_scope.

Lemma decl_inv : forall maxC w c w', declStep maxC w c = Ok (Some w') -> exists d, exec maxC (w_nB w) c (seen w) = Ok (Some d) /\ w' = wDecl w d.
Proof. intros maxC w c w' H. unfold declStep in H. destruct (exec _ _ _ _) as [[d|]|]; cbn [rbind] in H; try discriminate. injection H as <-. eauto. Qed.
Lemma proc_inv : forall w a w', procStep w a = Ok (Some w') -> exists p, yact (wUsages w) (w_proc w) a = Ok (Some p) /\ w' = wProc w p.
Proof. intros w a w' H. unfold procStep in H. destruct (yact _ _ _) as [[d|]|]; cbn [rbind] in H; try discriminate. injection H as <-. eauto. Qed.
Lemma decl_none : forall maxC w c, declStep maxC w c = Ok None -> exec maxC (w_nB w) c (seen w) = Ok None.
Proof. intros maxC w c H. unfold declStep in H. destruct (exec _ _ _ _) as [[d|]|]; cbn [rbind] in H; congruence. Qed.
Lemma proc_none : forall w a, procStep w a = Ok None -> yact (wUsages w) (w_proc w) a = Ok None.
Proof. intros w a H. unfold procStep in H. destruct (yact _ _ _) as [[d|]|]; cbn [rbind] in H; congruence. Qed.
Lemma seen_parts : forall w, y_queue (seen w) = y_queue (w_decl w) /\ y_clients (seen w) = y_clients (w_decl w) /\ y_worker (seen w) = y_worker (w_decl w).
Proof. intros w. unfold seen. destruct (w_wired w); auto. Qed.
Lemma start_some : forall maxC w o, (exists l, y_clients (w_decl w) = CIdle :: l) -> exists w', declStep maxC w (ChStart 0 o) = Ok (Some w').
Proof.
  intros maxC w o (l & E). destruct (seen_parts w) as (_ & S & _). unfold declStep. cbn [exec]. rewrite S, E. cbn [nth_error]. destruct (opStart maxC o _). cbn [rbind]. eauto.
Qed.
Lemma free_some : forall w a, y_main (w_proc w) = MFree -> (forall n rs, a <> XMain n rs) -> (forall d, a <> XWork d) -> procStep w a <> Ok None.
Proof.
  intros w a F N1 N2 E. apply proc_none in E. destruct (w_proc w) as [n m c k]. cbn in F. subst m. destruct a; cbn [yact] in E; try discriminate.
  - destruct (addEntry _ _ _ _ _); discriminate.
  - destruct (matchandintro_var1_sentence _ _); discriminate.
  - destruct (confirm n); discriminate.
  - destruct (narStep1 _ _ _); discriminate.
  - now destruct (N1 nB rs).
  - now destruct (N2 draws).
Qed.
(** a thread that has nothing else to do begins its next job *)
Lemma job_some : forall pf w j, y_main (w_proc w) = MFree -> (exists l, y_clients (w_decl w) = CIdle :: l) -> startJob pf w j <> Ok None.
Proof.
  intros pf w j F (l & C) E. destruct j as [i draws| |r|t args|e sel| |o|b| | |]; cbn [startJob] in E.
  - destruct (parseNarsese pf i) as [[[[[t v] p] ev]|]|]; cbn [rbind] in E; try discriminate. unfold putIn in E. destruct (takeId _) as [[id u] d].
    cbn zeta in E. set (w1 := wDecl w (withSh (w_decl w) d)) in E.
    assert (C1 : exists l, y_clients (w_decl w1) = CIdle :: l) by (exists l; exact C).
    set (s := newEternalSentenceByTv _ _ _ _ _) in E. destruct (if w_verb w1 >=? 1 then printSentence s else Ok tt)%Z; [|discriminate]. cbn [rbind] in E.
    destruct (start_some (w_maxC w1) w1 (OpAdd (mkAddArgs s true f1 (w_nB w1) (n_t (y_nar (w_proc w1))))) C1) as (w' & Ew).
    destruct ev; [|destruct (isTemporal t)]; destruct p; try discriminate; try congruence; revert E; apply free_some; auto; discriminate.
  - revert E. apply free_some; auto; discriminate.
  - destruct (nlpOf _ r) as [cs|]; [|discriminate]. cbn [rbind] in E. destruct (procStep w (XStep1 true r)) as [[w1|]|] eqn:P; cbn [rbind] in E; try discriminate.
    revert P. apply free_some; auto; discriminate.
  - destruct args as [|? [|rel [|? ?]]]; try discriminate. destruct (rewriteRel rel) as [rel'|]; [|discriminate]. cbn [rbind] in E.
    destruct (convTermToStr rel); [|discriminate]. destruct (convTermToStr rel'); [|discriminate]. cbn [rbind] in E. destruct (takeId _) as [[id u] d].
    set (w1 := wDecl w (withSh (w_decl w) d)) in E. assert (C1 : exists l, y_clients (w_decl w1) = CIdle :: l) by (exists l; exact C).
    match type of E with declStep _ _ (ChStart 0 ?o) = _ => destruct (start_some 64 w1 o C1) as (w' & Ew) end. congruence.
  - assert (C1 : exists l, y_clients (w_decl (wTime w (w_time w + 1)%Z)) = CIdle :: l) by (exists l; exact C).
    match type of E with declStep ?m ?x (ChStart 0 ?o) = _ => destruct (start_some m x o C1) as (w' & Ew) end. congruence.
  - destruct (start_some (w_maxC w) w OpFlush (ex_intro _ l C)) as (w' & Ew). congruence.
  - destruct (w_proc w); discriminate.
  - destruct (w_proc w); discriminate.
  - destruct (debugEvidence _); discriminate.
  - destruct (debugTasks _); discriminate.
  - discriminate.
Qed.
(** what a step leaves as it is *)
Definition frame (w w' : whole) : Prop := w_maxC w' = w_maxC w /\ w_nB w' = w_nB w /\ length (y_clients (w_decl w')) = length (y_clients (w_decl w)).
Lemma frame_refl : forall w, frame w w. Proof. intros w. repeat split. Qed.
Lemma frame_trans : forall a b c, frame a b -> frame b c -> frame a c.
Proof. intros a b c (A & B & C) (D & E & F). repeat split; congruence. Qed.
Lemma exec_clients : forall maxC n c st st', exec maxC n c st = Ok (Some st') -> length (y_clients st') = length (y_clients st).
Proof.
  intros maxC n c st st' H. destruct c as [i o|i|]; cbn [exec] in H.
  - destruct (nth_error _ i) as [[| |]|]; try discriminate. destruct (opStart _ _ _). injection H as <-. apply Goal_Proofs.replace_at_length.
  - destruct (nth_error _ i) as [p|]; [|discriminate]. destruct (cliStep _ _ _) as [[[[[a b] c] d]|]|]; cbn [rbind] in H; try discriminate. injection H as <-. apply Goal_Proofs.replace_at_length.
  - destruct (workStep _ _ _ _ _) as [[[[[a b] c] d]|]|]; cbn [rbind] in H; try discriminate. now injection H as <-.
Qed.
Lemma decl_frame : forall maxC w c w', declStep maxC w c = Ok (Some w') -> frame w w' /\ w_jobs w' = w_jobs w /\ w_proc w' = w_proc w.
Proof.
  intros maxC w c w' H. apply decl_inv in H. destruct H as (d & E & ->). apply exec_clients in E. destruct (seen_parts w) as (_ & S & _). repeat split. cbn. congruence.
Qed.
Lemma proc_frame : forall w a w', procStep w a = Ok (Some w') -> frame w w' /\ w_jobs w' = w_jobs w /\ w_decl w' = w_decl w.
Proof. intros w a w' H. apply proc_inv in H. destruct H as (p & E & ->). repeat split. Qed.
Definition isRel (j : job) : bool := match j with JRel _ _ => true | _ => false end.
Definition notRel (l : list job) : nat := length (filter (fun j => negb (isRel j)) l).
(** beginning a job leaves fewer jobs *)
Lemma job_frame : forall pf w j w', startJob pf w j = Ok (Some w') -> frame w w' /\ (w_jobs w' = w_jobs w \/ isRel j = false /\ exists l t, w_jobs w' = map (JRel t) l ++ w_jobs w).
Proof.
  intros pf w j w' E. 
  assert (D : forall maxC x c, frame w x -> w_jobs x = w_jobs w -> declStep maxC x c = Ok (Some w') -> frame w w' /\ w_jobs w' = w_jobs w).
  { intros maxC x c Fx Jx H. apply decl_frame in H. destruct H as (A & B & _). split; [eapply frame_trans; eauto|congruence]. }
  assert (P : forall x a, frame w x -> w_jobs x = w_jobs w -> procStep x a = Ok (Some w') -> frame w w' /\ w_jobs w' = w_jobs w).
  { intros x a Fx Jx H. apply proc_frame in H. destruct H as (A & B & _). split; [eapply frame_trans; eauto|congruence]. }
  assert (Q : frame w w' /\ w_jobs w' = w_jobs w -> frame w w' /\ (w_jobs w' = w_jobs w \/ isRel j = false /\ exists l t, w_jobs w' = map (JRel t) l ++ w_jobs w)) by tauto.
  assert (Fd : forall d, frame w (wDecl w (withSh (w_decl w) d))) by (intros d; repeat split).
  assert (S : @Ok (option whole) (Some w) = Ok (Some w') -> frame w w' /\ w_jobs w' = w_jobs w) by (intros [= <-]; split; auto using frame_refl).
  destruct j as [i draws| |r|t args|e sel| |o|b| | |]; cbn [startJob] in E.
  - apply Q. destruct (parseNarsese pf i) as [[[[[t v] p] ev]|]|]; cbn [rbind] in E; try discriminate; auto. unfold putIn in E. destruct (takeId _) as [[id u] d].
    cbn zeta in E. set (w1 := wDecl w (withSh (w_decl w) d)) in E. assert (F1 : frame w w1) by apply Fd. assert (J1 : w_jobs w1 = w_jobs w) by reflexivity.
    set (s := newEternalSentenceByTv _ _ _ _ _) in E. destruct (if w_verb w1 >=? 1 then printSentence s else Ok tt)%Z; [|discriminate]. cbn [rbind] in E.
    destruct ev; [|destruct (isTemporal t)]; destruct p; try (eapply D; eassumption); try (eapply P; eassumption); injection E as <-; auto.
  - apply Q. eapply P; eauto using frame_refl.
  - destruct (nlpOf _ r) as [cs|]; [|discriminate]. cbn [rbind] in E. destruct (procStep w (XStep1 true r)) as [[w1|]|] eqn:Pe; cbn [rbind] in E; try discriminate.
    injection E as <-. apply proc_frame in Pe. destruct Pe as (A & B & _). split; [exact A|]. right. split; [reflexivity|]. cbn [wJobs w_jobs]. rewrite B. eauto.
  - apply Q. destruct args as [|? [|rel [|? ?]]]; auto. destruct (rewriteRel rel) as [rel'|]; [|discriminate]. cbn [rbind] in E.
    destruct (convTermToStr rel); [|discriminate]. destruct (convTermToStr rel'); [|discriminate]. cbn [rbind] in E. destruct (takeId _) as [[id u] d]. eapply D; [| |exact E]; auto.
  - apply Q. eapply D; [| |exact E]; repeat split.
  - apply Q. eapply D; eauto using frame_refl.
  - apply Q. destruct (w_proc w). injection E as <-. repeat split.
  - apply Q. destruct (w_proc w). injection E as <-. repeat split.
  - apply Q. destruct (debugEvidence _); [|discriminate]. auto.
  - apply Q. destruct (debugTasks _); [|discriminate]. auto.
  - apply Q. injection E as <-. repeat split.
Qed.
Lemma step_frame : forall pf a w w', wstep pf a w = Ok (Some w') -> frame w w'.
Proof.
  intros pf a w w' H. destruct a as [line r|rs| |draws]; cbn [wstep] in H.
  - destruct (mainFree w); [|discriminate]. destruct (w_jobs w); [|discriminate]. destruct (w_quit w); [discriminate|]. destruct (lineJobs line r); [|discriminate].
    injection H as <-. repeat split.
  - destruct (y_main (w_proc w)); try (apply proc_frame in H; apply H). destruct (y_clients (w_decl w)) as [|[| |] ?]; try (apply decl_frame in H; apply H).
    destruct (w_jobs w) as [|j jl]; [discriminate|]. apply job_frame in H. apply H.
  - apply decl_frame in H. apply H.
  - apply proc_frame in H. apply H.
Qed.
Lemma run_clients : forall pf acts w w', wrun pf acts w = Ok w' -> length (y_clients (w_decl w')) = length (y_clients (w_decl w)).
Proof.
  induction acts as [|a acts IH]; intros w w' H; cbn [wrun] in H; [now injection H as <-|]. destruct (wstep pf a w) as [o|] eqn:E; [|discriminate]. cbn [rbind] in H.
  rewrite (IH _ _ H). destruct o as [w1|]; [|auto]. apply step_frame in E. apply E.
Qed.
Theorem no_deadlock : forall pf acts p verb nB maxC wired w, wrun pf acts (wholeMake p verb nB maxC wired) = Ok w ->
  (forall rs, wstep pf (AMain rs) w = Ok None) -> wstep pf ADerive w = Ok None -> (forall draws, wstep pf (AStore draws) w = Ok None) ->
  w_jobs w = [] /\ y_main (w_proc w) = MFree /\ y_clients (w_decl w) = [CIdle] /\ y_worker (w_decl w) = Sched_Model.WIdle /\ y_queue (w_decl w) = [] /\
  y_work (w_proc w) = ProcS_Model.WIdle /\ y_chan (w_proc w) = [] /\
  forall line r, wstep pf (ARead line r) w = (if w_quit w then Ok None else do l <- lineJobs line r; Ok (Some (wJobs w l))).
Proof.
  intros pf acts p verb nB maxC wired w R Hm Hd Hs. apply run_clients in R. cbn in R.
  cbn [wstep] in Hd, Hs. destruct (seen_parts w) as (Sq & Sc & Sw).
  assert (Wk := decl_none _ _ _ Hd). assert (Wk' := Wk). apply worker_blocked in Wk. destruct Wk as (W1 & W2). rewrite Sw in W1. rewrite Sq in W2.
  assert (St : y_work (w_proc w) = ProcS_Model.WIdle /\ y_chan (w_proc w) = []).
  { specialize (Hs []). apply proc_none in Hs. destruct (w_proc w) as [n m c k]. cbn [yact] in Hs. cbn [y_work y_chan].
    destruct k as [|s now l rv|now l]; [destruct c as [|[s now] c]; [auto|]| |].
    - destruct (mergeTargets _ _); discriminate.
    - destruct l as [|a l]; [destruct rv; [discriminate|]; destruct (matchandintro_var1_sentence s []); discriminate|]. destruct (mergeInto _ _ _) as [[h b]|]; discriminate.
    - destruct l as [|s l]; [discriminate|]. destruct (mem_add_evidence_internal _ _ _ _ _); discriminate. }
  destruct St as (S1 & S2). assert (Hm0 := Hm (fun _ => mkSmp false [] 0 false 0)). cbn [wstep] in Hm0.
  assert (Mf : y_main (w_proc w) = MFree).
  { destruct (y_main (w_proc w)) eqn:Em; auto; exfalso; apply proc_none in Hm0; destruct (w_proc w) as [n m c k]; cbn in Em, S2; subst m c; cbn [yact] in Hm0.
    all: match type of Hm0 with context [match ?l with [] => _ | _ :: _ => _ end] => destruct l as [|x l'] end; try discriminate.
    - destruct (traceStep _ _) as [[? ?]|]; discriminate.
    - destruct (negConfirm _ _); discriminate.
    - destruct (mem_add_evidence_internal _ _ _ _ _); discriminate. }
  rewrite Mf in Hm0. destruct (y_clients (w_decl w)) as [|c cs] eqn:Ec; [discriminate|]. destruct cs; [|discriminate].
  assert (Ci : c = CIdle).
  { destruct c as [|x f|x f]; auto; exfalso; apply decl_none in Hm0; assert (B := client_blocked _ _ _ _ Hm0); rewrite Sc in B; cbn [nth_error] in B.
    - contradiction.
    - destruct f; try contradiction. destruct B as (_ & B). contradiction. }
  subst c. assert (Jn : w_jobs w = []).
  { destruct (w_jobs w) as [|j l] eqn:Ej; auto. exfalso. revert Hm0. apply job_some; cbn; eauto. }
  repeat (split; auto). intros line r. cbn [wstep]. unfold mainFree. rewrite Mf, Ec, Jn. destruct (w_quit w); reflexivity.
Qed.

(** * Registering an operator *)
Lemma words_one : forall x, x <> [] -> (forall c, In c x -> isSpace c = false) -> words x = [x].
Proof.
  induction x as [|c x IH]; intros N S; [contradiction|]. cbn [words]. rewrite (S c) by now left. destruct x as [|d x]; [reflexivity|].
  rewrite (S d) by (right; now left). rewrite IH; [reflexivity|discriminate|]. intros e He. apply S. now right.
Qed.
Theorem register : forall pf p verb nB maxC wired line r rs x, trimNewline line = tx "!por NOP " ++ x -> x <> [] ->
  (forall c, In c x -> 33 <= nat_of_ascii c < 128) -> wrun pf [ARead line r; AMain rs] (wholeMake p verb nB maxC wired) =
    Ok (wholeMake (setOps p (n_ops p ++ [mkOp (str x) true 3 OpPlain])) verb nB maxC wired).
Proof.
  intros pf p verb nB maxC wired line r rs x E N SA.
  assert (S : forall c, In c x -> isSpace c = false).
  { intros c Hc. specialize (SA c Hc). unfold isSpace, inRange. apply orb_false_iff. split; [apply andb_false_iff; right; apply Nat.leb_gt; lia|apply Nat.eqb_neq; lia]. }
  assert (A : asciiOnly x) by (intros c Hc; apply (SA c Hc)). cbn [wrun wstep]. change (mainFree (wholeMake p verb nB maxC wired)) with true. cbn [wholeMake w_jobs w_quit].
  assert (L : lineJobs line r = Ok [JOp (mkOp (str x) true 3 OpPlain)]).
  { unfold lineJobs. rewrite E.
    assert (Ai : asciiOnly (tx "!por NOP " ++ x)).
    { intros c Hc. apply in_app_or in Hc. destruct Hc as [Hc|Hc]; [|now apply A]. cbn in Hc. repeat (destruct Hc as [<-|Hc]; [vm_compute; repeat constructor|]). destruct Hc. }
    rewrite !bw_ok by exact Ai.
    change (starts (tx "//") (tx "!por NOP " ++ x)) with false. change (starts (tx "!sp") (tx "!por NOP " ++ x)) with false.
    change (starts (tx "!s") (tx "!por NOP " ++ x)) with false. change (starts (tx "!por ") (tx "!por NOP " ++ x)) with true. cbn [rbind].
    change (text_eqb (tx "!por NOP " ++ x) (tx "!dtf")) with false. cbn [rbind].
    change (skipn 5 (tx "!por NOP " ++ x)) with (tx "NOP " ++ x).
    assert (Wd : words (tx "NOP " ++ x) = [tx "NOP"; x]).
    { change (tx "NOP " ++ x) with ("N"%char :: "O"%char :: "P"%char :: " "%char :: x). cbn [words]. cbn. rewrite words_one by auto. reflexivity. }
    rewrite Wd. cbn [registered]. reflexivity. }
  rewrite L. cbn [rbind wrun wstep wJobs w_proc ystart y_main y_clients w_decl sysMake repeat w_jobs startJob setOps]. reflexivity.
Qed.

(** * Every line is finished *)
Definition cliOf0 (w : whole) : cpc := match y_clients (w_decl w) with p :: _ => p | [] => CIdle end.
Definition mainStage (p : mainPc) : nat * nat :=
  match p with MFree => (0, 0) | MSend l => (1, length l) | MNeg l => (2, length l) | MAdd _ l => (1, length l) end.
Definition workStage (p : workPc) : nat * nat :=
  match p with ProcS_Model.WIdle => (0, 0) | ProcS_Model.WAdd _ l => (1, length l) | WMerge _ _ l _ => (2, length l) end.
Definition lexR {A B : Type} (RA : A -> A -> Prop) (RB : B -> B -> Prop) (x y : A * B) : Prop := RA (fst x) (fst y) \/ (fst x = fst y /\ RB (snd x) (snd y)).
Section Finish.
  Variable maxC : Z.
  Variable n : nat.
  Definition natLex := lexR lt lt.
  Definition order := lexR (lexR natLex (lexR natLex (fun p' p => clientMoves p p'))) (lexR (lexR lt (fun p' p => workerMoves maxC n p p')) (lexR lt natLex)).
  Definition meas (w : whole) :=
    ((notRel (w_jobs w), length (w_jobs w), (mainStage (y_main (w_proc w)), cliOf0 w)),
     (length (y_queue (w_decl w)), y_worker (w_decl w), (length (y_chan (w_proc w)), workStage (y_work (w_proc w))))).
  Lemma natLex_wf : well_founded natLex. Proof. apply lex_acc; apply lt_wf. Qed.
  Lemma order_wf : well_founded order.
  Proof.
    apply lex_acc; [apply lex_acc; [apply natLex_wf|apply lex_acc; [apply natLex_wf|apply clients_finish]]|].
    apply lex_acc; [apply lex_acc; [apply lt_wf|apply worker_finishes]|apply lex_acc; [apply lt_wf|apply natLex_wf]].
  Qed.
  Lemma fewer : forall l l' j, (l' = l \/ isRel j = false /\ exists cs t, l' = map (JRel t) cs ++ l) -> natLex (notRel l', length l') (notRel (j :: l), length (j :: l)).
  Proof.
    intros l l' j [->|(Nj & cs & t & ->)]; unfold natLex, lexR, notRel; cbn [fst snd filter].
    - destruct (isRel j); cbn [negb length]; [right|left]; lia.
    - left. rewrite Nj. cbn [negb length]. rewrite filter_app, app_length. replace (filter (fun j => negb (isRel j)) (map (JRel t) cs)) with (@nil job); [cbn; lia|].
      induction cs as [|c cs IH]; [reflexivity|exact IH].
  Qed.
  Lemma busy_less : forall pf w w', w_maxC w = maxC -> w_nB w = n -> busy pf w w' -> order (meas w') (meas w).
  Proof.
    intros pf w w' Em En (a & Na & H). destruct (seen_parts w) as (Sq & Sc & Sw).
    assert (Pr : forall nB rs, y_main (w_proc w) <> MFree -> procStep w (XMain nB rs) = Ok (Some w') -> order (meas w') (meas w)).
    { intros nB rs Nf P. apply proc_inv in P. destruct P as (p & E & ->). unfold order, meas, lexR at 1. left. cbn [fst]. right. cbn [fst snd wProc w_jobs w_proc w_decl]. split; auto.
      left. cbn [fst]. destruct (w_proc w) as [nn m c k]. cbn [y_main] in *. destruct m as [|l|l|now l]; [contradiction|..]; cbn [yact] in E; destruct l as [|x l].
      - destruct (traceStep nn rs) as [[g ms]|]; cbn [rbind] in E; [|discriminate]. injection E as <-. left. cbn. lia.
      - destruct (negConfirm _ _); [|discriminate]. injection E as <-. right. cbn. lia.
      - injection E as <-. left. cbn. lia.
      - destruct (Nat.ltb _ _); [|discriminate]. injection E as <-. right. cbn. lia.
      - injection E as <-. left. cbn. lia.
      - destruct (mem_add_evidence_internal _ _ _ _ _); [|discriminate]. injection E as <-. right. cbn. lia. }
    destruct a as [line r|rs| |draws]; cbn [wstep] in H; [now destruct (Na line r)|..].
    - destruct (y_main (w_proc w)) eqn:Ep; try (eapply Pr; [|exact H]; discriminate).
      assert (Cl : declStep (w_maxC w) w (ChClient 0) = Ok (Some w') -> order (meas w') (meas w)).
      { intros D. apply decl_inv in D. destruct D as (d & E & ->). apply client_inv in E. destruct E as (p & p' & ans & E1 & E2 & _ & E4 & _).
        left. right. cbn [meas fst snd wDecl w_jobs w_proc w_decl]. split; auto. right. split; auto. cbn [snd]. unfold cliOf0. cbn [wDecl w_decl]. rewrite E4. rewrite Sc in *.
        destruct (y_clients (w_decl w)) as [|q l]; [discriminate|]. cbn in E1 |- *. injection E1 as ->. exact E2. }
      destruct (y_clients (w_decl w)) as [|c cs] eqn:Ec; [now apply Cl|]. destruct c; try now apply Cl.
      destruct (w_jobs w) as [|j l] eqn:Ej; [discriminate|]. apply job_frame in H. destruct H as (_ & H). cbn [wJobs w_jobs] in H.
      left. left. cbn [meas fst]. rewrite Ej. now apply fewer.
    - apply decl_inv in H. destruct H as (d & E & ->). apply worker_inv in E. destruct E as (ans & E & E2 & _). rewrite Sq, Sw, Em, En in E. apply work_rank in E. rewrite Sc in E2.
      right. unfold meas, cliOf0. cbn [fst snd wDecl w_jobs w_proc w_decl]. rewrite E2. split; auto. left. cbn [fst snd].
      destruct E as [(_ & L)|(W & ->)]; [left; cbn [fst]; lia|right; split; auto].
    - apply proc_inv in H. destruct H as (p & E & ->). unfold meas. cbn [wProc w_jobs w_proc w_decl]. 
      destruct (w_proc w) as [nn m c k]. cbn [yact] in E. 
      assert (K : y_main p = m /\ lexR lt natLex (length (y_chan p), workStage (y_work p)) (length c, workStage k)).
      { destruct k as [|s now l rv|now l]; [destruct c as [|[s now] c]; [discriminate|]| |].
        all: try (destruct (mergeTargets _ _); [|discriminate]; injection E as <-; split; [reflexivity|]; left; cbn; lia).
        all: destruct l as [|x l]; try (destruct rv; [injection E as <-; split; [reflexivity|]; right; split; [reflexivity|]; left; cbn; lia|]).
        all: try (destruct (matchandintro_var1_sentence _ _); [|discriminate]; injection E as <-; split; [reflexivity|]; right; split; [reflexivity|]; left; cbn; lia).
        all: try (destruct (mergeInto _ _ _) as [[h b]|]; [|discriminate]; injection E as <-; split; [reflexivity|]; right; split; [reflexivity|]; right; cbn; lia).
        all: try (destruct (mem_add_evidence_internal _ _ _ _ _); [|discriminate]; injection E as <-; split; [reflexivity|]; right; split; [reflexivity|]; right; cbn; lia).
        all: injection E as <-; split; [reflexivity|]; right; split; [reflexivity|]; left; cbn; lia. }
      destruct K as (K1 & K2). right. cbn [y_main y_chan y_work fst snd]. rewrite K1. split; [reflexivity|]. right. cbn [fst snd]. split; auto.
  Qed.
End Finish.
Theorem finishes : forall pf, well_founded (fun w' w => busy pf w w').
Proof.
  intros pf w. remember (meas w) as m eqn:E. remember (w_maxC w) as mc eqn:Em. remember (w_nB w) as n eqn:En. revert w E Em En.
  induction (order_wf mc n m) as [m _ IH]. intros w -> Em En. constructor. intros w' B. apply (IH (meas w')); auto.
  - apply (busy_less mc n pf); auto.
  - destruct B as (a & _ & B). apply step_frame in B. destruct B as (B & _). congruence.
  - destruct B as (a & _ & B). apply step_frame in B. destruct B as (_ & B & _). congruence.
Qed.
