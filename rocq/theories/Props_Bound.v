(** Property C101: what the program keeps in mind stays small. *)
From Coq Require Import String Ascii ZArith Bool List Lia.
From Verif Require Import Base F64_Model Term_Model Stamp_Model Tv_Model Sentence_Model Mem_Model Cycle_Model Sched_Model
  PMem_Model Goal_Model Proc_Model ProcS_Model ProcX_Model Parser_Model Nar_Model Whole_Model
  Mem_Spec Cycle_Spec Sched_Spec Stamp_Proofs Run_Proofs Whole3_Proofs Reply_Proofs Nar_Spec Hear_Spec Hear_Proofs Bound_Spec Bound_Proofs Props_Sched.
From Verif Require Props_Whole.
Import ListNotations.
Local Open Scope list_scope.
Local Open Scope Z_scope.

(** For all inputs, interleavings and random numbers: no more effects are waited for
    than the longest interval is long, and none of them for longer. The same number
    bounds the effects whose absence is counted in one step. *)
Theorem c101_waits : forall M pf acts p verb nB maxC wired w, 0 <= M -> freshIntervals M p ->
  wrun pf acts (wholeMake p verb nB maxC wired) = Ok w ->
  Z.of_nat (waitedFor w) <= M /\ Z.of_nat (beingCounted w) <= M /\
  forall a d, In (a, d) (n_ant (y_nar (w_proc w))) -> n_t (y_nar (w_proc w)) <= d < n_t (y_nar (w_proc w)) + M.
Proof. intros M pf acts p verb nB maxC wired w M0 F H. destruct (waits _ _ _ _ _ _ _ _ _ M0 F H) as (A & B & C & _). auto. Qed.
(** The program that is started waits for at most 17 effects. *)
Lemma intervals17 : forall ops, freshIntervals 17 (narInit ops).
Proof.
  intros ops. unfold narInit. eexists _, ops, defaultTable, _, _. split; [reflexivity|].
  assert (T : forallb (fun z => (1 <=? z) && (z <=? 17)) defaultTable = true) by (vm_compute; reflexivity).
  rewrite forallb_forall in T. intros z Hz. apply T in Hz. apply andb_true_iff in Hz. destruct Hz as [A B]. apply Z.leb_le in A, B. lia.
Qed.
Theorem c101_started : forall pf acts ops verb nB maxC wired w, wrun pf acts (wholeMake (narInit ops) verb nB maxC wired) = Ok w -> (waitedFor w <= 17)%nat.
Proof. intros pf acts ops verb nB maxC wired w H. destruct (c101_waits 17 _ _ _ _ _ _ _ _ ltac:(lia) (intervals17 ops) H) as (A & _). lia. Qed.

(** At most four messages wait between two threads, and the observations of one step are
    as many as were sampled. *)
Theorem c101_channels : forall M pf acts p verb nB maxC wired w, 0 <= M -> freshIntervals M p ->
  wrun pf acts (wholeMake p verb nB maxC wired) = Ok w ->
  (toDeriver w <= 4)%nat /\ (toStorage w <= 4)%nat /\ (toSend w <= c_samples (n_cfg p))%nat.
Proof. intros M pf acts p verb nB maxC wired w M0 F H. destruct (waits _ _ _ _ _ _ _ _ _ M0 F H) as (_ & _ & _ & A & B & C). auto. Qed.

(** When the clock has moved, at most 20 events are remembered. *)
Lemma decl_proc : forall maxC w c w', declStep maxC w c = Ok (Some w') -> w_proc w' = w_proc w.
Proof. intros maxC w c w' H. apply decl_frame in H. tauto. Qed.
Lemma act_clock : forall us y a y', yact us y a = Ok (Some y') -> n_t (y_nar y') = n_t (y_nar y) \/ (length (n_trace (y_nar y')) <= 20)%nat.
Proof.
  intros us [n p c w] a y' H. cbn [yact] in H. destruct a as [e|s|t id u draws| |b r|nB rs|draws].
  - destruct p; try discriminate. injection H as <-. now left.
  - destruct p; try discriminate. destruct (addEntry _ _ _ _ _); cbn [rbind] in H; [|discriminate]. injection H as <-. now left.
  - destruct p; try discriminate. destruct (matchandintro_var1_sentence _ _); cbn [rbind] in H; [|discriminate]. injection H as <-. now left.
  - destruct p; try discriminate. destruct (confirm n); cbn [rbind] in H; [|discriminate]. injection H as <-. now left.
  - destruct p; try discriminate. destruct (narStep1 n b r) as [n'|] eqn:E; cbn [rbind] in H; [|discriminate]. injection H as <-. right. apply step1_ant in E. apply E.
  - destruct p as [|l|l|now l]; [discriminate|..]; destruct l as [|x l].
    + destruct (traceStep n rs) as [[g ms]|]; cbn [rbind] in H; [|discriminate]. injection H as <-. now left.
    + destruct (negConfirm _ _); cbn [rbind] in H; [|discriminate]. injection H as <-. now left.
    + injection H as <-. now left.
    + destruct (Nat.ltb _ _); [|discriminate]. injection H as <-. now left.
    + injection H as <-. now left.
    + destruct (mem_add_evidence_internal _ _ _ _ _); cbn [rbind] in H; [|discriminate]. injection H as <-. now left.
  - left. destruct w as [|s now l rv|now l].
    + destruct c as [|[s now] c]; [discriminate|]. destruct (mergeTargets _ _); cbn [rbind] in H; [|discriminate]. injection H as <-. reflexivity.
    + destruct l as [|x l]; [destruct rv|].
      * injection H as <-. reflexivity.
      * destruct (matchandintro_var1_sentence _ _); cbn [rbind] in H; [|discriminate]. injection H as <-. reflexivity.
      * destruct (mergeInto _ _ _) as [[h b]|]; cbn [rbind] in H; [|discriminate]. injection H as <-. reflexivity.
    + destruct l as [|x l]; [|destruct (mem_add_evidence_internal _ _ _ _ _); cbn [rbind] in H; [|discriminate]]; injection H as <-; reflexivity.
Qed.
Lemma proc_clock : forall w a w', procStep w a = Ok (Some w') -> n_t (y_nar (w_proc w')) = n_t (y_nar (w_proc w)) \/ (length (n_trace (y_nar (w_proc w'))) <= 20)%nat.
Proof. intros w a w' H. apply proc_inv in H. destruct H as (y & E & ->). apply act_clock in E. exact E. Qed.
Theorem c101_events : forall pf a w w', wstep pf a w = Ok (Some w') -> n_t (y_nar (w_proc w')) <> n_t (y_nar (w_proc w)) ->
  (length (n_trace (y_nar (w_proc w'))) <= 20)%nat.
Proof.
  intros pf a w w' H N. enough (X : n_t (y_nar (w_proc w')) = n_t (y_nar (w_proc w)) \/ (length (n_trace (y_nar (w_proc w'))) <= 20)%nat) by (destruct X; [now elim N|assumption]). clear N.
  assert (Dc : forall maxC x c, w_proc x = w_proc w -> declStep maxC x c = Ok (Some w') -> n_t (y_nar (w_proc w')) = n_t (y_nar (w_proc w)) \/ (length (n_trace (y_nar (w_proc w'))) <= 20)%nat).
  { intros maxC x c E X. apply decl_proc in X. left. now rewrite X, E. }
  assert (Pr : forall x y, w_proc x = w_proc w -> procStep x y = Ok (Some w') -> n_t (y_nar (w_proc w')) = n_t (y_nar (w_proc w)) \/ (length (n_trace (y_nar (w_proc w'))) <= 20)%nat).
  { intros x y E X. apply proc_clock in X. now rewrite E in X. }
  assert (Sm : forall x, w_proc x = w_proc w -> Ok (Some x) = Ok (Some w') -> n_t (y_nar (w_proc w')) = n_t (y_nar (w_proc w)) \/ (length (n_trace (y_nar (w_proc w'))) <= 20)%nat).
  { intros x E X. injection X as <-. left. now rewrite E. }
  destruct a as [line r|rs| |draws]; cbn [wstep] in H.
  - destruct (mainFree w); [|discriminate]. destruct (w_jobs w); [|discriminate]. destruct (w_quit w); [discriminate|]. destruct (lineJobs line r); cbn [rbind] in H; [|discriminate]. exact (Sm (wJobs w a) eq_refl H).
  - destruct (y_main (w_proc w)) eqn:Em; try (eapply Pr; [|exact H]; reflexivity). destruct (y_clients (w_decl w)) as [|[|x f|y p] cs]; try (eapply Dc; [|exact H]; reflexivity).
    destruct (w_jobs w) as [|j l]; [discriminate|]. assert (Q : w_proc (wJobs w l) = w_proc w) by reflexivity. set (w0 := wJobs w l) in *. clearbody w0.
    destruct j as [i draws| |r|t args|expf sel| |o|b| | |]; cbn [startJob] in H.
    + destruct (parseNarsese pf i) as [[[[[t v] p] ev]|]|]; cbn [rbind] in H; [| |discriminate]; [|now apply (Sm w0)]. unfold putIn in H. destruct (takeId _) as [[id u] sh]. cbv zeta in H.
      set (w1 := wDecl w0 (withSh (w_decl w0) sh)) in *. assert (Q1 : w_proc w1 = w_proc w) by exact Q. clearbody w1. destruct (if w_verb w1 >=? 1 then _ else _) as [[]|]; [|discriminate]. cbn [rbind] in H.
      destruct ev; [destruct p|destruct (isTemporal t); destruct p]; first [apply (Sm w1 Q1 H)|apply (Dc _ w1 _ Q1 H)|apply (Pr w1 _ Q1 H)].
    + apply (Pr w0 _ Q H).
    + destruct (nlpOf _ _); cbn [rbind] in H; [|discriminate]. destruct (procStep _ _) as [[w1|]|] eqn:E; cbn [rbind] in H; try discriminate. injection H as <-. cbn [w_proc wJobs]. apply proc_clock in E. now rewrite Q in E.
    + destruct args as [|x [|rel [|y k]]]; try (apply (Sm w0 Q); exact H). destruct (rewriteRel rel) as [rel'|]; [|discriminate]. cbn [rbind] in H. destruct (convTermToStr rel); [|discriminate]. cbn [rbind] in H. destruct (convTermToStr rel'); [|discriminate]. cbn [rbind] in H.
      destruct (takeId _) as [[id u] sh]. eapply Dc; [|exact H]. exact Q.
    + eapply Dc; [|exact H]. exact Q.
    + eapply Dc; [|exact H]. exact Q.
    + destruct (w_proc w0) as [n p c k] eqn:E. injection H as <-. left. rewrite <- Q. reflexivity.
    + destruct (w_proc w0) as [n p c k] eqn:E. injection H as <-. left. rewrite <- Q. reflexivity.
    + destruct (debugEvidence _); [|discriminate]. cbn [rbind] in H. now apply (Sm w0).
    + destruct (debugTasks _); [|discriminate]. cbn [rbind] in H. now apply (Sm w0).
    + injection H as <-. left. cbn [w_proc wQuit]. now rewrite Q.
  - eapply Dc; [|exact H]. reflexivity.
  - eapply Pr; [|exact H]. reflexivity.
Qed.

(** Every concept keeps from one to [nB] beliefs in each of its tables; no belief and no
    task is more complex than [maxC] or has more than 120 evidence ids. ^nlpRel0, which
    has limits of its own, is not registered. *)
Lemma run_frame : forall pf acts w w', wrun pf acts w = Ok w' -> frame w w'.
Proof.
  intros pf. induction acts as [|a acts IH]; intros w w' H; cbn [wrun] in H; [injection H as <-; apply frame_refl|]. destruct (wstep pf a w) as [[w1|]|] eqn:S; cbn [rbind] in H; [| |discriminate].
  - eapply frame_trans; [eapply step_frame; exact S|]. now apply IH.
  - now apply IH.
Qed.
Lemma closed_120 : closed (fun s => (length (s_stamp s) <= 120)%nat).
Proof. apply (closed_stamp (fun l => (length l <= 120)%nat)). intros a b _ _ _. rewrite merge_length. lia. Qed.
Theorem c101_tables : forall pf acts p verb nB maxC wired w, (1 <= nB)%nat -> (forall o, In o (n_ops p) -> op_kind o <> OpNlpRel) -> Forall plainLine acts ->
  wrun pf acts (wholeMake p verb nB maxC wired) = Ok w ->
  (forall t c, holds (memory (y_sh (w_decl w))) t c -> (1 <= length (byExp c) <= nB)%nat /\ (1 <= length (byUsage c) <= nB)%nat) /\
  (forall s, inDecl (y_sh (w_decl w)) s -> calcComplexity (s_term s) <= maxC /\ (length (s_stamp s) <= 120)%nat).
Proof.
  intros pf acts p verb nB maxC wired w L O F H. destruct (run_hear pf acts p verb nB maxC wired w L O F H) as (heard & [A R _ _ _] & _). destruct (run_frame _ _ _ _ H) as (F1 & F2 & _). cbn [wholeMake w_maxC w_nB] in F1, F2. rewrite F1, F2 in *.
  assert (G : forall s, evid pf heard s -> s_punct s = JUGEMENT -> (length (s_stamp s) <= 120)%nat).
  { intros s E J. destruct (E J) as (k & v & _ & _ & _ & _ & -> & _). cbn. lia. }
  destruct (c49_beliefs _ _ _ _ _ _ _ closed_120 G (conj A (Nat.le_refl _)) R) as (_ & B). split.
  - intros t c Hc. destruct (B t c Hc) as [B1 B2 _]. auto.
  - intros s [(a & Ha & ->)|(t & c & Hc & Hs)].
    + split; [exact (ta_size _ _ (c49_tasks _ _ _ _ _ _ (conj A (Nat.le_refl _)) R) a Ha)|exact (c49_heap _ _ _ _ _ _ _ closed_120 G (conj A (Nat.le_refl _)) R a Ha)].
    + destruct (ba_all _ _ _ _ (B t c Hc) s Hs) as (X & _ & _ & Y). auto.
Qed.

Lemma seen_questions : forall w, questions (y_sh (seen w)) = questions (y_sh (w_decl w)).
Proof. intros w. unfold seen. destruct (w_wired w); reflexivity. Qed.
(** Questions are never dropped: each keeps its place and its sentence for ever. *)
Definition stay (sh sh' : shared) : Prop := forall i q, nth_error (questions sh) i = Some q -> exists q', nth_error (questions sh') i = Some q' /\ q_s q' = q_s q.
Lemma stay_refl : forall sh, stay sh sh. Proof. intros sh i q H. eauto. Qed.
Lemma stay_trans : forall a b c, stay a b -> stay b c -> stay a c.
Proof. intros a b c H1 H2 i q H. destruct (H1 i q H) as (q1 & A & B). destruct (H2 i q1 A) as (q2 & C & D). exists q2. split; congruence. Qed.
Lemma grow_stay : forall ans sh sh', qgrow ans (questions sh) (questions sh') -> stay sh sh'.
Proof. intros ans sh sh' G i q H. destruct (G i) as (A & _). destruct (A q H) as (q' & B & C & _). eauto. Qed.
Lemma decl_stay : forall maxC w c w', declStep maxC w c = Ok (Some w') -> stay (y_sh (w_decl w)) (y_sh (w_decl w')).
Proof.
  intros maxC w c w' H. apply decl_inv in H. destruct H as (d & E & ->). cbn [w_decl wDecl]. apply (stay_trans _ (y_sh (seen w))); [intros i q Q; exists q; split; [now rewrite seen_questions|reflexivity]|].
  destruct c as [i o|i|]; cbn [exec] in E.
  - destruct (nth_error _ i) as [[| |]|]; try discriminate. destruct (opStart maxC o (y_sh (seen w))) as [sh p] eqn:O. injection E as <-. cbn [y_sh]. destruct o as [x|q| |y]; cbn [opStart] in O; injection O as <- <-; try (intros k z Hz; exists z; split; [exact Hz|reflexivity]).
    intros k z Hz. exists z. split; [|reflexivity]. cbn [questions setQuestions]. rewrite nth_error_app1; [exact Hz|]. apply nth_error_Some. congruence.
  - destruct (nth_error _ i) as [p|]; [|discriminate]. destruct (cliStep p _ _) as [[[[[sh qu] ans] p']|]|] eqn:C; cbn [rbind] in E; try discriminate. injection E as <-. cbn [y_sh]. destruct p as [|x f|y p]; cbn [cliStep] in C; [discriminate| |].
    + destruct (addStep x f _) as [[sh1 o]|] eqn:A; cbn [rbind fst snd] in C; [|discriminate]. injection C as <- _ _ _. apply addStep_eff in A. eapply grow_stay, A.
    + destruct (cycStep y p _ _) as [[[[[sh1 qu1] ans1] o]|]|] eqn:A; cbn [rbind] in C; try discriminate. injection C as <- _ _ _. apply cycStep_eff in A. eapply grow_stay, A.
  - destruct (workStep _ _ _ _ _) as [[[[[sh qu] ans] p']|]|] eqn:A; cbn [rbind] in E; try discriminate. injection E as <-. apply workStep_eff in A. eapply grow_stay, A.
Qed.
Lemma proc_decl : forall w a w', procStep w a = Ok (Some w') -> w_decl w' = w_decl w.
Proof. intros w a w' H. apply proc_frame in H. tauto. Qed.
Lemma step_stay : forall pf a w w', wstep pf a w = Ok (Some w') -> stay (y_sh (w_decl w)) (y_sh (w_decl w')).
Proof.
  intros pf a w w' H.
  assert (Dc : forall maxC x c, stay (y_sh (w_decl w)) (y_sh (w_decl x)) -> declStep maxC x c = Ok (Some w') -> stay (y_sh (w_decl w)) (y_sh (w_decl w'))).
  { intros maxC x c S X. apply decl_stay in X. eapply stay_trans; eauto. }
  assert (Pr : forall x y, stay (y_sh (w_decl w)) (y_sh (w_decl x)) -> procStep x y = Ok (Some w') -> stay (y_sh (w_decl w)) (y_sh (w_decl w'))).
  { intros x y S X. apply proc_decl in X. now rewrite X. }
  assert (Sm : forall x, stay (y_sh (w_decl w)) (y_sh (w_decl x)) -> Ok (Some x) = Ok (Some w') -> stay (y_sh (w_decl w)) (y_sh (w_decl w'))).
  { intros x S X. now injection X as <-. }
  assert (S0 := stay_refl (y_sh (w_decl w))). destruct a as [line r|rs| |draws]; cbn [wstep] in H.
  - destruct (mainFree w); [|discriminate]. destruct (w_jobs w); [|discriminate]. destruct (w_quit w); [discriminate|]. destruct (lineJobs line r); cbn [rbind] in H; [|discriminate]. eapply Sm; [|exact H]. exact S0.
  - destruct (y_main (w_proc w)); try (eapply Pr; [|exact H]; exact S0). destruct (y_clients (w_decl w)) as [|[|x f|y p] cs]; try (eapply Dc; [|exact H]; exact S0).
    destruct (w_jobs w) as [|j l]; [discriminate|]. assert (Q : stay (y_sh (w_decl w)) (y_sh (w_decl (wJobs w l)))) by exact S0. set (w0 := wJobs w l) in *. clearbody w0.
    destruct j as [i draws| |r|t args|expf sel| |o|b| | |]; cbn [startJob] in H.
    + destruct (parseNarsese pf i) as [[[[[t v] p] ev]|]|]; cbn [rbind] in H; [| |discriminate]; [|now apply (Sm w0)]. unfold putIn, takeId in H. cbv zeta in H.
      match type of H with context [wDecl w0 ?d] => set (w1 := wDecl w0 d) in * end. assert (Q1 : stay (y_sh (w_decl w)) (y_sh (w_decl w1))) by exact Q. clearbody w1. destruct (if w_verb w1 >=? 1 then _ else _) as [[]|]; [|discriminate]. cbn [rbind] in H.
      destruct ev; [destruct p|destruct (isTemporal t); destruct p]; first [apply (Sm w1 Q1 H)|apply (Dc _ w1 _ Q1 H)|apply (Pr w1 _ Q1 H)].
    + apply (Pr w0 _ Q H).
    + destruct (nlpOf _ _); cbn [rbind] in H; [|discriminate]. destruct (procStep _ _) as [[w1|]|] eqn:E; cbn [rbind] in H; try discriminate. injection H as <-. cbn [w_decl wJobs]. apply proc_decl in E. now rewrite E.
    + destruct args as [|x [|rel [|y k]]]; try (apply (Sm w0 Q); exact H). destruct (rewriteRel rel) as [rel'|]; [|discriminate]. cbn [rbind] in H. destruct (convTermToStr rel); [|discriminate]. cbn [rbind] in H. destruct (convTermToStr rel'); [|discriminate]. cbn [rbind] in H.
      unfold takeId in H. eapply Dc; [|exact H]. exact Q.
    + eapply Dc; [|exact H]. exact Q.
    + eapply Dc; [|exact H]. exact Q.
    + destruct (w_proc w0) as [n p c k] eqn:E. injection H as <-. exact Q.
    + destruct (w_proc w0) as [n p c k] eqn:E. injection H as <-. exact Q.
    + destruct (debugEvidence _); [|discriminate]. cbn [rbind] in H. now apply (Sm w0).
    + destruct (debugTasks _); [|discriminate]. cbn [rbind] in H. now apply (Sm w0).
    + injection H as <-. exact Q.
  - eapply Dc; [|exact H]. exact S0.
  - eapply Pr; [|exact H]. exact S0.
Qed.
Theorem c101_asked : forall pf acts w w' i q, wrun pf acts w = Ok w' -> nth_error (questions (y_sh (w_decl w))) i = Some q ->
  exists q', nth_error (questions (y_sh (w_decl w'))) i = Some q' /\ q_s q' = q_s q.
Proof.
  intros pf acts w w' i q H. revert i q. change (stay (y_sh (w_decl w)) (y_sh (w_decl w'))). revert w H. induction acts as [|a acts IH]; intros w H; cbn [wrun] in H; [injection H as <-; apply stay_refl|].
  destruct (wstep pf a w) as [[w1|]|] eqn:S; cbn [rbind] in H; [| |discriminate]; [|now apply IH]. eapply stay_trans; [eapply step_stay; exact S|]. now apply IH.
Qed.

(** Not bounded: the questions and the events between two steps. *)
Section Typing.
Variable pf : text -> option f64.
Variable r : lineRnd.
Variable rs : nat -> smp.
Definition ready (w : whole) : Prop := y_main (w_proc w) = MFree /\ y_clients (w_decl w) = [CIdle] /\ w_jobs w = [] /\ w_quit w = false /\ w_verb w < 1 /\ 1 <= w_maxC w.
Lemma event_more : forall w, ready w -> exists w', wrun pf [ARead (tx "a. :|:") r; AMain rs] w = Ok w' /\ ready w' /\ length (n_trace (y_nar (w_proc w'))) = S (length (n_trace (y_nar (w_proc w)))).
Proof.
  intros w (E1 & E2 & E3 & E4 & E5 & E6). destruct w as [[sh qu cl wk lg] [n p c k] tm vb nB mc wi jb qt]. cbn [y_main w_proc y_clients w_decl w_jobs w_quit w_verb w_maxC] in *. subst.
  assert (L : lineJobs (tx "a. :|:") r = Ok [JText (tx "a. :|:") (ln_draws r O)]) by reflexivity.
  assert (Q : exists v, parseNarsese pf (tx "a. :|:") = Ok (Some (Name "a", v, JUGEMENT, true))) by (eexists; reflexivity). destruct Q as (v & Q).
  cbn [wrun wstep mainFree w_proc y_main w_decl y_clients w_jobs w_quit]. rewrite L. cbn [rbind wJobs w_proc y_main w_decl y_clients w_jobs wstep startJob]. rewrite Q. cbn [rbind]. unfold putIn, takeId. cbn [w_decl y_sh wDecl wJobs w_verb].
  replace (vb >=? 1) with false by (symmetry; rewrite Z.geb_leb; apply Z.leb_gt; lia). cbn [rbind]. unfold procStep. cbn [w_proc yact rbind]. eexists. split; [reflexivity|].
  split; [repeat split; auto|]. cbn [y_nar w_proc wProc n_trace setTrace]. unfold event_happened. rewrite app_length. cbn [length]. lia.
Qed.
Definition same (w w' : whole) : Prop := w_proc w' = w_proc w /\ w_jobs w' = w_jobs w /\ w_quit w' = w_quit w /\ w_verb w' = w_verb w /\ w_maxC w' = w_maxC w.
Lemma adding : forall w x f sh o, y_main (w_proc w) = MFree -> y_clients (w_decl w) = [CAdd x f] -> addStep x f (y_sh (seen w)) = Ok (sh, o) ->
  exists w', wstep pf (AMain rs) w = Ok (Some w') /\ y_clients (w_decl w') = [match o with Some f' => CAdd x f' | None => CIdle end] /\ y_sh (w_decl w') = sh /\ same w w'.
Proof.
  intros w x f sh o E1 E2 A. cbn [wstep]. rewrite E1, E2. unfold declStep. cbn [exec]. destruct (seen_parts w) as (_ & -> & _). rewrite E2. cbn [nth_error cliStep]. rewrite A. cbn [rbind fst snd].
  eexists. split; [reflexivity|]. split; [reflexivity|]. split; [reflexivity|]. repeat split.
Qed.
Lemma question_more : forall w, ready w -> exists w', wrun pf (ARead (tx "a? :|:") r :: repeat (AMain rs) 5) w = Ok w' /\ ready w' /\ length (questions (y_sh (w_decl w'))) = S (length (questions (y_sh (w_decl w)))).
Proof.
  intros w (E1 & E2 & E3 & E4 & E5 & E6).
  assert (L : lineJobs (tx "a? :|:") r = Ok [JText (tx "a? :|:") (ln_draws r O)]) by reflexivity.
  assert (Q : exists v, parseNarsese pf (tx "a? :|:") = Ok (Some (Name "a", v, QUESTION, true))) by (eexists; reflexivity). destruct Q as (v & Q).
  assert (S1 : exists w1 x, wrun pf [ARead (tx "a? :|:") r; AMain rs] w = Ok w1 /\ y_clients (w_decl w1) = [CAdd x (FRevise [] None)] /\ s_punct (ar_s x) = QUESTION /\ questions (y_sh (w_decl w1)) = questions (y_sh (w_decl w)) /\ same w w1).
  { cbn [wrun wstep]. unfold mainFree. rewrite E1, E2, E3, E4, L. cbn [rbind wJobs w_proc w_decl w_jobs w_quit]. rewrite E1, E2. cbn [startJob]. rewrite Q. cbn [rbind]. unfold putIn, takeId. cbv zeta. cbn [w_verb wDecl wJobs].
    replace (w_verb w >=? 1) with false by (symmetry; rewrite Z.geb_leb; apply Z.leb_gt; lia). cbn [rbind]. set (x := mkAddArgs _ _ _ _ _). unfold declStep. cbn [exec]. set (w0 := wDecl _ _).
    destruct (seen_parts w0) as (_ & -> & _). change (y_clients (w_decl w0)) with (y_clients (w_decl w)). rewrite E2. cbn [nth_error opStart].
    assert (St : forall m, m = w_maxC w -> startAdd m x = Some (FRevise [] None)).
    { intros m ->. unfold startAdd. change (calcComplexity (s_term (ar_s x))) with 1. replace (1 >? w_maxC w) with false by (symmetry; rewrite Z.gtb_ltb; apply Z.ltb_ge; lia). reflexivity. }
    match goal with |- context[startAdd ?m x] => rewrite (St m eq_refl) end. cbn [rbind]. do 2 eexists. split; [reflexivity|]. split; [reflexivity|]. split; [reflexivity|]. cbn [w_decl wDecl y_sh]. rewrite seen_questions. split; [reflexivity|]. repeat split. exact (eq_sym E3). }
  destruct S1 as (w1 & x & R1 & C1 & P & Q1 & (A1 & A2 & A3 & A4 & A5)). 
  destruct (adding w1 x (FRevise [] None) _ _ ltac:(rewrite A1; exact E1) C1 eq_refl) as (w2 & R2 & C2 & Q2 & (B1 & B2 & B3 & B4 & B5)).
  assert (X3 : addStep x FStore (y_sh (seen w2)) = Ok (setMemory (memory (y_sh (seen w2))) (y_sh (seen w2)), Some (FCheck [ar_s x]))) by (cbn [addStep]; unfold storeInConcepts, storeInConcepts2; rewrite P; reflexivity).
  destruct (adding w2 x _ _ _ ltac:(rewrite B1, A1; exact E1) C2 X3) as (w3 & R3 & C3 & Q3 & (D1 & D2 & D3 & D4 & D5)).
  assert (X4 : addStep x (FCheck [ar_s x]) (y_sh (seen w3)) = Ok (setQuestions (questions (y_sh (seen w3)) ++ [mkTask2 (shallowCopySentence (ar_s x)) false f0 f1]) (y_sh (seen w3)), Some (FCheck []))) by (cbn [addStep]; rewrite P; reflexivity).
  destruct (adding w3 x _ _ _ ltac:(rewrite D1, B1, A1; exact E1) C3 X4) as (w4 & R4 & C4 & Q4 & (F1 & F2 & F3 & F4 & F5)).
  destruct (adding w4 x _ _ _ ltac:(rewrite F1, D1, B1, A1; exact E1) C4 eq_refl) as (w5 & R5 & C5 & Q5 & (G1 & G2 & G3 & G4 & G5)).
  exists w5. split; [|split].
  - change (ARead (tx "a? :|:") r :: repeat (AMain rs) 5) with ([ARead (tx "a? :|:") r; AMain rs] ++ repeat (AMain rs) 4). rewrite Props_Whole.run_app, R1. cbn [rbind wrun repeat]. rewrite R2. cbn [rbind]. rewrite R3. cbn [rbind]. rewrite R4. cbn [rbind]. rewrite R5. reflexivity.
  - repeat split; try congruence; lia.
  - rewrite Q5, seen_questions, Q4. cbn [questions setQuestions]. rewrite app_length, seen_questions, Q3. cbn [questions setMemory]. rewrite seen_questions, Q2, seen_questions, Q1. cbn [length]. lia.
Qed.
End Typing.
Theorem c101_events_refuted : forall pf p nB maxC wired B, 1 <= maxC -> exists acts w, wrun pf acts (wholeMake p 0 nB maxC wired) = Ok w /\ (B < length (n_trace (y_nar (w_proc w))))%nat.
Proof.
  intros pf p nB maxC wired B H1. set (r := Props_Whole.rnd1). set (rs := Props_Whole.pick0).
  assert (X : forall k, exists acts w, wrun pf acts (wholeMake p 0 nB maxC wired) = Ok w /\ ready w /\ (k <= length (n_trace (y_nar (w_proc w))))%nat).
  { induction k as [|k (acts & w & R & D & L)].
    - exists [], (wholeMake p 0 nB maxC wired). split; [reflexivity|]. split; [repeat split; cbn; lia|lia].
    - destruct (event_more pf r rs w D) as (w' & R' & D' & L'). exists (acts ++ [ARead (tx "a. :|:") r; AMain rs]), w'. split; [|split; [exact D'|lia]]. rewrite Props_Whole.run_app, R. exact R'. }
  destruct (X (S B)) as (acts & w & R & _ & L). exists acts, w. split; [exact R|lia].
Qed.
Theorem c101_questions_refuted : forall pf p nB maxC wired B, 1 <= maxC -> exists acts w, wrun pf acts (wholeMake p 0 nB maxC wired) = Ok w /\ (B < length (questions (y_sh (w_decl w))))%nat.
Proof.
  intros pf p nB maxC wired B H1. set (r := Props_Whole.rnd1). set (rs := Props_Whole.pick0).
  assert (X : forall k, exists acts w, wrun pf acts (wholeMake p 0 nB maxC wired) = Ok w /\ ready w /\ (k <= length (questions (y_sh (w_decl w))))%nat).
  { induction k as [|k (acts & w & R & D & L)].
    - exists [], (wholeMake p 0 nB maxC wired). split; [reflexivity|]. split; [repeat split; cbn; lia|lia].
    - destruct (question_more pf r rs w D) as (w' & R' & D' & L'). exists (acts ++ ARead (tx "a? :|:") r :: repeat (AMain rs) 5), w'. split; [|split; [exact D'|lia]]. rewrite Props_Whole.run_app, R. exact R'. }
  destruct (X (S B)) as (acts & w & R & _ & L). exists acts, w. split; [exact R|lia].
Qed.

(** The session of C87: the effect of grasping the cup is waited for until time 5, the
    events are those of five steps, and each concept has one or two beliefs. *)
Definition kept (l : list wact) : option (nat * list Z * Z * nat * nat * list nat) :=
  match wrun Props_Whole.noNum l (Props_Whole.begin (narInit [])) with
  | Ok w => Some (waitedFor w, map snd (n_ant (y_nar (w_proc w))), n_t (y_nar (w_proc w)), length (n_trace (y_nar (w_proc w))), toDeriver w, map (fun kc => length (byExp (snd kc))) (memory (y_sh (w_decl w))))
  | Panic => None
  end.
Example c101_ex : kept Props_Whole.session = Some (1%nat, [5], 5, 5%nat, O, [1; 2; 2; 1; 2; 1]%nat).
Proof. vm_compute. reflexivity. Qed.
(** in the middle of it, while a message waits for the deriver *)
Example c101_ex_middle : kept (firstn 200 Props_Whole.session) = Some (O, [], 4, 4%nat, 1%nat, [1; 1; 2; 1; 1]%nat).
Proof. vm_compute. reflexivity. Qed.

Print Assumptions c101_waits.
Print Assumptions c101_started.
Print Assumptions c101_channels.
Print Assumptions c101_events.
Print Assumptions c101_tables.
Print Assumptions c101_asked.
Print Assumptions c101_events_refuted.
Print Assumptions c101_questions_refuted.
