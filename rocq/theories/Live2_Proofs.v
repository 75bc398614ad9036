(** Every run of the whole program is a life. *)
From Coq Require Import String Ascii ZArith Bool Lia List Permutation Sorted.
From Verif Require Import Base F64_Model Term_Model Term_Spec Stamp_Model Tv_Model Sentence_Model Mem_Model PMem_Model Goal_Model Goal_Spec Cycle_Model Sched_Model Proc_Model Proc_Spec ProcC_Proofs
  ProcS_Model ProcX_Model Parser_Model Nar_Model Whole_Model Whole_Spec Whole_Proofs Whole2_Proofs Whole3_Proofs Hear_Spec Hear_Proofs Live_Spec Live_Proofs LiveW_Spec ProcX4_Proofs.
Import ListNotations.
Local Open Scope list_scope.
Local Open Scope Z_scope.

Lemma done_executed : forall n t evs, executed n t evs -> doneAt (n_ops n) (n_t n) t evs.
Proof.
  intros n t evs (args & name & C & [(_ & ->)|(o & inj & rels & F & P & ->)]); exists args, name; split; auto. right. exists o, inj, rels. auto.
Qed.
(** nothing can happen that has no place in a life *)
Theorem life_goes_on : forall us H y a y', lived H y -> yact us y a = Ok (Some y') -> exists x, lived (H ++ x) y' /\ enters y a x.
Proof.
  intros us H y a y' Lv Y. destruct a as [e|s|t id u draws| |decl r|nB rs|draws]; cbn [enters].
  - eexists. split; [eapply lv_event; eauto|reflexivity].
  - eexists. split; [eapply lv_goal; eauto|reflexivity].
  - eexists. split; [eapply lv_belief; eauto|reflexivity].
  - exists []. rewrite app_nil_r. split; [eapply lv_else; eauto; exact Logic.I|reflexivity].
  - assert (Y0 := Y). destruct y as [n p c w]. cbn [yact] in Y0. destruct p; try discriminate. destruct (narStep1 n decl r) as [n'|] eqn:S; [|discriminate]. cbn [rbind] in Y0. injection Y0 as <-.
    destruct (step1_spec _ _ _ _ S) as (_ & _ & _ & _ & _ & (evs & ant & O & T & _) & _). destruct O as [|e x a iv evs Mo El Ea _ Ex|o evs B Ho Bo Ex].
    + exists []. rewrite app_nil_r in *. split; [eapply lv_idle; eauto|contradiction].
    + exists [LAct (e_sentence e) evs]. split.
      * eapply lv_act; eauto; [exists e, a, x; auto|]. now apply done_executed.
      * intros z [<-|[]]. eauto.
    + eexists [LBabble _ evs]. split.
      * eapply lv_babble with (o := o); eauto. now apply done_executed.
      * intros z [<-|[]]. eauto.
  - exists []. rewrite app_nil_r. split; [eapply lv_else; eauto; exact Logic.I|reflexivity].
  - exists []. rewrite app_nil_r. split; [eapply lv_else; eauto; exact Logic.I|reflexivity].
Qed.

Lemma act_table : forall us y a y', yact us y a = Ok (Some y') -> n_table (y_nar y') = n_table (y_nar y).
Proof.
  intros us [n p c w] a y' H. unfold yact in H. cbn [y_nar].
  destruct a as [e|s|t id u draws| |decl r|nB rs|draws].
  - destruct p; try discriminate. injection H as <-. reflexivity.
  - destruct p; try discriminate. destruct (addEntry _ _ _ _ _); [|discriminate]. injection H as <-. reflexivity.
  - destruct p; try discriminate. destruct (matchandintro_var1_sentence _ _); [|discriminate]. injection H as <-. reflexivity.
  - destruct p; try discriminate. destruct (confirm n); [|discriminate]. injection H as <-. reflexivity.
  - destruct p; try discriminate. destruct (narStep1 n decl r) eqn:E; [|discriminate]. injection H as <-. apply step1_spec in E. apply E.
  - destruct p as [|[|x l]|[|m ms]|now [|s todo]]; try discriminate.
    + destruct (traceStep n rs) as [[g ms]|]; [|discriminate]. injection H as <-. reflexivity.
    + destruct (negConfirm _ _); [|discriminate]. injection H as <-. reflexivity.
    + injection H as <-. reflexivity.
    + destruct (Nat.ltb _ _); [|discriminate]. injection H as <-. reflexivity.
    + injection H as <-. reflexivity.
    + destruct (mem_add_evidence_internal _ _ _ _ _); [|discriminate]. injection H as <-. reflexivity.
  - destruct w as [|s now [|x l] rv|now [|s todo]].
    + destruct c as [|[s now] c]; [now destruct p|]. destruct (mergeTargets _ _); [|now destruct p]. destruct p; injection H as <-; reflexivity.
    + destruct rv; [destruct p; injection H as <-; reflexivity|]. destruct (matchandintro_var1_sentence _ _); [|now destruct p]. destruct p; injection H as <-; reflexivity.
    + destruct (mergeInto _ _ _) as [[h b]|]; [|now destruct p]. destruct p; injection H as <-; reflexivity.
    + destruct p; injection H as <-; reflexivity.
    + destruct (mem_add_evidence_internal _ _ _ _ _); [|now destruct p]. destruct p; injection H as <-; reflexivity.
Qed.

Section Whole.
  Variable pf : text -> option f64.
  (** what was learned at some time *)
  Variable L : list sentence.
  Definition keeps (H : list happening) (y : psys) : Prop := forall z, In z L -> learned (n_ops (y_nar y)) (n_table (y_nar y)) H z.
  Lemma keeps_act : forall us H x y a y', keeps H y -> yact us y a = Ok (Some y') -> keeps (H ++ x) y'.
  Proof. intros us H x y a y' K Y z Hz. rewrite (act_ops _ _ _ _ Y), (act_table _ _ _ _ Y). apply learned_mono with (ops := n_ops (y_nar y)); auto. Qed.
  (** [T]: the texts read; [heard] is what of them was put in *)
  Definition winv (T : list text) (w : whole) : Prop :=
    exists H heard, (lived H (w_proc w) /\ keeps H (w_proc w)) /\ flat_map said H = flat_map aboutTime (readings pf heard) /\ T = heard ++ flat_map jobTexts (w_jobs w).
  Lemma winv_same : forall T w w', winv T w -> w_proc w' = w_proc w -> w_jobs w' = w_jobs w -> winv T w'.
  Proof. intros T w w' I E1 E2. unfold winv. rewrite E1, E2. exact I. Qed.
  Lemma winv_act : forall T w a w', winv T w -> procStep w a = Ok (Some w') -> (forall x, enters (w_proc w) a x -> flat_map said x = []) -> winv T w' /\ w_jobs w' = w_jobs w.
  Proof.
    intros T w a w' (H & heard & (Lv & Kp) & F & J) P K. apply proc_inv in P. destruct P as (p & Ep & ->). destruct (life_goes_on _ _ _ _ _ Lv Ep) as (x & Lv' & En).
    split; [|reflexivity]. exists (H ++ x), heard. split; [split; [auto|eapply keeps_act; eauto]|]. split; [|exact J]. now rewrite flat_map_app, (K x En), app_nil_r.
  Qed.
  Lemma decl_same : forall maxC w c w', declStep maxC w c = Ok (Some w') -> w_proc w' = w_proc w /\ w_jobs w' = w_jobs w.
  Proof. intros maxC w c w' H. apply decl_inv in H. destruct H as (d & _ & ->). auto. Qed.
  Lemma winv_decl : forall T maxC w c w', winv T w -> declStep maxC w c = Ok (Some w') -> winv T w'.
  Proof. intros T maxC w c w' I H. destruct (decl_same _ _ _ _ H). eapply winv_same; eauto. Qed.
  Lemma step_silent : forall y decl r x, enters y (XStep1 decl r) x -> flat_map said x = [].
  Proof.
    intros y decl r x E. cbn [enters] in E. induction x as [|z x IH]; auto. cbn [flat_map]. rewrite IH by (intros; apply E; now right).
    destruct (E z (or_introl eq_refl)) as [(t & evs & ->)|(g & evs & ->)]; reflexivity.
  Qed.
  (** the job is taken from the list and done *)
  Lemma winv_job : forall T w j l w', winv T w -> w_jobs w = j :: l -> startJob pf (wJobs w l) j = Ok (Some w') -> winv T w'.
  Proof.
    intros T w j l w' (H0 & heard & (Lv & Kp) & F & ET) Ej H. rewrite Ej in ET. set (w0 := wJobs w l) in *.
    assert (I0 : jobTexts j = [] -> winv T w0) by (intros E; exists H0, heard; cbn [flat_map] in ET; rewrite E in ET; split; [split|]; auto).
    destruct j as [i draws| |r|t args|e sel| |o|b| | |]; cbn [startJob] in H; try specialize (I0 eq_refl).
    - destruct (parseNarsese pf i) as [r|] eqn:P; [|discriminate]. cbn [rbind] in H. cbn [flat_map jobTexts app] in ET.
      assert (Rr : readings pf (heard ++ [i]) = readings pf heard ++ match r with Some x => [x] | None => [] end).
      { rewrite readings_app. f_equal. unfold readings. cbn [flat_map]. rewrite P. destruct r; reflexivity. }
      assert (Q : forall w1 H1 x, w_jobs w1 = l -> lived (H1 ++ x) (w_proc w1) /\ keeps (H1 ++ x) (w_proc w1) -> flat_map said H1 = flat_map aboutTime (readings pf heard) ->
        flat_map said x = flat_map aboutTime (match r with Some x => [x] | None => [] end) -> winv T w1).
      { intros w1 H1 x J1 L1 F1 F2. exists (H1 ++ x), (heard ++ [i]). split; auto. rewrite J1, <- app_assoc. split; auto. now rewrite Rr, !flat_map_app, F1, F2. }
      destruct r as [[[[t v] p] ev]|]; [|injection H as <-; apply (Q w0 H0 []); auto; now rewrite app_nil_r; split].
      unfold putIn, takeId in H. set (id := stampCtr (y_sh (w_decl w0))) in *. set (u := nextU (y_sh (w_decl w0))) in H.
      set (d := setNextU (Datatypes.S u) (setStampCtr (id + 1) (y_sh (w_decl w0)))) in H. set (w1 := wDecl w0 (withSh (w_decl w0) d)) in H.
      cbn zeta in H. destruct (if w_verb w1 >=? 1 then _ else _); [|discriminate]. cbn [rbind] in H.
      assert (Qa : forall a, procStep w1 a = Ok (Some w') -> (forall x, enters (w_proc w1) a x -> flat_map said x = flat_map aboutTime [(t, v, p, ev)]) -> winv T w').
      { intros a1 Pa K. apply proc_inv in Pa. destruct Pa as (q & Eq & ->). destruct (life_goes_on _ _ _ _ _ Lv Eq) as (x & L' & En). apply (Q (wProc w1 q) H0 x); auto. split; [auto|eapply keeps_act; eauto]. }
      assert (Qd : forall m c, declStep m w1 c = Ok (Some w') -> flat_map aboutTime [(t, v, p, ev)] = [] -> winv T w').
      { intros m c Pd K. destruct (decl_same _ _ _ _ Pd) as (E1 & E2). apply (Q w' H0 []); auto. rewrite app_nil_r, E1. split; [exact Lv|exact Kp]. }
      assert (Qn : Ok (Some w1) = Ok (Some w') -> flat_map aboutTime [(t, v, p, ev)] = [] -> winv T w').
      { intros E K. injection E as <-. apply (Q w1 H0 []); auto. rewrite app_nil_r. split; [exact Lv|exact Kp]. }
      destruct ev; [|destruct (isTemporal t) eqn:Tm]; destruct p; first [now apply (Qn H) | now apply (Qd _ _ H) | idtac].
      all: first [apply (Qd _ _ H); cbn; rewrite Tm; reflexivity | apply (Qa _ H); cbn [enters]; intros x ->; cbn; rewrite ?Tm; reflexivity].
    - eapply winv_act; eauto. cbn. intros x ->. reflexivity.
    - destruct (nlpOf _ r) as [cs|]; [|discriminate]. cbn [rbind] in H. destruct (procStep w0 (XStep1 true r)) as [[w1|]|] eqn:P; cbn [rbind] in H; try discriminate. injection H as <-.
      destruct (winv_act T w0 _ w1 I0 P (step_silent _ true r)) as ((H1 & h1 & L1 & F1 & T1) & _). exists H1, h1. split; [destruct w1; exact L1|]. split; auto. rewrite T1. f_equal.
      destruct w1. cbn. rewrite flat_map_app. induction cs; cbn; auto.
    - destruct args as [|a0 [|rel [|? ?]]]; try (injection H as <-; exact I0). destruct (rewriteRel rel); [|discriminate]. cbn [rbind] in H.
      destruct (convTermToStr rel); [|discriminate]. cbn [rbind] in H. destruct (convTermToStr _); [|discriminate]. cbn [rbind] in H. unfold takeId in H. eapply winv_decl; [|exact H]. exact I0.
    - eapply winv_decl; [|exact H]. exact I0.
    - eapply winv_decl; [|exact H]. exact I0.
    - clearbody w0. destruct I0 as (H1 & h1 & (L1 & K1) & F1 & T1). destruct (w_proc w0) as [n m c k] eqn:Ep. injection H as <-. exists H1, h1. split; [|auto]. split; [cbn; now apply lv_op|].
      intros z Hz. rewrite <- (app_nil_r H1). apply learned_mono with (ops := n_ops n); [|now apply K1]. cbn. intros o1 Ho. apply in_app_iff. auto.
    - clearbody w0. destruct I0 as (H1 & h1 & (L1 & K1) & F1 & T1). destruct (w_proc w0) as [n m c k] eqn:Ep. injection H as <-. exists H1, h1. split; [|auto]. split; [cbn; now apply lv_mode|exact K1].
    - destruct (debugEvidence _); [|discriminate]. injection H as <-. exact I0.
    - destruct (debugTasks _); [|discriminate]. injection H as <-. exact I0.
    - injection H as <-. exact I0.
  Qed.
  Lemma winv_step : forall T a w w', winv T w -> wstep pf a w = Ok (Some w') -> winv (T ++ typed a) w'.
  Proof.
    intros T a w w' I H.
    assert (Nr : typed a = [] -> winv T w' -> winv (T ++ typed a) w') by (intros -> K; now rewrite app_nil_r).
    destruct a as [line r|rs| |draws]; cbn [wstep] in H.
    - destruct (mainFree w); [|discriminate]. destruct (w_jobs w) eqn:J; [|discriminate H]. destruct (w_quit w); [discriminate H|].
      destruct (lineJobs line r) as [l|] eqn:E; [|discriminate]. cbn [rbind] in H. injection H as <-. destruct (line_texts _ _ _ E) as (Tx & _).
      destruct I as (H & heard & Lv & F & ET). rewrite J in ET. cbn in ET. rewrite app_nil_r in ET. subst T. exists H, heard. split; auto. split; auto.
      cbn. now rewrite Tx.
    - apply Nr; [reflexivity|]. destruct (y_main (w_proc w)); try (eapply winv_act; [exact I|exact H|]; cbn; intros x ->; reflexivity).
      destruct (y_clients (w_decl w)) as [|[| |] ?]; try (eapply winv_decl; eauto; fail).
      destruct (w_jobs w) as [|j jl] eqn:J; [discriminate H|]. eapply winv_job; eauto.
    - apply Nr; [reflexivity|]. eapply winv_decl; eauto.
    - apply Nr; [reflexivity|]. eapply winv_act; [exact I|exact H|]; cbn; intros x ->; reflexivity.
  Qed.
  Lemma winv_run : forall acts T w w', winv T w -> wrun pf acts w = Ok w' -> winv (T ++ textsRead pf acts w) w'.
  Proof.
    induction acts as [|a acts IH]; intros T w w' I H; cbn [wrun textsRead] in *.
    - injection H as <-. now rewrite app_nil_r.
    - destruct (wstep pf a w) as [[w1|]|] eqn:E; [| |discriminate]; cbn [rbind] in H; [|auto]. rewrite app_assoc. apply IH; auto. eapply winv_step; eauto.
  Qed.
End Whole.

  Theorem whole_lived : forall pf acts cfg ops tab nMax depth verb nB maxC wired w, (1 <= c_nOpsMax cfg)%nat ->
    let start := wholeMake (mkPnar cfg ops tab 0 [] [] pmemMake (makeGoalSystem nMax depth)) verb nB maxC wired in
    wrun pf acts start = Ok w -> exists H heard rest, lived H (w_proc w) /\ textsRead pf acts start = heard ++ rest /\
      flat_map said H = flat_map aboutTime (readings pf heard) /\ (w_jobs w = [] -> rest = []).
  Proof.
    intros pf acts cfg ops tab nMax depth verb nB maxC wired w Hc start R.
    assert (I : winv pf [] [] start) by (exists [], []; split; [split; [now apply lv_start|intros z []]|auto]).
    destruct (winv_run pf [] acts [] start w I R) as (H & heard & (Lv & _) & F & T). exists H, heard, (flat_map jobTexts (w_jobs w)). split; auto. split; auto. split; auto. now intros ->.
  Qed.
