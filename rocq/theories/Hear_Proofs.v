(** Whatever the whole program believes follows from what was typed. *)
From Coq Require Import String Ascii ZArith Bool Lia List.
From Verif Require Import Base F64_Model Term_Model Term_Spec Unify_Spec Stamp_Model Stamp_Proofs Tv_Model Sentence_Model Mem_Model Mem_Spec Cycle_Model Cycle_Spec Run_Proofs
  Sched_Model Sched_Spec Sched_Proofs PMem_Model Goal_Model Proc_Model Proc_Spec ProcA_Proofs ProcC_Proofs ProcS_Model ProcX_Model ProcX4_Proofs
  Parser_Model Nar_Model Nar2_Proofs Nar3_Proofs Whole_Model Whole_Spec Whole_Proofs Whole3_Proofs Hear_Spec.
Import ListNotations.
Local Open Scope list_scope.
Local Open Scope Z_scope.

(** * Evidence ids are taken by the main thread only *)
Lemma addStep_stamp : forall x f sh sh' o, addStep x f sh = Ok (sh', o) -> stampCtr sh' = stampCtr sh.
Proof.
  intros x f sh sh' o H. destruct f as [[|t ts] r| |[|s l]|s l a|s l a]; cbn [addStep] in H.
  - destruct r; injection H as <- _; reflexivity.
  - destruct (reviseConcept _ _ t) as [[[m r'] u]|]; [|discriminate]. cbn [rbind] in H. injection H as <- _. reflexivity.
  - destruct (storeInConcepts _ _ _ _ _); [|discriminate]. cbn [rbind] in H. injection H as <- _. reflexivity.
  - injection H as <- _. reflexivity.
  - destruct (s_punct s); [destruct (taskExists sh s)| |]; injection H as <- _; reflexivity.
  - injection H as <- _. reflexivity.
  - injection H as <- _. reflexivity.
Qed.
Lemma cycStep_stamp : forall y p sh qu sh' qu' ans o, cycStep y p sh qu = Ok (Some (sh', qu', ans, o)) -> stampCtr sh' = stampCtr sh.
Proof.
  intros y p sh qu sh' qu' ans o H. destruct p as [| | |i [|t ts]| | |a [|t ts] acc|m|m| | | | |]; cbn [cycStep] in H; try (injection H as <- _ _ _; reflexivity).
  - destruct (questions sh); [injection H as <- _ _ _; reflexivity|]. destruct (task2SelByCreditRandom _ _); [|discriminate]. cbn [rbind] in H.
    destruct (idx _ _); [|discriminate]. cbn [rbind] in H. injection H as <- _ _ _; reflexivity.
  - destruct (idx _ i); [|discriminate]. cbn [rbind] in H. destruct (qaTryAll _ _); [|discriminate]. cbn [rbind] in H. injection H as <- _ _ _; reflexivity.
  - destruct (idx _ _); [|discriminate]. cbn [rbind] in H. injection H as <- _ _ _; reflexivity.
  - destruct (length qu <? 4)%nat; [|discriminate]. injection H as <- _ _ _; reflexivity.
  - unfold limitTasks in H. destruct (fsort_desc _ _); [|discriminate]. cbn [rbind] in H. injection H as <- _ _ _; reflexivity.
  - unfold maintainConcepts in H. destruct (_ =? _); [|cbn [rbind] in H; injection H as <- _ _ _; reflexivity].
    destruct (limitMemory _ _); [|discriminate]. cbn [rbind] in H. injection H as <- _ _ _; reflexivity.
Qed.
Lemma exec_stamp : forall maxC n c st st', exec maxC n c st = Ok (Some st') -> stampCtr (y_sh st') = stampCtr (y_sh st).
Proof.
  intros maxC n c st st' H. destruct c as [i o|i|]; cbn [exec] in H.
  - destruct (nth_error _ i) as [[| |]|]; try discriminate. destruct (opStart _ _ _) as [sh p] eqn:E. injection H as <-. cbn [y_sh].
    destruct o; cbn [opStart] in E; injection E as <- _; reflexivity.
  - destruct (nth_error _ i) as [p|]; [|discriminate]. destruct (cliStep _ _ _) as [[[[[a b] c] d]|]|] eqn:E; cbn [rbind] in H; try discriminate. injection H as <-. cbn [y_sh].
    destruct p as [|x f|y p]; cbn [cliStep] in E; [discriminate| |].
    + destruct (addStep x f _) as [[sh o]|] eqn:A; [|discriminate]. cbn [rbind fst snd] in E. injection E as <- _ _ _. eapply addStep_stamp; eauto.
    + destruct (cycStep _ _ _ _) as [[[[[sh q] an] o]|]|] eqn:A; cbn [rbind] in E; try discriminate. injection E as <- _ _ _. eapply cycStep_stamp; eauto.
  - destruct (workStep _ _ _ _ _) as [[[[[a b] c] d]|]|] eqn:E; cbn [rbind] in H; try discriminate. injection H as <-. cbn [y_sh].
    destruct (y_worker st) as [|m|m cs [|x todo]|m [|x cs]|m x f cs]; cbn [workStep] in E; try (injection E as <- _ _ _; reflexivity).
    + destruct (y_queue st); [discriminate|]. injection E as <- _ _ _; reflexivity.
    + destruct (derive _ _); [|discriminate]. cbn [rbind] in E. injection E as <- _ _ _; reflexivity.
    + destruct (punct_eqb _ _); [|injection E as <- _ _ _; reflexivity]. destruct (qaTryQuestions _ _); [|discriminate]. cbn [rbind] in E. injection E as <- _ _ _; reflexivity.
    + destruct (addStep x f _) as [[sh o]|] eqn:A; [|discriminate]. cbn [rbind fst snd] in E. injection E as <- _ _ _. eapply addStep_stamp; eauto.
Qed.

(** * The texts of a line *)
Lemma bw_same : forall w i b, beginsWith w i = Ok b -> b = starts w i.
Proof.
  intros w i b H. unfold beginsWith, starts, text_eqb in *. destruct (Nat.leb_spec (length w) (length i)) as [L|L].
  - unfold prefix in H. destruct (nth_error i (length w)) as [c|] eqn:N.
    + destruct (isCont c); [discriminate|]. cbn [rbind] in H. injection H as <-. now destruct (list_eq_dec _ _ _).
    + apply nth_error_None in N. assert (E : length i = length w) by lia. rewrite E, Nat.eqb_refl in H. cbn [rbind] in H. injection H as <-. rewrite <- E, firstn_all. now destruct (list_eq_dec _ _ _).
  - injection H as <-. destruct (list_eq_dec _ _ _) as [E|]; [|reflexivity]. exfalso. apply (f_equal (@length ascii)) in E. rewrite firstn_length in E. lia.
Qed.
Definition noRel (j : job) : Prop := match j with JRel _ _ => False | JOp o => op_kind o <> OpNlpRel | _ => True end.
Definition noRelIn (i : text) (j : job) : Prop :=
  match j with JRel _ _ => False | JOp o => starts (tx "!por ") i = true /\ registered (words (skipn 5 i)) = Some o | _ => True end.
Lemma line_texts : forall line r l, lineJobs line r = Ok l -> flat_map jobTexts l = lineTexts (ln_net r) (trimNewline line) /\ Forall (noRelIn (trimNewline line)) l.
Proof.
  intros line r l H. unfold lineJobs in H. set (i := trimNewline line) in *. clearbody i. cbn zeta in H. unfold lineTexts. cbn [existsb].
  assert (B : forall w, (exists b, beginsWith w i = Ok b) -> beginsWith w i = Ok (starts w i)) by (intros w (b & E); rewrite E; f_equal; now apply bw_same).
  destruct (beginsWith (tx "//") i) as [b1|] eqn:B1; [|discriminate]. apply bw_same in B1. subst b1. cbn [rbind] in H.
  destruct (starts (tx "//") i) eqn:E1; [injection H as <-; auto|]. cbn [orb] in *.
  destruct (beginsWith (tx "!sp") i) as [b2|] eqn:B2; [|discriminate]. apply bw_same in B2. subst b2. cbn [rbind] in H.
  destruct (starts (tx "!sp") i) eqn:E2.
  { assert (E3 : starts (tx "!s") i = true).
    { clear B E1. unfold starts in *. destruct (list_eq_dec _ (firstn (length (tx "!sp")) i) _) as [E|]; [|discriminate]. destruct (list_eq_dec _ _ _) as [|E3]; [auto|]. exfalso. apply E3.
      change (length (tx "!s")) with 2%nat. change (length (tx "!sp")) with 3%nat in E. destruct i as [|a [|b i]]; try discriminate E. cbn in E. injection E as -> -> _. reflexivity. }
    rewrite E3. cbn [orb]. injection H as <-. split; [reflexivity|]. repeat constructor. }
  destruct (beginsWith (tx "!s") i) as [b3|] eqn:B3; [|discriminate]. apply bw_same in B3. subst b3. cbn [rbind] in H.
  destruct (starts (tx "!s") i) eqn:E3; cbn [orb] in *.
  { destruct (if Nat.ltb 2 (length i) then unwrap (parseI64 (skipn 2 i)) else Ok 1) as [k|]; [|discriminate]. cbn [rbind] in H. injection H as <-.
    generalize (List.rev (seq 0 (Z.to_nat k))). intros l. split; [induction l; auto|]. apply Forall_forall. intros j Hj. apply in_map_iff in Hj. destruct Hj as (x & <- & _). exact Logic.I. }
  rewrite (eqb_same i (tx "!dtf")), (eqb_same i (tx "!pse")), (eqb_same i (tx "!peb 0")), (eqb_same i (tx "!peb 1")), (eqb_same i (tx "!dt")), (eqb_same i (tx "!dmd")), (eqb_same i (tx "!QQ")), (eqb_same i []) in H.
  destruct (same (tx "!dtf") i) eqn:F1; cbn [orb] in *; [injection H as <-; split; [destruct (starts (tx "!por ") i); reflexivity|repeat constructor]|].
  destruct (beginsWith (tx "!por ") i) as [b4|] eqn:B4; [|discriminate]. apply bw_same in B4. subst b4. cbn [rbind] in H.
  destruct (starts (tx "!por ") i) eqn:E4; cbn [orb] in *.
  { injection H as <-. destruct (registered _) as [o|] eqn:Eo; split; auto. constructor; [|constructor]. cbn. auto. }
  destruct (same (tx "!pse") i) eqn:F2; cbn [orb] in *; [injection H as <-; split; [reflexivity|repeat constructor]|].
  destruct (same (tx "!peb 0") i) eqn:F3; cbn [orb] in *; [injection H as <-; split; [reflexivity|repeat constructor]|].
  destruct (same (tx "!peb 1") i) eqn:F4; cbn [orb] in *; [injection H as <-; split; [reflexivity|repeat constructor]|].
  destruct (if Nat.ltb 6 (length i) then beginsWith (tx "!.nlp ") i else Ok false) as [m|] eqn:Q; [|discriminate].
  assert (Nl : m = starts (tx "!.nlp ") i && negb (same i (tx "!.nlp "))).
  { unfold same. destruct (Nat.ltb_spec 6 (length i)) as [L|L].
    - apply bw_same in Q. subst m. destruct (list_eq_dec _ _ _) as [E|]; [rewrite E in L; cbn in L; lia|]. now rewrite andb_true_r.
    - injection Q as <-. destruct (starts (tx "!.nlp ") i) eqn:Q; auto. pose proof (starts_short _ _ Q) as L2. change (length (tx "!.nlp ")) with 6%nat in L2.
      rewrite (starts_all _ _ Q) by (cbn; lia). reflexivity. }
  cbn [rbind] in H. rewrite Nl in H.
  destruct (starts (tx "!.nlp ") i && negb (same i (tx "!.nlp "))) eqn:F5.
  - apply andb_true_iff in F5. destruct F5 as [F5 F6].
    assert (Ex : forall w, same w i = true -> starts (tx "!.nlp ") w = true) by (intros w; unfold same; destruct (list_eq_dec _ _ _) as [->|]; [auto|discriminate]).
    destruct (same (tx "!dt") i) eqn:G1; [specialize (Ex _ G1); discriminate Ex|].
    destruct (same (tx "!dmd") i) eqn:G2; [specialize (Ex _ G2); discriminate Ex|].
    destruct (same (tx "!QQ") i) eqn:G3; [specialize (Ex _ G3); discriminate Ex|].
    destruct (same (tx "") i) eqn:G4; [specialize (Ex _ G4); discriminate Ex|]. cbn [orb] in *.
    destruct (ln_net r (skipn 6 i)) as [ll|] eqn:Ln; [|discriminate]. cbn [rbind] in H. injection H as <-.
    generalize 0%nat. clear. induction ll as [|x l IH]; intros k; cbn [length seq combine map flat_map jobTexts snd app]; [auto|].
    destruct (IH (Datatypes.S k)) as [A B]. split; [now rewrite A|]. constructor; [exact Logic.I|auto].
  - destruct (same (tx "!dt") i) eqn:G1; cbn [orb] in *; [injection H as <-; split; [reflexivity|repeat constructor]|].
    destruct (same (tx "!dmd") i) eqn:G2; cbn [orb] in *; [injection H as <-; split; [reflexivity|repeat constructor]|].
    destruct (same (tx "!QQ") i) eqn:G3; cbn [orb] in *; [injection H as <-; split; [reflexivity|repeat constructor]|].
    change [] with (tx "") in H at 1. destruct (same (tx "") i) eqn:G4; cbn [orb] in *; injection H as <-; (split; [reflexivity|repeat constructor]).
Qed.
Lemma jobs_texts : forall line r l, lineJobs line r = Ok l -> plainLine (ARead line r) -> flat_map jobTexts l = lineTexts (ln_net r) (trimNewline line) /\ Forall noRel l.
Proof.
  intros line r l H P. destruct (line_texts _ _ _ H) as (A & B). split; auto. cbn [plainLine] in P. eapply Forall_impl; [|exact B].
  intros j. destruct j; cbn; auto. intros (E1 & E2). now apply P.
Qed.

(** * No calls of ^nlpRel0 *)
Lemma no_rel_calls : forall ops, (forall o, In o ops -> op_kind o <> OpNlpRel) -> forall fuel o args, In o ops -> nlpCalls fuel ops (op_kind o) args = [].
Proof.
  intros ops H. induction fuel as [|f IH]; intros o args Ho; [reflexivity|]. cbn [nlpCalls]. specialize (H o Ho). destruct (op_kind o); [reflexivity| |congruence].
  destruct args as [|a [|b [|c [|? ?]]]]; auto; destruct b; auto.
  match goal with |- flat_map _ ?l = [] => induction l as [|x l IHl]; cbn [flat_map]; auto end. rewrite IHl, app_nil_r.
  destruct (decodeOp x) as [[a0 name]|]; [|reflexivity]. destruct (ret_op_by_name ops name) as [o'|] eqn:R; [|reflexivity]. apply IH.
  apply ret_op_some in R. destruct R as (pre & post & E & _). rewrite E. apply in_elt.
Qed.
Lemma no_rel_step : forall n r l, (forall o, In o (n_ops n) -> op_kind o <> OpNlpRel) -> nlpOf n r = Ok l -> l = [].
Proof.
  intros n r l H E. unfold nlpOf in E. destruct (chosen n r) as [[n2 pk]|] eqn:Ch; [|discriminate]. cbn [rbind] in E. apply chosen_frame in Ch. destruct Ch as (F & _).
  destruct pk as [t|]; [|congruence]. destruct (decodeOp t) as [[a name]|]; [|discriminate]. cbn [unwrap rbind fst snd] in E. injection E as <-.
  destruct (ret_op_by_name (n_ops n2) name) as [o|] eqn:R; [|reflexivity]. apply no_rel_calls; [now rewrite F|].
  apply ret_op_some in R. destruct R as (pre & post & Eo & _). rewrite Eo. apply in_elt.
Qed.

(** * The invariant *)
Section Hear.
  Variable pf : text -> option f64.
  Lemma readings_app : forall a b, readings pf (a ++ b) = readings pf a ++ readings pf b.
  Proof. intros a b. unfold readings. now rewrite flat_map_app. Qed.
  Lemma stated_more : forall a b s, stated pf a s -> stated pf (a ++ b) s.
  Proof.
    intros a b s (k & v & E & R). exists k, v. split; auto. rewrite readings_app, nth_error_app1; auto. apply nth_error_Some. congruence.
  Qed.
  Definition evid (texts : list text) (s : sentence) : Prop := s_punct s = JUGEMENT -> stated pf texts s.
  Lemma reach_mono : forall (A B : choice -> Prop) maxC wN k st, (forall c, A c -> B c) -> reach A maxC wN k st -> reach B maxC wN k st.
  Proof. intros A B maxC wN k st H R. induction R; [apply re_start|eapply re_step; eauto|now apply re_env]. Qed.
  Lemma evid_mono : forall a b nB c, choiceOk (evid a) nB c -> choiceOk (evid (a ++ b)) nB c.
  Proof. intros a b nB [i [x|q| |y]|i|] H; cbn in *; auto. destruct H as (H & K). split; auto. intros J. apply stated_more. now apply H. Qed.
  (** [texts]: heard so far *)
  Record hinv (texts : list text) (w : whole) : Prop := mkHinv {
    h_nB : (1 <= w_nB w)%nat;
    h_reach : reach (choiceOk (evid texts) (w_nB w)) (w_maxC w) (w_nB w) 1 (w_decl w);
    h_ctr : stampCtr (y_sh (w_decl w)) = Z.of_nat (length (readings pf texts));
    h_ops : forall o, In o (n_ops (y_nar (w_proc w))) -> op_kind o <> OpNlpRel;
    h_jobs : Forall noRel (w_jobs w)
  }.
  Lemma env_sh : forall C maxC wN k d pm sc nu, reach C maxC wN k d ->
    reach C maxC wN k (withSh d (mkShared (heap (y_sh d)) (judg (y_sh d)) (byTerm (y_sh d)) (questions (y_sh d)) (memory (y_sh d)) pm sc (taskCtr (y_sh d)) (cycleCtr (y_sh d)) (usages (y_sh d)) nu)).
  Proof. intros C maxC wN k d pm sc nu R. apply (re_env C maxC wN k d (heap (y_sh d)) (usages (y_sh d)) pm sc nu R). split; auto. Qed.
  Lemma decl_hear : forall texts w c w', hinv texts w -> choiceOk (evid texts) (w_nB w) c -> declStep (w_maxC w) w c = Ok (Some w') -> hinv texts w' /\ w_jobs w' = w_jobs w.
  Proof.
    intros texts w c w' [A B C D E] Hc H. apply decl_inv in H. destruct H as (d & Ed & ->). split; [|reflexivity].
    assert (S : reach (choiceOk (evid texts) (w_nB w)) (w_maxC w) (w_nB w) 1 (seen w) /\ stampCtr (y_sh (seen w)) = stampCtr (y_sh (w_decl w))).
    { unfold seen. destruct (w_wired w); [|auto]. split; [|reflexivity]. apply env_sh. exact B. }
    destruct S as (S1 & S2). constructor; cbn [wDecl w_nB w_maxC w_decl w_proc w_jobs]; auto.
    - eapply re_step; eauto.
    - rewrite (exec_stamp _ _ _ _ _ Ed). congruence.
  Qed.
  Lemma proc_hear : forall texts w a w', hinv texts w -> procStep w a = Ok (Some w') -> hinv texts w' /\ w_jobs w' = w_jobs w.
  Proof.
    intros texts w a w' [A B C D E] H. apply proc_inv in H. destruct H as (p & Ep & ->). split; [|reflexivity].
    constructor; cbn [wProc w_nB w_maxC w_decl w_proc w_jobs]; auto. rewrite (act_ops _ _ _ _ Ep). exact D.
  Qed.
  Lemma text_hear : forall texts w i draws w', hinv texts w -> startJob pf w (JText i draws) = Ok (Some w') -> hinv (texts ++ [i]) w' /\ w_jobs w' = w_jobs w.
  Proof.
    intros texts w i draws w' [A B C D E] H. cbn [startJob] in H.
    destruct (parseNarsese pf i) as [r|] eqn:P; [|discriminate]. cbn [rbind] in H.
    assert (Rr : readings pf (texts ++ [i]) = readings pf texts ++ match r with Some x => [x] | None => [] end).
    { rewrite readings_app. f_equal. unfold readings. cbn [flat_map]. rewrite P. destruct r; reflexivity. }
    assert (Rm : reach (choiceOk (evid (texts ++ [i])) (w_nB w)) (w_maxC w) (w_nB w) 1 (w_decl w)) by (eapply reach_mono; [|exact B]; intros c; apply evid_mono).
    destruct r as [[[[t v] p] ev]|].
    2:{ injection H as <-. split; [|reflexivity]. constructor; auto. now rewrite Rr, app_nil_r. }
    unfold putIn, takeId in H. set (id := stampCtr (y_sh (w_decl w))) in *. set (u := nextU (y_sh (w_decl w))) in H.
    set (d := setNextU (Datatypes.S u) (setStampCtr (id + 1) (y_sh (w_decl w)))) in H. set (w1 := wDecl w (withSh (w_decl w) d)) in H.
    cbn zeta in H. set (s := newEternalSentenceByTv t p v (newStamp [id]) u) in H.
    destruct (if w_verb w1 >=? 1 then printSentence s else Ok tt); [|discriminate]. cbn [rbind] in H.
    assert (I1 : hinv (texts ++ [i]) w1).
    { constructor; auto.
      - apply env_sh. exact Rm.
      - change (id + 1 = Z.of_nat (length (readings pf (texts ++ [i])))). rewrite C, Rr, app_length. cbn. lia. }
    assert (Ad : (p = JUGEMENT -> ev = false /\ isTemporal t = false) -> choiceOk (evid (texts ++ [i])) (w_nB w1) (ChStart 0 (OpAdd (mkAddArgs s true f1 (w_nB w1) (n_t (y_nar (w_proc w1))))))).
    { intros J. cbn [choiceOk ar_s ar_n]. split; [|split; [exact A|auto]]. intros Pj. assert (p = JUGEMENT) by exact Pj. subst p. destruct (J eq_refl) as (-> & T).
      exists (length (readings pf texts)), v. rewrite Rr, nth_error_app2, Nat.sub_diag by auto. split; [reflexivity|]. split; [exact T|].
      split; [reflexivity|]. split; [reflexivity|]. split; [cbn; now rewrite C|]. split; reflexivity. }
    destruct ev; [|destruct (isTemporal t) eqn:T]; destruct p;
      try (eapply (decl_hear _ w1); [exact I1| |exact H]; apply Ad; intros Pj; try discriminate Pj; auto; fail);
      try (apply (proc_hear _ w1 _ w' I1 H)); injection H as <-; (split; [exact I1|reflexivity]).
  Qed.
  Lemma job_hear : forall texts w j w', hinv texts w -> noRel j -> startJob pf w j = Ok (Some w') -> hinv (texts ++ jobTexts j) w' /\ w_jobs w' = w_jobs w.
  Proof.
    intros texts w j w' I N H. destruct j as [i draws| |r|t args|e sel| |o|b| | |]; [eapply text_hear; eauto|..]; cbn [jobTexts]; rewrite ?app_nil_r; cbn [startJob] in H.
    - eapply proc_hear; eauto.
    - destruct (nlpOf _ r) as [cs|] eqn:C; [|discriminate]. cbn [rbind] in H. apply no_rel_step in C; [|apply I]. subst cs.
      destruct (procStep w (XStep1 true r)) as [[w1|]|] eqn:P; cbn [rbind] in H; try discriminate. injection H as <-. cbn [map app].
      destruct (proc_hear _ _ _ _ I P) as (A & B). split; [destruct w1; exact A|destruct w1; exact B].
    - contradiction.
    - assert (I' : hinv texts (wTime w (w_time w + 1))) by (destruct I; constructor; auto).
      apply (decl_hear _ (wTime w (w_time w + 1)) _ w' I') in H; [exact H|exact Logic.I].
    - eapply decl_hear; eauto. exact Logic.I.
    - destruct I as [A B C D E]. destruct (w_proc w) as [n m c k] eqn:Ep. injection H as <-. split; [|reflexivity]. constructor; auto. cbn. intros x Hx.
      apply in_app_iff in Hx. destruct Hx as [Hx|[<-|[]]]; [now apply D|exact N].
    - destruct I as [A B C D E]. destruct (w_proc w) as [n m c k] eqn:Ep. injection H as <-. split; [|reflexivity]. constructor; auto.
    - destruct (debugEvidence _); [|discriminate]. injection H as <-. auto.
    - destruct (debugTasks _); [|discriminate]. injection H as <-. auto.
    - injection H as <-. split; [|reflexivity]. destruct I; constructor; auto.
  Qed.
  Lemma hinv_jobs : forall texts w l, hinv texts w -> Forall noRel l -> hinv texts (wJobs w l).
  Proof. intros texts w l [A B C D E] F. constructor; auto. Qed.
  Lemma wstep_hear : forall texts a w w', hinv texts w -> plainLine a -> wstep pf a w = Ok (Some w') ->
    exists more, hinv (texts ++ more) w' /\ more ++ flat_map jobTexts (w_jobs w') = flat_map jobTexts (w_jobs w) ++ typed a.
  Proof.
    intros texts a w w' I P H.
    assert (Sm : forall x, hinv texts w' /\ w_jobs w' = w_jobs w -> typed x = [] -> exists more, hinv (texts ++ more) w' /\ more ++ flat_map jobTexts (w_jobs w') = flat_map jobTexts (w_jobs w) ++ typed x).
    { intros x (K & E) T. exists []. rewrite app_nil_r, T, app_nil_r, E. auto. }
    destruct a as [line r|rs| |draws]; cbn [wstep] in H.
    - destruct (mainFree w); [|discriminate]. destruct (w_jobs w) eqn:J; [|discriminate H]. destruct (w_quit w); [discriminate H|].
      destruct (lineJobs line r) as [l|] eqn:E; [|discriminate]. cbn [rbind] in H. injection H as <-. destruct (jobs_texts _ _ _ E P) as (T & N).
      exists []. rewrite app_nil_r. split; [now apply hinv_jobs|]. cbn [w_jobs wJobs flat_map app typed]. exact T.
    - destruct (y_main (w_proc w)); try (apply (Sm (AMain rs)); [apply (proc_hear texts w _ w' I H)|reflexivity]).
      destruct (y_clients (w_decl w)) as [|[| |] ?]; try (apply (Sm (AMain rs)); [apply (decl_hear texts w (ChClient 0) w' I Logic.I H)|reflexivity]).
      destruct (w_jobs w) as [|j jl] eqn:J; [discriminate H|]. assert (Jb := h_jobs _ _ I). rewrite J in Jb. inversion Jb; subst.
      destruct (job_hear texts (wJobs w jl) j w') as (K1 & K2); auto using hinv_jobs. exists (jobTexts j). split; auto. rewrite K2. cbn [wJobs w_jobs flat_map typed]. now rewrite app_nil_r.
    - apply (Sm ADerive); [apply (decl_hear texts w ChWorker w' I Logic.I H)|reflexivity].
    - apply (Sm (AStore draws)); [eapply proc_hear; eauto|reflexivity].
  Qed.
  Lemma wrun_hear : forall acts texts w w', hinv texts w -> Forall plainLine acts -> wrun pf acts w = Ok w' ->
    exists more, hinv (texts ++ more) w' /\ more ++ flat_map jobTexts (w_jobs w') = flat_map jobTexts (w_jobs w) ++ textsRead pf acts w.
  Proof.
    induction acts as [|a acts IH]; intros texts w w' I F H; cbn [wrun textsRead] in *.
    - injection H as <-. exists []. rewrite !app_nil_r. auto.
    - inversion F; subst. destruct (wstep pf a w) as [[w1|]|] eqn:E; [| |discriminate]; cbn [rbind] in H; [|eauto].
      destruct (wstep_hear texts a w w1) as (m1 & I1 & E1); auto. destruct (IH _ _ _ I1 H3 H) as (m2 & I2 & E2). exists (m1 ++ m2). rewrite app_assoc. split; auto.
      rewrite <- app_assoc, E2, app_assoc, E1, app_assoc. reflexivity.
  Qed.
  Lemma start_hear : forall p verb nB maxC wired, (1 <= nB)%nat -> (forall o, In o (n_ops p) -> op_kind o <> OpNlpRel) -> hinv [] (wholeMake p verb nB maxC wired).
  Proof. intros p verb nB maxC wired L H. constructor; auto; [apply re_start|constructor]. Qed.
  Lemma run_hear : forall acts p verb nB maxC wired w, (1 <= nB)%nat -> (forall o, In o (n_ops p) -> op_kind o <> OpNlpRel) -> Forall plainLine acts ->
    wrun pf acts (wholeMake p verb nB maxC wired) = Ok w ->
    exists heard, hinv heard w /\ textsRead pf acts (wholeMake p verb nB maxC wired) = heard ++ flat_map jobTexts (w_jobs w).
  Proof.
    intros acts p verb nB maxC wired w L O F H. destruct (wrun_hear acts [] _ _ (start_hear p verb nB maxC wired L O) F H) as (m & I & E). exists m. split; auto.
  Qed.
  (** no evidence but what was stated *)
  Lemma derivable_mono : forall (A B : sentence -> Prop) s, (forall x, A x -> s_punct x = JUGEMENT -> B x) -> derivable A s -> derivable B s.
  Proof.
    intros A B s H D. induction D as [s K J|p c mir bias w V IH X1 X2 X3 X4 X5 X6 X7|a b c tr v Va IHa Vb IHb X1 X2 X3 X4 X5 X6 X7 X8|s b nb Vs IHs Vb IHb X1 X2].
    - apply dv_input; auto.
    - exact (dv_single B p c mir bias w IH X1 X2 X3 X4 X5 X6 X7).
    - exact (dv_binary B a b c tr v IHa IHb X1 X2 X3 X4 X5 X6 X7 X8).
    - exact (dv_revise B s b nb IHs IHb X1 X2).
  Qed.
  Lemma evid_stated : forall texts more s, derivable (evid texts) s -> derivable (stated pf (texts ++ more)) s.
  Proof. intros texts more s. apply derivable_mono. intros x H J. apply stated_more. now apply H. Qed.
  Lemma derivable_ids : forall texts s i, derivable (stated pf texts) s -> In i (s_stamp s) ->
    exists k t v, i = Z.of_nat k /\ nth_error (readings pf texts) k = Some (t, v, JUGEMENT, false).
  Proof.
    intros texts s i V. revert i. induction V as [s G J|p c mir bias w V IH _ _ _ E _|a b c tr v Va IHa Vb IHb _ _ _ _ E _|s b nb Vs IHs Vb IHb _ I]; intros i Hi.
    - destruct G as (k & v & E & _ & _ & _ & St & _). rewrite St in Hi. destruct Hi as [<-|[]]. eauto.
    - rewrite E in Hi. auto.
    - rewrite E in Hi. apply merge_from in Hi. destruct Hi; auto.
    - destruct I as (va & vs & _ & _ & _ & St & _). rewrite St in Hi. apply merge_from in Hi. destruct Hi; auto.
  Qed.
End Hear.
