(** Where answers come from, and which questions are answered. *)
From Coq Require Import String Ascii ZArith Bool Lia List Permutation Sorted.
From Verif Require Import Base F64_Model Term_Model Term_Spec Unify_Spec Stamp_Model Tv_Model Sentence_Model Mem_Model Mem_Spec Mem_Proofs PMem_Model Goal_Model Goal_Spec Run_Proofs Cycle_Model Cycle_Spec Cycle_Proofs Select_Proofs
  Sched_Model Sched_Spec Sched_Proofs Proc_Model Proc_Spec
  ProcS_Model ProcX_Model Parser_Model Nar_Model Nar_Proofs Nar2_Proofs Whole_Model Whole_Spec Whole_Proofs Whole2_Proofs Whole3_Proofs Hear_Spec Hear_Proofs Live_Spec Live_Proofs LiveW_Spec Live2_Proofs Answer_Spec.
Import ListNotations.
Local Open Scope list_scope.
Local Open Scope Z_scope.

(** [s] is in some table of [m] *)
Definition tabled (m : mem) (s : sentence) : Prop := exists t c, In (t, c) m /\ (In s (byExp c) \/ In s (byUsage c)).
(** the questions that wait *)
Definition waits (st : sys) (q : term) : Prop := exists q0, In q0 (questions (y_sh st)) /\ s_term (q_s q0) = q.

Lemma tryQ_from : forall c qs qs' ans q s, qaTryQuestions qs c = Ok (qs', ans) -> In (q, s) ans -> s = c /\ exists q0, In q0 qs /\ s_term (q_s q0) = q.
Proof.
  intros c qs qs' ans q s H Hx. unfold qaTryQuestions in H.
  assert (Gn : forall qs qacc acc, rfold (fun st q => do r <- qaTryAnswer q c; Ok (fst st ++ [fst r], snd st ++ snd r)) qs (qacc, acc) = Ok (qs', ans) ->
    In (q, s) acc \/ s = c /\ exists q0, In q0 qs /\ s_term (q_s q0) = q).
  { clear H qs. induction qs as [|q1 qs IH]; intros qacc acc H; cbn [rfold] in H; [injection H as <- <-; auto|].
    cbn [fst snd] in H. destruct (qaTryAnswer q1 c) as [[q2 a1]|] eqn:E; [|discriminate]. cbn [rbind fst snd] in H.
    apply qaTryAnswer_spec in E. destruct E as (_ & _ & _ & E). destruct (IH _ _ H) as [K|(K & q0 & K1 & K2)]; [|right; split; [auto|exists q0; split; [now right|auto]]].
    apply in_app_iff in K. destruct K as [K|K]; [auto|]. destruct E as [(-> & _)|(-> & _)]; [destruct K|]. destruct K as [K|[]]. injection K as <- <-. right. split; auto. exists q1. split; [now left|auto]. }
  destruct (Gn _ _ _ H) as [[]|K]. exact K.
Qed.
Lemma tryQ_keeps : forall c qs qs' ans, qaTryQuestions qs c = Ok (qs', ans) -> forall z, In z qs' -> exists q0, In q0 qs /\ q_s z = q_s q0.
Proof.
  intros c qs qs' ans H z Hz. unfold qaTryQuestions in H.
  assert (Gn : forall qs qacc acc, rfold (fun st q => do r <- qaTryAnswer q c; Ok (fst st ++ [fst r], snd st ++ snd r)) qs (qacc, acc) = Ok (qs', ans) ->
    In z qacc \/ exists q0, In q0 qs /\ q_s z = q_s q0).
  { clear H qs. induction qs as [|q1 qs IH]; intros qacc acc H; cbn [rfold] in H; [injection H as <- <-; auto|].
    cbn [fst snd] in H. destruct (qaTryAnswer q1 c) as [[q2 a1]|] eqn:E; [|discriminate]. cbn [rbind fst snd] in H.
    apply qaTryAnswer_spec in E. destruct E as (E & _). destruct (IH _ _ H) as [K|(q0 & K1 & K2)]; [|right; exists q0; split; [now right|auto]].
    apply in_app_iff in K. destruct K as [K|[<-|[]]]; [auto|]. right. exists q1. split; [now left|auto]. }
  destruct (Gn _ _ _ H) as [[]|K]. exact K.
Qed.
Lemma tryAll_tv : forall cs q q' ans x, qaTryAll q cs = Ok (q', ans) -> In x ans -> retTv (snd x) <> None.
Proof.
  intros cs q q' ans x H Hx. unfold qaTryAll in H.
  assert (G : forall cs q0 acc, rfold (fun st c => do r <- qaTryAnswer (fst st) c; Ok (fst r, snd st ++ snd r)) cs (q0, acc) = Ok (q', ans) -> In x acc \/ retTv (snd x) <> None).
  { clear H. induction cs0 as [|c cs0 IH]; intros q0 acc H; cbn [rfold] in H; [injection H as <- <-; auto|].
    cbn [fst snd] in H. destruct (qaTryAnswer q0 c) as [[q1 a1]|] eqn:E; [|discriminate]. cbn [rbind fst snd] in H.
    apply qaTryAnswer_spec in E. destruct E as (_ & _ & _ & C). destruct (IH _ _ H) as [K|K]; auto.
    apply in_app_iff in K. destruct K as [K|K]; auto. destruct C as [(-> & _)|(-> & _ & _ & (v & Ev & _) & _)]; [destruct K|]. destruct K as [<-|[]]. right. cbn. congruence. }
  destruct (G _ _ _ H) as [[]|K]. exact K.
Qed.

(** Answers come from derived judgements or, for questions about time, from the
    procedural memory. *)
Lemma exec_answers : forall G maxC n wN c st st', sysInv G maxC n st -> exec maxC wN c st = Ok (Some st') ->
  exists ans, y_log st' = y_log st ++ ans /\ forall q s, In (q, s) ans ->
    waits st q /\ (G s \/ isTemporal q = true /\ tabled (procMem (y_sh st)) s /\ retTv s <> None).
Proof.
  intros G maxC n wN c st st' I H. assert (Nil : forall l : list answer, exists ans, l = l ++ ans /\ forall q s, In (q, s) ans -> waits st q /\ (G s \/ isTemporal q = true /\ tabled (procMem (y_sh st)) s /\ retTv s <> None)).
  { intros l. exists []. split; [now rewrite app_nil_r|intros q s []]. }
  destruct c as [i o|i|]; cbn [exec] in H.
  - destruct (nth_error _ i) as [[| |]|]; try discriminate. destruct (opStart _ _ _) as [sh p]. injection H as <-. apply Nil.
  - destruct (nth_error _ i) as [p|]; [|discriminate]. destruct (cliStep p _ _) as [[[[[sh' qu'] ans] p']|]|] eqn:Es; cbn [rbind] in H; [|discriminate|discriminate]. injection H as <-. cbn [y_log].
    destruct p as [|x f|y p]; cbn [cliStep] in Es; [discriminate| |].
    + destruct (addStep _ _ _) as [[sh o]|]; [|discriminate]. cbn [rbind fst snd] in Es. injection Es as _ _ <- _. rewrite app_nil_r. apply Nil.
    + destruct (cycStep _ _ _ _) as [[[[[sh q1] an] o]|]|] eqn:E; cbn [rbind] in Es; try discriminate. injection Es as _ _ <- _.
      assert (Z : an = [] -> exists ans, y_log st ++ an = y_log st ++ ans /\ forall q s, In (q, s) ans -> waits st q /\ (G s \/ isTemporal q = true /\ tabled (procMem (y_sh st)) s /\ retTv s <> None)).
      { intros ->. rewrite app_nil_r. apply Nil. }
      destruct p as [| | |j [|t ts]| | |a [|t ts] acc|m|m| | | | |]; cbn [cycStep] in E; try (injection E as _ _ <- _; apply Z; reflexivity).
      * destruct (questions _); [injection E as _ _ <- _; apply Z; reflexivity|]. destruct (task2SelByCreditRandom _ _); [|discriminate]. cbn [rbind] in E. destruct (idx _ _); [|discriminate]. cbn [rbind] in E.
        injection E as _ _ <- _; apply Z; reflexivity.
      * destruct (idx (questions (y_sh st)) j) as [q0|] eqn:Iq; [|discriminate]. cbn [rbind] in E. set (m := if isTemporal _ then _ else _) in E.
        set (cs := match ret_beliefs_of_concept m t with Some l => l | None => [] end) in E. destruct (qaTryAll q0 cs) as [[q' a]|] eqn:Q; [|discriminate]. cbn [rbind fst snd] in E. injection E as _ _ <- _.
        exists a. split; [reflexivity|]. intros q s Ha. assert (Tv := tryAll_tv _ _ _ _ _ Q Ha). destruct (tryAll_from _ _ _ _ _ Q Ha) as (Ef & Hin). cbn [fst snd] in *. split.
        { exists q0. split; [|auto]. unfold idx in Iq. destruct (nth_error (questions (y_sh st)) j) eqn:N; [|discriminate]. injection Iq as ->. eapply nth_error_In; eauto. }
        unfold cs, ret_beliefs_of_concept in Hin. destruct (mget t m) as [cn|] eqn:Gm; [|destruct Hin]. apply mget_in in Gm. apply in_app_iff in Hin. unfold m in Gm. rewrite <- Ef in Gm.
        destruct (isTemporal q) eqn:Te; [right; split; auto; split; auto; exists t, cn; auto|].
        left. apply (ba_all _ _ _ _ (proj2 (si_mem _ _ _ _ _ _ (sy_sh _ _ _ _ I)) _ _ Gm)). auto.
      * destruct (idx _ _); [|discriminate]. cbn [rbind] in E. injection E as _ _ <- _; apply Z; reflexivity.
      * destruct (Nat.ltb _ _); [|discriminate]. injection E as _ _ <- _; apply Z; reflexivity.
      * destruct (limitTasks _ _); [|discriminate]. cbn [rbind] in E. injection E as _ _ <- _; apply Z; reflexivity.
      * destruct (maintainConcepts _); [|discriminate]. cbn [rbind] in E. injection E as _ _ <- _; apply Z; reflexivity.
  - destruct (workStep _ _ _ _ _) as [[[[[sh' qu'] ans] p']|]|] eqn:Es; cbn [rbind] in H; [|discriminate|discriminate]. injection H as <-. cbn [y_log].
    assert (W := sy_wk _ _ _ _ I).
    assert (Z : ans = [] -> exists ans0, y_log st ++ ans = y_log st ++ ans0 /\ forall q s, In (q, s) ans0 -> waits st q /\ (G s \/ isTemporal q = true /\ tabled (procMem (y_sh st)) s /\ retTv s <> None)).
    { intros ->. rewrite app_nil_r. apply Nil. }
    destruct (y_worker st) as [|m|m cs [|x todo]|m [|x cs]|m x f cs]; cbn [workStep] in Es; try (injection Es as _ _ <- _; apply Z; reflexivity).
    + destruct (y_queue st); [discriminate|]. injection Es as _ _ <- _; apply Z; reflexivity.
    + destruct (derive _ _); [|discriminate]. cbn [rbind] in Es. injection Es as _ _ <- _; apply Z; reflexivity.
    + destruct (punct_eqb _ _); [|injection Es as _ _ <- _; apply Z; reflexivity]. destruct (qaTryQuestions _ _) as [[qs' a]|] eqn:Q; [|discriminate]. cbn [rbind fst snd] in Es. injection Es as _ _ <- _.
      exists a. split; [reflexivity|]. intros q s Ha. destruct (tryQ_from _ _ _ _ _ _ Q Ha) as (-> & q0 & H1 & H2). split; [exists q0; auto|]. left. destruct W as (_ & W). inversion W; auto.
    + destruct (addStep _ _ _) as [[sh o]|]; [|discriminate]. cbn [rbind fst snd] in Es. injection Es as _ _ <- _; apply Z; reflexivity.
Qed.

(** * Only questions that were asked wait *)
Lemma derivable_punct : forall Inp s, derivable Inp s -> s_punct s = JUGEMENT.
Proof.
  intros Inp s D. induction D as [s K J|p c mir bias w V IH X1 X2 X3 X4 X5 X6 X7|a b c tr v Va IHa Vb IHb X1 X2 X3 X4 X5 X6 X7 X8|s b nb Vs IHs Vb IHb X1 X2]; auto.
  destruct X2 as (va & vs & _ & _ & _ & _ & _ & _ & -> & _). exact IHb.
Qed.
Lemma replace_in : forall A i (v z : A) l, In z (replace_at i v l) -> z = v \/ In z l.
Proof. intros A i v z l. revert i. induction l as [|x l IH]; intros [|i] H; cbn in *; auto; destruct H as [<-|H]; auto. apply IH in H. tauto. Qed.
Section Asked.
  Variable A : term -> Prop.
  Definition qOk (s : sentence) : Prop := s_punct s = QUESTION -> A (s_term s).
  Definition phA (f : phase) : Prop :=
    match f with FRevise _ r => forall nb, r = Some nb -> qOk nb | FStore => True | FCheck l | FPush _ l _ | FIndex _ l _ => Forall qOk l end.
  Definition cliA (p : cpc) : Prop := match p with CAdd x f => qOk (ar_s x) /\ phA f | _ => True end.
  Definition workA (p : wphase) : Prop :=
    match p with
    | WAnswer _ cs _ | Sched_Model.WAdd _ cs => Forall (fun c => qOk (fst c)) cs
    | WAdding _ x f cs => qOk (ar_s x) /\ phA f /\ Forall (fun c => qOk (fst c)) cs
    | _ => True
    end.
  Definition qsA (sh : shared) : Prop := forall q, In q (questions sh) -> A (s_term (q_s q)).
  Record qinv (st : sys) : Prop := mkQinv { qi_qs : qsA (y_sh st); qi_cl : Forall cliA (y_clients st); qi_wk : workA (y_worker st) }.
  Definition choiceA (c : choice) : Prop := match c with ChStart _ (OpAdd x) => qOk (ar_s x) | ChStart _ (OpAsk q) => A (s_term (q_s q)) | _ => True end.

  Lemma startA : forall maxC x f, startAdd maxC x = Some f -> phA f.
  Proof. intros maxC x f H. unfold startAdd in H. destruct (_ >? _); [discriminate|]. injection H as <-. cbn. discriminate. Qed.
  Lemma addA : forall x f sh sh' o, (forall t c b, In (t, c) (memory sh) -> In b (byExp c) \/ In b (byUsage c) -> s_punct b = JUGEMENT) ->
    qOk (ar_s x) -> phA f -> qsA sh -> addStep x f sh = Ok (sh', o) -> qsA sh' /\ forall f', o = Some f' -> phA f'.
  Proof.
    intros x f sh sh' o Mj Ox Pf Qs H. destruct f as [[|t ts] r| |[|s l]|s l a|s l a]; cbn [addStep] in H; cbn [phA] in Pf.
    - destruct r as [nb|]; injection H as <- <-; (split; [exact Qs|]); intros f' [= <-]; cbn; auto.
    - destruct (reviseConcept _ _ t) as [[[m r'] u]|] eqn:R; [|discriminate]. cbn [rbind] in H. injection H as <- <-. split; [exact Qs|]. intros f' [= <-]. cbn [phA]. intros nb E.
      apply reviseConcept_spec in R. destruct R as (_ & _ & _ & [(_ & _ & -> & _)|(c & e & x0 & oe & ox & Mg & Te & Tx & _ & Er & _)]); [now apply Pf|].
      apply mget_in in Mg. apply reviseTable_spec in Te. apply reviseTable_spec in Tx.
      assert (J : forall l l' z, replaced (ar_s x) l l' z -> (forall b, In b l -> s_punct b = JUGEMENT) -> qOk z).
      { intros l l' z Rp Hl Q. inversion Rp as [l1 b l2 nb0 _ _ (va & vs & _ & _ & _ & _ & _ & _ & Ep & _)]; subst. rewrite Ep, Hl in Q by (apply in_app_iff; right; now left). discriminate. }
      subst r'. destruct ox as [z|]; cbn [orElse] in E.
      { injection E as ->. destruct Tx as (Tx & _). apply (J _ _ _ Tx). intros b Hb. apply (Mj t c); auto. }
      destruct oe as [z|]; cbn [orElse] in E; [|now apply Pf]. injection E as ->. destruct Te as (Te & _). apply (J _ _ _ Te). intros b Hb. apply (Mj t c); auto.
    - destruct (storeInConcepts _ _ _ _ _); [|discriminate]. cbn [rbind] in H. injection H as <- <-. split; [exact Qs|]. intros f' [= <-]. cbn. auto.
    - injection H as <- <-. split; [exact Qs|discriminate].
    - inversion Pf as [|? ? P1 P2]; subst. destruct (s_punct s) eqn:Es.
      + destruct (taskExists sh s); injection H as <- <-; (split; [exact Qs|]); [discriminate|intros f' [= <-]; exact P2].
      + injection H as <- <-. split; [|intros f' [= <-]; exact P2]. intros q Hq. cbn in Hq. apply in_app_iff in Hq. destruct Hq as [Hq|[<-|[]]]; [now apply Qs|]. cbn. apply P1. exact Es.
      + injection H as <- <-. split; [exact Qs|intros f' [= <-]; exact P2].
    - injection H as <- <-. split; [exact Qs|intros f' [= <-]; exact Pf].
    - injection H as <- <-. split; [exact Qs|intros f' [= <-]; exact Pf].
  Qed.
  Lemma cycA : forall y p sh qu sh' qu' ans o, qsA sh -> cycStep y p sh qu = Ok (Some (sh', qu', ans, o)) -> qsA sh'.
  Proof.
    intros y p sh qu sh' qu' ans o Q H. destruct p as [| | |i [|t ts]| | |a [|t ts] acc|m|m| | | | |]; cbn [cycStep] in H; try (injection H as <- _ _ _; exact Q).
    - destruct (questions sh) eqn:Eq; [injection H as <- _ _ _; exact Q|]. destruct (task2SelByCreditRandom _ _); [|discriminate]. cbn [rbind] in H.
      destruct (idx _ _); [|discriminate]. cbn [rbind] in H. injection H as <- _ _ _; exact Q.
    - destruct (idx (questions sh) i) as [q|] eqn:Iq; [|discriminate]. cbn [rbind] in H. destruct (qaTryAll _ _) as [[q' a]|] eqn:T; [|discriminate]. cbn [rbind fst snd] in H. injection H as <- _ _ _.
      intros z Hz. cbn in Hz. apply replace_in in Hz. destruct Hz as [->|Hz]; [|now apply Q].
      apply (tryAll_ok (fun _ => True)) in T; [|auto]. destruct T as (_ & ->). apply Q. unfold idx in Iq. destruct (nth_error (questions sh) i) eqn:N; [|discriminate]. injection Iq as ->. eapply nth_error_In; eauto.
    - destruct (idx _ _); [|discriminate]. cbn [rbind] in H. injection H as <- _ _ _; exact Q.
    - destruct (length qu <? 4)%nat; [|discriminate]. injection H as <- _ _ _; exact Q.
    - unfold limitTasks in H. destruct (fsort_desc _ _); [|discriminate]. cbn [rbind] in H. injection H as <- _ _ _; exact Q.
    - unfold maintainConcepts in H. destruct (_ =? _); [|cbn [rbind] in H; injection H as <- _ _ _; exact Q].
      destruct (limitMemory _ _); [|discriminate]. cbn [rbind] in H. injection H as <- _ _ _; exact Q.
  Qed.
  (** what the beliefs and the conclusions of the worker are *)
  Definition judged (st : sys) : Prop :=
    (forall t c b, In (t, c) (memory (y_sh st)) -> In b (byExp c) \/ In b (byUsage c) -> s_punct b = JUGEMENT) /\
    match y_worker st with WAnswer _ cs _ => Forall (fun c => s_punct (fst c) = JUGEMENT) cs | _ => True end.
  Lemma sys_judged : forall (G : sentence -> Prop) maxC n st, (forall s, G s -> s_punct s = JUGEMENT) -> sysInv G maxC n st -> judged st.
  Proof.
    intros G maxC n st K I. split.
    - intros t c b Hc Hb. apply K, (ba_all _ _ _ _ (proj2 (si_mem _ _ _ _ _ _ (sy_sh _ _ _ _ I)) _ _ Hc)). exact Hb.
    - assert (W := sy_wk _ _ _ _ I). destruct (y_worker st); auto. destruct W as (W & _). eapply Forall_impl; [|exact W]. auto.
  Qed.
  Lemma Forall_repl : forall X (P : X -> Prop) i v l, Forall P l -> P v -> Forall P (replace_at i v l).
  Proof. intros X P i v l H Hv. apply Forall_forall. intros z Hz. apply replace_in in Hz. destruct Hz as [->|Hz]; auto. rewrite Forall_forall in H. auto. Qed.
  Lemma execA : forall maxC wN c st st', judged st -> judged st' -> qinv st -> choiceA c -> exec maxC wN c st = Ok (Some st') -> qinv st'.
  Proof.
    intros maxC wN c st st' (Jm & Jw) J' [Qs Qc Qw] Ca H. destruct c as [i o|i|]; cbn [exec] in H.
    - destruct (nth_error _ i) as [[| |]|]; try discriminate. destruct o as [x|q| |y]; cbn [opStart choiceA] in *; injection H as <-; constructor; cbn; auto; try (apply Forall_repl; auto; exact I).
      + apply Forall_repl; auto. destruct (startAdd maxC x) eqn:E; [|exact I]. split; auto. eapply startA; eauto.
      + intros z Hz. cbn in Hz. apply in_app_iff in Hz. destruct Hz as [Hz|[<-|[]]]; auto.
    - destruct (nth_error _ i) as [p|] eqn:N; [|discriminate]. destruct (cliStep p _ _) as [[[[[sh' qu'] ans] p']|]|] eqn:Es; cbn [rbind] in H; [|discriminate|discriminate]. injection H as <-.
      assert (Cp : cliA p) by (rewrite Forall_forall in Qc; apply Qc; eapply nth_error_In; eauto).
      destruct p as [|x f|y p]; cbn [cliStep] in Es; [discriminate| |].
      + destruct (addStep _ _ _) as [[sh o]|] eqn:E; [|discriminate]. cbn [rbind fst snd] in Es. injection Es as <- _ _ <-. destruct Cp as (C1 & C2).
        destruct (addA x f _ sh o Jm C1 C2 Qs E) as (K1 & K2). constructor; cbn; auto. apply Forall_repl; auto. destruct o; [split; auto|exact I].
      + destruct (cycStep _ _ _ _) as [[[[[sh q1] an] o]|]|] eqn:E; cbn [rbind] in Es; try discriminate. injection Es as <- _ _ <-.
        constructor; cbn; auto; [eapply cycA; eauto|]. apply Forall_repl; auto. destruct o; exact I.
    - destruct (workStep _ _ _ _ _) as [[[[[sh' qu'] ans] p']|]|] eqn:Es; cbn [rbind] in H; [|discriminate|discriminate]. injection H as <-. destruct J' as (_ & J'). cbn [y_worker] in J'.
      destruct (y_worker st) as [|m|m cs [|x todo]|m [|x cs]|m x f cs]; cbn [workStep] in Es; cbn [workA] in Qw.
      + destruct (y_queue st); [discriminate|]. injection Es as <- _ _ <-. constructor; cbn; auto.
      + destruct (derive _ _) as [d|]; [|discriminate]. cbn [rbind] in Es. injection Es as <- _ _ <-. constructor; cbn; auto. eapply Forall_impl; [|exact J']. intros c E Q. cbn in E. congruence.
      + injection Es as <- _ _ <-. constructor; cbn; auto.
      + destruct (punct_eqb _ _); [|injection Es as <- _ _ <-; constructor; cbn; auto]. destruct (qaTryQuestions _ _) as [[qs' a]|] eqn:Q; [|discriminate]. cbn [rbind fst snd] in Es. injection Es as <- _ _ <-.
        constructor; cbn; auto. intros z Hz. cbn in Hz. destruct (tryQ_keeps _ _ _ _ Q z Hz) as (q0 & H1 & H2). rewrite H2. now apply Qs.
      + injection Es as <- _ _ <-. constructor; cbn; auto.
      + inversion Qw as [|? ? Q1 Q2]; subst. injection Es as <- _ _ <-. constructor; cbn; auto. destruct (startAdd maxC _) eqn:E; cbn; auto. split; auto. split; auto. eapply startA; eauto.
      + destruct Qw as (Q1 & Q2 & Q3). destruct (addStep _ _ _) as [[sh o]|] eqn:E; [|discriminate]. cbn [rbind fst snd] in Es. injection Es as <- _ _ <-.
        destruct (addA x f _ sh o Jm Q1 Q2 Qs E) as (K1 & K2). constructor; cbn; auto. destruct o; cbn; auto.
  Qed.
End Asked.

Lemma qinv_mono : forall (A B : term -> Prop) st, (forall q, A q -> B q) -> qinv A st -> qinv B st.
Proof.
  intros A B st K [Q C W].
  assert (O : forall s, qOk A s -> qOk B s) by (intros s H E; auto).
  assert (P : forall f, phA A f -> phA B f).
  { intros f. destruct f; cbn; auto; try (intros H; eapply Forall_impl; [|exact H]; auto). }
  constructor.
  - intros q Hq. auto.
  - eapply Forall_impl; [|exact C]. intros [|x f|]; cbn; auto. intros (H1 & H2). auto.
  - destruct (y_worker st); cbn in *; auto; try (eapply Forall_impl; [|exact W]; auto). destruct W as (W1 & W2 & W3). split; auto. split; auto. eapply Forall_impl; [|exact W3]; auto.
Qed.

(** what the procedural memory shows is one of its beliefs *)
Lemma tabled_cell : forall m s, tabled (viewMem m) s -> retTv s <> None -> In s (cells m).
Proof.
  intros m s (t & c & Hc & Hs) Tv. unfold viewMem in Hc. apply in_map_iff in Hc. destruct Hc as (e & Ee & _). injection Ee as _ <-. cbn [byExp byUsage] in Hs.
  assert (K : exists a, s = rd (cells m) a) by (destruct Hs as [Hs|Hs]; apply in_map_iff in Hs; destruct Hs as (a & <- & _); eauto). destruct K as (a & ->).
  destruct (Nat.lt_ge_cases a (length (cells m))) as [L|L]; [now apply nth_In|]. unfold rd in Tv. rewrite nth_overflow in Tv by auto. now destruct Tv.
Qed.

(** * The whole program *)
Section WholeAnswers.
  Variable pf : text -> option f64.
  Definition env (d : sys) (pm : mem) (sc : Z) (nu : nat) : sys :=
    withSh d (mkShared (heap (y_sh d)) (judg (y_sh d)) (byTerm (y_sh d)) (questions (y_sh d)) (memory (y_sh d)) pm sc (taskCtr (y_sh d)) (cycleCtr (y_sh d)) (usages (y_sh d)) nu).
  (** what happens to the declarative part in a step *)
  Definition declMove (texts : list text) (w w' : whole) : Prop :=
    (exists pm sc nu, w_decl w' = env (w_decl w) pm sc nu) \/
    exists sc nu c, exec (w_maxC w) (w_nB w) c (env (w_decl w) (viewMem (n_mem (y_nar (w_proc w)))) sc nu) = Ok (Some (w_decl w')) /\ choiceA (asked pf texts) c.
  Lemma env_self : forall d, d = env d (procMem (y_sh d)) (stampCtr (y_sh d)) (nextU (y_sh d)).
  Proof. intros [[] ? ? ? ?]. reflexivity. Qed.
  Lemma move_same : forall texts w w', w_decl w' = w_decl w -> declMove texts w w'.
  Proof. intros texts w w' E. left. rewrite E. eexists _, _, _. apply env_self. Qed.
  Lemma move_proc : forall texts w a w', procStep w a = Ok (Some w') -> declMove texts w w' /\ w_wired w' = w_wired w.
  Proof. intros texts w a w' H. apply proc_inv in H. destruct H as (p & _ & ->). split; [now apply move_same|reflexivity]. Qed.
  Lemma move_decl : forall texts w c w', w_wired w = true -> choiceA (asked pf texts) c -> declStep (w_maxC w) w c = Ok (Some w') -> declMove texts w w' /\ w_wired w' = w_wired w.
  Proof.
    intros texts w c w' Wd Hc H. apply decl_inv in H. destruct H as (d & Ed & ->). split; [|reflexivity]. right. unfold seen in Ed. rewrite Wd in Ed.
    exists (stampCtr (y_sh (w_decl w))), (nextU (y_sh (w_decl w))), c. split; auto.
  Qed.
  Lemma move_text : forall texts w i draws w', w_wired w = true -> startJob pf w (JText i draws) = Ok (Some w') -> declMove (texts ++ [i]) w w' /\ w_wired w' = w_wired w.
  Proof.
    intros texts w i draws w' Wd H. cbn [startJob] in H. destruct (parseNarsese pf i) as [r|] eqn:P; [|discriminate]. cbn [rbind] in H.
    destruct r as [[[[t v] p] ev]|]; [|injection H as <-; split; [now apply move_same|reflexivity]].
    unfold putIn, takeId in H. set (id := stampCtr (y_sh (w_decl w))) in *. set (u := nextU (y_sh (w_decl w))) in H.
    set (d := setNextU (Datatypes.S u) (setStampCtr (id + 1) (y_sh (w_decl w)))) in H. set (w1 := wDecl w (withSh (w_decl w) d)) in H.
    cbn zeta in H. set (s := newEternalSentenceByTv t p v (newStamp [id]) u) in H.
    destruct (if w_verb w1 >=? 1 then printSentence s else Ok tt); [|discriminate]. cbn [rbind] in H.
    assert (Pr : forall a, procStep w1 a = Ok (Some w') -> declMove (texts ++ [i]) w w' /\ w_wired w' = w_wired w).
    { intros a1 Ha. apply proc_inv in Ha. destruct Ha as (q & _ & ->). split; [|reflexivity]. left. exists (procMem (y_sh (w_decl w))), (id + 1), (Datatypes.S u). reflexivity. }
    assert (Nt : Ok (Some w1) = Ok (Some w') -> declMove (texts ++ [i]) w w' /\ w_wired w' = w_wired w).
    { intros E. injection E as <-. split; [|reflexivity]. left. exists (procMem (y_sh (w_decl w))), (id + 1), (Datatypes.S u). reflexivity. }
    assert (Ad : forall c, (p = QUESTION -> ev = true) -> declStep (w_maxC w1) w1 (ChStart 0 (OpAdd c)) = Ok (Some w') -> ar_s c = s -> declMove (texts ++ [i]) w w' /\ w_wired w' = w_wired w).
    { intros c Q Hd Es. apply decl_inv in Hd. destruct Hd as (d1 & Ed & ->). split; [|reflexivity]. right. unfold seen in Ed. change (w_wired w1) with (w_wired w) in Ed. rewrite Wd in Ed.
      exists (id + 1), (Datatypes.S u), (ChStart 0 (OpAdd c)). split; [exact Ed|]. cbn [choiceA]. rewrite Es. intros E. change (p = QUESTION) in E. exists v. rewrite readings_app. apply in_app_iff. right.
      unfold readings. cbn [flat_map]. rewrite P. rewrite (Q E), E. now left. }
    destruct ev; [|destruct (isTemporal t)]; destruct p; first [exact (Pr _ H) | exact (Nt H) | refine (Ad _ _ H eq_refl); first [reflexivity|discriminate]].
  Qed.
  Lemma move_job : forall texts w j w', w_wired w = true -> noRel j -> startJob pf w j = Ok (Some w') -> declMove (texts ++ jobTexts j) w w' /\ w_wired w' = w_wired w.
  Proof.
    intros texts w j w' Wd N H. destruct j as [i draws| |r|t args|e sel| |o|b| | |]; [now apply (move_text texts w i draws)|..]; cbn [jobTexts]; cbn [startJob] in H.
    - eapply move_proc; eauto.
    - destruct (nlpOf _ r) as [cs|] eqn:C; [|discriminate]. cbn [rbind] in H. destruct (procStep w (XStep1 true r)) as [[w1|]|] eqn:P; cbn [rbind] in H; try discriminate. injection H as <-.
      apply proc_inv in P. destruct P as (p & _ & ->). split; [now apply move_same|reflexivity].
    - contradiction.
    - destruct (move_decl (texts ++ []) (wTime w (w_time w + 1)) (ChStart 0 (OpCycle (mkCycArgs e sel (w_time w + 1)))) w' Wd I H) as (M & E). split; [exact M|exact E].
    - eapply move_decl; eauto. exact I.
    - destruct (w_proc w) as [n m c k] eqn:Ep. injection H as <-. split; [now apply move_same|reflexivity].
    - destruct (w_proc w) as [n m c k] eqn:Ep. injection H as <-. split; [now apply move_same|reflexivity].
    - destruct (debugEvidence _); [|discriminate]. injection H as <-. split; [now apply move_same|reflexivity].
    - destruct (debugTasks _); [|discriminate]. injection H as <-. split; [now apply move_same|reflexivity].
    - injection H as <-. split; [now apply move_same|reflexivity].
  Qed.
  Lemma move_step : forall texts a w w', hinv pf texts w -> w_wired w = true -> plainLine a -> wstep pf a w = Ok (Some w') ->
    exists more, hinv pf (texts ++ more) w' /\ more ++ flat_map jobTexts (w_jobs w') = flat_map jobTexts (w_jobs w) ++ typed a /\ declMove (texts ++ more) w w' /\ w_wired w' = true.
  Proof.
    intros texts a w w' I Wd P H. destruct (wstep_hear pf texts a w w' I P H) as (more0 & I0 & E0).
    assert (Nr : forall m, hinv pf (texts ++ m) w' -> m ++ flat_map jobTexts (w_jobs w') = flat_map jobTexts (w_jobs w) ++ typed a -> declMove (texts ++ m) w w' /\ w_wired w' = w_wired w ->
      exists more, hinv pf (texts ++ more) w' /\ more ++ flat_map jobTexts (w_jobs w') = flat_map jobTexts (w_jobs w) ++ typed a /\ declMove (texts ++ more) w w' /\ w_wired w' = true).
    { intros m K1 K2 (K3 & K4). exists m. rewrite K4. auto. }
    destruct a as [line r|rs| |draws]; cbn [wstep] in H.
    - apply (Nr more0 I0 E0). destruct (mainFree w); [|discriminate]. destruct (w_jobs w) eqn:J; [|discriminate H]. destruct (w_quit w); [discriminate H|].
      destruct (lineJobs line r) as [l|] eqn:E; [|discriminate]. cbn [rbind] in H. injection H as <-. split; [now apply move_same|reflexivity].
    - destruct (y_main (w_proc w)); try (apply (Nr more0 I0 E0); eapply move_proc; eauto; fail).
      destruct (y_clients (w_decl w)) as [|[| |] ?]; try (apply (Nr more0 I0 E0); exact (move_decl _ w (ChClient 0) w' Wd Logic.I H)).
      destruct (w_jobs w) as [|j jl] eqn:J; [discriminate H|]. assert (Jb := h_jobs _ _ _ I). rewrite J in Jb. inversion Jb; subst.
      destruct (job_hear pf texts (wJobs w jl) j w') as (K1 & K2); auto using hinv_jobs. apply (Nr (jobTexts j) K1).
      + rewrite K2. cbn [wJobs w_jobs flat_map typed]. now rewrite app_nil_r.
      + destruct (move_job texts (wJobs w jl) j w' Wd H2 H) as (M & E). split; [exact M|exact E].
    - apply (Nr more0 I0 E0). exact (move_decl _ w ChWorker w' Wd Logic.I H).
    - apply (Nr more0 I0 E0). eapply move_proc; eauto.
  Qed.

  (** [texts]: heard so far; [L]: the answers from the procedural memory *)
  Record ainv (texts : list text) (L : list sentence) (w : whole) : Prop := mkAinv {
    a_h : hinv pf texts w;
    a_w : winv pf L (texts ++ flat_map jobTexts (w_jobs w)) w;
    a_wired : w_wired w = true;
    a_q : qinv (asked pf texts) (w_decl w);
    a_log : forall q s, In (q, s) (y_log (w_decl w)) -> asked pf texts q /\ (derivable (evid pf texts) s \/ isTemporal q = true /\ In s L)
  }.
  Lemma asked_more : forall a b q, asked pf a q -> asked pf (a ++ b) q.
  Proof. intros a b q (v & H). exists v. rewrite readings_app. apply in_app_iff. auto. Qed.
  Lemma evid_more : forall a b s, derivable (evid pf a) s -> derivable (evid pf (a ++ b)) s.
  Proof. intros a b s. apply derivable_mono. intros x H J K. apply stated_more. auto. Qed.
  Lemma hear_sys : forall texts w, hinv pf texts w -> forall pm sc nu, sysInv (derivable (evid pf texts)) (w_maxC w) (w_nB w) (env (w_decl w) pm sc nu).
  Proof.
    intros texts w [A R _ _ _] pm sc nu.
    destruct (reach_inv (derivable (evid pf texts)) (w_maxC w) (w_nB w) (closed_derivable (evid pf texts)) (evid pf texts) (w_nB w) 1 (env (w_decl w) pm sc nu)
      (fun s H J => dv_input (evid pf texts) s H J) (conj A (Nat.le_refl _)) (env_sh _ _ _ _ _ pm sc nu R)) as (S & _). exact S.
  Qed.
  Lemma ainv_step : forall texts L act w w', ainv texts L w -> plainLine act -> wstep pf act w = Ok (Some w') ->
    exists more L', ainv (texts ++ more) L' w' /\ more ++ flat_map jobTexts (w_jobs w') = flat_map jobTexts (w_jobs w) ++ typed act.
  Proof.
    intros texts L act w w' [Hh Hw Wd Hq Hl] P H. destruct (move_step texts act w w' Hh Wd P H) as (more & Hh' & E & M & Wd').
    assert (Jd' : judged (w_decl w')).
    { rewrite (env_self (w_decl w')). eapply sys_judged; [|apply (hear_sys _ _ Hh')]. apply derivable_punct. }
    assert (Hq1 : forall pm sc nu, qinv (asked pf (texts ++ more)) (env (w_decl w) pm sc nu)).
    { intros pm sc nu. destruct (qinv_mono _ _ _ (asked_more texts more) Hq) as [Q1 Q2 Q3]. constructor; auto. }
    assert (Tx : (texts ++ more) ++ flat_map jobTexts (w_jobs w') = (texts ++ flat_map jobTexts (w_jobs w)) ++ typed act) by (rewrite <- !app_assoc; now f_equal).
    exists more. destruct M as [(pm & sc & nu & Ed)|(sc & nu & c & Ex & Ca)].
    - exists L. split; [|exact E]. constructor; auto.
      + rewrite Tx. eapply winv_step; eauto.
      + rewrite Ed. apply Hq1.
      + rewrite Ed. cbn [env withSh y_log]. intros q s Hs. destruct (Hl q s Hs) as (K1 & K2). split; [now apply asked_more|]. destruct K2 as [K2|K2]; [left; now apply evid_more|now right].
    - assert (Si := hear_sys _ _ Hh (viewMem (n_mem (y_nar (w_proc w)))) sc nu). destruct (exec_answers _ _ _ _ _ _ _ Si Ex) as (ans & El & Ka).
      assert (Cl : exists L2, (forall q s, In (q, s) ans -> derivable (evid pf texts) s \/ isTemporal q = true /\ In s L2) /\
        forall z, In z L2 -> tabled (viewMem (n_mem (y_nar (w_proc w)))) z /\ retTv z <> None).
      { clear El. induction ans as [|[q s] ans IH]; [exists []; split; [intros q s []|intros z []]|]. destruct IH as (L2 & K1 & K2); [intros; apply Ka; now right|].
        destruct (Ka q s (or_introl eq_refl)) as (_ & [D|(Tq & Tb & Tv)]).
        - exists L2. split; auto. intros q1 s1 [E1|H1]; [injection E1 as <- <-; now left|now apply K1].
        - exists (s :: L2). split; [|intros z [<-|Hz]; auto]. intros q1 s1 [E1|H1]; [injection E1 as <- <-; right; split; auto; now left|]. destruct (K1 _ _ H1) as [K|(K & K')]; auto. right. split; auto. now right. }
      destruct Cl as (L2 & C1 & C2). exists (L ++ L2). split; [|exact E]. constructor; auto.
      + rewrite Tx. eapply winv_step; [|exact H]. destruct Hw as (H0 & heard & (Lv & Kp) & F & T0). exists H0, heard. split; [|auto]. split; auto.
        intros z Hz. apply in_app_iff in Hz. destruct Hz as [Hz|Hz]; [now apply Kp|]. destruct (C2 z Hz) as (Tb & Tv). apply (li_cells _ _ (lived_inv _ _ Lv)). now apply tabled_cell.
      + eapply execA; [|exact Jd'|apply Hq1|exact Ca|exact Ex]. eapply sys_judged; [|exact Si]. apply derivable_punct.
      + rewrite El. cbn [env withSh y_log]. intros q s Hs. apply in_app_iff in Hs. destruct Hs as [Hs|Hs].
        * destruct (Hl q s Hs) as (K1 & K2). split; [now apply asked_more|]. destruct K2 as [K2|(K2 & K3)]; [left; now apply evid_more|]. right. split; auto. apply in_app_iff. auto.
        * destruct (Ka q s Hs) as ((q0 & Q1 & Q2) & _). split; [rewrite <- Q2; apply asked_more; apply (qi_qs _ _ Hq); exact Q1|].
          destruct (C1 q s Hs) as [K|(K & K')]; [left; now apply evid_more|]. right. split; auto. apply in_app_iff. auto.
  Qed.
  Lemma ainv_run : forall acts texts L w w', ainv texts L w -> Forall plainLine acts -> wrun pf acts w = Ok w' ->
    exists more L', ainv (texts ++ more) L' w' /\ more ++ flat_map jobTexts (w_jobs w') = flat_map jobTexts (w_jobs w) ++ textsRead pf acts w.
  Proof.
    induction acts as [|a acts IH]; intros texts L w w' I F H; cbn [wrun textsRead] in *.
    - injection H as <-. exists [], L. rewrite !app_nil_r. auto.
    - inversion F; subst. destruct (wstep pf a w) as [[w1|]|] eqn:E; [| |discriminate]; cbn [rbind] in H; [|eauto].
      destruct (ainv_step texts L a w w1) as (m1 & L1 & I1 & E1); auto. destruct (IH _ _ _ _ I1 H3 H) as (m2 & L2 & I2 & E2). exists (m1 ++ m2), L2. rewrite app_assoc. split; auto.
      rewrite <- app_assoc, E2, app_assoc, E1, app_assoc. reflexivity.
  Qed.
End WholeAnswers.
