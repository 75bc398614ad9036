(** Questions are answered by what follows from the statements. *)
From Coq Require Import ZArith Bool Lia List Permutation Sorted Relations.
From Verif Require Import Base F64_Model Sort_Proofs Term_Model Term_Spec Term_Proofs Unify_Spec
  Stamp_Model Stamp_Proofs Tv_Model Sentence_Model Sentence_Proofs Infer_Model Infer_Spec Infer_Proofs Mem_Model Mem_Spec Mem_Proofs
  Cycle_Model Cycle_Spec Cycle_Proofs Select_Proofs Task_Proofs Run_Proofs Deriv_Proofs
  Sched_Model Sched_Spec Sched_Proofs Sched2_Proofs Sched3_Proofs Reply_Spec.
Import ListNotations.

(** * How questions change *)
(** either nothing new, or a better answer among [ans] *)
Definition qmore (ans : list answer) (q q' : task2) : Prop :=
  q_s q' = q_s q /\ (bestAnswerExp q' = bestAnswerExp q \/
    fltb (bestAnswerExp q) (bestAnswerExp q') = true /\
    exists c, In (s_term (q_s q), c) ans /\ s_punct c = JUGEMENT /\ instanceOf (s_term c) (s_term (q_s q)) /\ hasExp c (bestAnswerExp q')).
Definition qgrow (ans : list answer) (qs qs' : list task2) : Prop := forall i,
  (forall q, nth_error qs i = Some q -> exists q', nth_error qs' i = Some q' /\ qmore ans q q') /\
  (nth_error qs i = None -> forall q', nth_error qs' i = Some q' -> bestAnswerExp q' = f0).
Lemma qmore_refl : forall ans q, qmore ans q q.
Proof. intros. split; auto. Qed.
Lemma qmore_incl : forall a b q q', incl a b -> qmore a q q' -> qmore b q q'.
Proof. intros a b q q' I [E [B|(L & c & H)]]; split; auto. right. split; auto. exists c. destruct H as (H1 & H2). auto. Qed.
Lemma fltb_trans2 : forall a b c, fltb a b = true -> fltb b c = true -> fltb a c = true.
Proof. intros a b c H1 H2. eapply fltb_leb_trans; [exact H1|]. now apply fltb_leb. Qed.
Lemma qmore_trans : forall a b q1 q2 q3, qmore a q1 q2 -> qmore b q2 q3 -> qmore (a ++ b) q1 q3.
Proof.
  intros a b q1 q2 q3 [E1 B1] [E2 B2]. split; [congruence|]. destruct B2 as [B2|(L2 & c & I2 & J2 & N2 & X2)].
  - rewrite B2. destruct B1 as [B1|(L1 & c & I1 & J1)]; auto. right. split; auto. exists c. split; [apply in_or_app; auto|auto].
  - right. rewrite E1 in *. split; [|exists c; split; [apply in_or_app; auto|auto]].
    destruct B1 as [B1|(L1 & _)]; [now rewrite <- B1|]. eapply fltb_trans2; eauto.
Qed.
Lemma qgrow_refl : forall ans qs, qgrow ans qs qs.
Proof. intros ans qs i. split; [|congruence]. intros q H. exists q. split; auto using qmore_refl. Qed.
Lemma tryAnswer_more : forall q c q' ans, qaTryAnswer q c = Ok (q', ans) -> qmore ans q q'.
Proof.
  intros q c q' ans H. apply qaTryAnswer_spec in H. destruct H as (E & _ & _ & [(-> & -> & _)|(-> & P & I & X & L)]); [apply qmore_refl|].
  split; auto. right. split; auto. exists c. simpl. auto.
Qed.
Lemma tryAll_more : forall cs q q' ans, qaTryAll q cs = Ok (q', ans) -> qmore ans q q'.
Proof.
  intros cs. unfold qaTryAll. assert (G : forall cs q0 q acc q' ans, qmore acc q0 q ->
    rfold (fun st c => do r <- qaTryAnswer (fst st) c; Ok (fst r, snd st ++ snd r)) cs (q, acc) = Ok (q', ans) -> qmore ans q0 q').
  { clear. induction cs as [|c cs IH]; intros q0 q acc q' ans M H; cbn [rfold] in H; [injection H as <- <-; auto|].
    cbn [fst snd] in H. destruct (qaTryAnswer q c) as [[q1 a1]|] eqn:E; [|discriminate]. cbn [rbind fst snd] in H.
    eapply IH; [|exact H]. eapply qmore_trans; [exact M|]. eapply tryAnswer_more; eauto. }
  intros q q' ans H. eapply G; [apply qmore_refl|exact H].
Qed.
Lemma tryQuestions_grow : forall c qs qs' ans, qaTryQuestions qs c = Ok (qs', ans) -> qgrow ans qs qs' /\
  (forall i q' , nth_error qs' i = Some q' -> s_punct c = JUGEMENT -> instanceOf (s_term c) (s_term (q_s q')) -> forall e, hasExp c e -> fltb (bestAnswerExp q') e = false).
Proof.
  intros c qs qs' ans H. apply qaTryQuestions_spec in H. destruct H as (parts & L1 & L2 & -> & S). split.
  - intros i. split.
    + intros q Hq. destruct (S i q Hq) as (q' & a & N1 & N2 & T). exists q'. split; auto. eapply qmore_incl; [|eapply tryAnswer_more; eauto].
      intros x Hx. apply in_concat. exists a. split; auto. eapply nth_error_In; eauto.
    + intros N q' N'. apply nth_error_None in N. assert (i < length qs') by (apply nth_error_Some; congruence). lia.
  - intros i q' N' P I e X. assert (Hi : i < length qs) by (rewrite <- L2; apply nth_error_Some; congruence).
    destruct (nth_error qs i) as [q|] eqn:Nq; [|apply nth_error_None in Nq; lia]. destruct (S i q Nq) as (q2 & a & N1 & _ & T).
    assert (q2 = q') by congruence. subst q2. apply qaTryAnswer_spec in T. destruct T as (E & _ & _ & T). rewrite E in I.
    destruct X as (v & V & ->). destruct T as [(_ & -> & T)|(_ & _ & _ & (v2 & V2 & E2) & _)].
    + destruct (T P I) as (e & (v2 & V2 & ->) & F). congruence.
    + rewrite E2. replace v2 with v by congruence. apply fltb_irrefl.
Qed.

(** * The effect of a section *)
Definition idxGrow (bt bt' : list (term * list nat)) : Prop :=
  forall u l, mget u bt = Some l -> exists l2, mget u bt' = Some (l ++ l2).
Lemma idxGrow_refl : forall bt, idxGrow bt bt.
Proof. intros bt u l H. exists []. now rewrite app_nil_r. Qed.
Lemma idxGrow_trans : forall a b c, idxGrow a b -> idxGrow b c -> idxGrow a c.
Proof. intros a b c H1 H2 u l H. destruct (H1 u l H) as (l2 & E). destruct (H2 u _ E) as (l3 & E2). exists (l2 ++ l3). now rewrite app_assoc. Qed.
Lemma populate_grow : forall bt t a, idxGrow bt (populateTaskByTermLookup bt t a).
Proof.
  intros bt t a. unfold populateTaskByTermLookup. generalize (retSubterms t). intros us. revert bt. induction us as [|u us IH]; intros bt; cbn [fold_left]; [apply idxGrow_refl|].
  eapply idxGrow_trans; [|apply IH]. intros k l H.
  destruct (mget u bt) as [v|] eqn:E; rewrite mget_mset, term_clone_id; destruct (checkEqTerm u k) eqn:C.
  - apply checkEqTerm_eq in C. subst k. exists [a]. congruence.
  - exists []. now rewrite app_nil_r.
  - apply checkEqTerm_eq in C. subst k. congruence.
  - exists []. now rewrite app_nil_r.
Qed.
Lemma firstn_app_in : forall A n (l l2 : list A) b, In b (firstn n l) -> In b (firstn n (l ++ l2)).
Proof. intros A n l l2 b H. rewrite firstn_app. apply in_or_app. auto. Qed.

Lemma keepH_trans : forall a b c, keepH a b -> keepH b c -> keepH a c.
Proof. intros a b c [L1 S1] [L2 S2]. split; [lia|]. intros x Hx. rewrite S2 by lia. auto. Qed.
Lemma addStep_eff : forall x f sh sh' o, addStep x f sh = Ok (sh', o) ->
  keepH (heap sh) (heap sh') /\ idxGrow (byTerm sh) (byTerm sh') /\ qgrow [] (questions sh) (questions sh').
Proof.
  intros x f sh sh' o H. destruct f as [[|t ts] [nb|]| |[|s l]|s l a|s l a]; cbn [addStep] in H.
  all: try (injection H as <- <-; split; [apply keepH_refl|split; [apply idxGrow_refl|apply qgrow_refl]]; fail).
  - destruct (reviseConcept _ _ _) as [[[m r'] u]|]; [|discriminate]. cbn [rbind] in H. injection H as <- <-.
    split; [apply keepH_refl|split; [apply idxGrow_refl|apply qgrow_refl]].
  - destruct (reviseConcept _ _ _) as [[[m r'] u]|]; [|discriminate]. cbn [rbind] in H. injection H as <- <-.
    split; [apply keepH_refl|split; [apply idxGrow_refl|apply qgrow_refl]].
  - destruct (storeInConcepts _ _ _ _ _) as [m|]; [|discriminate]. cbn [rbind] in H. injection H as <- <-.
    split; [apply keepH_refl|split; [apply idxGrow_refl|apply qgrow_refl]].
  - destruct (s_punct s).
    + destruct (taskExists sh s); injection H as <- <-; [split; [apply keepH_refl|split; [apply idxGrow_refl|apply qgrow_refl]]|].
      split; [|split; [apply idxGrow_refl|apply qgrow_refl]]. simpl. split; [rewrite app_length; simpl; lia|].
      intros a Ha. unfold hget. now rewrite app_nth1.
    + injection H as <- <-. split; [apply keepH_refl|split; [apply idxGrow_refl|]]. simpl. intros i. split.
      * intros q Hq. exists q. split; [|apply qmore_refl]. rewrite nth_error_app1; auto. apply nth_error_Some. congruence.
      * intros N q' H. apply nth_error_None in N. rewrite nth_error_app2 in H by auto. destruct (i - length (questions sh)) as [|[|k]]; try discriminate.
        injection H as <-. reflexivity.
    + injection H as <- <-. split; [apply keepH_refl|split; [apply idxGrow_refl|apply qgrow_refl]].
  - injection H as <- <-. split; [apply keepH_refl|]. split; [apply populate_grow|apply qgrow_refl].
Qed.
(** the index is only rebuilt at the end of a cycle *)
Lemma cycStep_eff : forall y p sh qu sh' qu' ans o, cycStep y p sh qu = Ok (Some (sh', qu', ans, o)) ->
  keepH (heap sh) (heap sh') /\ (p <> YRebuild -> byTerm sh' = byTerm sh) /\ qgrow ans (questions sh) (questions sh').
Proof.
  intros y p sh qu sh' qu' ans o H.
  assert (Z0 : forall s1 : shared, sameTasks (heap sh) (heap s1) -> byTerm s1 = byTerm sh -> questions s1 = questions sh ->
    keepH (heap sh) (heap s1) /\ (p <> YRebuild -> byTerm s1 = byTerm sh) /\ qgrow [] (questions sh) (questions s1)).
  { intros s1 S B Q. split; [now apply keepH_same|]. split; auto. rewrite Q. apply qgrow_refl. }
  destruct p as [| | |i [|t ts]| | |a [|t ts] acc|m|m| | | | |]; cbn [cycStep] in H.
  - assert (K := transfer_same sh). assert (B : byTerm (transferCredits sh) = byTerm sh) by reflexivity. assert (Q : questions (transferCredits sh) = questions sh) by reflexivity.
    set (s1 := transferCredits sh) in *. clearbody s1. injection H as <- <- <- <-. auto.
  - assert (K := base_same sh). assert (B : byTerm (baseCredits sh) = byTerm sh) by reflexivity. assert (Q : questions (baseCredits sh) = questions sh) by reflexivity.
    set (s1 := baseCredits sh) in *. clearbody s1. injection H as <- <- <- <-. auto.
  - destruct (questions sh) as [|q0 qs0] eqn:Eq; [injection H as <- <- <- <-|].
    + rewrite <- Eq in *. apply Z0; auto using sameTasks_refl.
    + destruct (task2SelByCreditRandom _ _) as [i|]; [|discriminate]. cbn [rbind] in H. destruct (idx _ i) as [q|]; [|discriminate]. cbn [rbind] in H.
      injection H as <- <- <- <-. rewrite Eq. rewrite <- Eq in *. apply Z0; auto using sameTasks_refl.
  - injection H as <- <- <- <-. apply Z0; auto using sameTasks_refl.
  - unfold idx in H. destruct (nth_error (questions sh) i) as [q|] eqn:Ni; [|discriminate]. cbn [unwrap rbind] in H.
    destruct (qaTryAll q _) as [[q' a]|] eqn:E; [|discriminate]. cbn [rbind fst snd] in H. injection H as <- <- <- <-.
    split; [apply keepH_refl|]. split; auto. cbn [questions setQuestions]. apply tryAll_more in E. intros k. rewrite nth_error_replace. split.
    + intros q0 Hq. destruct (Nat.eqb i k) eqn:Ek; [|exists q0; split; auto using qmore_refl]. apply Nat.eqb_eq in Ek. subst k. rewrite Hq. exists q'.
      replace q0 with q by congruence. auto.
    + intros N q0 Hq. rewrite N in Hq. destruct (Nat.eqb i k); discriminate.
  - injection H as <- <- <- <-. apply Z0; auto using sameTasks_refl.
  - destruct (idx (judg sh) _) as [a|] eqn:E; [|discriminate]. cbn [rbind] in H. injection H as <- <- <- <-. apply Z0; auto using sameTasks_refl.
  - injection H as <- <- <- <-. apply Z0; auto using sameTasks_refl.
  - injection H as <- <- <- <-. apply Z0; auto using sameTasks_refl.
  - assert (K : heap (touchAll (Some m) (cy_now y) sh) = heap sh) by reflexivity. assert (B : byTerm (touchAll (Some m) (cy_now y) sh) = byTerm sh) by reflexivity.
    assert (Q : questions (touchAll (Some m) (cy_now y) sh) = questions sh) by reflexivity.
    set (s1 := touchAll _ _ sh) in *. clearbody s1. injection H as <- <- <- <-. apply Z0; auto. rewrite K. apply sameTasks_refl.
  - destruct (length qu <? 4); [|discriminate]. injection H as <- <- <- <-. apply Z0; auto using sameTasks_refl.
  - injection H as <- <- <- <-. apply Z0; auto using sameTasks_refl.
  - destruct (limitTasks (cy_exp y) sh) as [s1|] eqn:E; [|discriminate]. cbn [rbind] in H. injection H as <- <- <- <-.
    apply limitTasks_ok in E. destruct E as (kept & -> & _). apply Z0; auto using sameTasks_refl.
  - injection H as <- <- <- <-. apply Z0; auto using sameTasks_refl.
  - assert (K : heap (rebuildIndex sh) = heap sh) by reflexivity. assert (Q : questions (rebuildIndex sh) = questions sh) by reflexivity.
    set (s1 := rebuildIndex sh) in *. clearbody s1. injection H as <- <- <- <-. rewrite K, Q. split; [apply keepH_refl|]. split; [congruence|apply qgrow_refl].
  - destruct (maintainConcepts sh) as [s1|] eqn:E; [|discriminate]. cbn [rbind] in H. injection H as <- <- <- <-.
    unfold maintainConcepts in E. destruct (_ =? _)%Z; [|injection E as <-; apply Z0; auto using sameTasks_refl].
    destruct (limitMemory _ _); [|discriminate]. cbn [rbind] in E. injection E as <-. apply Z0; auto using sameTasks_refl.
Qed.
Lemma workStep_eff : forall maxC n p sh qu sh' qu' ans p', workStep maxC n p sh qu = Ok (Some (sh', qu', ans, p')) ->
  keepH (heap sh) (heap sh') /\ idxGrow (byTerm sh) (byTerm sh') /\ qgrow ans (questions sh) (questions sh').
Proof.
  intros maxC n p sh qu sh' qu' ans p' H. destruct p as [|m|m cs [|c todo]|m [|c cs]|m x f cs]; cbn [workStep] in H.
  - destruct qu as [|m qu]; [discriminate|]. injection H as <- <- <- <-. split; [apply keepH_refl|split; [apply idxGrow_refl|apply qgrow_refl]].
  - destruct (derive sh m) as [d|]; [|discriminate]. cbn [rbind] in H. injection H as <- <- <- <-. split; [apply keepH_refl|split; [apply idxGrow_refl|apply qgrow_refl]].
  - injection H as <- <- <- <-. split; [apply keepH_refl|split; [apply idxGrow_refl|apply qgrow_refl]].
  - destruct (punct_eqb (s_punct c) JUGEMENT); [|injection H as <- <- <- <-; split; [apply keepH_refl|split; [apply idxGrow_refl|apply qgrow_refl]]].
    destruct (qaTryQuestions (questions sh) c) as [[qs a]|] eqn:E; [|discriminate]. cbn [rbind fst snd] in H. injection H as <- <- <- <-.
    split; [apply keepH_refl|]. split; [apply idxGrow_refl|]. apply (tryQuestions_grow _ _ _ _ E).
  - injection H as <- <- <- <-. split; [apply keepH_refl|split; [apply idxGrow_refl|apply qgrow_refl]].
  - injection H as <- <- <- <-. split; [apply keepH_refl|split; [apply idxGrow_refl|apply qgrow_refl]].
  - destruct (addStep x f sh) as [[sh1 o]|] eqn:E; [|discriminate]. cbn [rbind fst snd] in H. injection H as <- <- <- <-. apply (addStep_eff _ _ _ _ _ E).
Qed.

(** * The effect of a move *)
Lemma qgrow_add : forall q qs, bestAnswerExp q = f0 -> qgrow [] qs (qs ++ [q]).
Proof.
  intros q qs B i. split.
  - intros z Hz. exists z. split; [|apply qmore_refl]. rewrite nth_error_app1; auto. apply nth_error_Some. congruence.
  - intros N z H. apply nth_error_None in N. rewrite nth_error_app2 in H by auto. destruct (i - length qs) as [|[|k]]; try discriminate. simpl in H. congruence.
Qed.
Lemma exec_eff : forall maxC wN nB j c st st', exec maxC wN c st = Ok (Some st') -> Forall (fair nB j) (begun c) -> exists ans,
  y_log st' = y_log st ++ ans /\ keepH (heap (y_sh st)) (heap (y_sh st')) /\ qgrow ans (questions (y_sh st)) (questions (y_sh st')) /\
  ((forall i, c <> ChStart i OpFlush) -> (forall i y, c = ChClient i -> nth_error (y_clients st) i <> Some (CCycle y YRebuild)) ->
   idxGrow (byTerm (y_sh st)) (byTerm (y_sh st'))).
Proof.
  intros maxC wN nB j c st st' H F. destruct c as [i o|i|]; cbn [exec] in H.
  - destruct (nth_error (y_clients st) i) as [[|x f|y p]|]; try discriminate. destruct (opStart maxC o (y_sh st)) as [sh p] eqn:E. injection H as <-. cbn [y_log y_sh].
    exists []. rewrite app_nil_r. split; [auto|]. inversion F as [|? ? F1 _]; subst. unfold fair in F1. cbn [fst snd] in F1.
    destruct o as [x|q| |y]; cbn [opStart] in E; injection E as <- <-.
    + split; [apply keepH_refl|]. split; [apply qgrow_refl|]. intros; apply idxGrow_refl.
    + split; [apply keepH_refl|]. split; [now apply qgrow_add|]. intros; apply idxGrow_refl.
    + split; [apply keepH_refl|]. split; [apply qgrow_refl|]. intros K. now destruct (K i).
    + split; [apply keepH_refl|]. split; [apply qgrow_refl|]. intros; apply idxGrow_refl.
  - destruct (nth_error (y_clients st) i) as [p|] eqn:Ni; [|discriminate]. destruct (cliStep p (y_sh st) (y_queue st)) as [[[[[sh qu] ans] p']|]|] eqn:E; try discriminate.
    cbn [rbind] in H. injection H as <-. cbn [y_log y_sh]. exists ans. split; auto. destruct p as [|x f|y p]; cbn [cliStep] in E; [discriminate| |].
    + destruct (addStep x f (y_sh st)) as [[sh1 o]|] eqn:E1; [|discriminate]. cbn [rbind fst snd] in E. injection E as <- <- <- <-.
      apply addStep_eff in E1. destruct E1 as (A & B & C). auto.
    + destruct (cycStep y p (y_sh st) (y_queue st)) as [[[[[sh1 qu1] ans1] o]|]|] eqn:E1; try discriminate. cbn [rbind] in E. injection E as <- <- <- <-.
      apply cycStep_eff in E1. destruct E1 as (A & B & C). split; [auto|]. split; [auto|]. intros _ K. rewrite B; [apply idxGrow_refl|]. intros ->. now apply (K i y).
  - destruct (workStep maxC wN (y_worker st) (y_sh st) (y_queue st)) as [[[[[sh qu] ans] p']|]|] eqn:E; try discriminate.
    cbn [rbind] in H. injection H as <-. cbn [y_log y_sh]. exists ans. split; auto. apply workStep_eff in E. destruct E as (A & B & C). auto.
Qed.

(** the best answer of each question was reported *)
Definition logInv (st : sys) : Prop := forall q, In q (questions (y_sh st)) -> fltb f0 (bestAnswerExp q) = true ->
  exists c, In (s_term (q_s q), c) (y_log st) /\ s_punct c = JUGEMENT /\ instanceOf (s_term c) (s_term (q_s q)) /\ hasExp c (bestAnswerExp q).
Lemma logInv_step : forall qs qs' log ans, qgrow ans qs qs' ->
  (forall q, In q qs -> fltb f0 (bestAnswerExp q) = true -> exists c, In (s_term (q_s q), c) log /\ s_punct c = JUGEMENT /\ instanceOf (s_term c) (s_term (q_s q)) /\ hasExp c (bestAnswerExp q)) ->
  forall q, In q qs' -> fltb f0 (bestAnswerExp q) = true -> exists c, In (s_term (q_s q), c) (log ++ ans) /\ s_punct c = JUGEMENT /\ instanceOf (s_term c) (s_term (q_s q)) /\ hasExp c (bestAnswerExp q).
Proof.
  intros qs qs' log ans G L q Hq P. apply In_nth_error in Hq. destruct Hq as (i & Hi). destruct (G i) as [G1 G2].
  destruct (nth_error qs i) as [q0|] eqn:N0.
  - destruct (G1 q0 eq_refl) as (q1 & H1 & [E B]). assert (q1 = q) by congruence. subst q1. rewrite E.
    destruct B as [B|(_ & c & I & R)]; [|exists c; split; [apply in_or_app; auto|exact R]].
    rewrite B in *. destruct (L q0 (nth_error_In _ _ N0) P) as (c & I & R). exists c. split; [apply in_or_app; auto|exact R].
  - rewrite (G2 eq_refl q Hi) in P. discriminate.
Qed.
Lemma path_log : forall maxC wN nB j ops st st', spath maxC wN ops st st' -> Forall (fair nB j) ops -> logInv st -> logInv st'.
Proof.
  intros maxC wN nB j ops st st' P. induction P as [st|ops st st1 c st2 P IH E|ops st st1 h us pm sc nu P IH S]; intros F L; auto.
  apply Forall_app in F. destruct F as [F1 F2]. specialize (IH F1 L). destruct (exec_eff _ _ _ _ _ _ _ E F2) as (ans & El & _ & G & _).
  intros q Hq K. rewrite El. eapply logInv_step; eauto.
Qed.
Definition numInv (st : sys) : Prop := forall q, In q (questions (y_sh st)) -> fis_nan (bestAnswerExp q) = false.
Lemma path_num : forall maxC wN nB j ops st st', spath maxC wN ops st st' -> Forall (fair nB j) ops -> numInv st -> numInv st'.
Proof.
  intros maxC wN nB j ops st st' P. induction P as [st|ops st st1 c st2 P IH E|ops st st1 h us pm sc nu P IH S]; intros F L; auto.
  apply Forall_app in F. destruct F as [F1 F2]. specialize (IH F1 L). destruct (exec_eff _ _ _ _ _ _ _ E F2) as (ans & El & _ & G & _).
  intros q Hq. apply In_nth_error in Hq. destruct Hq as (i & Hi). destruct (G i) as [G1 G2].
  destruct (nth_error (questions (y_sh st1)) i) as [q0|] eqn:N0; [|now rewrite (G2 eq_refl q Hi)].
  destruct (G1 q0 eq_refl) as (q1 & H1 & [_ B]). assert (q1 = q) by congruence. subst q1.
  destruct B as [B|(B & _)]; [rewrite B; apply IH; eapply nth_error_In; eauto|apply (fltb_nan_l _ _ B)].
Qed.
Lemma num_start : forall k, numInv (sysMake k).
Proof. intros k q []. Qed.
Lemma log_start : forall k, logInv (sysMake k).
Proof. intros k q []. Qed.
Lemma told_by : forall st i q e, logInv st -> nth_error (questions (y_sh st)) i = Some q -> fltb (bestAnswerExp q) e = false -> fltb f0 e = true ->
  fis_nan (bestAnswerExp q) = false -> told st (s_term (q_s q)) e.
Proof.
  intros st i q e L N B P V. destruct (fltb_nan_l _ _ P) as [V0 Ve].
  assert (B' : fleb e (bestAnswerExp q) = true) by (rewrite fleb_not_lt by auto; now rewrite B).
  destruct (L q (nth_error_In _ _ N)) as (c & I & J & U & X); [eapply fltb_leb_trans; eauto|].
  exists c, (bestAnswerExp q). auto.
Qed.

(** * Paths and invariants *)
Lemma path_trans : forall maxC wN ops2 st1 st2, spath maxC wN ops2 st1 st2 -> forall ops1 st, spath maxC wN ops1 st st1 -> spath maxC wN (ops1 ++ ops2) st st2.
Proof.
  intros maxC wN ops2 st1 st2 P. induction P as [st1|ops st1 st2 c st3 P IH E|ops st1 st2 h us pm sc nu P IH S]; intros ops1 st P1.
  - now rewrite app_nil_r.
  - rewrite app_assoc. econstructor; eauto.
  - econstructor; eauto.
Qed.
Definition fairC (nB j : nat) (c : choice) : Prop := choiceOk (fun _ => True) nB c /\ oneCycler j c.
Lemma fair_C : forall nB j c, Forall (fair nB j) (begun c) -> fairC nB j c.
Proof.
  intros nB j [i o|i|] F; [|repeat split; auto|repeat split; auto]. inversion F as [|? ? F1 _]; subst. unfold fair in F1. cbn [fst snd] in F1.
  destruct o; (split; [|]); simpl; auto.
Qed.
Lemma path_reach : forall maxC wN nB j k ops st st', spath maxC wN ops st st' -> Forall (fair nB j) ops -> reach (fairC nB j) maxC wN k st -> reach (fairC nB j) maxC wN k st'.
Proof.
  intros maxC wN nB j k ops st st' P. induction P as [st|ops st st1 c st2 P IH E|ops st st1 h us pm sc nu P IH S]; intros F R; auto.
  - apply Forall_app in F. destruct F as [F1 F2]. econstructor; [now apply IH|apply fair_C; exact F2|exact E].
  - apply re_env; auto.
Qed.
Lemma reach_sub : forall (C D : choice -> Prop) maxC wN k st, (forall c, C c -> D c) -> reach C maxC wN k st -> reach D maxC wN k st.
Proof. intros C D maxC wN k st H R. induction R; [apply re_start|eapply re_step; eauto|apply re_env; auto]. Qed.
Lemma closed_all : closed (fun _ => True).
Proof. constructor; intros; auto; apply Forall_forall; auto. Qed.
Lemma reach_sys : forall maxC wN nB j k st, (1 <= wN <= nB) -> reach (fairC nB j) maxC wN k st ->
  sysInv (fun _ => True) maxC nB st /\ length (y_clients st) = k /\ cyclerInv j st.
Proof.
  intros maxC wN nB j k st HW R. destruct (reach_inv (fun _ => True) maxC nB closed_all (fun _ => True) wN k st (fun _ _ _ => I) HW) as [A B].
  - eapply reach_sub; [|exact R]. intros c [H _]. exact H.
  - split; auto. split; auto. eapply cycler_inv; [|exact R]. intros c [_ H]. exact H.
Qed.

(** * The deriver *)
Lemma derive_gives : forall sh m d t v, mapOk (memory sh) -> derive sh m = Ok d -> s_punct (tk_s (hget (heap sh) (primary m))) = JUGEMENT ->
  follows1 (tk_s (hget (heap sh) (primary m))) t v \/
  (exists b, partner sh m b /\ s_punct b = JUGEMENT /\ follows (tk_s (hget (heap sh) (primary m))) b t v) ->
  exists c, In c (map fst (fst d)) /\ s_term c = t /\ retTv c = Some v /\ s_punct c = JUGEMENT.
Proof.
  intros sh m d t v MO D Jp H. assert (J := derive_judg _ _ _ D). rewrite Forall_forall in J.
  destruct (derive_complete _ _ _ MO D) as [(u0 & cs0 & E0 & I0) DC]. set (p := tk_s (hget (heap sh) (primary m))) in *.
  destruct H as [(mir & bias & w & SC & TV & ->)|(b & Pb & Jb & NS & tr & SC & TV)].
  - destruct (single2_shape _ _ _ E0) as (l & EB & EM & F). rewrite Jp in EB.
    assert (IN : In (t, stTruth mir w, JUGEMENT, f_frac bias 10) l) by (apply (single_iff _ _ _ _ EB); split; auto; exists mir, bias, w; auto).
    apply (in_map (fun c => (fst (fst (fst c)), Some (snd (fst (fst c))), snd c))) in IN. rewrite <- EM in IN. apply in_map_iff in IN. destruct IN as (c & Ec & Hc).
    simpl in Ec. injection Ec as Et Ev _. exists (fst c). split; [apply in_map; auto|]. split; [auto|]. split; [exact Ev|]. apply J; auto.
  - destruct (DC b Pb) as (u & cs & ap & E & I). destruct (inference_shape _ _ _ _ _ E NS) as (l & EB & EM & F & _). rewrite Jp, Jb in EB.
    assert (IN : In (t, v, JUGEMENT) l) by (apply (proj1 (binary_iff _ _ _ _ _ _ _ _ EB)); split; eauto).
    apply (in_map (fun c => (fst (fst c), Some (snd (fst c))))) in IN. rewrite <- EM in IN. apply in_map_iff in IN. destruct IN as (c & Ec & Hc).
    simpl in Ec. injection Ec as Et Ev. exists (fst c). split; [apply in_map; auto|]. split; [auto|]. split; [exact Ev|]. apply J; auto.
Qed.

(** * One conclusion and one question *)
Section Stages.
  Variables (maxC : Z) (wN nB k j : nat) (a : nat) (sec : list nat) (p : sentence) (i : nat) (qs : sentence) (t : term) (v : tv).
  Hypothesis wide : 1 <= wN <= nB.
  Hypothesis inst : instanceOf t (s_term qs).
  Definition pending (st : sys) : Prop :=
    (exists z, nth_error (questions (y_sh st)) i = Some z /\ q_s z = qs) /\
    a < length (heap (y_sh st)) /\ tk_s (hget (heap (y_sh st)) a) = p /\
    (follows1 p t v \/ exists b, In b sec /\ b < length (heap (y_sh st)) /\ follows p (tk_s (hget (heap (y_sh st)) b)) t v).
  Definition msgFor (m : workMsg) : Prop := primary m = a /\ incl sec (secondary m).
  Definition sent (st : sys) : Prop := exists m, msgFor m /\ (In m (y_queue st) \/ y_worker st = WDerive m).
  Definition answering (st : sys) : Prop := exists m cs todo c, y_worker st = WAnswer m cs todo /\ In c todo /\ s_term c = t /\ retTv c = Some v /\ s_punct c = JUGEMENT.
  Definition settled (st : sys) : Prop := exists z, nth_error (questions (y_sh st)) i = Some z /\ fltb (bestAnswerExp z) (calcExp v) = false.
  Definition later (st : sys) : Prop := pending st /\ (sent st \/ answering st \/ settled st).

  Lemma pending_step : forall st st' ans, pending st -> keepH (heap (y_sh st)) (heap (y_sh st')) -> qgrow ans (questions (y_sh st)) (questions (y_sh st')) -> pending st'.
  Proof.
    intros st st' ans ((z & Hz & Ez) & Ha & Ep & F) [KL KS] G. split.
    - destruct (proj1 (G i) z Hz) as (z' & Hz' & [E _]). exists z'. split; auto. congruence.
    - split; [lia|]. split; [rewrite KS; auto|]. destruct F as [F|(b & Hb & Lb & F)]; auto. right. exists b. split; auto. split; [lia|]. now rewrite KS.
  Qed.
  Lemma settled_step : forall st st' ans, settled st -> qgrow ans (questions (y_sh st)) (questions (y_sh st')) -> settled st'.
  Proof.
    intros st st' ans (z & Hz & B) G. destruct (proj1 (G i) z Hz) as (z' & Hz' & [_ M]). exists z'. split; auto.
    destruct M as [M|(M & _)]; [congruence|]. destruct (fltb (bestAnswerExp z') (calcExp v)) eqn:K; auto.
    rewrite (fltb_trans2 _ _ _ M K) in B. discriminate.
  Qed.
  Lemma answering_step : forall st c st', (exists z, nth_error (questions (y_sh st)) i = Some z /\ q_s z = qs) -> answering st ->
    exec maxC wN c st = Ok (Some st') -> answering st' \/ settled st'.
  Proof.
    intros st c st' AS S H. destruct S as (m & cs & todo & c0 & W & I0 & Ht & Hv & Hj). destruct c as [i0 o|i0|]; cbn [exec] in H.
    + destruct (nth_error (y_clients st) i0) as [[|x f|y q]|]; try discriminate. destruct (opStart maxC o (y_sh st)) as [sh q]. injection H as <-. left. exists m, cs, todo, c0. auto.
    + destruct (nth_error (y_clients st) i0) as [q|]; [|discriminate]. destruct (cliStep q (y_sh st) (y_queue st)) as [[[[[sh qu] an] q']|]|] eqn:E; try discriminate.
      cbn [rbind] in H. injection H as <-. left. exists m, cs, todo, c0. auto.
    + rewrite W in H. cbn [workStep] in H. destruct todo as [|c1 todo]; [destruct I0|]. destruct I0 as [->|I0].
      * rewrite Hj in H. cbn [punct_eqb] in H. destruct (qaTryQuestions (questions (y_sh st)) c0) as [[qs1 a1]|] eqn:E; [|discriminate]. cbn [rbind fst snd] in H. injection H as <-.
        right. destruct (tryQuestions_grow _ _ _ _ E) as [G1 B]. destruct AS as (z & Hz & Ez). destruct (proj1 (G1 i) z Hz) as (z' & Hz' & [E' _]).
        exists z'. split; auto. apply (B i z' Hz' Hj).
        -- rewrite E', Ez, Ht. exact inst.
        -- exists v. auto.
      * destruct (punct_eqb (s_punct c1) JUGEMENT).
        -- destruct (qaTryQuestions (questions (y_sh st)) c1) as [[qs1 a1]|]; [|discriminate]. cbn [rbind fst snd] in H. injection H as <-. left. exists m, cs, todo, c0. auto.
        -- injection H as <-. left. exists m, cs, todo, c0. auto.
  Qed.
  Lemma later_step : forall st c st', sysInv (fun _ => True) maxC nB st -> later st -> exec maxC wN c st = Ok (Some st') -> Forall (fair nB j) (begun c) -> later st'.
  Proof.
    intros st c st' INV [PE S] H F. destruct (exec_eff _ _ _ _ _ _ _ H F) as (ans & _ & K & G & _).
    split; [eapply pending_step; eauto|]. destruct S as [S|[S|S]].
    - destruct S as (m & Hm & S). destruct c as [i0 o|i0|]; cbn [exec] in H.
      + destruct (nth_error (y_clients st) i0) as [[|x f|y q]|]; try discriminate. destruct (opStart maxC o (y_sh st)) as [sh q]. injection H as <-. left. exists m. auto.
      + destruct (nth_error (y_clients st) i0) as [q|]; [|discriminate]. destruct (cliStep q (y_sh st) (y_queue st)) as [[[[[sh qu] an] q']|]|] eqn:E; try discriminate.
        cbn [rbind] in H. injection H as <-. left. exists m. split; auto. cbn [y_queue y_worker]. destruct S as [S|S]; auto. left.
        destruct q as [|x f|y q]; cbn [cliStep] in E; [discriminate| |].
        * destruct (addStep x f (y_sh st)) as [[sh1 o]|]; [|discriminate]. cbn [rbind] in E. injection E as _ <- _ _. auto.
        * destruct (cycStep y q (y_sh st) (y_queue st)) as [[[[[sh1 qu1] an1] o]|]|] eqn:E1; try discriminate. cbn [rbind] in E. injection E as _ <- _ _.
          revert E1. clear - S. intros E1. destruct q as [| | |ii [|tt ts]| | |aa [|tt ts] acc|mm|mm| | | | |]; cbn [cycStep] in E1; try (injection E1 as _ <- _ _; exact S).
          -- destruct (questions (y_sh st)); [injection E1 as _ <- _ _; exact S|].
             destruct (task2SelByCreditRandom _ _); [|discriminate]. cbn [rbind] in E1. destruct (idx _ _); [|discriminate]. cbn [rbind] in E1. injection E1 as _ <- _ _. exact S.
          -- destruct (idx _ _); [|discriminate]. cbn [rbind] in E1. destruct (qaTryAll _ _); [|discriminate]. cbn [rbind] in E1. injection E1 as _ <- _ _. exact S.
          -- destruct (idx _ _); [|discriminate]. cbn [rbind] in E1. injection E1 as _ <- _ _. exact S.
          -- destruct (length (y_queue st) <? 4); [|discriminate]. injection E1 as _ <- _ _. apply in_or_app. auto.
          -- destruct (limitTasks _ _); [|discriminate]. cbn [rbind] in E1. injection E1 as _ <- _ _. exact S.
          -- destruct (maintainConcepts _); [|discriminate]. cbn [rbind] in E1. injection E1 as _ <- _ _. exact S.
      + destruct (workStep maxC wN (y_worker st) (y_sh st) (y_queue st)) as [[[[[sh qu] an] q']|]|] eqn:E; try discriminate. cbn [rbind] in H. injection H as <-.
        destruct S as [S|S].
        * left. exists m. split; auto. cbn [y_queue y_worker]. destruct (y_worker st) as [|m0|m0 cs [|c todo]|m0 [|c cs]|m0 x f cs]; cbn [workStep] in E.
          -- destruct (y_queue st) as [|m1 qu1]; [destruct S|]. injection E as _ <- _ <-. destruct S as [->|S]; auto.
          -- destruct (derive _ _); [|discriminate]. cbn [rbind] in E. injection E as _ <- _ _. auto.
          -- injection E as _ <- _ _. auto.
          -- destruct (punct_eqb _ _); [|injection E as _ <- _ _; auto]. destruct (qaTryQuestions _ _); [|discriminate]. cbn [rbind] in E. injection E as _ <- _ _. auto.
          -- injection E as _ <- _ _. auto.
          -- injection E as _ <- _ _. auto.
          -- destruct (addStep _ _ _); [|discriminate]. cbn [rbind] in E. injection E as _ <- _ _. auto.
        * right. left. rewrite S in E. cbn [workStep] in E. destruct (derive (y_sh st) m) as [d|] eqn:D; [|discriminate]. cbn [rbind] in E. injection E as <- <- <- <-.
          destruct Hm as [Ea Is]. destruct PE as (_ & Ha & Ep & FO). destruct INV as [[T Hh M] _ _ _ _].
          destruct (derive_gives (y_sh st) m d t v) as (c & Hc & Ht & Hv & Hj).
          -- apply M.
          -- exact D.
          -- rewrite Ea. apply (ti_punct _ _ _ _ T); auto.
          -- rewrite Ea, Ep. destruct FO as [FO|(b & Hb & Lb & FO)]; auto. right. exists (tk_s (hget (heap (y_sh st)) b)). split; [left; exists b; auto|].
             split; auto. apply (ti_punct _ _ _ _ T); auto.
          -- exists m, (fst d), (map fst (fst d)), c. auto.
    - destruct (answering_step st c st' (proj1 PE) S H) as [S'|S']; auto.
    - right. right. eapply settled_step; eauto.
  Qed.
  Lemma env_same : forall h h', creditsOnly h h' -> keepH h h'.
  Proof. intros h h' [L S]. split; [lia|]. intros x _. apply S. Qed.
  Lemma later_path : forall ops st st', spath maxC wN ops st st' -> Forall (fair nB j) ops -> reach (fairC nB j) maxC wN k st -> later st -> later st'.
  Proof.
    intros ops st st' P. induction P as [st|ops st st1 c st2 P IH E|ops st st1 h us pm sc nu P IH S]; intros F R L; auto.
    - apply Forall_app in F. destruct F as [F1 F2]. apply (later_step st1 c st2); auto. apply (reach_sys maxC wN nB j k st1 wide). eapply path_reach; eauto.
    - destruct (IH F R L) as [PE LS]. split.
      + eapply (pending_step st1 _ []); eauto; [apply env_same; exact S|apply qgrow_refl].
      + exact LS.
  Qed.
  Lemma later_end : forall st, later st -> y_worker st = WIdle -> y_queue st = [] -> settled st.
  Proof.
    intros st [_ [(m & _ & [S|S])|[(m & cs & todo & c & S & _)|S]]] W Q; auto.
    - rewrite Q in S. destruct S.
    - congruence.
    - congruence.
  Qed.

  Definition asked (st : sys) : Prop := exists z, nth_error (questions (y_sh st)) i = Some z /\ q_s z = qs.
  Lemma answering_path : forall ops st st', spath maxC wN ops st st' -> Forall (fair nB j) ops -> asked st -> answering st \/ settled st -> asked st' /\ (answering st' \/ settled st').
  Proof.
    intros ops st st' P. induction P as [st|ops st st1 c st2 P IH E|ops st st1 h us pm sc nu P IH S]; intros F A L; auto.
    - apply Forall_app in F. destruct F as [F1 F2]. destruct (exec_eff _ _ _ _ _ _ _ E F2) as (ans & _ & _ & G & _). destruct (IH F1 A L) as [A1 L1]. split.
      + destruct A1 as (z & Hz & Ez). destruct (proj1 (G i) z Hz) as (z' & Hz' & [E1 _]). exists z'. split; auto. congruence.
      + destruct L1 as [L1|L1]; [eapply answering_step; eauto|right; eapply settled_step; eauto].
  Qed.

  (** ** Collecting the partners *)
  Definition found (bt : list (term * list nat)) (ts : list term) (b : nat) : Prop := exists u l, In u ts /\ mget u bt = Some l /\ In b (firstn 51 l).
  Definition collecting (st : sys) : Prop := exists y ts acc, nth_error (y_clients st) j = Some (CCycle y (YCollect a ts acc)) /\
    NoDup acc /\ (forall x, In x acc -> x < length (heap (y_sh st))) /\ forall b, In b sec -> In b acc \/ found (byTerm (y_sh st)) ts b.
  Definition sending (st : sys) : Prop := exists y m, msgFor m /\ (nth_error (y_clients st) j = Some (CCycle y (YTouch m)) \/ nth_error (y_clients st) j = Some (CCycle y (YSend m))).
  Definition going (st : sys) : Prop := pending st /\ (collecting st \/ sending st).
  Lemma found_grow : forall bt bt' ts b, idxGrow bt bt' -> found bt ts b -> found bt' ts b.
  Proof. intros bt bt' ts b G (u & l & H1 & H2 & H3). destruct (G u l H2) as (l2 & E). exists u, (l ++ l2). split; auto. split; auto. now apply firstn_app_in. Qed.
  Lemma collect_all : forall maxC0 sh P X acc u l, tInv maxC0 sh P X -> mget u (byTerm sh) = Some l -> NoDup acc -> (forall x, In x acc -> x < length (heap sh)) ->
    NoDup (collectSecondary (heap sh) acc l) /\ (forall x, In x (collectSecondary (heap sh) acc l) -> x < length (heap sh)) /\
    forall x, In x acc \/ In x (firstn 51 l) -> In x (collectSecondary (heap sh) acc l).
  Proof.
    intros maxC0 sh P X acc u l T M N A.
    assert (R : forall x, In x (acc ++ firstn 51 l) -> x < length (heap sh)).
    { intros x Hx. apply in_app_iff in Hx. destruct Hx as [Hx|Hx]; auto. apply firstn_in in Hx. apply (ti_index _ _ _ _ T u). exists l. split; auto. now apply mget_in. }
    destruct (collectF_spec (heap sh) (firstn 51 l) acc) as [N2 I2]; auto.
    - intros x y Hx Hy E. rewrite !(ti_ids _ _ _ _ T) in E by auto. lia.
    - split; [exact N2|]. split; [|intros x; apply I2]. intros x Hx. apply R, in_app_iff. now apply I2.
  Qed.
  Lemma limit_all : forall h acc, NoDup acc -> (forall x, In x acc -> x < length h) -> length h <= 300 -> forall b, In b acc -> In b (limitSecondary h acc).
  Proof.
    intros h acc N R L b Hb. unfold limitSecondary. rewrite firstn_all2; [now apply sort_in|]. rewrite sort_length.
    assert (K : length acc <= length (seq 0 (length h))) by (apply NoDup_incl_length; auto; intros x Hx; apply in_seq; apply R in Hx; lia).
    rewrite seq_length in K. lia.
  Qed.
  Lemma nth_other : forall A (l : list A) i0 j0 x y, nth_error l j0 = Some x -> i0 <> j0 -> nth_error (replace_at i0 y l) j0 = Some x.
  Proof. intros A l i0 j0 x y H N. rewrite nth_error_replace. destruct (Nat.eqb i0 j0) eqn:E; [apply Nat.eqb_eq in E; contradiction|auto]. Qed.
  Lemma nth_this : forall A (l : list A) i0 x y, nth_error l i0 = Some x -> nth_error (replace_at i0 y l) i0 = Some y.
  Proof. intros A l i0 x y H. rewrite nth_error_replace, Nat.eqb_refl, H. reflexivity. Qed.
  (** the other threads do not change where client [j] is *)
  Lemma others : forall c st st', exec maxC wN c st = Ok (Some st') -> (forall o, c <> ChStart j o) -> c <> ChClient j ->
    nth_error (y_clients st') j = nth_error (y_clients st) j.
  Proof.
    intros c st st' H N1 N2. destruct c as [i0 o|i0|]; cbn [exec] in H.
    - destruct (nth_error (y_clients st) i0) as [[|x f|y q]|] eqn:E; try discriminate. destruct (opStart maxC o (y_sh st)) as [sh q]. injection H as <-. cbn [y_clients].
      rewrite nth_error_replace. destruct (Nat.eqb i0 j) eqn:K; auto. apply Nat.eqb_eq in K. subst i0. now destruct (N1 o).
    - destruct (nth_error (y_clients st) i0) as [q|] eqn:E; [|discriminate]. destruct (cliStep q (y_sh st) (y_queue st)) as [[[[[sh qu] an] q']|]|]; try discriminate.
      cbn [rbind] in H. injection H as <-. cbn [y_clients]. rewrite nth_error_replace. destruct (Nat.eqb i0 j) eqn:K; auto. apply Nat.eqb_eq in K. now subst i0.
    - destruct (workStep maxC wN (y_worker st) (y_sh st) (y_queue st)) as [[[[[sh qu] an] q']|]|]; try discriminate. cbn [rbind] in H. injection H as <-. reflexivity.
  Qed.
  Lemma mine : forall c st st', exec maxC wN c st = Ok (Some st') -> (exists y q, nth_error (y_clients st) j = Some (CCycle y q)) -> c <> ChClient j ->
    nth_error (y_clients st') j = nth_error (y_clients st) j /\ (forall o, c <> ChStart j o).
  Proof.
    intros c st st' H (y & q & E) N. assert (N1 : forall o, c <> ChStart j o).
    { intros o ->. cbn [exec] in H. rewrite E in H. discriminate. }
    split; auto. eapply others; eauto.
  Qed.
  Lemma choice_j : forall c, c = ChClient j \/ c <> ChClient j.
  Proof. intros [i0 o|i0|]; [right; discriminate| |right; discriminate]. destruct (Nat.eq_dec i0 j) as [->|N]; [auto|right; congruence]. Qed.
  Lemma going_step : forall st c st', sysInv (fun _ => True) maxC nB st -> cyclerInv j st -> length (heap (y_sh st)) <= 300 -> going st ->
    exec maxC wN c st = Ok (Some st') -> Forall (fair nB j) (begun c) -> going st' \/ later st'.
  Proof.
    intros st c st' INV CY LH [PE S] H F. destruct (exec_eff _ _ _ _ _ _ _ H F) as (ans & _ & K & G & IG).
    assert (PE' : pending st') by (eapply pending_step; eauto).
    assert (CJ : exists y q, nth_error (y_clients st) j = Some (CCycle y q) /\ q <> YRebuild).
    { destruct S as [(y & ts & acc & E & _)|(y & m & _ & [E|E])]; exists y; eexists; split; eauto; discriminate. }
    assert (IX : idxGrow (byTerm (y_sh st)) (byTerm (y_sh st'))).
    { apply IG.
      - intros i0 ->. destruct CJ as (y & q & E & _). inversion F as [|? ? F1 _]; subst. simpl in F1. unfold fair in F1. cbn [fst snd] in F1. subst i0. cbn [exec] in H. rewrite E in H. discriminate.
      - intros i0 y -> E. destruct (CY i0 y YRebuild E) as [-> _]. destruct CJ as (y2 & q & E2 & N). congruence. }
    destruct (choice_j c) as [->|N].
    - cbn [exec] in H. destruct S as [(y & ts & acc & E & ND & RG & HB)|(y & m & Hm & [E|E])]; rewrite E in H; cbn [cliStep] in H.
      + destruct ts as [|u ts]; cbn [cycStep rbind] in H; injection H as <-.
        * left. split; auto. right. exists y, (mkMsg a (limitSecondary (heap (y_sh st)) acc) (cycleCtr (y_sh st))). split.
          -- split; [reflexivity|]. intros b Hb. cbn [secondary]. apply limit_all; auto. destruct (HB b Hb) as [Q|(u & l & [] & _)]; auto.
          -- left. cbn [y_clients]. eapply nth_this; eauto.
        * left. split; auto. left. exists y, ts, (match mget u (byTerm (y_sh st)) with Some l => collectSecondary (heap (y_sh st)) acc l | None => acc end).
          cbn [y_clients y_sh]. split; [eapply nth_this; eauto|]. destruct INV as [[T _ _] _ _ _ _].
          destruct (mget u (byTerm (y_sh st))) as [l|] eqn:M.
          -- destruct (collect_all _ _ _ _ acc u l T M ND RG) as (N2 & R2 & I2). split; auto. split; auto. intros b Hb.
             destruct (HB b Hb) as [Q|(u0 & l0 & [<-|Hu] & M0 & Q)]; [left; auto| |right; exists u0, l0; auto]. left. apply I2. right. congruence.
          -- split; auto. split; auto. intros b Hb. destruct (HB b Hb) as [Q|(u0 & l0 & [<-|Hu] & M0 & Q)]; [auto|congruence|right; exists u0, l0; auto].
      + cbn [cycStep rbind] in H. remember (touchAll (Some m) (cy_now y) (y_sh st)) as s1 eqn:Es. clear Es. injection H as <-. left. split; auto. right. exists y, m. split; auto. right. cbn [y_clients]. eapply nth_this; eauto.
      + cbn [cycStep] in H. destruct (length (y_queue st) <? 4); [|discriminate]. cbn [rbind] in H. injection H as <-. right. split; auto. left. exists m. split; auto. left. cbn [y_queue]. apply in_or_app. simpl. auto.
    - destruct (mine c st st' H) as [E2 _]; auto; [destruct CJ as (y & q & E & _); eauto|]. left. split; auto. destruct S as [(y & ts & acc & E & ND & RG & HB)|(y & m & Hm & E)].
      + left. exists y, ts, acc. rewrite E2. split; auto. split; auto. split; [intros x Hx; apply RG in Hx; destruct K; lia|].
        intros b Hb. destruct (HB b Hb) as [Q|Q]; auto. right. eapply found_grow; eauto.
      + right. exists y, m. rewrite E2. auto.
  Qed.
  Lemma path_heap : forall ops st st', spath maxC wN ops st st' -> Forall (fair nB j) ops -> length (heap (y_sh st)) <= length (heap (y_sh st')).
  Proof.
    intros ops st st' P. induction P as [st|ops st st1 c st2 P IH E|ops st st1 h us pm sc nu P IH S]; intros F; auto.
    - apply Forall_app in F. destruct F as [F1 F2]. destruct (exec_eff _ _ _ _ _ _ _ E F2) as (ans & _ & [K _] & _). specialize (IH F1). lia.
    - specialize (IH F). destruct S as [S _]. cbn [y_sh heap]. lia.
  Qed.
  Lemma going_path : forall ops st st', spath maxC wN ops st st' -> Forall (fair nB j) ops -> reach (fairC nB j) maxC wN k st -> length (heap (y_sh st')) <= 300 ->
    going st -> going st' \/ later st'.
  Proof.
    intros ops st st' P. induction P as [st|ops st st1 c st2 P IH E|ops st st1 h us pm sc nu P IH S]; intros F R L G; auto.
    - apply Forall_app in F. destruct F as [F1 F2]. destruct (exec_eff _ _ _ _ _ _ _ E F2) as (ans & _ & [K _] & _).
      assert (R1 := path_reach _ _ _ _ _ _ _ _ P F1 R). destruct (reach_sys _ _ _ _ _ _ wide R1) as (I1 & _ & C1).
      destruct (IH F1 R ltac:(lia) G) as [G1|L1]; [apply (going_step st1 c st2); auto; lia|right; apply (later_step st1 c st2); auto].
    - cbn [y_sh heap] in L. destruct (IH F R ltac:(destruct S; lia) G) as [[PE GS]|[PE LS]].
      + left. split; [eapply (pending_step st1 _ []); eauto; [apply env_same; exact S|apply qgrow_refl]|]. destruct GS as [(y & ts & acc & E & ND & RG & HB)|GS]; [left|right; exact GS].
        exists y, ts, acc. split; auto. split; auto. split; [|exact HB]. cbn [y_sh heap]. destruct S as [SL _]. rewrite SL. exact RG.
      + right. split; [eapply (pending_step st1 _ []); eauto; [apply env_same; exact S|apply qgrow_refl]|exact LS].
  Qed.
  Lemma going_end : forall st, going st \/ later st -> quiet j st -> settled st.
  Proof.
    intros st [[_ S]|L] (C & W & Q); [|eapply later_end; eauto]. destruct S as [(y & ts & acc & E & _)|(y & m & _ & [E|E])]; congruence.
  Qed.
End Stages.
