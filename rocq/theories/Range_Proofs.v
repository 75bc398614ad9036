(** The integers of the program stay small. *)
From Coq Require Import ZArith Bool List Lia Permutation.
From Verif Require Import Base F64_Model Term_Model Stamp_Model Tv_Model Sentence_Model Mem_Model Cycle_Model Sched_Model
  PMem_Model Goal_Model Proc_Model ProcS_Model ProcX_Model Parser_Model Nar_Model Whole_Model
  Cycle_Proofs Deriv_Proofs Safe2_Proofs Goal_Spec Goal_Proofs Goal2_Proofs Goal3_Proofs Proc_Spec ProcB_Proofs ProcC_Proofs ProcS_Proofs ProcX3_Proofs ProcV_Proofs Live_Proofs Sort_Proofs Range_Spec.
Import ListNotations.
Local Open Scope list_scope.
Local Open Scope Z_scope.

Lemma Forall_repl : forall A (Q : A -> Prop) i v l, Forall Q l -> Q v -> Forall Q (replace_at i v l).
Proof. intros A Q i v l F Hv. revert i. induction F as [|x l Hx F IH]; intros [|i]; simpl; auto. Qed.

(** * The declarative part *)
Definition upto (k z : Z) : Prop := 0 <= z <= k.
Record shOk (k : Z) (sh : shared) : Prop := mkShOk {
  so_task : upto (1000 + k) (taskCtr sh);
  so_cycle : upto k (cycleCtr sh);
  so_heap : Forall (fun t => upto k (derivTime t)) (heap sh);
  so_used : forall a, upto k (lastUsed (usages sh a));
  so_uses : forall a, upto (301 * k) (useCount (usages sh a))
}.
Lemma shOk_more : forall k k' sh, k <= k' -> shOk k sh -> shOk k' sh.
Proof.
  intros k k' sh L [A B C D E]. constructor; unfold upto in *; try lia.
  - eapply Forall_impl; [|exact C]. cbn. intros; lia.
  - intros a. specialize (D a). lia.
  - intros a. specialize (E a). lia.
Qed.
(** the rest of the shared data does not matter *)
Lemma shOk_same : forall k sh sh', shOk k sh -> taskCtr sh' = taskCtr sh -> cycleCtr sh' = cycleCtr sh -> heap sh' = heap sh -> usages sh' = usages sh -> shOk k sh'.
Proof. intros k sh sh' [A B C D E] E1 E2 E3 E4. constructor; rewrite ?E1, ?E2, ?E3, ?E4; auto. Qed.
Definition msgOk (k : Z) (m : workMsg) : Prop := upto k (m_cycle m) /\ (length (secondary m) <= 300)%nat.
Definition cphOk (k : Z) (p : cphase) : Prop := match p with YTouch m | YSend m => msgOk k m | _ => True end.
Definition cliOk (k : Z) (c : cpc) : Prop :=
  match c with CIdle => True | CAdd x _ => upto k (ar_now x) | CCycle y p => upto k (cy_now y) /\ cphOk k p end.
Definition wkOk (k : Z) (w : wphase) : Prop :=
  match w with
  | Sched_Model.WIdle => True
  | WDerive m | WAnswer m _ _ | Sched_Model.WAdd m _ => msgOk k m
  | WAdding m x _ _ => msgOk k m /\ upto k (ar_now x)
  end.
Record dOk (k : Z) (st : sys) : Prop := mkDOk {
  do_sh : shOk k (y_sh st);
  do_queue : Forall (msgOk k) (y_queue st);
  do_clients : Forall (cliOk k) (y_clients st);
  do_worker : wkOk k (y_worker st)
}.
Lemma msgOk_more : forall k k' m, k <= k' -> msgOk k m -> msgOk k' m.
Proof. intros k k' m L [A B]. split; auto. unfold upto in *. lia. Qed.
Lemma cphOk_more : forall k k' p, k <= k' -> cphOk k p -> cphOk k' p.
Proof. intros k k' p L H. destruct p; cbn in *; auto; eapply msgOk_more; eauto. Qed.
Lemma cliOk_more : forall k k' c, k <= k' -> cliOk k c -> cliOk k' c.
Proof.
  intros k k' c L H. destruct c; cbn in *; auto; [unfold upto in *; lia|]. destruct H as [A B]. split; [unfold upto in *; lia|]. eapply cphOk_more; eauto.
Qed.
Lemma wkOk_more : forall k k' w, k <= k' -> wkOk k w -> wkOk k' w.
Proof.
  intros k k' w L H. destruct w; cbn in *; auto; try (eapply msgOk_more; eauto; fail). destruct H as [A B]. split; [eapply msgOk_more; eauto|unfold upto in *; lia].
Qed.
Lemma dOk_more : forall k k' st, k <= k' -> dOk k st -> dOk k' st.
Proof.
  intros k k' st L [A B C D]. constructor.
  - eapply shOk_more; eauto.
  - eapply Forall_impl; [|exact B]. intros m. now apply msgOk_more.
  - eapply Forall_impl; [|exact C]. intros c. now apply cliOk_more.
  - eapply wkOk_more; eauto.
Qed.

Definition oldTimes (k : Z) (h : list task) : Prop := Forall (fun t => upto k (derivTime t)) h.
Lemma hupd_ok : forall k h a f, 0 <= k -> oldTimes k h -> (forall t, derivTime (f t) = derivTime t) -> oldTimes k (hupd h a f).
Proof.
  intros k h a f K H F. unfold hupd. apply Forall_repl; auto. rewrite F. unfold hget.
  destruct (nth_in_or_default a h task0) as [I| ->]; [|unfold upto; cbn; lia]. unfold oldTimes in H. rewrite Forall_forall in H. now apply H.
Qed.
Lemma upd_all : forall k f l h, 0 <= k -> oldTimes k h -> (forall t, derivTime (f t) = derivTime t) -> oldTimes k (fold_left (fun h a => hupd h a f) l h).
Proof. intros k f. induction l as [|a l IH]; intros h K H F; cbn [fold_left]; auto. apply IH; auto. now apply hupd_ok. Qed.
Lemma transfer_ok : forall k sh, 0 <= k -> oldTimes k (heap sh) -> oldTimes k (heap (transferCredits sh)).
Proof.
  intros k sh K H. unfold transferCredits. cbn [heap setHeap]. revert H. generalize (heap sh). induction (questions sh) as [|q l IH]; intros h H; cbn [fold_left]; auto.
  apply IH. clear IH. revert h H. induction (retSubterms (s_term (q_s q))) as [|t ts IH]; intros h H; cbn [fold_left]; auto.
  apply IH. destruct (mget t (byTerm sh)); auto. apply upd_all; auto.
Qed.
Lemma base_ok : forall k sh, 0 <= k -> oldTimes k (heap sh) -> oldTimes k (heap (baseCredits sh)).
Proof. intros k sh K H. unfold baseCredits. cbn [heap setHeap]. apply upd_all; auto. apply upd_all; auto. Qed.

Definition grown (k : Z) (sh sh' : shared) : Prop := shOk (k + 1) sh' /\ stampCtr sh' = stampCtr sh.
Lemma grown_same : forall k sh sh', shOk k sh -> taskCtr sh' = taskCtr sh -> cycleCtr sh' = cycleCtr sh -> heap sh' = heap sh -> usages sh' = usages sh ->
  stampCtr sh' = stampCtr sh -> grown k sh sh'.
Proof. intros k sh sh' H E1 E2 E3 E4 E5. split; auto. apply (shOk_more k); [lia|]. eapply shOk_same; eauto. Qed.

Lemma addStep_ok : forall k x f sh sh' f', shOk k sh -> addStep x f sh = Ok (sh', f') -> grown k sh sh'.
Proof.
  intros k x f sh sh' f' H E.
  assert (R : grown k sh sh) by (apply grown_same; auto).
  destruct f as [[|t ts] r| |[|s l]|s l a|s l a]; cbn [addStep] in E.
  - destruct r; injection E as <- <-; exact R.
  - destruct (reviseConcept _ _ _) as [[[m r'] u]|]; [|discriminate]. cbn [rbind] in E. injection E as <- <-. apply grown_same; auto.
  - destruct (storeInConcepts _ _ _ _ _) as [m|]; [|discriminate]. cbn [rbind] in E. injection E as <- <-. apply grown_same; auto.
  - injection E as <- <-. exact R.
  - destruct (s_punct s).
    + destruct (taskExists sh s); injection E as <- <-; [exact R|]. split; auto. destruct H as [A B C D U]. constructor; cbn [taskCtr cycleCtr heap usages setTaskCtr setHeap].
      * unfold upto in *. lia.
      * unfold upto in *. lia.
      * apply Forall_app. split; [eapply Forall_impl; [|exact C]; intros z Z1; unfold upto in *; lia|]. constructor; [|constructor].
        assert (Q : derivTime (newTask sh s (ar_cc x) (ar_mul x)) = cycleCtr sh) by (unfold newTask; destruct (ar_cc x); reflexivity). rewrite Q. unfold upto in *. lia.
      * intros a. specialize (D a). unfold upto in *. lia.
      * intros a. specialize (U a). unfold upto in *. lia.
    + injection E as <- <-. apply grown_same; auto.
    + injection E as <- <-. exact R.
  - injection E as <- <-. apply grown_same; auto.
  - injection E as <- <-. apply grown_same; auto.
Qed.

Lemma cycStep_ok : forall k y p sh qu sh' qu' ans p', 0 <= k -> shOk k sh -> Forall (msgOk k) qu -> upto k (cy_now y) -> cphOk k p ->
  cycStep y p sh qu = Ok (Some (sh', qu', ans, p')) -> grown k sh sh' /\ Forall (msgOk k) qu' /\ match p' with Some p' => cphOk k p' | None => True end.
Proof.
  intros k y p sh qu sh' qu' ans p' K H Q N Hp E.
  assert (R : grown k sh sh) by (apply grown_same; auto).
  destruct p as [| | |i [|t ts]| | |a [|t ts] acc|m|m| | | | |]; cbn [cycStep] in E.
  - set (s1 := transferCredits sh) in *. assert (G : grown k sh s1).
    { split; [|reflexivity]. apply (shOk_more k); [lia|]. assert (T := transfer_ok k sh K (so_heap _ _ H)). destruct H. constructor; auto. }
    clearbody s1. injection E as <- <- <- <-. split; [auto|]. split; cbn; auto.
  - set (s1 := baseCredits sh) in *. assert (G : grown k sh s1).
    { split; [|reflexivity]. apply (shOk_more k); [lia|]. assert (T := base_ok k sh K (so_heap _ _ H)). destruct H. constructor; auto. }
    clearbody s1. injection E as <- <- <- <-. split; [auto|]. split; cbn; auto.
  - destruct (questions sh) as [|q0 qs0] eqn:EQ.
    + injection E as <- <- <- <-. split; [auto|]. split; cbn; auto.
    + rewrite <- EQ in *. destruct (task2SelByCreditRandom _ _) as [i|]; [|discriminate]. cbn [rbind] in E. destruct (idx _ i) as [q|]; [|discriminate]. cbn [rbind] in E.
      injection E as <- <- <- <-. split; [auto|]. split; cbn; auto.
  - injection E as <- <- <- <-. split; [auto|]. split; cbn; auto.
  - destruct (idx _ i) as [q|]; [|discriminate]. cbn [rbind] in E. destruct (qaTryAll _ _) as [r|]; [|discriminate]. cbn [rbind] in E.
    injection E as <- <- <- <-. split; [apply grown_same; auto|]. split; cbn; auto.
  - injection E as <- <- <- <-. split; auto. split; [auto|]. destruct (judg sh); exact I.
  - destruct (idx (judg sh) _) as [a|]; [|discriminate]. cbn [rbind] in E. injection E as <- <- <- <-. split; [apply grown_same; auto|]. split; cbn; auto.
  - injection E as <- <- <- <-. split; auto. split; [auto|]. split; [apply (so_cycle _ _ H)|]. cbn [secondary]. unfold limitSecondary. rewrite firstn_length. lia.
  - injection E as <- <- <- <-. split; [auto|]. split; cbn; auto.
  - assert (C := touch_count m (cy_now y) sh). set (s1 := touchAll _ _ sh) in *. assert (G : grown k sh s1).
    { split; [|reflexivity]. cbn in Hp. destruct Hp as [_ Hp]. destruct H as [A B Ch D U]. constructor.
      - change (taskCtr s1) with (taskCtr sh). unfold upto in *. lia.
      - change (cycleCtr s1) with (cycleCtr sh). unfold upto in *. lia.
      - change (heap s1) with (heap sh). eapply Forall_impl; [|exact Ch]. intros z Z1; unfold upto in *; lia.
      - intros a. subst s1. rewrite touch_spec. cbv zeta. destruct (Nat.eqb _ 0); [specialize (D a); unfold upto in *; lia|]. cbn [lastUsed]. unfold upto in *. lia.
      - intros a. specialize (C a). specialize (U a). assert (0 <= useCount (usages s1 a)); [|unfold upto in *; lia].
        subst s1. rewrite touch_spec. cbv zeta. destruct (Nat.eqb _ 0); [unfold upto in *; lia|]. cbn [useCount]. unfold upto in *. lia. }
    clearbody s1. injection E as <- <- <- <-. split; auto.
  - destruct (length qu <? 4)%nat; [|discriminate]. injection E as <- <- <- <-. split; auto. split; [|cbn; auto]. apply Forall_app. split; auto.
  - injection E as <- <- <- <-. split; auto. split; [auto|]. destruct (Z.rem (cycleCtr sh) 111 =? 0); exact I.
  - destruct (limitTasks (cy_exp y) sh) as [s1|] eqn:L; [|discriminate]. cbn [rbind] in E. injection E as <- <- <- <-. unfold limitTasks in L.
    destruct (fsort_desc _ _) as [srt|]; [|discriminate]. cbn [rbind] in L. injection L as <-. split; [apply grown_same; auto|]. split; cbn; auto.
  - injection E as <- <- <- <-. split; auto. split; [auto|]. destruct (Z.rem (cycleCtr sh) 111 =? 0); exact I.
  - set (s1 := rebuildIndex sh) in *. assert (G : grown k sh s1) by (apply grown_same; auto). clearbody s1. injection E as <- <- <- <-. split; [auto|]. split; cbn; auto.
  - unfold maintainConcepts in E. destruct (Z.rem (cycleCtr sh) 173 =? 0).
    + destruct (limitMemory (memory sh) 3000) as [m|]; [|discriminate]. cbn [rbind] in E. injection E as <- <- <- <-. split; [apply grown_same; auto|]. split; auto.
    + cbn [rbind] in E. injection E as <- <- <- <-. split; auto.
Qed.

Lemma workStep_ok : forall k maxC n p sh qu sh' qu' ans p', shOk k sh -> Forall (msgOk k) qu -> wkOk k p ->
  workStep maxC n p sh qu = Ok (Some (sh', qu', ans, p')) -> grown k sh sh' /\ Forall (msgOk k) qu' /\ wkOk k p'.
Proof.
  intros k maxC n p sh qu sh' qu' ans p' H Q Hp E.
  assert (R : grown k sh sh) by (apply grown_same; auto).
  destruct p as [|m|m cs [|c todo]|m [|c cs]|m x f cs]; cbn [workStep] in E.
  - destruct qu as [|m qu1]; [discriminate|]. injection E as <- <- <- <-. inversion Q; subst. auto.
  - destruct (derive sh m) as [d|]; [|discriminate]. cbn [rbind] in E. injection E as <- <- <- <-. split; [apply grown_same; auto|]. auto.
  - injection E as <- <- <- <-. auto.
  - destruct (punct_eqb _ _); [|injection E as <- <- <- <-; auto]. destruct (qaTryQuestions _ _) as [r|]; [|discriminate]. cbn [rbind] in E.
    injection E as <- <- <- <-. split; [apply grown_same; auto|]. auto.
  - injection E as <- <- <- <-. split; [auto|]. split; [auto|]. exact I.
  - set (x := mkAddArgs _ _ _ _ _) in E. assert (Nx : ar_now x = m_cycle m) by reflexivity. clearbody x. injection E as <- <- <- <-. split; auto. split; auto.
    destruct (startAdd maxC x); auto. split; auto. rewrite Nx. apply Hp.
  - destruct (addStep x f sh) as [[s1 o]|] eqn:A; [|discriminate]. cbn [rbind fst snd] in E. injection E as <- <- <- <-.
    split; [eapply addStep_ok; eauto|]. split; auto. destruct o; auto. apply Hp.
Qed.

(** what an operation brings with it *)
Definition opTime (k : Z) (o : Sched_Model.op) : Prop :=
  match o with OpAdd x => upto k (ar_now x) | OpCycle y => upto k (cy_now y) | _ => True end.
Lemma exec_ok : forall k maxC n c st st', 0 <= k -> dOk k st -> (forall i o, c = ChStart i o -> opTime (k + 1) o) -> exec maxC n c st = Ok (Some st') ->
  dOk (k + 1) st' /\ stampCtr (y_sh st') = stampCtr (y_sh st).
Proof.
  intros k maxC n c st st' K [S Q C W] Hc E.
  assert (Q1 : Forall (msgOk (k + 1)) (y_queue st)) by (eapply Forall_impl; [|exact Q]; intros m; apply msgOk_more; lia).
  assert (C1 : Forall (cliOk (k + 1)) (y_clients st)) by (eapply Forall_impl; [|exact C]; intros m; apply cliOk_more; lia).
  assert (W1 : wkOk (k + 1) (y_worker st)) by (apply (wkOk_more k); auto; lia).
  destruct c as [i o|i|]; cbn [exec] in E.
  - destruct (nth_error (y_clients st) i) as [[|x f|y p]|]; try discriminate.
    specialize (Hc _ _ eq_refl). destruct (opStart maxC o (y_sh st)) as [sh' p'] eqn:Es. injection E as <-.
    assert (X : shOk (k + 1) sh' /\ stampCtr sh' = stampCtr (y_sh st) /\ cliOk (k + 1) p').
    { destruct o as [x|q| |y]; cbn [opStart] in Es; injection Es as <- <-.
      - split; [apply (shOk_more k); auto; lia|]. split; auto. destruct (startAdd maxC x); cbn; auto.
      - split; [apply (shOk_more k); [lia|]; eapply shOk_same; eauto|]. split; cbn; auto.
      - split; [apply (shOk_more k); [lia|]; eapply shOk_same; eauto|]. split; cbn; auto.
      - split; [|split; cbn; auto]. assert (Z1 := so_cycle _ _ S). apply (shOk_more k (k + 1)) in S; [|lia]. destruct S as [A B D U V]. constructor; auto. cbn [cycleCtr setCycleCtr].
        unfold upto in *. lia. }
    destruct X as (X1 & X2 & X3). split; [|exact X2]. constructor; cbn [y_sh y_queue y_clients y_worker]; auto. now apply Forall_repl.
  - destruct (nth_error (y_clients st) i) as [p|] eqn:Ni; [|discriminate].
    assert (Cp : cliOk k p) by (rewrite Forall_forall in C; apply C; eapply nth_error_In; eauto).
    destruct (cliStep p (y_sh st) (y_queue st)) as [[[[[sh' qu'] ans] p']|]|] eqn:Es; cbn [rbind] in E; [|discriminate|discriminate]. injection E as <-.
    assert (X : grown k (y_sh st) sh' /\ Forall (msgOk k) qu' /\ cliOk k p').
    { destruct p as [|x f|y p]; cbn [cliStep] in Es.
      - discriminate.
      - destruct (addStep x f _) as [[s1 o]|] eqn:A; [|discriminate]. cbn [rbind fst snd] in Es. injection Es as <- <- <- <-.
        split; [eapply addStep_ok; eauto|]. split; auto. destruct o; cbn; auto.
      - destruct (cycStep _ _ _ _) as [[[[[s1 q1] a1] o]|]|] eqn:A; cbn [rbind] in Es; [|discriminate|discriminate]. injection Es as <- <- <- <-.
        destruct Cp as [Cp1 Cp2]. destruct (cycStep_ok _ _ _ _ _ _ _ _ _ K S Q Cp1 Cp2 A) as (X1 & X2 & X3). split; auto. split; auto. destruct o; cbn; auto. }
    destruct X as ((X1 & X2) & X3 & X4). split; [|exact X2]. constructor; cbn [y_sh y_queue y_clients y_worker]; auto.
    + eapply Forall_impl; [|exact X3]. intros m. apply msgOk_more. lia.
    + apply Forall_repl; auto. apply (cliOk_more k); auto. lia.
  - destruct (workStep _ _ _ _ _) as [[[[[sh' qu'] ans] p']|]|] eqn:Es; cbn [rbind] in E; [|discriminate|discriminate]. injection E as <-.
    destruct (workStep_ok _ _ _ _ _ _ _ _ _ _ S Q W Es) as ((X1 & X2) & X3 & X4). split; [|exact X2]. constructor; cbn [y_sh y_queue y_clients y_worker]; auto.
    + eapply Forall_impl; [|exact X3]. intros m. apply msgOk_more. lia.
    + apply (wkOk_more k); auto. lia.
Qed.
