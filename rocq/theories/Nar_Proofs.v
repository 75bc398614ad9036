(** Proofs for Nar_Model: sessions and dispatch of inputs. *)
From Coq Require Import String Ascii ZArith Bool Lia List.
From Verif Require Import Base F64_Model Term_Model Term_Spec Term_Proofs Stamp_Model Stamp_Proofs Tv_Model Sentence_Model Infer_Model Infer_Spec Mem_Model Mem_Spec Mem_Proofs Cycle_Model
  Cycle_Spec Cycle_Proofs Task_Proofs Run_Proofs Deriv_Proofs PMem_Model PMem_Proofs PMem2_Proofs Goal_Model Goal_Spec Goal_Proofs Goal3_Proofs Proc_Model Proc_Spec ProcC_Proofs ProcS_Proofs
  Parser_Model Nar_Model Nar_Spec.
Import ListNotations.
Local Open Scope list_scope.
Local Open Scope Z_scope.

(** * Runs *)
Lemma run_mono : forall (P Q : sentence -> Prop) maxC nB sh ps, (forall s, P s -> Q s) -> run P maxC nB sh ps -> run Q maxC nB sh ps.
Proof.
  intros P Q maxC nB sh ps PQ H. induction H.
  - apply run_start.
  - eapply run_add; eauto.
  - now apply run_ask.
  - eapply run_cycle; eauto.
  - eapply run_worker; eauto.
  - now apply run_flush.
  - now apply run_env.
Qed.
(** what neither tasks nor cycles touch *)
Definition fixedPart (sh : shared) := (stampCtr sh, procMem sh).
Lemma addAll_fixed : forall cc mul l sh, fixedPart (addAll cc mul sh l) = fixedPart sh.
Proof.
  intros cc mul. induction l as [|s l IH]; intros sh; cbn [addAll]; auto. unfold addOne.
  destruct (s_punct s); [destruct (taskExists sh s); auto| |]; rewrite IH; reflexivity.
Qed.
Lemma add_fixed : forall sh s cc maxC k mul now sh', memAddTask sh s cc maxC k mul now = Ok sh' -> fixedPart sh' = fixedPart sh.
Proof.
  intros sh s cc maxC k mul now sh' H. unfold memAddTask in H. destruct (_ >? _); [congruence|].
  destruct (memReviseBelief _ _ _) as [[[m rv] u]|]; [|discriminate]. cbn [rbind] in H.
  destruct rv as [x|].
  - cbn [rbind] in H. match type of H with Ok ?x = Ok _ => assert (E : sh' = x) by congruence end. subst sh'. etransitivity; [apply addAll_fixed|reflexivity].
  - destruct (storeInConcepts _ _ _ _ _); [|discriminate]. cbn [rbind] in H. match type of H with Ok ?x = Ok _ => assert (E : sh' = x) by congruence end. subst sh'. etransitivity; [apply addAll_fixed|reflexivity].
Qed.
Lemma adds_fixed : forall (A : Type) f, (forall (sh : shared) (c : A) sh', f sh c = Ok sh' -> fixedPart sh' = fixedPart sh) ->
  forall l a b, rfold f l a = Ok b -> fixedPart b = fixedPart a.
Proof.
  intros A f F. induction l as [|c l IH]; intros a b H; cbn [rfold] in H; [congruence|]. destruct (f a c) eqn:E; [|discriminate]. cbn [rbind] in H.
  apply IH in H. rewrite H. eapply F; eauto.
Qed.
Lemma work_fixed : forall maxC k sh m sh' ans, workerStep maxC k sh m = Ok (sh', ans) -> fixedPart sh' = fixedPart sh.
Proof.
  intros maxC k sh m sh' ans H. unfold workerStep in H. destruct (derive sh m) as [d|]; [|discriminate]. cbn [rbind] in H.
  destruct (answerAll _ _) as [qa|]; [|discriminate]. cbn [rbind] in H.
  destruct (rfold _ _ _) as [sh2|] eqn:E; [|discriminate]. cbn [rbind] in H. assert (sh' = sh2) by congruence. subst sh2. clear H.
  apply adds_fixed in E; [rewrite E; reflexivity|]. intros s0 c s1 H. eapply add_fixed; eauto.
Qed.
Lemma cycle_fixed : forall expf sv sh now sh' now' ans m, reasonCycle expf sv sh now = Ok (sh', now', ans, m) -> fixedPart sh' = fixedPart sh.
Proof.
  intros expf sv sh now sh' now' ans m H. unfold reasonCycle in H.
  set (s1 := baseCredits _) in H. assert (S1 : fixedPart s1 = fixedPart sh) by reflexivity. clearbody s1.
  destruct (sampleQuestion sv s1) as [[s2 an]|] eqn:E; [|discriminate]. cbn [rbind fst snd] in H.
  apply sampleQuestion_frame in E. destruct E as (qs & E). assert (S2 : fixedPart s2 = fixedPart s1) by (rewrite E; reflexivity). clear E.
  destruct (selectWork expf s2) as [[s3 w]|] eqn:E; [|discriminate]. cbn [rbind fst snd] in H.
  assert (S3 : fixedPart s3 = fixedPart s2).
  { unfold selectWork in E. destruct (judg s2); [assert (s3 = s2) by congruence; now subst|]. destruct (idx _ _); [|discriminate]. cbn [rbind] in E. injection E as <- _. reflexivity. }
  set (s4 := touchAll w (now + 1) s3) in H. assert (S4 : fixedPart s4 = fixedPart s3) by (unfold s4, touchAll; destruct w; reflexivity). clearbody s4.
  destruct (maintainTasks expf s4) as [s5|] eqn:E5; [|discriminate]. cbn [rbind] in H.
  assert (S5 : fixedPart s5 = fixedPart s4).
  { unfold maintainTasks in E5. destruct (_ =? _); [|assert (s5 = s4) by congruence; now subst]. destruct (limitTasks expf s4) as [x|] eqn:L; [|discriminate]. cbn [rbind] in E5.
    unfold limitTasks in L. destruct (fsort_desc _ _); [|discriminate]. cbn [rbind] in L. injection L as <-. injection E5 as <-. reflexivity. }
  destruct (maintainConcepts s5) as [s6|] eqn:E6; [|discriminate]. cbn [rbind] in H.
  assert (S6 : fixedPart s6 = fixedPart s5).
  { unfold maintainConcepts in E6. destruct (_ =? _); [|assert (s6 = s5) by congruence; now subst]. destruct (limitMemory _ _); [|discriminate]. cbn [rbind] in E6. injection E6 as <-. reflexivity. }
  assert (sh' = s6) by congruence. congruence.
Qed.

Lemma fixed_stamp : forall a b, fixedPart a = fixedPart b -> stampCtr a = stampCtr b.
Proof. intros a b H. now injection H. Qed.
Lemma fixed_procMem : forall a b, fixedPart a = fixedPart b -> procMem a = procMem b.
Proof. intros a b H. now injection H. Qed.
Lemma add_stamp : forall sh s cc maxC k mul now sh', memAddTask sh s cc maxC k mul now = Ok sh' -> stampCtr sh' = stampCtr sh.
Proof. intros. apply fixed_stamp. eapply add_fixed; eauto. Qed.
Lemma work_stamp : forall maxC k sh m sh' ans, workerStep maxC k sh m = Ok (sh', ans) -> stampCtr sh' = stampCtr sh.
Proof. intros. apply fixed_stamp. eapply work_fixed; eauto. Qed.
Lemma cycle_stamp : forall expf sv sh now sh' now' ans m, reasonCycle expf sv sh now = Ok (sh', now', ans, m) -> stampCtr sh' = stampCtr sh.
Proof. intros. apply fixed_stamp. eapply cycle_fixed; eauto. Qed.

(** * Inputs *)
Lemma temporal_iff : forall t, isTemporal t = true <-> temporal t.
Proof.
  intros t. unfold temporal. split.
  - intros H. destruct t; try discriminate. destruct c; try discriminate. eauto.
  - intros (a & b & ->). reflexivity.
Qed.
(** the sentence that an input becomes *)
Definition inSentence (n : nar) (t : term) (p : punct) (v : tv) : sentence := newEternalSentenceByTv t p v [stampCtr (nr_decl n)] (nextU (nr_decl n)).
Definition counted (d : shared) : shared := setNextU (S (nextU d)) (setStampCtr (stampCtr d + 1) d).
Lemma counted_only : forall d, onlyCounted d (counted d).
Proof. intros d. repeat split. Qed.

Definition toDecl (n : nar) (t : term) (p : punct) (v : tv) (n' : nar) : Prop :=
  exists d', n' = withDecl n d' /\ memAddTask (counted (nr_decl n)) (inSentence n t p v) true (nr_maxC n) (nr_nB n) f1 (n_t (nr_proc n)) = Ok d'.
Definition nowhere (n n' : nar) : Prop := n' = withDecl n (counted (nr_decl n)).
Lemma input_cases : forall n t p v ev draws n', inputT2 n t p v ev draws = Ok n' ->
  match p, ev with
  | JUGEMENT, true => n' = withProc (withDecl n (counted (nr_decl n))) (setTrace (nr_proc n) (n_trace (nr_proc n) ++ [mkEvent t (n_t (nr_proc n)) (n_t (nr_proc n))]))
  | GOAL, true => exists g, addEntry (n_goals (nr_proc n)) (n_t (nr_proc n)) (inSentence n t p v) None 0 = Ok g /\
      n' = withProc (withDecl n (counted (nr_decl n))) (setGoals (nr_proc n) g)
  | QUESTION, true => toDecl n t p v n'
  | JUGEMENT, false =>
      (~ temporal t /\ toDecl n t p v n') \/
      (temporal t /\ exists m,
        mem_add_evidence (usages (nr_decl n)) (n_mem (nr_proc n)) (mkSentence t None JUGEMENT [stampCtr (nr_decl n)] None (Some (CNT 10 10)) (nextU (nr_decl n)))
          (nr_nB n) (n_t (nr_proc n)) draws = Ok m /\
        n' = withProc (withDecl n (counted (nr_decl n))) (setMem (nr_proc n) m))
  | _, false => nowhere n n'
  end.
Proof.
  intros n t p v ev draws n' H. unfold inputT2, takeId in H. fold (counted (nr_decl n)) in H.
  set (s := newEternalSentenceByTv t p v (newStamp [stampCtr (nr_decl n)]) (nextU (nr_decl n))) in H.
  change (inSentence n t p v) with s. unfold toDecl. change (inSentence n t p v) with s.
  match type of H with context [if ?b then printSentence s else Ok tt] => destruct (if b then printSentence s else Ok tt) end; [|discriminate]. cbn [rbind] in H.
  destruct n as [pr d ti vb nB mC dq pq wi]. cbn [nr_proc nr_decl nr_time nr_verb nr_nB nr_maxC nr_dq nr_pq withDecl withProc] in *.
  assert (AT : forall x, (do d' <- memAddTask (counted d) s true mC nB f1 (n_t pr); Ok (mkNar pr d' ti vb nB mC dq pq wi)) = Ok x ->
    exists d', x = mkNar pr d' ti vb nB mC dq pq wi /\ memAddTask (counted d) s true mC nB f1 (n_t pr) = Ok d').
  { intros x Q. destruct (memAddTask (counted d) s true mC nB f1 (n_t pr)) as [d'|]; [|discriminate]. cbn [rbind] in Q. exists d'. split; congruence. }
  destruct ev.
  - destruct p.
    + unfold event_happened in H. congruence.
    + now apply AT.
    + destruct (addEntry _ _ _ _ _) as [g|] eqn:E; [|discriminate]. cbn [rbind] in H. exists g. split; auto. congruence.
  - destruct (isTemporal t) eqn:T.
    + apply temporal_iff in T. destruct p; try (unfold nowhere; cbn [withDecl nr_decl nr_proc nr_time nr_verb nr_nB nr_maxC nr_dq nr_pq]; congruence).
      right. split; auto. destruct (mem_add_evidence _ _ _ _ _ _) as [m|] eqn:E; [|discriminate]. cbn [rbind] in H. exists m. split; [first [exact E|reflexivity]|]. congruence.
    + assert (T' : ~ temporal t) by (intros Q; apply temporal_iff in Q; congruence).
      destruct p; try (unfold nowhere; cbn [withDecl nr_decl nr_proc nr_time nr_verb nr_nB nr_maxC nr_dq nr_pq]; congruence).
      left. split; auto.
Qed.

(** * Sessions *)
Lemma given_app : forall log l s, given log s -> given (log ++ l) s.
Proof.
  intros log l s (k & i & E & R). exists k, i. split; auto. rewrite nth_error_app1; auto. apply nth_error_Some. congruence.
Qed.
Lemma given_last : forall (log : list input) i, nth_error (log ++ [i]) (length log) = Some i.
Proof. intros. rewrite nth_error_app2 by lia. now rewrite Nat.sub_diag. Qed.

Definition declInv (log : list input) (d : shared) (q : list workMsg) : Prop :=
  stampCtr d = Z.of_nat (length log) /\ run (given log) 64 60 d q.
Lemma counted_run : forall P maxC nB d q, run P maxC nB d q -> run P maxC nB (counted d) q.
Proof. intros P maxC nB d q R. apply (run_env P maxC nB d q (usages d) (procMem d) (stampCtr d + 1) (S (nextU d)) R). Qed.
Lemma nlpRel_inv : forall t log d q args d', declInv log d q -> nlpRel t d args = Ok d' -> declInv (log ++ relInputs [args]) d' q.
Proof.
  intros t log d q args d' (C & R) H. unfold nlpRel in H. unfold relInputs. cbn [flat_map].
  destruct args as [|a [|rel [|b rest]]]; try (assert (d' = d) by congruence; subst; rewrite app_nil_r; now split).
  destruct (rewriteRel rel) as [r|]; [|discriminate]. cbn [rbind] in H. destruct (convTermToStr rel); [|discriminate]. cbn [rbind] in H.
  destruct (convTermToStr r); [|discriminate]. cbn [rbind] in H. unfold takeId in H. fold (counted d) in H.
  cbn [app]. split.
  - apply add_stamp in H. rewrite H. cbn. rewrite app_length. cbn. lia.
  - eapply run_add; [apply counted_run; eapply run_mono; [|exact R]; intros s; apply given_app| | |exact H]; [|lia].
    exists (length log). eexists. split; [apply given_last|]. cbn. rewrite C. repeat split. left. repeat split; auto.
Qed.
Lemma nlpRels_inv : forall t calls log d q d', declInv log d q -> rfold (nlpRel t) calls d = Ok d' -> declInv (log ++ relInputs calls) d' q.
Proof.
  intros t. induction calls as [|a calls IH]; intros log d q d' I H; cbn [rfold] in H.
  - assert (d' = d) by congruence. subst. unfold relInputs. cbn. now rewrite app_nil_r.
  - destruct (nlpRel t d a) as [d1|] eqn:E; [|discriminate]. cbn [rbind] in H. apply (nlpRel_inv _ _ _ _ _ _ I) in E.
    apply (IH _ _ _ _ E) in H. revert H. rewrite <- app_assoc. unfold relInputs. cbn [flat_map]. now rewrite app_nil_r.
Qed.
Lemma toDecl_inv : forall log n t p v n' ev, declInv log (nr_decl n) (nr_dq n) -> nr_maxC n = 64 -> nr_nB n = 20%nat -> toDecl n t p v n' ->
  (p = JUGEMENT /\ ev = false /\ ~ temporal t) \/ (p = QUESTION /\ ev = true) -> declInv (log ++ [mkInput t p v ev false]) (nr_decl n') (nr_dq n').
Proof.
  intros log n t p v n' ev (C & R) E1 E2 (d' & -> & H) K. cbn. rewrite E1, E2 in H. split.
  - apply add_stamp in H. rewrite H. cbn. rewrite app_length. cbn. lia.
  - eapply run_add; [apply counted_run; eapply run_mono; [|exact R]; intros s; apply given_app| | |exact H]; [|lia].
    exists (length log). eexists. split; [apply given_last|]. cbn. rewrite C. repeat split.
    destruct K as [(-> & -> & K)|(-> & ->)]; [left|right]; cbn; auto.
Qed.
Lemma counted_inv : forall log i d q, declInv log d q -> declInv (log ++ [i]) (counted d) q.
Proof.
  intros log i d q (C & R). split; [cbn; rewrite app_length; cbn; lia|]. apply counted_run. eapply run_mono; [|exact R]. intros s. apply given_app.
Qed.
Lemma input_inv : forall log n t p v ev draws n', declInv log (nr_decl n) (nr_dq n) -> nr_maxC n = 64 -> nr_nB n = 20%nat ->
  inputT2 n t p v ev draws = Ok n' ->
  declInv (log ++ [mkInput t p v ev false]) (nr_decl n') (nr_dq n') /\ nr_maxC n' = 64 /\ nr_nB n' = 20%nat.
Proof.
  intros log n t p v ev draws n' I E1 E2 H. apply input_cases in H. split.
  - assert (I' := counted_inv _ (mkInput t p v ev false) _ _ I).
    destruct p, ev; try (red in H; subst n'; exact I').
    + subst n'. exact I'.
    + destruct H as [(K & H)|(K & m & _ & ->)]; [|exact I']. eapply toDecl_inv; eauto.
    + eapply toDecl_inv; eauto.
    + destruct H as (g & _ & ->). exact I'.
  - destruct p, ev; try (red in H; subst n'; auto; fail).
    + subst n'. auto.
    + destruct H as [(K & d' & -> & _)|(K & m & _ & ->)]; auto.
    + destruct H as (d' & -> & _). auto.
    + destruct H as (g & _ & ->). auto.
Qed.
Lemma step0_frame : forall n rs n', procStep0 n rs = Ok n' ->
  nr_decl n' = nr_decl n /\ nr_dq n' = nr_dq n /\ nr_maxC n' = nr_maxC n /\ nr_nB n' = nr_nB n /\ nr_wired n' = nr_wired n /\ exists ms, narStep0 (nr_proc n) rs = Ok (nr_proc n', ms) /\ nr_pq n' = nr_pq n ++ ms.
Proof.
  intros n rs n' H. unfold procStep0 in H. destruct (narStep0 (nr_proc n) rs) as [[p ms]|]; [|discriminate]. cbn [rbind] in H.
  assert (n' = withPq (withProc n p) (nr_pq n ++ ms)) by congruence. subst n'. cbn. repeat split. exists ms. auto.
Qed.
Lemma procWork_frame : forall n draws n', procWork n draws = Ok n' ->
  nr_decl n' = nr_decl n /\ nr_dq n' = nr_dq n /\ nr_maxC n' = nr_maxC n /\ nr_nB n' = nr_nB n /\ nr_wired n' = nr_wired n /\ n_goals (nr_proc n') = n_goals (nr_proc n).
Proof.
  intros n draws n' H. unfold procWork in H. destruct (nr_pq n) as [|[s now] q]; [assert (n' = n) by congruence; subst; repeat split|].
  destruct (storeEvidence _ _ _ _ _ _) as [m|]; [|discriminate]. cbn [rbind] in H. assert (n' = withPq (withProc n (setMem (nr_proc n) m)) q) by congruence.
  subst n'. cbn. repeat split.
Qed.
Lemma linked_run : forall Inp mC nB n ps, run Inp mC nB (nr_decl n) ps -> run Inp mC nB (linked n) ps.
Proof. intros. unfold linked. destruct (nr_wired n); auto. now apply run_env. Qed.
Lemma linked_stamp : forall n, stampCtr (linked n) = stampCtr (nr_decl n).
Proof. intros n. unfold linked. destruct (nr_wired n); reflexivity. Qed.
Theorem session_run : forall log n, session log n ->
  declInv log (nr_decl n) (nr_dq n) /\ nr_maxC n = 64 /\ nr_nB n = 20%nat.
Proof.
  intros log n H. induction H as [|log n t p v ev draws n' _ (I & E1 & E2) H|log n expf sv n' _ (I & E1 & E2) H|log n rs n' _ (I & E1 & E2) H|log n r calls n' _ (I & E1 & E2) Hc H
    |log n n' _ (I & E1 & E2) H|log n draws n' _ (I & E1 & E2) H|log n _ (I & E1 & E2)|log n ops _ (I & E1 & E2)|log n b _ (I & E1 & E2)|log n v _ (I & E1 & E2)|log n _ (I & E1 & E2)]; auto.
  - split; [|auto]. split; [reflexivity|apply run_start].
  - eapply input_inv; eauto.
  - destruct I as (C & R). unfold cycle in H. destruct (reasonCycle expf sv (linked n) (nr_time n)) as [[[[d now] ans] m]|] eqn:E; [|discriminate]. cbn [rbind] in H.
    injection H as <-. cbn. split; auto. split; [apply cycle_stamp in E; rewrite linked_stamp in E; congruence|]. eapply run_cycle; [apply linked_run; exact R|exact E].
  - apply step0_frame in H. destruct H as (-> & -> & -> & -> & _). auto.
  - unfold procStep1 in H. rewrite Hc in H. cbn [rbind] in H. destruct (rfold _ calls (nr_decl n)) as [d|] eqn:E; [|discriminate]. cbn [rbind] in H.
    destruct (narStep1 _ _ _) as [p|]; [|discriminate]. cbn [rbind] in H. injection H as <-. cbn. split; auto. eapply nlpRels_inv; eauto.
  - unfold declWork in H. destruct (nr_dq n) as [|m q] eqn:Q; [assert (n' = n) by congruence; subst n'; rewrite Q; auto|].
    rewrite E1, E2 in H. destruct (workerStep 64 20 (nr_decl n) m) as [[d an]|] eqn:E; [|discriminate]. cbn [rbind] in H. injection H as <-. cbn. split; auto.
    destruct I as (C & R). split; [apply work_stamp in E; congruence|]. eapply run_worker; [exact R| |exact E]. lia.
  - apply procWork_frame in H. destruct H as (-> & -> & -> & -> & _). auto.
  - cbn. split; auto. destruct I as (C & R). split; [exact C|]. now apply run_flush.
Qed.

(** unless main.rs wires the two parts together nothing is ever put into the
    memory for questions about time *)
Lemma input_wired : forall n t p v ev draws n', inputT2 n t p v ev draws = Ok n' -> nr_wired n' = nr_wired n.
Proof.
  intros n t p v ev draws n' H. apply input_cases in H. destruct p, ev; try (red in H; subst n'; reflexivity).
  - subst n'. reflexivity.
  - destruct H as [(K & d' & -> & _)|(K & m & _ & ->)]; reflexivity.
  - destruct H as (d' & -> & _). reflexivity.
  - destruct H as (g & _ & ->). reflexivity.
Qed.
Theorem session_procMem : forall log n, session log n -> nr_wired n = false -> procMem (nr_decl n) = [].
Proof.
  intros log n H. induction H as [|log n t p v ev draws n' _ I H|log n expf sv n' _ I H|log n rs n' _ I H|log n r calls n' _ I Hc H
    |log n n' _ I H|log n draws n' _ I H|log n _ I|log n ops _ I|log n b _ I|log n v _ I|log n _ I]; intros W; auto.
  - rewrite (input_wired _ _ _ _ _ _ _ H) in W. specialize (I W).
    assert (K : forall s p0 v0 n1, toDecl n s p0 v0 n1 -> procMem (nr_decl n1) = []).
    { intros s p0 v0 n1 (d & -> & A). apply add_fixed, fixed_procMem in A. cbn [nr_decl withDecl]. rewrite A. exact I. }
    apply input_cases in H. destruct ev.
    + destruct p; [subst n'; exact I|eapply K; exact H|destruct H as (g & _ & ->); exact I].
    + destruct p; [|red in H; subst n'; exact I|red in H; subst n'; exact I].
      destruct H as [(_ & H)|(_ & m & _ & ->)]; [eapply K; exact H|exact I].
  - unfold cycle in H. destruct (reasonCycle expf sv (linked n) (nr_time n)) as [[[[d now] ans] m]|] eqn:E; [|discriminate]. cbn [rbind] in H.
    injection H as <-. cbn in *. apply cycle_fixed, fixed_procMem in E. unfold linked in E. rewrite W in E. rewrite E. auto.
  - apply step0_frame in H. destruct H as (-> & _ & _ & _ & Wn & _). apply I. congruence.
  - unfold procStep1 in H. rewrite Hc in H. cbn [rbind] in H. destruct (rfold _ calls (nr_decl n)) as [d|] eqn:E; [|discriminate]. cbn [rbind] in H.
    destruct (narStep1 _ _ _) as [p|]; [|discriminate]. cbn [rbind] in H. injection H as <-. cbn in *. specialize (I W). rewrite <- I. clear - E. revert E. generalize (nr_decl n) as a.
    induction calls as [|c l IH]; intros a E; cbn [rfold] in E; [congruence|]. destruct (nlpRel _ a c) as [b|] eqn:A; [|discriminate]. cbn [rbind] in E. apply IH in E. rewrite E. clear - A.
    unfold nlpRel in A. destruct c as [|x [|rel [|]]]; try congruence. destruct (rewriteRel rel) as [r2|]; [|discriminate]. cbn [rbind] in A.
    destruct (convTermToStr rel); [|discriminate]. cbn [rbind] in A. destruct (convTermToStr r2); [|discriminate]. cbn [rbind takeId] in A.
    apply add_fixed, fixed_procMem in A. exact A.
  - unfold declWork in H. destruct (nr_dq n) as [|m q] eqn:Q; [assert (n' = n) by congruence; subst n'; auto|]. destruct (workerStep _ _ (nr_decl n) m) as [[d an]|] eqn:E; [|discriminate]. cbn [rbind] in H. injection H as <-. cbn in *.
    apply work_fixed, fixed_procMem in E. rewrite E. auto.
  - apply procWork_frame in H. destruct H as (-> & _ & _ & _ & Wn & _). apply I. congruence.
  - discriminate.
Qed.

(** * Consequences *)
Theorem session_tasks : forall log n, session log n -> tasksOk 64 (nr_decl n) /\ mapOk (memory (nr_decl n)).
Proof.
  intros log n R. destruct (session_run _ _ R) as ((_ & Rn) & _).
  assert (N : forall s, given log s -> s_punct s = JUGEMENT -> s_stamp s <> []) by (intros s (k & i & _ & St & _) _; rewrite St; discriminate).
  destruct (run_inv (given log) 64 60 N ltac:(lia) _ closed_nonempty N _ _ Rn) as (T & _ & M & _). auto.
Qed.
Lemma given_ids : forall log s i, given log s -> In i (s_stamp s) -> 0 <= i < Z.of_nat (length log).
Proof.
  intros log s i (k & x & E & St & _) Hi. rewrite St in Hi. destruct Hi as [<-|[]]. assert (k < length log)%nat by (apply nth_error_Some; congruence). lia.
Qed.
Theorem session_derivable : forall log n s, session log n -> inDecl (nr_decl n) s -> derivable (given log) s /\ s_punct s = JUGEMENT /\ calcComplexity (s_term s) <= 64.
Proof.
  intros log n s H D. destruct (session_run _ _ H) as ((C & R) & _).
  destruct (run_inv (given log) 64 60) with (G := derivable (given log)) (sh := nr_decl n) (ps := nr_dq n) as (T & Hh & M & B & _); auto; try lia.
  - intros x (k & i & _ & St & _) _. rewrite St. discriminate.
  - apply closed_derivable.
  - intros x Hx J. now apply dv_input.
  - destruct D as [(a & L & ->)|(t & c & Hc & Hs)].
    + split; [now apply Hh|]. split; [now apply (ok_punct _ _ T)|]. now apply (ok_size _ _ T).
    + assert (Hd : holds (memory (nr_decl n)) t c) by exact Hc. destruct (B _ _ Hd) as [_ _ BA _ _]. destruct (BA s Hs) as (Q1 & Q2 & _ & Q3). auto.
Qed.
Theorem session_ids : forall log n s i, session log n -> inDecl (nr_decl n) s -> In i (s_stamp s) ->
  exists k x, i = Z.of_nat k /\ nth_error log k = Some x /\ in_punct x = JUGEMENT /\ in_event x = false.
Proof.
  intros log n s i H D Hi. destruct (session_derivable _ _ _ H D) as (V & _ & _).
  clear D. revert i Hi. induction V as [s G J|p c mir bias w V IH _ _ _ E _|a b c tr v Va IHa Vb IHb _ _ _ _ E _|s b nb Vs IHs Vb IHb _ I]; intros i Hi.
  - destruct G as (k & x & E & St & _ & Pu & _ & _ & K). rewrite St in Hi. destruct Hi as [<-|[]]. exists k, x. split; auto. split; auto.
    destruct K as [(K1 & K2 & _)|(K1 & _)]; [auto|congruence].
  - rewrite E in Hi. auto.
  - rewrite E in Hi. apply merge_from in Hi. destruct Hi; auto.
  - destruct I as (va & vs & _ & _ & _ & St & _). rewrite St in Hi. apply merge_from in Hi. destruct Hi; auto.
Qed.
Theorem session_fresh : forall log n s, session log n -> inDecl (nr_decl n) s -> ~ In (stampCtr (nr_decl n)) (s_stamp s).
Proof.
  intros log n s H D Hi. destruct (session_ids _ _ _ _ H D Hi) as (k & x & E & N & _). destruct (session_run _ _ H) as ((C & _) & _).
  assert (k < length log)%nat by (apply nth_error_Some; congruence). lia.
Qed.

(** * The goal system in sessions *)
Lemma step0_goals : forall p rs p' ms, narStep0 p rs = Ok (p', ms) -> gReach (n_goals p) -> gReach (n_goals p').
Proof.
  intros p rs p' ms H G. unfold narStep0 in H. destruct (confirm p) as [ant|]; [|discriminate]. cbn [rbind] in H.
  destruct (rfold negConfirm _ _) as [h|]; [|discriminate]. cbn [rbind] in H.
  destruct (traceStep _ rs) as [[g m2]|] eqn:T; [|discriminate]. cbn [rbind] in H. injection H as <- <-. cbn.
  assert (E : g = n_goals p \/ exists e, g = event_occurred (n_goals p) e).
  { unfold traceStep in T. cbn [n_trace n_goals setMem setAnt] in T.
    destruct (Nat.leb 3 (length (n_trace p))).
    - destruct (rmapM _ _); [|discriminate]. cbn [rbind] in T.
      destruct (List.rev (n_trace p)) as [|e r]; [left; congruence|right; exists (ev_name e); congruence].
    - destruct (List.rev (n_trace p)) as [|e r]; [left; congruence|right; exists (ev_name e); congruence]. }
  destruct E as [->|[e ->]]; [auto|now apply gr_event].
Qed.
Theorem session_goals : forall log n, session log n -> gReach (n_goals (nr_proc n)).
Proof.
  intros log n H. induction H as [|log n t p v ev draws n' _ I H|log n expf sv n' _ I H|log n rs n' _ I H|log n r calls n' _ I Hc H
    |log n n' _ I H|log n draws n' _ I H|log n _ I|log n ops _ I|log n b _ I|log n v _ I|log n _ I]; auto.
  - apply gr_make.
  - apply input_cases in H. destruct p, ev; try (red in H; subst n'; exact I).
    + subst n'. exact I.
    + destruct H as [(K & d' & -> & _)|(K & m & _ & ->)]; exact I.
    + destruct H as (d' & -> & _). exact I.
    + destruct H as (g & A & ->). cbn. eapply gr_add; eauto.
  - unfold cycle in H. destruct (reasonCycle _ _ _ _) as [[[[d now] ans] m]|]; [|discriminate]. cbn [rbind] in H. injection H as <-. exact I.
  - apply step0_frame in H. destruct H as (_ & _ & _ & _ & _ & ms & E & _). eapply step0_goals; eauto.
  - unfold procStep1 in H. rewrite Hc in H. cbn [rbind] in H. destruct (rfold _ calls (nr_decl n)) as [d|]; [|discriminate]. cbn [rbind] in H.
    destruct (narStep1 _ _ _) as [p|] eqn:E; [|discriminate]. cbn [rbind] in H. injection H as <-. cbn. apply step1_spec in E. apply E. exact I.
  - unfold declWork in H. destruct (nr_dq n) as [|m q]; [assert (n' = n) by congruence; now subst n'|].
    destruct (workerStep _ _ _ _) as [[d an]|]; [|discriminate]. cbn [rbind] in H. injection H as <-. exact I.
  - apply procWork_frame in H. destruct H as (_ & _ & _ & _ & _ & ->). exact I.
Qed.

(** * Dispatch *)
Lemma addAll_question : forall cc mul sh s, s_punct s = QUESTION -> addAll cc mul sh [s] = setQuestions (questions sh ++ [mkTask2 (shallowCopySentence s) false f0 f1]) sh.
Proof. intros cc mul sh s Q. cbn [addAll]. unfold addOne. now rewrite Q. Qed.
Lemma add_question : forall sh s cc maxC k mul now sh', s_punct s = QUESTION -> memAddTask sh s cc maxC k mul now = Ok sh' ->
  if calcComplexity (s_term s) >? maxC then sh' = sh
  else sh' = setQuestions (questions sh ++ [mkTask2 s false f0 f1]) sh.
Proof.
  intros sh s cc maxC k mul now sh' Q H. unfold memAddTask in H. destruct (_ >? _); [congruence|].
  unfold memReviseBelief in H. rewrite Q in H. cbn [rbind] in H. unfold storeInConcepts, storeInConcepts2 in H. rewrite Q in H. cbn [punct_eqb negb rbind] in H.
  rewrite addAll_question in H by auto. rewrite copy_id in H. destruct sh. injection H as <-. reflexivity.
Qed.
Lemma evidence_new : forall us m s nB now draws m', mem_add_evidence us m s nB now draws = Ok m' ->
  exists x vs, matchandintro_var1_sentence s draws = Ok vs /\ cells m' = cells m ++ x /\ (forall c, In c x -> In c (s :: vs)).
Proof.
  intros us m s nB now draws m' H. unfold mem_add_evidence in H. destruct (mem_add_evidence_internal us m s nB now) as [m1|] eqn:E1; [|discriminate]. cbn [rbind] in H.
  destruct (matchandintro_var1_sentence s draws) as [vs|]; [|discriminate]. cbn [rbind] in H.
  apply internal_new in E1. destruct E1 as (x1 & X1 & Y1).
  assert (G : forall l a b, rfold (fun m s => mem_add_evidence_internal us m s nB now) l a = Ok b -> exists x, cells b = cells a ++ x /\ forall c, In c x -> In c l).
  { induction l as [|v l IH]; intros a b F; cbn [rfold] in F; [exists []; rewrite app_nil_r; split; [congruence|intros c []]|].
    destruct (mem_add_evidence_internal us a v nB now) as [a1|] eqn:Ea; [|discriminate]. cbn [rbind] in F. apply internal_new in Ea. destruct Ea as (y & Y & Z).
    apply IH in F. destruct F as (x & X & W). exists (y ++ x). rewrite X, Y, app_assoc. split; auto. intros c Hc. apply in_app_iff in Hc. destruct Hc as [Hc|Hc]; [left; symmetry; auto|right; auto]. }
  apply G in H. destruct H as (x & X & W). exists (x1 ++ x), vs. split; auto. rewrite X, X1, app_assoc. split; auto.
  intros c Hc. apply in_app_iff in Hc. destruct Hc as [Hc|Hc]; [left; symmetry; auto|right; auto].
Qed.
