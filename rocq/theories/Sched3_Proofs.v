(** Without interruption the sections compute the sequential functions. *)
From Coq Require Import ZArith Bool Lia List.
From Verif Require Import Base F64_Model Term_Model Sentence_Model Infer_Model Mem_Model
  Cycle_Model Cycle_Spec Select_Proofs Task_Proofs Run_Proofs Sched_Model Sched_Spec Sched2_Proofs.
Import ListNotations.

(** * Adding *)
Definition denF (x : addArgs) (f : phase) (sh : shared) : res shared :=
  let add := addAll (ar_cc x) (ar_mul x) in
  let store sh := do m <- storeInConcepts (usages sh) (memory sh) (ar_s x) (ar_n x) (ar_now x); Ok (add (setMemory m sh) [ar_s x]) in
  match f with
  | FRevise ts r =>
      do y <- rfold (reviseConcept (ar_s x)) ts (memory sh, r, nextU sh);
      let '(m, r', u) := y in
      let sh1 := setNextU u (setMemory m sh) in
      match r' with Some nb => Ok (add sh1 [ar_s x; nb]) | None => store sh1 end
  | FStore => store sh
  | FCheck l => Ok (add sh l)
  | FPush s l a =>
      let sh2 := setJudg (judg sh ++ [a]) sh in
      Ok (add (setByTerm (populateTaskByTermLookup (byTerm sh2) (s_term s) a) sh2) l)
  | FIndex s l a => Ok (add (setByTerm (populateTaskByTermLookup (byTerm sh) (s_term s) a) sh) l)
  end.
Definition denO (x : addArgs) (o : option phase) (sh : shared) : res shared := match o with Some f => denF x f sh | None => Ok sh end.
Lemma denF_step : forall x f sh, denF x f sh = do r <- addStep x f sh; denO x (snd r) (fst r).
Proof.
  intros x f sh. destruct f as [[|t ts] r| |[|s l]|s l a|s l a]; cbn [addStep].
  - unfold denF. cbn [rfold rbind]. replace (setNextU (nextU sh) (setMemory (memory sh) sh)) with sh by (destruct sh; reflexivity).
    destruct r; reflexivity.
  - unfold denF. cbn [rfold]. destruct (reviseConcept (ar_s x) (memory sh, r, nextU sh) t) as [[[m r'] u]|]; reflexivity.
  - unfold denF. destruct (storeInConcepts _ _ _ _ _); reflexivity.
  - reflexivity.
  - cbn [denF addAll]. unfold addOne. destruct (s_punct s); [|reflexivity|reflexivity]. destruct (taskExists sh s); reflexivity.
  - reflexivity.
  - reflexivity.
Qed.
Lemma denF_start : forall maxC x sh, denO x (startAdd maxC x) sh = memAddTask sh (ar_s x) (ar_cc x) maxC (ar_n x) (ar_mul x) (ar_now x).
Proof.
  intros maxC x sh. unfold startAdd, memAddTask, memReviseBelief. destruct (calcComplexity (s_term (ar_s x)) >? maxC)%Z; [reflexivity|].
  cbn [denO denF]. destruct (s_punct (ar_s x)).
  - destruct (rfold _ _ _) as [[[m r] u]|]; [|reflexivity]. cbn [rbind]. destruct r; [reflexivity|].
    destruct (storeInConcepts _ _ _ _ _); reflexivity.
  - cbn [rfold rbind]. destruct (storeInConcepts _ _ _ _ _); reflexivity.
  - cbn [rfold rbind]. destruct (storeInConcepts _ _ _ _ _); reflexivity.
Qed.
Lemma addStep_mul : forall x f sh sh' o a, addStep x f sh = Ok (sh', o) -> a < length (heap sh) ->
  a < length (heap sh') /\ mulCredit (hget (heap sh') a) = mulCredit (hget (heap sh) a).
Proof.
  intros x f sh sh' o a H La. destruct f as [[|t ts] [nb|]| |[|s l]|s l b|s l b]; cbn [addStep] in H.
  all: try (injection H as <- <-; auto).
  - destruct (reviseConcept _ _ _) as [[[m r'] u]|]; [|discriminate]. cbn [rbind] in H. injection H as <- <-. auto.
  - destruct (reviseConcept _ _ _) as [[[m r'] u]|]; [|discriminate]. cbn [rbind] in H. injection H as <- <-. auto.
  - destruct (storeInConcepts _ _ _ _ _); [|discriminate]. cbn [rbind] in H. injection H as <- <-. auto.
  - destruct (s_punct s); [destruct (taskExists sh s)| |]; injection H as <- <-; auto. simpl. rewrite app_length. split; [lia|].
    rewrite hget_app. apply Nat.ltb_lt in La. now rewrite La.
Qed.

(** * Questions *)
Definition qstep (st : task2 * list answer) (c : sentence) : res (task2 * list answer) :=
  do r <- qaTryAnswer (fst st) c; Ok (fst r, snd st ++ snd r).
Lemma qstep_acc : forall cs q acc, rfold qstep cs (q, acc) = do r <- rfold qstep cs (q, []); Ok (fst r, acc ++ snd r).
Proof.
  induction cs as [|c cs IH]; intros q acc; cbn [rfold].
  - cbn [rbind fst snd]. now rewrite app_nil_r.
  - unfold qstep at 1 3. cbn [fst snd]. destruct (qaTryAnswer q c) as [[q1 a1]|]; [|reflexivity]. cbn [rbind fst snd app].
    rewrite IH, (IH q1 a1). destruct (rfold qstep cs (q1, [])) as [[q2 a2]|]; [|reflexivity]. cbn [rbind fst snd]. now rewrite app_assoc.
Qed.
Lemma tryAll_app : forall c1 c2 q, qaTryAll q (c1 ++ c2) =
  do r <- qaTryAll q c1; do r2 <- qaTryAll (fst r) c2; Ok (fst r2, snd r ++ snd r2).
Proof.
  intros c1 c2 q. change (qaTryAll q (c1 ++ c2)) with (rfold qstep (c1 ++ c2) (q, [])). change (qaTryAll q c1) with (rfold qstep c1 (q, [])).
  assert (A : forall c1 st, rfold qstep (c1 ++ c2) st = do r <- rfold qstep c1 st; rfold qstep c2 r).
  { clear. induction c1 as [|c c1 IH]; intros st; cbn [rfold app]; [reflexivity|]. destruct (qstep st c); [|reflexivity]. cbn [rbind]. apply IH. }
  rewrite A. destruct (rfold qstep c1 (q, [])) as [[q1 a1]|]; [|reflexivity]. cbn [rbind fst snd]. apply qstep_acc.
Qed.
Lemma tryAll_keeps : forall cs q q' ans, qaTryAll q cs = Ok (q', ans) -> q_s q' = q_s q.
Proof.
  intros cs q q' ans H. change (qaTryAll q cs) with (rfold qstep cs (q, [])) in H. revert H. generalize (@nil answer) as acc. revert q.
  induction cs as [|c cs IH]; intros q acc H; cbn [rfold] in H; [injection H as <- <-; auto|].
  unfold qstep at 1 in H. cbn [fst snd] in H. destruct (qaTryAnswer q c) as [[q1 a1]|] eqn:E; [|discriminate]. cbn [rbind fst snd] in H.
  apply qaTryAnswer_spec in E. destruct E as [E _]. apply IH in H. congruence.
Qed.
Lemma replace_twice : forall A i (v w : A) l, replace_at i v (replace_at i w l) = replace_at i v l.
Proof. induction i; intros v w [|x l]; simpl; auto. now rewrite IHi. Qed.
Lemma replace_same : forall A i (v : A) l, nth_error l i = Some v -> replace_at i v l = l.
Proof. induction i; intros v [|x l] H; simpl in *; try discriminate; [now injection H as ->|]. now rewrite IHi. Qed.
Lemma nth_replaced : forall A i (v : A) l, i < length l -> nth_error (replace_at i v l) i = Some v.
Proof. induction i; intros v [|x l] H; simpl in *; try lia; auto. apply IHi. lia. Qed.

(** * A client alone *)
Section Alone.
  Variables (maxC : Z) (n : nat) (i : nat) (cl : list cpc) (w : wphase).
  Hypothesis Hi : nth_error cl i = Some CIdle.
  Let S p sh qu log := mkSys sh qu (replace_at i p cl) w log.
  Let len : i < length cl.
  Proof. apply nth_error_Some. congruence. Qed.
  Definition alone (p : cpc) (sh : shared) (qu : list workMsg) (D : res (shared * list workMsg * list answer)) : Prop :=
    forall log, exists k, execAll maxC n (repeat (ChClient i) k) (S p sh qu log) =
      do r <- D; let '(sh', qu', ans) := r in Ok (Some (S CIdle sh' qu' (log ++ ans))).
  Lemma exec_S : forall p sh qu log, exec maxC n (ChClient i) (S p sh qu log) =
    do o <- cliStep p sh qu; Ok (match o with None => None | Some (sh', qu', ans, p') => Some (S p' sh' qu' (log ++ ans)) end).
  Proof.
    intros p sh qu log. cbn [exec]. unfold S at 1. cbn [y_clients y_sh y_queue]. rewrite nth_replaced by exact len.
    unfold S. cbn [y_clients y_sh y_queue y_worker y_log]. destruct (cliStep p sh qu) as [[[[[s1 q1] a1] p1]|]|]; auto.
    cbn [rbind]. now rewrite replace_twice.
  Qed.
  Lemma alone_done : forall sh qu, alone CIdle sh qu (Ok (sh, qu, [])).
  Proof. intros sh qu log. exists 0. simpl. now rewrite app_nil_r. Qed.
  Lemma alone_panic : forall p sh qu, cliStep p sh qu = Panic -> alone p sh qu Panic.
  Proof. intros p sh qu H log. exists 1. cbn [repeat execAll]. rewrite exec_S, H. reflexivity. Qed.
  Lemma alone_step : forall p sh qu sh' qu' ans p' D D', cliStep p sh qu = Ok (Some (sh', qu', ans, p')) -> alone p' sh' qu' D' ->
    D = (do r <- D'; let '(s, q, a) := r in Ok (s, q, ans ++ a)) -> alone p sh qu D.
  Proof.
    intros p sh qu sh' qu' ans p' D D' H A -> log. destruct (A (log ++ ans)) as [k Hk]. exists (Datatypes.S k).
    cbn [repeat execAll]. rewrite exec_S, H. cbn [rbind]. rewrite Hk. destruct D' as [[[s q] a]|]; [|reflexivity]. cbn [rbind]. now rewrite app_assoc.
  Qed.
  Lemma alone_step0 : forall p sh qu sh' qu' p' D, cliStep p sh qu = Ok (Some (sh', qu', [], p')) -> alone p' sh' qu' D -> alone p sh qu D.
  Proof. intros. eapply alone_step; eauto. destruct D as [[[s q] a]|]; reflexivity. Qed.

  Lemma alone_add : forall x f sh qu, alone (CAdd x f) sh qu (do s <- denF x f sh; Ok (s, qu, [])).
  Proof.
    intros x f. remember (rankF f) as r eqn:E. revert f E. induction (lex_wf r) as [r _ IH]. intros f -> sh qu. rewrite denF_step.
    destruct (addStep x f sh) as [[s1 [f1|]]|] eqn:E; cbn [rbind fst snd denO].
    - eapply alone_step0; [cbn [cliStep]; rewrite E; reflexivity|]. apply (IH (rankF f1)); auto. eapply addStep_lex; eauto.
    - eapply alone_step0; [cbn [cliStep]; rewrite E; reflexivity|]. apply alone_done.
    - apply alone_panic. cbn [cliStep]. now rewrite E.
  Qed.

  (** the cycle, from the back *)
  Definition dConc (sh : shared) (qu : list workMsg) : res (shared * list workMsg * list answer) := do s <- maintainConcepts sh; Ok (s, qu, []).
  Definition dMaint (y : cycArgs) (sh : shared) (qu : list workMsg) := do s <- maintainTasks (cy_exp y) sh; dConc s qu.
  Lemma a_conc : forall y sh qu, alone (CCycle y YConcepts) sh qu (dConc sh qu).
  Proof.
    intros y sh qu. unfold dConc. destruct (maintainConcepts sh) as [s|] eqn:E; cbn [rbind].
    - eapply alone_step0; [cbn [cliStep cycStep]; rewrite E; reflexivity|]. apply alone_done.
    - apply alone_panic. cbn [cliStep cycStep]. now rewrite E.
  Qed.
  Lemma a_tasks : forall y sh qu, alone (CCycle y YTasks) sh qu (dMaint y sh qu).
  Proof.
    intros y sh qu. unfold dMaint, maintainTasks. destruct (Z.rem (cycleCtr sh) 111 =? 0)%Z eqn:E.
    - eapply alone_step0; [cbn [cliStep cycStep]; rewrite E; reflexivity|].
      destruct (limitTasks (cy_exp y) sh) as [s1|] eqn:L; cbn [rbind].
      + eapply alone_step0; [cbn [cliStep cycStep]; rewrite L; reflexivity|].
        assert (C : cycleCtr s1 = cycleCtr sh). { apply limitTasks_ok in L. destruct L as (kept & -> & _). reflexivity. }
        eapply alone_step0; [cbn [cliStep cycStep]; rewrite C, E; reflexivity|].
        eapply alone_step0; [reflexivity|]. apply a_conc.
      + apply alone_panic. cbn [cliStep cycStep]. now rewrite L.
    - eapply alone_step0; [cbn [cliStep cycStep]; rewrite E; reflexivity|]. cbn [rbind].
      eapply alone_step0; [cbn [cliStep cycStep]; rewrite E; reflexivity|]. apply a_conc.
  Qed.
  Lemma a_touch : forall y m sh qu, length qu < 4 -> alone (CCycle y (YTouch m)) sh qu (dMaint y (touchAll (Some m) (cy_now y) sh) (qu ++ [m])).
  Proof.
    intros y m sh qu L. eapply alone_step0; [reflexivity|].
    apply Nat.ltb_lt in L. eapply alone_step0; [cbn [cliStep cycStep]; rewrite L; reflexivity|]. apply a_tasks.
  Qed.
  Lemma a_collect : forall y a ts acc sh qu, length qu < 4 -> alone (CCycle y (YCollect a ts acc)) sh qu
    (let m := mkMsg a (limitSecondary (heap sh) (fold_left (fun acc st => match mget st (byTerm sh) with Some l => collectSecondary (heap sh) acc l | None => acc end) ts acc)) (cycleCtr sh) in
     dMaint y (touchAll (Some m) (cy_now y) sh) (qu ++ [m])).
  Proof.
    intros y a ts. induction ts as [|t ts IH]; intros acc sh qu L.
    - eapply alone_step0; [reflexivity|]. now apply a_touch.
    - eapply alone_step0; [reflexivity|]. now apply IH.
  Qed.
  Definition dWork (y : cycArgs) (sh : shared) (qu : list workMsg) :=
    do w <- selectWork (cy_exp y) sh;
    dMaint y (touchAll (snd w) (cy_now y) (fst w)) (qu ++ match snd w with Some m => [m] | None => [] end).
  Lemma a_any : forall y sh qu, length qu < 4 -> alone (CCycle y YAny) sh qu (dWork y sh qu).
  Proof.
    intros y sh qu L. unfold dWork, selectWork. destruct (judg sh) as [|j0 js] eqn:J.
    - eapply alone_step0; [cbn [cliStep cycStep]; rewrite J; reflexivity|]. cbn [rbind snd fst touchAll]. rewrite app_nil_r. apply a_tasks.
    - eapply alone_step0; [cbn [cliStep cycStep]; rewrite J; reflexivity|]. rewrite <- J.
      destruct (idx (judg sh) _) as [a|] eqn:E.
      + eapply alone_step0; [cbn [cliStep cycStep]; rewrite E; reflexivity|]. cbn [rbind snd fst].
        exact (a_collect y a _ [] (setJudg _ sh) qu L).
      + apply alone_panic. cbn [cliStep cycStep]. now rewrite E.
  Qed.
  Lemma a_ask : forall y ix ts sh qu q, length qu < 4 -> nth_error (questions sh) ix = Some q ->
    alone (CCycle y (YAsk ix ts)) sh qu
      (let m := if isTemporal (s_term (q_s q)) then procMem sh else memory sh in
       do r <- qaTryAll q (flat_map (fun st => match ret_beliefs_of_concept m st with Some l => l | None => [] end) ts);
       do d <- dWork y (setQuestions (replace_at ix (fst r) (questions sh)) sh) qu;
       let '(s, qu', a) := d in Ok (s, qu', snd r ++ a)).
  Proof.
    intros y ix ts. induction ts as [|t ts IH]; intros sh qu q L Hq.
    - eapply alone_step0; [reflexivity|]. cbn [flat_map]. change (qaTryAll q []) with (Ok (q, @nil answer)). cbn [rbind fst snd].
      rewrite (replace_same _ _ _ _ Hq). replace (setQuestions (questions sh) sh) with sh by (destruct sh; reflexivity).
      assert (A := a_any y sh qu L). destruct (dWork y sh qu) as [[[s q'] a]|]; exact A.
    - cbn zeta. cbn [flat_map]. rewrite tryAll_app. set (m := if isTemporal _ then _ else _).
      set (c1 := match ret_beliefs_of_concept m t with Some l => l | None => [] end).
      set (c2 := flat_map _ ts).
      destruct (qaTryAll q c1) as [[q1 a1]|] eqn:E.
      + set (sh1 := setQuestions (replace_at ix q1 (questions sh)) sh).
        assert (Lx : ix < length (questions sh)) by (apply nth_error_Some; congruence).
        assert (K := tryAll_keeps _ _ _ _ E).
        eapply alone_step; [cbn [cliStep cycStep]; unfold idx; rewrite Hq; cbn [unwrap rbind]; fold m; fold c1; rewrite E; reflexivity| |].
        * apply (IH sh1 qu q1 L). unfold sh1. simpl. now apply nth_replaced.
        * cbn [rbind fst snd]. unfold sh1. simpl (procMem _). simpl (memory _). simpl (questions _). rewrite K. fold m. fold c2.
          destruct (qaTryAll q1 c2) as [[q2 a2]|]; [|reflexivity]. cbn [rbind fst snd]. rewrite replace_twice.
          match goal with |- context [dWork y ?s qu] => match goal with |- context [dWork y ?s2 qu] => change s2 with s end end.
          destruct (dWork y _ qu) as [[[s q'] a]|]; [|reflexivity]. cbn [rbind]. now rewrite app_assoc.
      + apply alone_panic. cbn [cliStep cycStep]. unfold idx. rewrite Hq. cbn [unwrap rbind]. fold m. fold c1. now rewrite E.
  Qed.
  Lemma a_sample : forall y sh qu, length qu < 4 -> alone (CCycle y YSample) sh qu
    (do qa <- sampleQuestion (cy_sel y) sh; do d <- dWork y (fst qa) qu; let '(s, qu', a) := d in Ok (s, qu', snd qa ++ a)).
  Proof.
    intros y sh qu L. unfold sampleQuestion. destruct (questions sh) as [|q0 qs] eqn:Q.
    - eapply alone_step0; [cbn [cliStep cycStep]; rewrite Q; reflexivity|]. cbn [rbind fst snd]. assert (A := a_any y sh qu L).
      destruct (dWork y sh qu) as [[[s q'] a]|]; exact A.
    - destruct (task2SelByCreditRandom (cy_sel y) (q0 :: qs)) as [ix|] eqn:E.
      + cbn [rbind]. destruct (idx (q0 :: qs) ix) as [q|] eqn:Ei.
        * eapply alone_step0; [cbn [cliStep cycStep]; rewrite Q, E; cbn [rbind]; rewrite Ei; reflexivity|]. cbn [rbind].
          assert (Hn : nth_error (questions sh) ix = Some q).
          { rewrite Q. unfold idx in Ei. destruct (nth_error (q0 :: qs) ix); [now injection Ei as ->|discriminate]. }
          assert (A := a_ask y ix (retUniqueSubterms (s_term (q_s q))) sh qu q L Hn). cbn zeta in A. rewrite Q in A.
          destruct (qaTryAll q _) as [[q' a']|]; [|exact A]. cbn [rbind fst snd] in *. exact A.
        * apply alone_panic. cbn [cliStep cycStep]. rewrite Q, E. cbn [rbind]. now rewrite Ei.
      + apply alone_panic. cbn [cliStep cycStep]. now rewrite Q, E.
  Qed.
  Lemma a_cycle : forall y sh qu, length qu < 4 -> alone (CCycle y YTransfer) (setCycleCtr (cycleCtr sh + 1) sh) qu
    (do r <- reasonCycle (cy_exp y) (cy_sel y) sh (cy_now y - 1);
     let '(sh', _, ans, msg) := r in Ok (sh', qu ++ match msg with Some m => [m] | None => [] end, ans)).
  Proof.
    intros y sh qu L. eapply alone_step0; [reflexivity|]. eapply alone_step0; [reflexivity|].
    unfold reasonCycle. replace (cy_now y - 1 + 1)%Z with (cy_now y) by lia.
    set (sh1 := baseCredits _). assert (A := a_sample y sh1 qu L). unfold dWork, dMaint, dConc in A.
    destruct (sampleQuestion (cy_sel y) sh1) as [[s2 qa]|]; [|exact A]. cbn [rbind fst snd] in *.
    destruct (selectWork (cy_exp y) s2) as [[s3 wk]|]; [|exact A]. cbn [rbind fst snd] in *.
    destruct (maintainTasks (cy_exp y) _) as [s4|]; [|exact A]. cbn [rbind fst snd] in *.
    destruct (maintainConcepts s4) as [s5|]; [|exact A]. cbn [rbind fst snd] in *. rewrite app_nil_r in A. exact A.
  Qed.
End Alone.

Theorem add_alone : forall maxC n st i x, nth_error (y_clients st) i = Some CIdle ->
  exists k, execAll maxC n (ChStart i (OpAdd x) :: repeat (ChClient i) k) st =
    do sh <- memAddTask (y_sh st) (ar_s x) (ar_cc x) maxC (ar_n x) (ar_mul x) (ar_now x);
    Ok (Some (mkSys sh (y_queue st) (y_clients st) (y_worker st) (y_log st))).
Proof.
  intros maxC n st i x Hi. rewrite <- denF_start. cbn [execAll exec]. rewrite Hi. cbn [opStart].
  destruct (startAdd maxC x) as [f|]; cbn [rbind denO].
  - destruct (alone_add maxC n i (y_clients st) (y_worker st) Hi x f (y_sh st) (y_queue st) (y_log st)) as [k Hk]. exists k. rewrite Hk.
    destruct (denF x f (y_sh st)) as [s|]; [|reflexivity]. cbn [rbind]. rewrite app_nil_r. now rewrite (replace_same _ _ _ _ Hi).
  - exists 0. cbn [repeat execAll]. now rewrite (replace_same _ _ _ _ Hi).
Qed.
Theorem cycle_alone : forall maxC n st i y, nth_error (y_clients st) i = Some CIdle -> length (y_queue st) < 4 ->
  exists k, execAll maxC n (ChStart i (OpCycle y) :: repeat (ChClient i) k) st =
    do r <- reasonCycle (cy_exp y) (cy_sel y) (y_sh st) (cy_now y - 1);
    let '(sh, _, ans, msg) := r in
    Ok (Some (mkSys sh (y_queue st ++ match msg with Some m => [m] | None => [] end) (y_clients st) (y_worker st) (y_log st ++ ans))).
Proof.
  intros maxC n st i y Hi L. cbn [execAll exec]. rewrite Hi. cbn [opStart rbind].
  destruct (a_cycle maxC n i (y_clients st) (y_worker st) Hi y (y_sh st) (y_queue st) L (y_log st)) as [k Hk]. exists k. rewrite Hk.
  destruct (reasonCycle _ _ _ _) as [[[[s t] a] m]|]; [|reflexivity]. cbn [rbind]. now rewrite (replace_same _ _ _ _ Hi).
Qed.

(** * The worker alone *)
Section WAlone.
  Variables (maxC : Z) (n : nat) (cl : list cpc).
  Let S p sh qu log := mkSys sh qu cl p log.
  Definition walone (p : wphase) (sh : shared) (qu : list workMsg) (D : res (shared * list answer)) : Prop :=
    forall log, exists k, execAll maxC n (repeat ChWorker k) (S p sh qu log) =
      do r <- D; Ok (Some (S WIdle (fst r) qu (log ++ snd r))).
  Lemma w_done : forall sh qu, walone WIdle sh qu (Ok (sh, [])).
  Proof. intros sh qu log. exists 0. simpl. now rewrite app_nil_r. Qed.
  Lemma w_panic : forall p sh qu, workStep maxC n p sh qu = Panic -> walone p sh qu Panic.
  Proof. intros p sh qu H log. exists 1. cbn [repeat execAll exec]. unfold S. cbn [y_worker y_sh y_queue]. rewrite H. reflexivity. Qed.
  Lemma w_step : forall p sh qu sh' ans p' D D', workStep maxC n p sh qu = Ok (Some (sh', qu, ans, p')) -> walone p' sh' qu D' ->
    D = (do r <- D'; Ok (fst r, ans ++ snd r)) -> walone p sh qu D.
  Proof.
    intros p sh qu sh' ans p' D D' H A -> log. destruct (A (log ++ ans)) as [k Hk]. exists (Datatypes.S k).
    cbn [repeat execAll exec]. unfold S in *. cbn [y_worker y_sh y_queue y_clients y_log]. rewrite H. cbn [rbind].
    rewrite Hk. destruct D' as [[s a]|]; [|reflexivity]. cbn [rbind fst snd]. now rewrite app_assoc.
  Qed.
  Lemma w_step0 : forall p sh qu sh' p' D, workStep maxC n p sh qu = Ok (Some (sh', qu, [], p')) -> walone p' sh' qu D -> walone p sh qu D.
  Proof. intros. eapply w_step; eauto. destruct D as [[s a]|]; reflexivity. Qed.
  Definition wadd (m : workMsg) (mulP : f64) (sh : shared) (cs : list (sentence * f64)) : res shared :=
    rfold (fun sh c => memAddTask sh (fst c) true maxC n (fmul (fmul f1 mulP) (snd c)) (m_cycle m)) cs sh.
  Lemma w_adding : forall m x cs mulP,
    (forall sh qu, primary m < length (heap sh) -> mulCredit (hget (heap sh) (primary m)) = mulP -> walone (WAdd m cs) sh qu (do s <- wadd m mulP sh cs; Ok (s, []))) ->
    forall f sh qu, primary m < length (heap sh) -> mulCredit (hget (heap sh) (primary m)) = mulP ->
    walone (WAdding m x f cs) sh qu (do s1 <- denF x f sh; do s <- wadd m mulP s1 cs; Ok (s, [])).
  Proof.
    intros m x cs mulP HA f. remember (rankF f) as r eqn:E. revert f E. induction (lex_wf r) as [r _ IH]. intros f -> sh qu Lp Mp. rewrite denF_step.
    destruct (addStep x f sh) as [[s1 o]|] eqn:E.
    2: { apply w_panic. cbn [workStep]. now rewrite E. }
    destruct (addStep_mul _ _ _ _ _ _ E Lp) as [Lp' Mp']. rewrite Mp in Mp'.
    cbn [rbind fst snd]. eapply w_step0; [cbn [workStep]; rewrite E; reflexivity|]. cbn [fst snd]. destruct o as [f1|]; cbn [denO].
    - apply (IH (rankF f1)); auto. eapply addStep_lex; eauto.
    - cbn [rbind]. apply HA; auto.
  Qed.
  Lemma w_add : forall m mulP cs sh qu, primary m < length (heap sh) -> mulCredit (hget (heap sh) (primary m)) = mulP ->
    walone (WAdd m cs) sh qu (do s <- wadd m mulP sh cs; Ok (s, [])).
  Proof.
    intros m mulP cs. induction cs as [|c cs IH]; intros sh qu Lp Mp; unfold wadd; cbn [rfold].
    - eapply w_step0; [reflexivity|]. apply w_done.
    - set (x := mkAddArgs (fst c) true (fmul (fmul f1 mulP) (snd c)) n (m_cycle m)).
      assert (K : workStep maxC n (WAdd m (c :: cs)) sh qu =
        Ok (Some (sh, qu, [], match startAdd maxC x with None => WAdd m cs | Some f => WAdding m x f cs end))).
      { cbn [workStep]. rewrite Mp. reflexivity. }
      eapply w_step0; [exact K|]. change (memAddTask sh (fst c) true maxC n (fmul (fmul f1 mulP) (snd c)) (m_cycle m)) with
        (memAddTask sh (ar_s x) (ar_cc x) maxC (ar_n x) (ar_mul x) (ar_now x)). rewrite <- denF_start.
      destruct (startAdd maxC x) as [f|]; cbn [denO].
      + assert (A := w_adding m x cs mulP IH f sh qu Lp Mp). destruct (denF x f sh); exact A.
      + exact (IH sh qu Lp Mp).
  Qed.
  Lemma w_answer : forall m mulP cs todo sh qu, primary m < length (heap sh) -> mulCredit (hget (heap sh) (primary m)) = mulP ->
    walone (WAnswer m cs todo) sh qu (do qa <- answerAll (questions sh) todo;
      do s <- wadd m mulP (setQuestions (fst qa) sh) cs; Ok (s, snd qa)).
  Proof.
    intros m mulP cs todo. induction todo as [|c todo IH]; intros sh qu Lp Mp.
    - eapply w_step0; [reflexivity|]. unfold answerAll. cbn [rfold rbind fst snd].
      replace (setQuestions (questions sh) sh) with sh by (destruct sh; reflexivity). now apply w_add.
    - assert (Acc : forall qs acc cs, rfold (fun st c => if punct_eqb (s_punct c) JUGEMENT then do r <- qaTryQuestions (fst st) c; Ok (fst r, snd st ++ snd r) else Ok st) cs (qs, acc)
        = do r <- answerAll qs cs; Ok (fst r, acc ++ snd r)).
      { clear. intros qs acc cs. unfold answerAll. revert qs acc.
        assert (Gen : forall cs qs acc acc2, rfold (fun st c => if punct_eqb (s_punct c) JUGEMENT then do r <- qaTryQuestions (fst st) c; Ok (fst r, snd st ++ snd r) else Ok st) cs (qs, acc ++ acc2)
          = do r <- rfold (fun st c => if punct_eqb (s_punct c) JUGEMENT then do r <- qaTryQuestions (fst st) c; Ok (fst r, snd st ++ snd r) else Ok st) cs (qs, acc2); Ok (fst r, acc ++ snd r)).
        { induction cs0 as [|c cs0 IH]; intros qs acc acc2; cbn [rfold]; [reflexivity|]. destruct (punct_eqb (s_punct c) JUGEMENT).
          - cbn [fst snd]. destruct (qaTryQuestions qs c) as [[q1 a1]|]; [|reflexivity]. cbn [rbind fst snd]. rewrite <- app_assoc. apply IH.
          - cbn [rbind]. apply IH. }
        intros qs acc. rewrite <- (Gen cs qs acc []). now rewrite app_nil_r. }
      unfold answerAll. cbn [rfold fst snd]. destruct (punct_eqb (s_punct c) JUGEMENT) eqn:P.
      + destruct (qaTryQuestions (questions sh) c) as [[q1 a1]|] eqn:E.
        * cbn [rbind fst snd app]. rewrite Acc.
          eapply w_step; [cbn [workStep]; rewrite P, E; reflexivity| |].
          -- apply (IH (setQuestions q1 sh) qu); auto.
          -- simpl (questions _). destruct (answerAll q1 todo) as [[q2 a2]|]; [|reflexivity]. cbn [rbind fst snd].
             change (setQuestions q2 (setQuestions q1 sh)) with (setQuestions q2 sh).
             destruct (wadd m mulP _ cs); reflexivity.
        * apply w_panic. cbn [workStep]. now rewrite P, E.
      + eapply w_step0; [cbn [workStep]; rewrite P; reflexivity|]. cbn [rbind]. now apply IH.
  Qed.
End WAlone.
Theorem worker_alone : forall maxC n st m qu, y_worker st = WIdle -> y_queue st = m :: qu -> primary m < length (heap (y_sh st)) ->
  exists k, execAll maxC n (repeat ChWorker k) st =
    do r <- workerStep maxC n (y_sh st) m;
    Ok (Some (mkSys (fst r) qu (y_clients st) WIdle (y_log st ++ snd r))).
Proof.
  intros maxC n [sh q cl w log] m qu W Q L. simpl in *. subst w q. unfold workerStep.
  destruct (derive sh m) as [d|] eqn:D.
  - destruct (w_answer maxC n cl m (mulCredit (hget (heap sh) (primary m))) (fst d) (map fst (fst d)) (setNextU (snd d) sh) qu L eq_refl log) as [k Hk].
    exists (S (S k)). cbn [repeat execAll exec]. cbn [y_worker y_sh y_queue y_clients y_log workStep rbind]. rewrite D. cbn [rbind].
    rewrite !app_nil_r. rewrite Hk. simpl (questions _). destruct (answerAll (questions sh) (map fst (fst d))) as [[q1 a1]|]; [|reflexivity].
    cbn [rbind fst snd]. unfold wadd. destruct (rfold _ (fst d) _) as [s|]; reflexivity.
  - exists 2. cbn [repeat execAll exec]. cbn [y_worker y_sh y_queue y_clients y_log workStep rbind]. rewrite D. reflexivity.
Qed.
