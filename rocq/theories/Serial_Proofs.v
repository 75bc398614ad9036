(** The main thread, left alone, does what the sequential reading says. *)
From Coq Require Import String Ascii ZArith Bool Lia List.
From Verif Require Import Base F64_Model Term_Model Sentence_Model Stamp_Model Tv_Model Mem_Model Cycle_Model Sched_Model Sched_Spec Sched3_Proofs
  PMem_Model Goal_Model Proc_Model ProcS_Model ProcX_Model ProcS2_Proofs Parser_Model Nar_Model Whole_Model Whole_Proofs Serial_Spec Run_Proofs Nar_Spec Nar_Proofs Nar2_Proofs.
Import ListNotations.
Local Open Scope list_scope.
Local Open Scope Z_scope.

(** * What is seen of the procedural memory does not matter except for questions *)
Lemma pm_addAll : forall pm cc mul l sh, addAll cc mul (setProcMem pm sh) l = setProcMem pm (addAll cc mul sh l).
Proof.
  intros pm cc mul. induction l as [|s l IH]; intros sh; cbn [addAll]; [reflexivity|]. unfold addOne. destruct (s_punct s).
  - change (taskExists (setProcMem pm sh) s) with (taskExists sh s). destruct (taskExists sh s); [reflexivity|]. rewrite <- IH. reflexivity.
  - rewrite <- IH. reflexivity.
  - rewrite <- IH. reflexivity.
Qed.
Lemma pm_add : forall pm d s cc maxC n mul now, memAddTask (setProcMem pm d) s cc maxC n mul now = do d' <- memAddTask d s cc maxC n mul now; Ok (setProcMem pm d').
Proof.
  intros pm d s cc maxC n mul now. unfold memAddTask. destruct (_ >? _); [reflexivity|]. change (memory (setProcMem pm d)) with (memory d). change (nextU (setProcMem pm d)) with (nextU d).
  destruct (memReviseBelief _ _ _) as [[[m rv] u]|]; [|reflexivity]. cbn [rbind]. set (sh1 := setNextU u (setMemory m d)). change (setNextU u (setMemory m (setProcMem pm d))) with (setProcMem pm sh1).
  destruct rv as [nb|]; [cbn [rbind]; now rewrite pm_addAll|]. change (usages (setProcMem pm sh1)) with (usages sh1). change (memory (setProcMem pm sh1)) with (memory sh1).
  destruct (storeInConcepts _ _ _ _ _) as [m'|]; [|reflexivity]. cbn [rbind]. change (setMemory m' (setProcMem pm sh1)) with (setProcMem pm (setMemory m' sh1)). now rewrite pm_addAll.
Qed.
Lemma pm_work : forall pm d maxC n m, workerStep maxC n (setProcMem pm d) m = do r <- workerStep maxC n d m; Ok (setProcMem pm (fst r), snd r).
Proof.
  intros pm d maxC n m. unfold workerStep. change (derive (setProcMem pm d) m) with (derive d m). destruct (derive d m) as [[cs u]|]; [|reflexivity]. cbn [rbind fst snd].
  change (questions (setProcMem pm d)) with (questions d). destruct (answerAll _ _) as [[qs an]|]; [|reflexivity]. cbn [rbind fst snd].
  change (hget (heap (setProcMem pm d)) (primary m)) with (hget (heap d) (primary m)).
  set (sh1 := setQuestions qs (setNextU u d)). change (setQuestions qs (setNextU u (setProcMem pm d))) with (setProcMem pm sh1). set (f := fun sh c => memAddTask sh _ _ _ _ _ _).
  assert (K : forall l sh, rfold f l (setProcMem pm sh) = do x <- rfold f l sh; Ok (setProcMem pm x)).
  { induction l as [|c l IH]; intros sh; cbn [rfold]; [reflexivity|]. unfold f at 1 3. rewrite pm_add. destruct (memAddTask _ _ _ _ _ _ _); [|reflexivity]. cbn [rbind]. apply IH. }
  rewrite K. destruct (rfold f cs sh1); reflexivity.
Qed.
Lemma memAdd_pm : forall d s cc maxC n mul now d', memAddTask d s cc maxC n mul now = Ok d' -> procMem d' = procMem d.
Proof.
  intros d s cc maxC n mul now d' H. pose proof (pm_add (procMem d) d s cc maxC n mul now) as K. replace (setProcMem (procMem d) d) with d in K by now destruct d. rewrite H in K. cbn [rbind] in K.
  injection K as K. rewrite K. reflexivity.
Qed.
Lemma work_pm : forall d maxC n m d' an, workerStep maxC n d m = Ok (d', an) -> procMem d' = procMem d.
Proof.
  intros d maxC n m d' an H. pose proof (pm_work (procMem d) d maxC n m) as K. replace (setProcMem (procMem d) d) with d in K by now destruct d. rewrite H in K. cbn [rbind fst snd] in K.
  injection K as K. rewrite K. reflexivity.
Qed.
Lemma addStep_pm : forall x f sh sh' o, addStep x f sh = Ok (sh', o) -> procMem sh' = procMem sh.
Proof.
  intros x f sh sh' o H. destruct f as [[|t ts] r| |[|s l]|s l a|s l a]; cbn [addStep] in H.
  - destruct r; injection H as <- _; reflexivity.
  - destruct (reviseConcept _ _ t) as [[[m r'] u]|]; [|discriminate]. cbn [rbind] in H. injection H as <- _. reflexivity.
  - destruct (storeInConcepts _ _ _ _ _); [|discriminate]. cbn [rbind] in H. injection H as <- _. reflexivity.
  - injection H as <- _. reflexivity.
  - destruct (s_punct s); [destruct (taskExists sh s)| |]; injection H as <- _; reflexivity.
  - injection H as <- _. reflexivity.
  - injection H as <- _. reflexivity.
Qed.
Lemma cycStep_pm : forall y p sh qu sh' qu' ans o, cycStep y p sh qu = Ok (Some (sh', qu', ans, o)) -> procMem sh' = procMem sh.
Proof.
  intros y p sh qu sh' qu' ans o H. destruct p as [| | |i [|t ts]| | |a [|t ts] acc|m|m| | | | |]; cbn [cycStep] in H; try (injection H as <- _ _ _; reflexivity).
  - destruct (questions sh); [injection H as <- _ _ _; reflexivity|]. destruct (task2SelByCreditRandom _ _); [|discriminate]. cbn [rbind] in H.
    destruct (idx _ _); [|discriminate]. cbn [rbind] in H. injection H as <- _ _ _; reflexivity.
  - destruct (idx _ i); [|discriminate]. cbn [rbind] in H. destruct (qaTryAll _ _); [|discriminate]. cbn [rbind] in H. injection H as <- _ _ _; reflexivity.
  - destruct (idx _ _); [|discriminate]. cbn [rbind] in H. injection H as <- _ _ _; reflexivity.
  - destruct (length qu <? 4)%nat; [|discriminate]. injection H as <- _ _ _; reflexivity.
  - unfold limitTasks in H. destruct (fsort_desc _ _); [|discriminate]. cbn [rbind] in H. injection H as <- _ _ _; reflexivity.
  - unfold maintainConcepts in H. destruct (_ =? _); [|cbn [rbind] in H; injection H as <- _ _ _; reflexivity].
    destruct (limitMemory _ _); [|discriminate]. cbn [rbind] in H. injection H as <- _ _ _; reflexivity.
Qed.
Lemma exec_pm : forall maxC n c st st', exec maxC n c st = Ok (Some st') -> procMem (y_sh st') = procMem (y_sh st).
Proof.
  intros maxC n c st st' H. destruct c as [i o|i|]; cbn [exec] in H.
  - destruct (nth_error _ i) as [[| |]|]; try discriminate. destruct (opStart _ _ _) as [sh p] eqn:E. injection H as <-. cbn [y_sh].
    destruct o; cbn [opStart] in E; injection E as <- _; reflexivity.
  - destruct (nth_error _ i) as [p|]; [|discriminate]. destruct (cliStep _ _ _) as [[[[[a b] c] d]|]|] eqn:E; cbn [rbind] in H; try discriminate. injection H as <-. cbn [y_sh].
    destruct p as [|x f|y p]; cbn [cliStep] in E; [discriminate| |].
    + destruct (addStep x f _) as [[sh o]|] eqn:A; [|discriminate]. cbn [rbind fst snd] in E. injection E as <- _ _ _. eapply addStep_pm; eauto.
    + destruct (cycStep _ _ _ _) as [[[[[sh q] an] o]|]|] eqn:A; cbn [rbind] in E; try discriminate. injection E as <- _ _ _. eapply cycStep_pm; eauto.
  - destruct (workStep _ _ _ _ _) as [[[[[a b] c] d]|]|] eqn:E; cbn [rbind] in H; try discriminate. injection H as <-. cbn [y_sh].
    destruct (y_worker st) as [|m|m cs [|x todo]|m [|x cs]|m x f cs]; cbn [workStep] in E; try (injection E as <- _ _ _; reflexivity).
    + destruct (y_queue st); [discriminate|]. injection E as <- _ _ _; reflexivity.
    + destruct (derive _ _); [|discriminate]. cbn [rbind] in E. injection E as <- _ _ _; reflexivity.
    + destruct (punct_eqb _ _); [|injection E as <- _ _ _; reflexivity]. destruct (qaTryQuestions _ _); [|discriminate]. cbn [rbind] in E. injection E as <- _ _ _; reflexivity.
    + destruct (addStep x f _) as [[sh o]|] eqn:A; [|discriminate]. cbn [rbind fst snd] in E. injection E as <- _ _ _. eapply addStep_pm; eauto.
Qed.
Lemma setPm_same : forall sh, setProcMem (procMem sh) sh = sh. Proof. now intros []. Qed.
Lemma setPm_twice : forall a b sh, setProcMem a (setProcMem b sh) = setProcMem a sh. Proof. reflexivity. Qed.
(** after a step of the declarative part it has already seen what there is to see *)
Lemma seen_again : forall w maxC c st, exec maxC (w_nB w) c (seen w) = Ok (Some st) -> seen (wDecl w st) = st.
Proof.
  intros w maxC c st H. unfold seen in *. cbn [wDecl w_wired]. destruct (w_wired w); [|reflexivity]. cbn [wDecl w_decl w_proc]. apply exec_pm in H. cbn [withSh y_sh] in H.
  change (procMem (setProcMem _ _)) with (viewMem (n_mem (y_nar (w_proc w)))) in H. rewrite <- H, setPm_same. now destruct st.
Qed.
Lemma execAll_ind : forall maxC maxC' n k st, execAll maxC n (repeat (ChClient 0) k) st = execAll maxC' n (repeat (ChClient 0) k) st.
Proof. intros maxC maxC' n. induction k as [|k IH]; intros st; [reflexivity|]. cbn [repeat execAll]. change (exec maxC n (ChClient 0) st) with (exec maxC' n (ChClient 0) st). destruct (exec _ _ _ _) as [[s|]|]; cbn [rbind]; auto. Qed.

Lemma text_same : forall a b, text_eqb a b = true -> a = b.
Proof. intros a b. unfold text_eqb. destruct (list_eq_dec ascii_dec a b); [auto|discriminate]. Qed.
Lemma all_cycles : forall e (f : nat -> f64) l, length (filter (fun j => match j with JCycle _ _ => true | _ => false end) (map (fun k => JCycle e (f k)) l)) = length l.
Proof. intros e f. induction l as [|a l IH]; cbn; congruence. Qed.

Section Alone.
  Variable pf : text -> option f64.
  Variable rs : nat -> smp.
  (** what the background workers are doing, or where they rest *)
  Variables (wd : wphase) (wp : workPc).
  Definition at_ (n : nar) (pm : mem) (log : list answer) (jobs : list job) (q : bool) : whole :=
    mkWhole (mkSys (setProcMem pm (nr_decl n)) (nr_dq n) [CIdle] wd log) (mkPsys (nr_proc n) MFree (nr_pq n) wp) (nr_time n) (nr_verb n) (nr_nB n) (nr_maxC n) (nr_wired n) jobs q.
  Definition fits (n : nar) (pm : mem) : Prop := nr_wired n = false -> pm = procMem (nr_decl n).
  Definition goes (w : whole) (D : res whole) : Prop := exists k, wrun pf (repeat (AMain rs) k) w = D.
  Lemma goes_refl : forall w, goes w (Ok w). Proof. intros w. now exists O. Qed.
  Lemma goes_step : forall w w1 D, wstep pf (AMain rs) w = Ok (Some w1) -> goes w1 D -> goes w D.
  Proof. intros w w1 D H (k & E). exists (S k). cbn [repeat wrun]. now rewrite H. Qed.
  Lemma goes_panic : forall w, wstep pf (AMain rs) w = Panic -> goes w Panic.
  Proof. intros w H. exists 1%nat. cbn [repeat wrun]. now rewrite H. Qed.
  Lemma wrun_split : forall a b w, wrun pf (a ++ b) w = do w' <- wrun pf a w; wrun pf b w'.
  Proof. induction a as [|x a IH]; intros b w; [reflexivity|]. cbn [app wrun]. destruct (wstep pf x w); [|reflexivity]. cbn [rbind]. apply IH. Qed.
  Lemma goes_trans : forall w w1 D, goes w (Ok w1) -> goes w1 D -> goes w D.
  Proof. intros w w1 D (k & E) (k' & E'). exists (k + k')%nat. now rewrite repeat_app, wrun_split, E. Qed.

  (** the state after a sequential function *)
  Definition lands (w : whole) (jobs : list job) (q : bool) (R : res nar) : Prop :=
    match R with
    | Ok n => exists pm log, fits n pm /\ goes w (Ok (at_ n pm log jobs q))
    | Panic => goes w Panic
    end.
  Lemma lands_bind : forall w jobs q jobs' q' (R : res nar) (f : nar -> res nar), lands w jobs q R ->
    (forall n pm log, R = Ok n -> fits n pm -> lands (at_ n pm log jobs q) jobs' q' (f n)) -> lands w jobs' q' (do n <- R; f n).
  Proof.
    intros w jobs q jobs' q' R f H K. destruct R as [n|]; cbn [rbind]; [|exact H]. destruct H as (pm & log & F & G). specialize (K n pm log eq_refl F).
    unfold lands in *. destruct (f n) as [n'|]; [|eapply goes_trans; eauto]. destruct K as (pm' & log' & F' & G'). exists pm', log'. split; auto. eapply goes_trans; eauto.
  Qed.
  Lemma lands_step : forall w w1 jobs q R, wstep pf (AMain rs) w = Ok (Some w1) -> lands w1 jobs q R -> lands w jobs q R.
  Proof.
    intros w w1 jobs q R H L. unfold lands in *. destruct R as [n|]; [|eapply goes_step; eauto]. destruct L as (pm & log & F & G). exists pm, log. split; auto. eapply goes_step; eauto.
  Qed.
  (** a call of the declarative part *)
  Lemma clients_go : forall maxC k w D, y_main (w_proc w) = MFree -> execAll maxC (w_nB w) (repeat (ChClient 0) k) (w_decl w) = D -> seen w = w_decl w ->
    match D with Ok (Some st) => goes w (Ok (wDecl w st)) | Panic => goes w Panic | Ok None => True end.
  Proof.
    intros maxC. induction k as [|k IH]; intros w D M E Sn; cbn [repeat execAll] in E.
    - subst D. destruct w. apply goes_refl.
    - assert (St : wstep pf (AMain rs) w = declStep (w_maxC w) w (ChClient 0) \/ exec maxC (w_nB w) (ChClient 0) (w_decl w) = Ok None).
      { cbn [wstep]. rewrite M. destruct (y_clients (w_decl w)) as [|[|x f|y p] cl] eqn:Ec; try (left; reflexivity). right. cbn [exec]. rewrite Ec. reflexivity. }
      destruct St as [St|St]; [|rewrite St in E; cbn [rbind] in E; now subst D]. unfold declStep in St. rewrite Sn in St. change (exec (w_maxC w) (w_nB w) (ChClient 0) (w_decl w)) with (exec maxC (w_nB w) (ChClient 0) (w_decl w)) in St.
      destruct (exec maxC (w_nB w) (ChClient 0) (w_decl w)) as [[st|]|] eqn:Ex; cbn [rbind] in E, St; [|now subst D|subst D; now apply goes_panic].
      specialize (IH (wDecl w st) D M E). rewrite <- Sn in Ex. rewrite (seen_again _ _ _ _ Ex) in IH. specialize (IH eq_refl). destruct D as [[st'|]|]; [eapply goes_step; eauto|auto|eapply goes_step; eauto].
  Qed.
  Lemma call_go : forall maxC o k w0 w D, y_main (w_proc w) = MFree -> wstep pf (AMain rs) w0 = declStep maxC w (ChStart 0 o) ->
    execAll maxC (w_nB w) (ChStart 0 o :: repeat (ChClient 0) k) (seen w) = D ->
    match D with Ok (Some st) => goes w0 (Ok (wDecl w st)) | Panic => goes w0 Panic | Ok None => True end.
  Proof.
    intros maxC o k w0 w D M St E. cbn [execAll] in E. unfold declStep in St. destruct (exec maxC (w_nB w) (ChStart 0 o) (seen w)) as [[st|]|] eqn:Ex; cbn [rbind] in E, St; [|now subst D|subst D; now apply goes_panic].
    pose proof (clients_go maxC k (wDecl w st) D M E (seen_again _ _ _ _ Ex)) as K. destruct D as [[st'|]|]; [eapply goes_step; eauto|auto|eapply goes_step; eauto].
  Qed.
  (** what the declarative part sees *)
  Lemma seen_at : forall n pm log jobs q, fits n pm -> seen (at_ n pm log jobs q) = mkSys (linked n) (nr_dq n) [CIdle] wd log.
  Proof. intros n pm log jobs q F. unfold seen, at_, linked, withSh. cbn. destruct (nr_wired n) eqn:W; [reflexivity|]. rewrite (F W), setPm_same. reflexivity. Qed.
  Lemma linked_pm : forall n, exists pm, linked n = setProcMem pm (nr_decl n) /\ fits n pm.
  Proof. intros n. unfold linked, fits. destruct (nr_wired n); [eexists; split; [reflexivity|discriminate]|]. exists (procMem (nr_decl n)). split; auto. now rewrite setPm_same. Qed.

  Lemma add_lands : forall maxC w0 n pm log jobs q x, fits n pm -> wstep pf (AMain rs) w0 = declStep maxC (at_ n pm log jobs q) (ChStart 0 (OpAdd x)) ->
    lands w0 jobs q (do d <- memAddTask (nr_decl n) (ar_s x) (ar_cc x) maxC (ar_n x) (ar_mul x) (ar_now x); Ok (withDecl n d)).
  Proof.
    intros maxC w0 n pm log jobs q x F St. destruct (add_alone maxC (nr_nB n) (mkSys (linked n) (nr_dq n) [CIdle] wd log) 0 x eq_refl) as (k & E).
    rewrite <- (seen_at n pm log jobs q F) in E. pose proof (call_go maxC (OpAdd x) k w0 (at_ n pm log jobs q) _ eq_refl St E) as K. rewrite (seen_at n pm log jobs q F) in K. cbn [y_sh y_queue y_clients y_worker y_log] in K.
    destruct (linked_pm n) as (pm1 & L1 & F1). rewrite L1, pm_add in K. destruct (memAddTask (nr_decl n) _ _ _ _ _ _) as [d|] eqn:A; cbn [rbind] in *; [|exact K].
    exists pm1, log. split; [|exact K]. intros W. rewrite (F1 W). cbn [withDecl nr_decl]. symmetry. eapply memAdd_pm; eauto.
  Qed.

  (** the procedural part inside a call *)
  Definition in_ (n : nar) (pm : mem) (log : list answer) (jobs : list job) (q : bool) (nn : pnar) (p : mainPc) (c : list msg) : whole :=
    mkWhole (mkSys (setProcMem pm (nr_decl n)) (nr_dq n) [CIdle] wd log) (mkPsys nn p c wp) (nr_time n) (nr_verb n) (nr_nB n) (nr_maxC n) (nr_wired n) jobs q.
  Definition inO (n : nar) (pm : mem) (log : list answer) (jobs : list job) (q : bool) (o : option psys) : option whole :=
    match o with Some y => Some (wProc (at_ n pm log jobs q) y) | None => None end.
  Lemma in_step : forall n pm log jobs q nn p c, p <> MFree -> wstep pf (AMain rs) (in_ n pm log jobs q nn p c) =
    do o <- yact (usages (nr_decl n)) (mkPsys nn p c wp) (XMain (nr_nB n) rs); Ok (inO n pm log jobs q o).
  Proof. intros n pm log jobs q nn p c H. destruct p; [contradiction| | |]; reflexivity. Qed.
  Lemma at_step : forall n pm log j l q, wstep pf (AMain rs) (at_ n pm log (j :: l) q) = startJob pf (at_ n pm log l q) j. Proof. reflexivity. Qed.
  Lemma at_proc : forall n pm log l q a, procStep (at_ n pm log l q) a = do o <- yact (usages (nr_decl n)) (mkPsys (nr_proc n) MFree (nr_pq n) wp) a; Ok (inO n pm log l q o). Proof. reflexivity. Qed.
  Lemma neg_go : forall n pm log jobs q c todo nn, match rfold negConfirm todo (cells (n_mem nn)) with
    | Ok h => goes (in_ n pm log jobs q nn (MNeg todo) c) (Ok (in_ n pm log jobs q (setCells nn h) (MNeg []) c))
    | Panic => goes (in_ n pm log jobs q nn (MNeg todo) c) Panic end.
  Proof.
    intros n pm log jobs q c. induction todo as [|a todo IH]; intros nn; cbn [rfold].
    - unfold setCells. rewrite pmem_self, setMem_self. apply goes_refl.
    - destruct (negConfirm (cells (n_mem nn)) a) as [h|] eqn:N; cbn [rbind]; [|apply goes_panic; rewrite in_step by discriminate; cbn [yact]; now rewrite N].
      specialize (IH (setCells nn h)). unfold setCells in IH at 1. rewrite mem_setMem in IH. cbn [cells] in IH.
      assert (St : wstep pf (AMain rs) (in_ n pm log jobs q nn (MNeg (a :: todo)) c) = Ok (Some (in_ n pm log jobs q (setCells nn h) (MNeg todo) c))) by (rewrite in_step by discriminate; cbn [yact]; now rewrite N).
      destruct (rfold negConfirm todo h) as [h'|]; [|eapply goes_step; eauto].
      replace (setCells nn h') with (setCells (setCells nn h) h'); [eapply goes_step; eauto|]. unfold setCells. now rewrite setMem_twice, mem_setMem.
  Qed.
  Lemma send_go : forall n pm log jobs q nn ms c, (length c + length ms <= 4)%nat -> goes (in_ n pm log jobs q nn (MSend ms) c) (Ok (in_ n pm log jobs q nn MFree (c ++ ms))).
  Proof.
    intros n pm log jobs q nn. induction ms as [|m ms IH]; intros c L.
    - rewrite app_nil_r. eapply goes_step; [reflexivity|apply goes_refl].
    - cbn [length] in L. eapply goes_step with (w1 := in_ n pm log jobs q nn (MSend ms) (c ++ [m])).
      + rewrite in_step by discriminate. cbn [yact rbind]. replace (Nat.ltb (length c) chanCap) with true; [reflexivity|]. symmetry. apply Nat.ltb_lt. unfold chanCap. lia.
      + replace (c ++ m :: ms) with ((c ++ [m]) ++ ms) by now rewrite <- app_assoc. apply IH. rewrite app_length. cbn. lia.
  Qed.
  Lemma file_go : forall n pm log jobs q c now todo nn, match rfold (fun m s => mem_add_evidence_internal (usages (nr_decl n)) m s (nr_nB n) now) todo (n_mem nn) with
    | Ok m => goes (in_ n pm log jobs q nn (MAdd now todo) c) (Ok (in_ n pm log jobs q (setMem nn m) MFree c))
    | Panic => goes (in_ n pm log jobs q nn (MAdd now todo) c) Panic end.
  Proof.
    intros n pm log jobs q c now. induction todo as [|s todo IH]; intros nn; cbn [rfold].
    - rewrite setMem_self. eapply goes_step; [reflexivity|apply goes_refl].
    - destruct (mem_add_evidence_internal (usages (nr_decl n)) (n_mem nn) s (nr_nB n) now) as [m|] eqn:N; cbn [rbind]; [|apply goes_panic; rewrite in_step by discriminate; cbn [yact]; now rewrite N].
      specialize (IH (setMem nn m)). rewrite mem_setMem in IH.
      assert (St : wstep pf (AMain rs) (in_ n pm log jobs q nn (MAdd now (s :: todo)) c) = Ok (Some (in_ n pm log jobs q (setMem nn m) (MAdd now todo) c))) by (rewrite in_step by discriminate; cbn [yact]; now rewrite N).
      destruct (rfold _ todo m) as [m'|]; [rewrite setMem_twice in IH|]; eapply goes_step; eauto.
  Qed.

  (** ** jobs *)
  Lemma step0_lands : forall n pm log l q, fits n pm -> (forall p ms, narStep0 (nr_proc n) rs = Ok (p, ms) -> (length (nr_pq n) + length ms <= 4)%nat) ->
    lands (at_ n pm log (JStep0 :: l) q) l q (procStep0 n rs).
  Proof.
    intros n pm log l q F Rm. unfold procStep0. unfold narStep0 in *. set (nn := nr_proc n) in *.
    destruct (confirm nn) as [ant|] eqn:C; cbn [rbind] in *; [|apply goes_panic; rewrite at_step; cbn [startJob]; rewrite at_proc; cbn [yact]; fold nn; now rewrite C].
    set (n0 := setAnt nn (filter (fun a => snd a >? n_t nn) ant)) in *. set (todo := filter (fun a => snd a <=? n_t nn) ant) in *.
    assert (S1 : wstep pf (AMain rs) (at_ n pm log (JStep0 :: l) q) = Ok (Some (in_ n pm log l q n0 (MNeg todo) (nr_pq n)))) by (rewrite at_step; cbn [startJob]; rewrite at_proc; cbn [yact]; fold nn; now rewrite C).
    pose proof (neg_go n pm log l q (nr_pq n) todo n0) as G. replace (cells (n_mem n0)) with (cells (n_mem nn)) in G by (unfold n0; now destruct nn).
    destruct (rfold negConfirm todo (cells (n_mem nn))) as [h|]; cbn [rbind] in *; [|eapply goes_step; eauto].
    replace (setCells n0 h) with (setMem n0 (mkPmem h (pcs (n_mem nn)))) in G by (unfold setCells, n0; now destruct nn). set (n1 := setMem n0 (mkPmem h (pcs (n_mem nn)))) in *.
    assert (G1 : goes (at_ n pm log (JStep0 :: l) q) (Ok (in_ n pm log l q n1 (MNeg []) (nr_pq n)))) by (eapply goes_step; eauto).
    destruct (traceStep n1 rs) as [[g ms]|] eqn:T; cbn [rbind] in *; [|eapply goes_trans; [exact G1|]; apply goes_panic; rewrite in_step by discriminate; cbn [yact]; now rewrite T].
    exists pm, log. split; [exact F|]. eapply goes_trans; [exact G1|]. eapply goes_step with (w1 := in_ n pm log l q (setGoals n1 g) (MSend ms) (nr_pq n)); [rewrite in_step by discriminate; cbn [yact]; now rewrite T|].
    apply (send_go n pm log l q (setGoals n1 g) ms (nr_pq n)). eauto.
  Qed.
  Lemma rel_lands : forall n pm log t args l q, fits n pm -> lands (at_ n pm log (JRel t args :: l) q) l q (do d <- nlpRel t (nr_decl n) args; Ok (withDecl n d)).
  Proof.
    intros n pm log t args l q F.
    assert (Nop : args = [] \/ (exists a, args = [a]) \/ (exists a b c r, args = a :: b :: c :: r) \/ exists a b, args = [a; b]).
    { destruct args as [|a [|b [|c r]]]; eauto 8. }
    assert (Done : lands (at_ n pm log l q) l q (Ok (withDecl n (nr_decl n)))) by (exists pm, log; split; [exact F|]; destruct n; apply goes_refl).
    destruct Nop as [->|[(a & ->)|[(a & b & c & r & ->)|(a & rel & ->)]]]; try (eapply lands_step; [reflexivity|exact Done]).
    cbn [nlpRel]. destruct (rewriteRel rel) as [rel'|] eqn:R1; cbn [rbind]; [|apply goes_panic; rewrite at_step; cbn [startJob]; now rewrite R1].
    destruct (convTermToStr rel) eqn:R2; cbn [rbind]; [|apply goes_panic; rewrite at_step; cbn [startJob]; rewrite R1; cbn [rbind]; now rewrite R2].
    destruct (convTermToStr rel') eqn:R3; cbn [rbind]; [|apply goes_panic; rewrite at_step; cbn [startJob]; rewrite R1; cbn [rbind]; rewrite R2; cbn [rbind]; now rewrite R3].
    unfold takeId. set (d' := setNextU (S (nextU (nr_decl n))) (setStampCtr (stampCtr (nr_decl n) + 1) (nr_decl n))).
    set (x := mkAddArgs (newEternalSentenceByTv rel' JUGEMENT (mkTv f1 (f_frac 9 10)) (newStamp [stampCtr (nr_decl n)]) (nextU (nr_decl n))) true f1 60 t).
    assert (F' : fits (withDecl n d') pm) by exact F.
    assert (St : wstep pf (AMain rs) (at_ n pm log (JRel t [a; rel] :: l) q) = declStep 64 (at_ (withDecl n d') pm log l q) (ChStart 0 (OpAdd x))).
    { rewrite at_step. cbn [startJob]. rewrite R1. cbn [rbind]. rewrite R2. cbn [rbind]. rewrite R3. cbn [rbind]. reflexivity. }
    apply (add_lands 64 _ (withDecl n d') pm log l q x F' St).
  Qed.
  Lemma rels_lands : forall t l q calls n pm log, fits n pm -> lands (at_ n pm log (map (JRel t) calls ++ l) q) l q (do d <- rfold (nlpRel t) calls (nr_decl n); Ok (withDecl n d)).
  Proof.
    intros t l q. induction calls as [|a calls IH]; intros n pm log F.
    - exists pm, log. split; [exact F|]. cbn [map app withDecl]. destruct n; apply goes_refl.
    - cbn [map app rfold]. pose proof (lands_bind _ _ _ l q _ (fun n1 => do d <- rfold (nlpRel t) calls (nr_decl n1); Ok (withDecl n1 d)) (rel_lands n pm log t a (map (JRel t) calls ++ l) q F) (fun n1 pm1 log1 _ F1 => IH n1 pm1 log1 F1)) as K.
      destruct (nlpRel t (nr_decl n) a) as [d|]; cbn [rbind] in *; exact K.
  Qed.
  Lemma step1_lands : forall n pm log r l q, fits n pm -> lands (at_ n pm log (JStep1 r :: l) q) l q (procStep1 n r).
  Proof.
    intros n pm log r l q F. unfold procStep1. destruct (nlpOf (nr_proc n) r) as [calls|] eqn:C; cbn [rbind]; [|apply goes_panic; rewrite at_step; cbn [startJob]; change (y_nar (w_proc (at_ n pm log l q))) with (nr_proc n); now rewrite C].
    destruct (narStep1 (nr_proc n) true r) as [p|] eqn:N.
    - assert (St : wstep pf (AMain rs) (at_ n pm log (JStep1 r :: l) q) = Ok (Some (at_ (withProc n p) pm log (map (JRel (n_t (nr_proc n))) calls ++ l) q))) by (rewrite at_step; cbn [startJob]; change (y_nar (w_proc (at_ n pm log l q))) with (nr_proc n); rewrite C; cbn [rbind]; rewrite at_proc; cbn [yact]; now rewrite N).
      eapply lands_step; [exact St|]. pose proof (rels_lands (n_t (nr_proc n)) l q calls (withProc n p) pm log F) as K. cbn [withProc nr_decl] in K.
      destruct (rfold _ calls (nr_decl n)); cbn [rbind] in *; exact K.
    - assert (St : wstep pf (AMain rs) (at_ n pm log (JStep1 r :: l) q) = Panic) by (rewrite at_step; cbn [startJob]; change (y_nar (w_proc (at_ n pm log l q))) with (nr_proc n); rewrite C; cbn [rbind]; rewrite at_proc; cbn [yact]; now rewrite N). destruct (rfold _ calls (nr_decl n)); cbn [rbind]; apply goes_panic; exact St.
  Qed.
  Lemma text_lands : forall n pm log i draws l q, fits n pm -> lands (at_ n pm log (JText i draws :: l) q) l q (do x <- inputN pf n i draws; Ok (fst x)).
  Proof.
    intros n pm log i draws l q F. unfold inputN.
    assert (St : wstep pf (AMain rs) (at_ n pm log (JText i draws :: l) q) = startJob pf (at_ n pm log l q) (JText i draws)) by reflexivity. cbn [startJob] in St.
    destruct (parseNarsese pf i) as [[[[[t v] p] ev]|]|]; cbn [rbind] in *; [| |now apply goes_panic].
    2:{ exists pm, log. split; [exact F|]. eapply goes_step; [exact St|apply goes_refl]. }
    unfold inputT2, putIn, takeId in *. set (d' := setNextU (S (nextU (nr_decl n))) (setStampCtr (stampCtr (nr_decl n) + 1) (nr_decl n))) in *.
    change (wDecl (at_ n pm log l q) _) with (at_ (withDecl n d') pm log l q) in St.
    change (stampCtr (y_sh (w_decl (at_ n pm log l q)))) with (stampCtr (nr_decl n)) in St. change (nextU (y_sh (w_decl (at_ n pm log l q)))) with (nextU (nr_decl n)) in St.
    set (s := newEternalSentenceByTv t p v (newStamp [stampCtr (nr_decl n)]) (nextU (nr_decl n))) in *. cbn zeta in *. set (n' := withDecl n d') in *.
    change (w_verb (at_ n' pm log l q)) with (nr_verb n') in St. change (w_maxC (at_ n' pm log l q)) with (nr_maxC n') in St. change (w_nB (at_ n' pm log l q)) with (nr_nB n') in St.
    change (y_nar (w_proc (at_ n' pm log l q))) with (nr_proc n') in St. assert (F' : fits n' pm) by exact F.
    destruct (if nr_verb n' >=? 1 then printSentence s else Ok tt); cbn [rbind] in *; [|now apply goes_panic].
    set (x := mkAddArgs s true f1 (nr_nB n') (n_t (nr_proc n'))) in *.
    assert (Ad : wstep pf (AMain rs) (at_ n pm log (JText i draws :: l) q) = declStep (nr_maxC n') (at_ n' pm log l q) (ChStart 0 (OpAdd x)) ->
      lands (at_ n pm log (JText i draws :: l) q) l q (do x <- (do n'0 <- (do d <- memAddTask (nr_decl n') s true (nr_maxC n') (nr_nB n') f1 (n_t (nr_proc n')); Ok (withDecl n' d)); Ok (n'0, true)); Ok (fst x))).
    { intros E. pose proof (add_lands (nr_maxC n') _ n' pm log l q x F' E) as K. cbn [x ar_s ar_cc ar_n ar_mul ar_now] in K. destruct (memAddTask _ _ _ _ _ _ _); cbn [rbind fst] in *; exact K. }
    assert (Nt : wstep pf (AMain rs) (at_ n pm log (JText i draws :: l) q) = Ok (Some (at_ n' pm log l q)) -> lands (at_ n pm log (JText i draws :: l) q) l q (Ok n')).
    { intros E. exists pm, log. split; [exact F'|]. eapply goes_step; [exact E|apply goes_refl]. }
    destruct ev; [|destruct (isTemporal t)]; destruct p; try (exact (Ad St)); try (exact (Nt St)).
    - exists pm, log. split; [exact F'|]. eapply goes_step; [exact St|apply goes_refl].
    - unfold procStep in St. cbn [at_ w_proc yact y_nar] in St. destruct (addEntry _ _ _ _ _) as [g|]; cbn [rbind fst] in *; [|now apply goes_panic].
      exists pm, log. split; [exact F'|]. eapply goes_step; [exact St|apply goes_refl].
    - unfold procStep in St. cbn [at_ w_proc yact y_nar] in St. unfold mem_add_evidence.
      change (mkSentence (s_term s) (s_t s) (s_punct s) (s_stamp s) (s_expDt s) (Some (CNT 10 10)) (s_usage s)) with (userBelief t (stampCtr (nr_decl n)) (nextU (nr_decl n))).
      set (b := userBelief t (stampCtr (nr_decl n)) (nextU (nr_decl n))) in *. destruct (matchandintro_var1_sentence b draws) as [vs|]; cbn [rbind] in *.
      + pose proof (file_go n' pm log l q (nr_pq n') (n_t (nr_proc n')) (b :: vs) (nr_proc n')) as G. cbn [rfold] in G.
        assert (St' : wstep pf (AMain rs) (at_ n pm log (JText i draws :: l) q) = Ok (Some (in_ n' pm log l q (nr_proc n') (MAdd (n_t (nr_proc n')) (b :: vs)) (nr_pq n')))) by exact St. clear St.
        destruct (mem_add_evidence_internal _ _ b _ _) as [m1|]; cbn [rbind] in *; [|eapply goes_step; eauto]. destruct (rfold _ vs m1) as [m|]; cbn [rbind fst] in *; [|eapply goes_step; eauto].
        exists pm, log. split; [exact F'|]. eapply goes_step; [exact St'|exact G].
      + destruct (mem_add_evidence_internal _ _ b _ _); cbn [rbind]; now apply goes_panic.
  Qed.
  Lemma cycle_time : forall e sel d now d' now' an m, reasonCycle e sel d now = Ok (d', now', an, m) -> now' = now + 1.
  Proof.
    intros e sel d now d' now' an m H. unfold reasonCycle in H. destruct (sampleQuestion _ _) as [qa|]; [|discriminate]. cbn [rbind] in H. destruct (selectWork _ _) as [w|]; [|discriminate]. cbn [rbind] in H.
    destruct (maintainTasks _ _) as [d1|]; [|discriminate]. cbn [rbind] in H. destruct (maintainConcepts _) as [d2|]; [|discriminate]. cbn [rbind] in H. now injection H as _ <- _ _.
  Qed.
  Lemma cycle_lands : forall n pm log e sel l q, fits n pm -> (length (nr_dq n) < 4)%nat -> lands (at_ n pm log (JCycle e sel :: l) q) l q (cycle e sel n).
  Proof.
    intros n pm log e sel l q F Rm. set (y := mkCycArgs e sel (nr_time n + 1)). set (n' := withTime n (nr_time n + 1)). assert (F' : fits n' pm) by exact F.
    destruct (cycle_alone (nr_maxC n') (nr_nB n') (mkSys (linked n') (nr_dq n') [CIdle] wd log) 0 y eq_refl Rm) as (k & E). rewrite <- (seen_at n' pm log l q F') in E.
    assert (St : wstep pf (AMain rs) (at_ n pm log (JCycle e sel :: l) q) = declStep (nr_maxC n') (at_ n' pm log l q) (ChStart 0 (OpCycle y))) by reflexivity.
    pose proof (call_go (nr_maxC n') (OpCycle y) k _ (at_ n' pm log l q) _ eq_refl St E) as K. rewrite (seen_at n' pm log l q F') in K. cbn [y_sh y_queue y_clients y_worker y_log] in K.
    unfold cycle. cbn [y cy_exp cy_sel cy_now] in K. replace (nr_time n + 1 - 1) with (nr_time n) in K by lia. change (linked n') with (linked n) in K.
    destruct (reasonCycle e sel (linked n) (nr_time n)) as [[[[d now] an] m]|] eqn:R; cbn [rbind] in *; [|exact K].
    assert (Tm : now = nr_time n + 1) by (eapply cycle_time; eauto). subst now.
    exists (procMem d), (log ++ an). split; [intros _; reflexivity|]. unfold at_, withDq, withTime, withDecl. cbn. rewrite setPm_same. exact K.
  Qed.

  Lemma cycles_land : forall r q k n pm log, fits n pm -> (length (nr_dq n) + k <= 4)%nat ->
    lands (at_ n pm log (map (fun k => JCycle (ln_exp r) (ln_sel r k)) (List.rev (seq 0 k))) q) [] q (cycles k r n).
  Proof.
    intros r q. induction k as [|k IH]; intros n pm log F L.
    - exists pm, log. split; [exact F|apply goes_refl].
    - rewrite seq_S, rev_app_distr. cbn [List.rev app map cycles Nat.add].
      apply (lands_bind _ _ _ _ _ _ _ (cycle_lands n pm log (ln_exp r) (ln_sel r k) (map (fun k => JCycle (ln_exp r) (ln_sel r k)) (List.rev (seq 0 k))) q F ltac:(lia))).
      intros n1 pm1 log1 C F1. apply IH; [exact F1|]. unfold cycle in C. destruct (reasonCycle _ _ _ _) as [[[[d now] an] m]|]; [|discriminate]. cbn [rbind] in C. injection C as <-. cbn [withDq nr_dq]. rewrite app_length. destruct m; cbn [length]; lia.
  Qed.
  Lemma texts_land : forall r q l k n pm log, fits n pm ->
    lands (at_ n pm log (map (fun x => JText (snd x) (ln_draws r (fst x))) (combine (seq k (length l)) l)) q) [] q
      (do '(n', _) <- rfold (fun st j => do x <- inputN pf (fst st) j (ln_draws r (snd st)); Ok (fst x, S (snd st))) l (n, k); Ok n').
  Proof.
    intros r q. induction l as [|i l IH]; intros k n pm log F.
    - exists pm, log. split; [exact F|apply goes_refl].
    - cbn [length seq combine map rfold fst snd].
      pose proof (lands_bind _ _ _ _ _ _ (fun n1 => do '(n', _) <- rfold (fun st j => do x <- inputN pf (fst st) j (ln_draws r (snd st)); Ok (fst x, S (snd st))) l (n1, S k); Ok n')
        (text_lands n pm log i (ln_draws r k) (map (fun x => JText (snd x) (ln_draws r (fst x))) (combine (seq (S k) (length l)) l)) q F) (fun n1 pm1 log1 _ F1 => IH (S k) n1 pm1 log1 F1)) as K.
      destruct (inputN pf n i (ln_draws r k)) as [[n1 b]|]; cbn [rbind fst] in *; exact K.
  Qed.
  (** ** a line *)
  Definition line_lands (n : nar) (l : list job) (pm : mem) (log : list answer) (R : res (nar * bool * info)) : Prop :=
    match R with
    | Ok (n', q, _) => lands (at_ n pm log l false) [] q (Ok n')
    | Panic => goes (at_ n pm log l false) Panic
    end.
  Lemma line_of : forall n l pm log (R : res nar) (x : info), lands (at_ n pm log l false) [] false R -> line_lands n l pm log (do n' <- R; Ok (n', false, x)).
  Proof. intros n l pm log R x H. destruct R; exact H. Qed.
  Lemma line_goes : forall line r n pm log l, ln_smp r = rs -> fits n pm -> room n line r -> lineJobs line r = Ok l -> line_lands n l pm log (facade pf n line r).
  Proof.
    intros line r n pm log l Er F (Rd & Rp) J. specialize (Rd l J). rewrite Er in Rp. unfold facade. rewrite Er. unfold lineJobs in J. cbn zeta in *. set (i := trimNewline line) in *.
    assert (Here : lands (at_ n pm log [] false) [] false (Ok n)) by (exists pm, log; split; [exact F|apply goes_refl]).
    destruct (beginsWith (tx "//") i) as [b1|]; [|discriminate]. cbn [rbind] in *. destruct b1; [injection J as <-; exact Here|].
    destruct (beginsWith (tx "!sp") i) as [b2|] eqn:B2; [|discriminate]. cbn [rbind] in *. destruct b2.
    { injection J as <-. pose proof (lands_bind _ _ _ [] false _ (fun n1 => procStep1 n1 (ln_step r)) (step0_lands n pm log [JStep1 (ln_step r)] false F Rp) (fun n1 pm1 log1 _ F1 => step1_lands n1 pm1 log1 (ln_step r) [] false F1)) as K.
      destruct (procStep0 n rs) as [n1|]; cbn [rbind] in *; [|exact K]. destruct (procStep1 n1 (ln_step r)) as [n2|]; exact K. }
    destruct (text_eqb i (tx "!spA")) eqn:BA; [exfalso; revert B2; apply text_same in BA; rewrite BA; vm_compute; discriminate|].
    destruct (text_eqb i (tx "!spB")) eqn:BB; [exfalso; revert B2; apply text_same in BB; rewrite BB; vm_compute; discriminate|].
    destruct (beginsWith (tx "!s") i) as [b3|]; [|discriminate]. cbn [rbind] in *. destruct b3.
    { destruct (if Nat.ltb 2 (length i) then unwrap (parseI64 (skipn 2 i)) else Ok 1) as [k|]; [|discriminate]. cbn [rbind] in *. injection J as <-.
      apply (line_of n _ pm log (cycles (Z.to_nat k) r n) INone). apply cycles_land; [exact F|]. replace (Z.to_nat k) with (length (filter (fun j => match j with JCycle _ _ => true | _ => false end) (map (fun k => JCycle (ln_exp r) (ln_sel r k)) (List.rev (seq 0 (Z.to_nat k)))))); [exact Rd|].
      rewrite all_cycles, rev_length. apply seq_length. }
    destruct (text_eqb i (tx "!dtf")).
    { injection J as <-. unfold line_lands, lands. destruct (linked_pm n) as (pm1 & L1 & F1). exists pm1, log. split; [exact F1|]. eapply goes_step; [|apply goes_refl]. rewrite at_step. cbn [startJob]. unfold declStep. rewrite (seen_at n pm log [] false F), L1. reflexivity. }
    destruct (beginsWith (tx "!por ") i) as [b4|]; [|discriminate]. cbn [rbind] in *. destruct b4.
    { destruct (registered (words (skipn 5 i))) as [o|]; injection J as <-; [|exact Here]. exists pm, log. split; [exact F|]. eapply goes_step; [|apply goes_refl]. reflexivity. }
    destruct (text_eqb i (tx "!pse")).
    { injection J as <-. destruct (debugEvidence (n_mem (nr_proc n))) eqn:D; cbn [rbind line_lands].
      - exists pm, log. split; [exact F|]. eapply goes_step; [|apply goes_refl]. rewrite at_step. cbn [startJob]. change (y_nar (w_proc (at_ n pm log [] false))) with (nr_proc n). now rewrite D.
      - apply goes_panic. rewrite at_step. cbn [startJob]. change (y_nar (w_proc (at_ n pm log [] false))) with (nr_proc n). now rewrite D. }
    destruct (text_eqb i (tx "!peb 0")). { injection J as <-. exists pm, log. split; [exact F|]. eapply goes_step; [|apply goes_refl]. reflexivity. }
    destruct (text_eqb i (tx "!peb 1")). { injection J as <-. exists pm, log. split; [exact F|]. eapply goes_step; [|apply goes_refl]. reflexivity. }
    destruct (if Nat.ltb 6 (length i) then beginsWith (tx "!.nlp ") i else Ok false) as [b5|]; [|discriminate]. cbn [rbind] in *. destruct b5.
    { unfold nlpProcess. destruct (ln_net r (skipn 6 i)) as [ts|]; [|discriminate]. cbn [rbind] in *. injection J as <-. apply (line_of n _ pm log _ INone). apply texts_land. exact F. }
    destruct (text_eqb i (tx "!dt")).
    { injection J as <-. assert (E : debugTasks (y_sh (w_decl (at_ n pm log [] false))) = debugTasks (nr_decl n)) by reflexivity. destruct (debugTasks (nr_decl n)) eqn:D; cbn [rbind line_lands].
      - exists pm, log. split; [exact F|]. eapply goes_step; [|apply goes_refl]. rewrite at_step. cbn [startJob]. now rewrite E.
      - apply goes_panic. rewrite at_step. cbn [startJob]. now rewrite E. }
    destruct (text_eqb i (tx "!dmd")); [injection J as <-; exact Here|].
    destruct (text_eqb i (tx "!QQ")). { injection J as <-. exists pm, log. split; [exact F|]. eapply goes_step; [|apply goes_refl]. reflexivity. }
    destruct (text_eqb i []); [injection J as <-; exact Here|]. injection J as <-.
    pose proof (text_lands n pm log i (ln_draws r 0) [] false F) as K. destruct (inputN pf n i (ln_draws r 0)) as [[n1 b]|]; cbn [rbind fst] in *; exact K.
  Qed.
  Lemma line_bad : forall line r n, lineJobs line r = Panic -> facade pf n line r = Panic.
  Proof.
    intros line r n J. unfold facade. unfold lineJobs in J. cbn zeta in *. set (i := trimNewline line) in *.
    destruct (beginsWith (tx "//") i) as [b1|]; [|reflexivity]. cbn [rbind] in *. destruct b1; [discriminate|].
    destruct (beginsWith (tx "!sp") i) as [b2|] eqn:B2; [|reflexivity]. cbn [rbind] in *. destruct b2; [discriminate|].
    destruct (text_eqb i (tx "!spA")) eqn:BA; [exfalso; revert B2; apply text_same in BA; rewrite BA; vm_compute; discriminate|].
    destruct (text_eqb i (tx "!spB")) eqn:BB; [exfalso; revert B2; apply text_same in BB; rewrite BB; vm_compute; discriminate|].
    destruct (beginsWith (tx "!s") i) as [b3|]; [|reflexivity]. cbn [rbind] in *. destruct b3.
    { destruct (if Nat.ltb 2 (length i) then unwrap (parseI64 (skipn 2 i)) else Ok 1) as [k|]; [discriminate|reflexivity]. }
    destruct (text_eqb i (tx "!dtf")); [discriminate|].
    destruct (beginsWith (tx "!por ") i) as [b4|]; [|reflexivity]. cbn [rbind] in *. destruct b4; [discriminate|].
    destruct (text_eqb i (tx "!pse")); [discriminate|]. destruct (text_eqb i (tx "!peb 0")); [discriminate|]. destruct (text_eqb i (tx "!peb 1")); [discriminate|].
    destruct (if Nat.ltb 6 (length i) then beginsWith (tx "!.nlp ") i else Ok false) as [b5|]; [|reflexivity]. cbn [rbind] in *. destruct b5.
    { unfold nlpProcess. destruct (ln_net r (skipn 6 i)) as [ts|]; [discriminate|reflexivity]. }
    destruct (text_eqb i (tx "!dt")); [discriminate|]. destruct (text_eqb i (tx "!dmd")); [discriminate|]. destruct (text_eqb i (tx "!QQ")); [discriminate|]. destruct (text_eqb i []); discriminate.
  Qed.
End Alone.

(** ** the states that stand for a sequential one *)
Lemma stands_at : forall w n, standsAs w n -> exists pm, fits n pm /\ w = at_ (y_worker (w_decl w)) (y_work (w_proc w)) n pm (y_log (w_decl w)) [] (w_quit w).
Proof.
  intros [[sh dq cl wd log] [nn mp c wp] ti ve nB mC wi jo qu] n [S1 S2 S3 S4 (pm & S5) S6 S7 S8 S9 S10 S11 S12 S13]. cbn in *. subst.
  exists pm. split; [|reflexivity]. intros W. rewrite <- (S6 W). reflexivity.
Qed.
Lemma at_stands : forall wd wp n pm log q, fits n pm -> standsAs (at_ wd wp n pm log [] q) n.
Proof.
  intros wd wp n pm log q F. constructor; try reflexivity; [now exists pm|]. intros W. cbn. rewrite (F W). apply setPm_same.
Qed.
Theorem line_alone : forall pf w n line r, standsAs w n -> w_quit w = false -> room n line r ->
  exists k, match facade pf n line r with
            | Ok (n', q, _) => exists w', wrun pf (ARead line r :: repeat (AMain (ln_smp r)) k) w = Ok w' /\ standsAs w' n' /\ w_quit w' = q /\
                                          y_worker (w_decl w') = y_worker (w_decl w) /\ y_work (w_proc w') = y_work (w_proc w)
            | Panic => wrun pf (ARead line r :: repeat (AMain (ln_smp r)) k) w = Panic
            end.
Proof.
  intros pf w n line r S Q Rm. destruct (stands_at w n S) as (pm & F & E). rewrite Q in E. remember (y_worker (w_decl w)) as wd. remember (y_work (w_proc w)) as wp. remember (y_log (w_decl w)) as log. clear Heqwd Heqwp Heqlog. subst w.
  assert (St : wstep pf (ARead line r) (at_ wd wp n pm log [] false) = do l <- lineJobs line r; Ok (Some (at_ wd wp n pm log l false))) by reflexivity.
  destruct (lineJobs line r) as [l|] eqn:J.
  - pose proof (line_goes pf (ln_smp r) wd wp line r n pm log l eq_refl F Rm J) as K. unfold line_lands in K. destruct (facade pf n line r) as [[[n' q] x]|].
    + destruct K as (pm' & log' & F' & k & Run). exists k. exists (at_ wd wp n' pm' log' [] q). cbn [wrun]. rewrite St. cbn [rbind]. split; [exact Run|]. split; [now apply at_stands|]. auto.
    + destruct K as (k & Run). exists k. cbn [wrun]. rewrite St. exact Run.
  - rewrite (line_bad pf line r n J). exists O. cbn [wrun repeat]. now rewrite St.
Qed.

Lemma rests : forall pf w n rs k, standsAs w n -> wrun pf (repeat (AMain rs) k) w = Ok w.
Proof.
  intros pf w n rs k S. induction k as [|k IH]; [reflexivity|]. cbn [repeat wrun wstep]. rewrite (sa_main _ _ S), (sa_clients _ _ S), (sa_jobs _ _ S). exact IH.
Qed.

(** ** the workers *)
Definition goesW (pf : text -> option f64) (a : wact) (w : whole) (D : res whole) : Prop := exists k, wrun pf (repeat a k) w = D.
Lemma goesW_refl : forall pf a w, goesW pf a w (Ok w). Proof. intros pf a w. now exists O. Qed.
Lemma goesW_step : forall pf a w w1 D, wstep pf a w = Ok (Some w1) -> goesW pf a w1 D -> goesW pf a w D.
Proof. intros pf a w w1 D H (k & E). exists (S k). cbn [repeat wrun]. now rewrite H. Qed.
Lemma goesW_panic : forall pf a w, wstep pf a w = Panic -> goesW pf a w Panic.
Proof. intros pf a w H. exists 1%nat. cbn [repeat wrun]. now rewrite H. Qed.
Lemma derives_go : forall pf k w D, execAll (w_maxC w) (w_nB w) (repeat ChWorker k) (w_decl w) = D -> seen w = w_decl w ->
  match D with Ok (Some st) => goesW pf ADerive w (Ok (wDecl w st)) | Panic => goesW pf ADerive w Panic | Ok None => True end.
Proof.
  intros pf. induction k as [|k IH]; intros w D E Sn; cbn [repeat execAll] in E.
  - subst D. destruct w. apply goesW_refl.
  - assert (St : wstep pf ADerive w = do o <- exec (w_maxC w) (w_nB w) ChWorker (w_decl w); Ok (match o with Some d => Some (wDecl w d) | None => None end)) by (cbn [wstep]; unfold declStep; now rewrite Sn).
    destruct (exec (w_maxC w) (w_nB w) ChWorker (w_decl w)) as [[st|]|] eqn:Ex; cbn [rbind] in E, St; [|now subst D|subst D; now apply goesW_panic].
    rewrite <- Sn in Ex. specialize (IH (wDecl w st) D E (seen_again _ _ _ _ Ex)). destruct D as [[st'|]|]; [eapply goesW_step; eauto|auto|eapply goesW_step; eauto].
Qed.
Lemma derive_go : forall pf k w D, execAll (w_maxC w) (w_nB w) (repeat ChWorker (S k)) (seen w) = D ->
  match D with Ok (Some st) => goesW pf ADerive w (Ok (wDecl w st)) | Panic => goesW pf ADerive w Panic | Ok None => True end.
Proof.
  intros pf k w D E. cbn [repeat execAll] in E.
  assert (St : wstep pf ADerive w = do o <- exec (w_maxC w) (w_nB w) ChWorker (seen w); Ok (match o with Some d => Some (wDecl w d) | None => None end)) by reflexivity.
  destruct (exec (w_maxC w) (w_nB w) ChWorker (seen w)) as [[st|]|] eqn:Ex; cbn [rbind] in E, St; [|now subst D|subst D; now apply goesW_panic].
  pose proof (derives_go pf k (wDecl w st) D E (seen_again _ _ _ _ Ex)) as K. destruct D as [[st'|]|]; [eapply goesW_step; eauto|auto|eapply goesW_step; eauto].
Qed.
Theorem derive_alone : forall pf w n, standsAs w n -> y_worker (w_decl w) = Sched_Model.WIdle -> (forall m, In m (nr_dq n) -> (primary m < length (heap (nr_decl n)))%nat) ->
  exists k, match declWork n with
            | Ok n' => exists w', wrun pf (repeat ADerive k) w = Ok w' /\ standsAs w' n' /\ w_quit w' = w_quit w /\
                                  y_worker (w_decl w') = Sched_Model.WIdle /\ y_work (w_proc w') = y_work (w_proc w)
            | Panic => wrun pf (repeat ADerive k) w = Panic
            end.
Proof.
  intros pf w n S Wi Hm. unfold declWork. destruct (nr_dq n) as [|m qu] eqn:Eq; [exists O, w; cbn; auto|].
  destruct (stands_at w n S) as (pm & F & E). rewrite Wi in E. remember (w_quit w) as qt. remember (y_work (w_proc w)) as wp. remember (y_log (w_decl w)) as log. clear Heqqt Heqwp Heqlog S Wi. subst w.
  set (w := at_ Sched_Model.WIdle wp n pm log [] qt). pose proof (seen_at Sched_Model.WIdle wp n pm log [] qt F) as Sn. fold w in Sn.
  assert (Hp : (primary m < length (heap (y_sh (seen w))))%nat) by (rewrite Sn; cbn [y_sh]; replace (heap (linked n)) with (heap (nr_decl n)) by (unfold linked; now destruct (nr_wired n)); apply Hm; now left).
  destruct (Sched3_Proofs.worker_alone (w_maxC w) (w_nB w) (seen w) m qu ltac:(now rewrite Sn) ltac:(now rewrite Sn) Hp) as (k & Ex). rewrite Sn in Ex. cbn [y_sh y_clients y_log] in Ex.
  destruct (linked_pm n) as (pm1 & L1 & F1). rewrite L1 in Sn. rewrite L1, pm_work in Ex.
  assert (Kp : k = O -> False).
  { intros ->. cbn [repeat execAll] in Ex. destruct (workerStep _ _ _ _) as [[d an]|]; cbn [rbind] in Ex; [|discriminate]. apply (f_equal (fun o => match o with Ok (Some st) => length (y_queue st) | _ => O end)) in Ex. cbn in Ex. rewrite Eq in Ex. cbn in Ex. lia. }
  destruct k as [|k]; [now exfalso; apply Kp|]. rewrite <- Sn in Ex. pose proof (derive_go pf k w _ Ex) as G. cbn [w at_ w_maxC w_nB] in G. fold w in G.
  destruct (workerStep (nr_maxC n) (nr_nB n) (nr_decl n) m) as [[d an]|] eqn:Wk; cbn [rbind fst snd] in G |- *; destruct G as (k' & R); exists k'; [|exact R].
  eexists. split; [exact R|]. split; [|cbn; auto]. change (standsAs (at_ Sched_Model.WIdle wp (withDq (withDecl n d) qu) pm1 (log ++ an) [] qt) (withDq (withDecl n d) qu)).
  apply at_stands. intros W. cbn [withDq withDecl nr_decl nr_wired] in *. rewrite (F1 W). symmetry. eapply work_pm; eauto.
Qed.

Section Store.
  Variable pf : text -> option f64.
  Variable draws : list nat.
  Variable w : whole.
  Definition st_ (nn : pnar) (c : list msg) (k : workPc) : whole := wProc w (mkPsys nn (y_main (w_proc w)) c k).
  Notation goesS := (goesW pf (AStore draws)).
  Lemma goesS_trans : forall a b D, goesS a (Ok b) -> goesS b D -> goesS a D.
  Proof. intros a b D (k & E) (k' & E'). exists (k + k')%nat. now rewrite repeat_app, wrun_split, E. Qed.
  Lemma work_act : forall us nn p c k, yact us (mkPsys nn p c k) (XWork draws) =
    match k with
    | WIdle => match c with (s, now) :: c' => do l <- mergeTargets (n_mem nn) s; Ok (Some (mkPsys nn p c' (WMerge s now l false))) | [] => Ok None end
    | WMerge s now (a :: l) rv => do '(h, b) <- mergeInto s (cells (n_mem nn)) a; Ok (Some (mkPsys (setCells nn h) p c (WMerge s now l (rv || b))))
    | WMerge s now [] true => Ok (Some (mkPsys nn p c WIdle))
    | WMerge s now [] false => do vs <- matchandintro_var1_sentence s draws; Ok (Some (mkPsys nn p c (WAdd now (s :: vs))))
    | WAdd now (s :: todo) => do m <- mem_add_evidence_internal us (n_mem nn) s (c_nBeliefs (n_cfg nn)) now; Ok (Some (mkPsys (setMem nn m) p c (WAdd now todo)))
    | WAdd now [] => Ok (Some (mkPsys nn p c WIdle))
    end.
  Proof. intros us nn p c k. destruct p as [|todo|ms|now [|]]; [|destruct todo|destruct ms|..]; reflexivity. Qed.
  Lemma st_step : forall nn c k, wstep pf (AStore draws) (st_ nn c k) =
    do o <- yact (wUsages w) (mkPsys nn (y_main (w_proc w)) c k) (XWork draws); Ok (match o with Some y => Some (wProc w y) | None => None end).
  Proof. intros nn c k. cbn [wstep]. unfold procStep, st_. cbn [wProc w_proc]. change (wUsages (wProc w _)) with (wUsages w). destruct (yact _ _ _) as [[y|]|]; reflexivity. Qed.
  Lemma wfile_go : forall c now todo nn, match rfold (fun m s => mem_add_evidence_internal (wUsages w) m s (c_nBeliefs (n_cfg nn)) now) todo (n_mem nn) with
    | Ok m => goesS (st_ nn c (WAdd now todo)) (Ok (st_ (setMem nn m) c WIdle))
    | Panic => goesS (st_ nn c (WAdd now todo)) Panic end.
  Proof.
    intros c now. induction todo as [|s todo IH]; intros nn; cbn [rfold].
    - rewrite setMem_self. eapply goesW_step; [rewrite st_step, work_act; reflexivity|apply goesW_refl].
    - destruct (mem_add_evidence_internal (wUsages w) (n_mem nn) s (c_nBeliefs (n_cfg nn)) now) as [m|] eqn:N; cbn [rbind]; [|apply goesW_panic; rewrite st_step, work_act; now rewrite N].
      specialize (IH (setMem nn m)). rewrite mem_setMem, cfg_setMem in IH.
      assert (St : wstep pf (AStore draws) (st_ nn c (WAdd now (s :: todo))) = Ok (Some (st_ (setMem nn m) c (WAdd now todo)))) by (rewrite st_step, work_act; rewrite N; reflexivity).
      destruct (rfold _ todo m) as [m'|]; [rewrite setMem_twice in IH|]; eapply goesW_step; eauto.
  Qed.
  Lemma wmerge_go : forall c s now l nn rv, match rfold (mergeStep s) l (cells (n_mem nn), rv) with
    | Ok (h, rv') => goesS (st_ nn c (WMerge s now l rv)) (Ok (st_ (setCells nn h) c (WMerge s now [] rv')))
    | Panic => goesS (st_ nn c (WMerge s now l rv)) Panic end.
  Proof.
    intros c s now. induction l as [|a l IH]; intros nn rv; cbn [rfold].
    - unfold setCells. rewrite pmem_self, setMem_self. apply goesW_refl.
    - unfold mergeStep at 1. cbn [fst snd]. destruct (mergeInto s (cells (n_mem nn)) a) as [[h b]|] eqn:N; cbn [rbind]; [|apply goesW_panic; rewrite st_step, work_act; now rewrite N].
      specialize (IH (setCells nn h) (rv || b)). unfold setCells in IH at 1. rewrite mem_setMem in IH. cbn [cells] in IH.
      assert (St : wstep pf (AStore draws) (st_ nn c (WMerge s now (a :: l) rv)) = Ok (Some (st_ (setCells nn h) c (WMerge s now l (rv || b))))) by (rewrite st_step, work_act; rewrite N; reflexivity).
      destruct (rfold (mergeStep s) l (h, rv || b)) as [[h' rv']|]; [|eapply goesW_step; eauto].
      replace (setCells nn h') with (setCells (setCells nn h) h'); [eapply goesW_step; eauto|]. unfold setCells. now rewrite setMem_twice, mem_setMem.
  Qed.
  Lemma store_go : forall nn c s now, match storeEvidence (wUsages w) (n_mem nn) s now (c_nBeliefs (n_cfg nn)) draws with
    | Ok m => goesS (st_ nn ((s, now) :: c) WIdle) (Ok (st_ (setMem nn m) c WIdle))
    | Panic => goesS (st_ nn ((s, now) :: c) WIdle) Panic end.
  Proof.
    intros nn c s now. unfold storeEvidence. destruct (mergeTargets (n_mem nn) s) as [l|] eqn:T; cbn [rbind]; [|apply goesW_panic; rewrite st_step, work_act; now rewrite T].
    assert (S0 : wstep pf (AStore draws) (st_ nn ((s, now) :: c) WIdle) = Ok (Some (st_ nn c (WMerge s now l false)))) by (rewrite st_step, work_act; rewrite T; reflexivity).
    pose proof (wmerge_go c s now l nn false) as G. destruct (rfold (mergeStep s) l (cells (n_mem nn), false)) as [[h rv]|]; cbn [rbind]; [|eapply goesW_step; eauto].
    assert (G1 : goesS (st_ nn ((s, now) :: c) WIdle) (Ok (st_ (setCells nn h) c (WMerge s now [] rv)))) by (eapply goesW_step; eauto).
    destruct rv.
    - eapply goesS_trans; [exact G1|]. eapply goesW_step; [rewrite st_step, work_act; reflexivity|]. apply goesW_refl.
    - unfold mem_add_evidence. destruct (matchandintro_var1_sentence s draws) as [vs|] eqn:V.
      + assert (S1 : wstep pf (AStore draws) (st_ (setCells nn h) c (WMerge s now [] false)) = Ok (Some (st_ (setCells nn h) c (WAdd now (s :: vs))))) by (rewrite st_step, work_act; rewrite V; reflexivity).
        pose proof (wfile_go c now (s :: vs) (setCells nn h)) as W. cbn [rfold] in W. unfold setCells in W at 1 2. rewrite mem_setMem, cfg_setMem in W.
        destruct (mem_add_evidence_internal (wUsages w) (mkPmem h (pcs (n_mem nn))) s (c_nBeliefs (n_cfg nn)) now) as [m1|]; cbn [rbind] in *; [|eapply goesS_trans; [exact G1|eapply goesW_step; eauto]].
        destruct (rfold _ vs m1) as [m|]; [unfold setCells in W at 2; rewrite setMem_twice in W|]; (eapply goesS_trans; [exact G1|eapply goesW_step; eauto]).
      + assert (S1 : wstep pf (AStore draws) (st_ (setCells nn h) c (WMerge s now [] false)) = Panic) by (rewrite st_step, work_act; now rewrite V).
        destruct (mem_add_evidence_internal _ _ _ _ _); cbn [rbind]; (eapply goesS_trans; [exact G1|now apply goesW_panic]).
  Qed.
End Store.
Theorem store_alone : forall pf w n draws, standsAs w n -> y_work (w_proc w) = WIdle ->
  exists k, match procWork n draws with
            | Ok n' => exists w', wrun pf (repeat (AStore draws) k) w = Ok w' /\ standsAs w' n' /\ w_quit w' = w_quit w /\
                                  y_worker (w_decl w') = y_worker (w_decl w) /\ y_work (w_proc w') = WIdle
            | Panic => wrun pf (repeat (AStore draws) k) w = Panic
            end.
Proof.
  intros pf w n draws S Wi. unfold procWork. destruct (nr_pq n) as [|[s now] c] eqn:Eq; [exists O, w; cbn; auto|].
  destruct (stands_at w n S) as (pm & F & E). rewrite Wi in E. remember (w_quit w) as qt. remember (y_worker (w_decl w)) as wd. remember (y_log (w_decl w)) as log. clear Heqqt Heqwd Heqlog S Wi. subst w.
  pose proof (store_go pf draws (at_ wd WIdle n pm log [] qt) (nr_proc n) c s now) as G. change (wUsages _) with (usages (nr_decl n)) in G.
  replace (st_ (at_ wd WIdle n pm log [] qt) (nr_proc n) ((s, now) :: c) WIdle) with (at_ wd WIdle n pm log [] qt) in G by (unfold st_, at_, wProc; cbn; now rewrite Eq).
  destruct (storeEvidence _ _ _ _ _ _) as [m|]; cbn [rbind]; destruct G as (k & R); exists k; [|exact R]. eexists. split; [exact R|]. split; [|cbn; auto].
  change (standsAs (at_ wd WIdle (withPq (withProc n (setMem (nr_proc n) m)) c) pm log [] qt) (withPq (withProc n (setMem (nr_proc n) m)) c)). now apply at_stands.
Qed.

(** ** sessions *)
Lemma session_msgs : forall log n, session log n -> forall m, In m (nr_dq n) -> (primary m < length (heap (nr_decl n)))%nat.
Proof.
  intros log n R. destruct (session_run _ _ R) as ((_ & Rn) & _).
  assert (N : forall s, given log s -> s_punct s = JUGEMENT -> s_stamp s <> []) by (intros s (k & i & _ & St & _) _; rewrite St; discriminate).
  destruct (run_inv (given log) 64 60 N ltac:(lia) _ closed_nonempty N _ _ Rn) as (_ & _ & _ & _ & K). intros m H. now apply K.
Qed.
Lemma exists_oneByOne : forall ts, exists l, oneByOne ts l.
Proof.
  induction ts as [|[line r| |draws] ts (l & O)]; [exists []; constructor| | |].
  - exists (ARead line r :: repeat (AMain (ln_smp r)) 0 ++ l). now constructor.
  - exists (repeat ADerive 0 ++ l). now constructor.
  - exists (repeat (AStore draws) 0 ++ l). now constructor.
Qed.
Lemma quit_rest : forall pf w ts, w_quit w = true -> exists acts, oneByOne ts acts /\ wrun pf acts w = Ok w.
Proof.
  intros pf w ts Q. induction ts as [|[line r| |draws] ts (acts & O & R)].
  - exists []. split; [constructor|reflexivity].
  - exists (ARead line r :: repeat (AMain (ln_smp r)) 0 ++ acts). split; [now constructor|]. cbn [repeat app wrun wstep]. rewrite Q. replace (if mainFree w then _ else _) with (@Ok (option whole) None) by (destruct (mainFree w), (w_jobs w); reflexivity). exact R.
  - exists (repeat ADerive 0 ++ acts). split; [now constructor|exact R].
  - exists (repeat (AStore draws) 0 ++ acts). split; [now constructor|exact R].
Qed.
Theorem turns_alone : forall pf ts log w n, session log n -> standsAs w n -> y_worker (w_decl w) = Sched_Model.WIdle -> y_work (w_proc w) = WIdle -> w_quit w = false -> rooms pf ts n ->
  exists acts, oneByOne ts acts /\
    match takeTurns pf ts n with
    | Ok (n', q) => exists w', wrun pf acts w = Ok w' /\ standsAs w' n' /\ w_quit w' = q /\ y_worker (w_decl w') = Sched_Model.WIdle /\ y_work (w_proc w') = WIdle
    | Panic => wrun pf acts w = Panic
    end.
Proof.
  intros pf. induction ts as [|t ts IH]; intros log w n Se S W1 W2 Q Rm.
  - exists []. split; [constructor|]. exists w. auto 6.
  - destruct Rm as (Rl & Rm). cbn [takeTurns].
    assert (One : exists pre, (forall l, oneByOne ts l -> oneByOne (t :: ts) (pre ++ l)) /\
      match takeTurn pf t n with
      | Ok (n', q) => (exists log', session log' n') /\ exists w', wrun pf pre w = Ok w' /\ standsAs w' n' /\ w_quit w' = q /\ y_worker (w_decl w') = Sched_Model.WIdle /\ y_work (w_proc w') = WIdle
      | Panic => wrun pf pre w = Panic
      end).
    { destruct t as [line r| |draws]; cbn [takeTurn] in *.
      - destruct (line_alone pf w n line r S Q Rl) as (k & K). exists (ARead line r :: repeat (AMain (ln_smp r)) k). split; [intros l O; now constructor|].
        destruct (facade pf n line r) as [[[n' q] x]|] eqn:Fa; cbn [rbind fst snd]; [|exact K]. destruct K as (w' & R & S' & Q' & E1 & E2). split.
        + destruct (facade_session _ _ _ _ _ _ _ _ Se Fa) as (l & Se'). eauto.
        + exists w'. rewrite E1, E2. auto.
      - destruct (derive_alone pf w n S W1 (session_msgs _ _ Se)) as (k & K). exists (repeat ADerive k). split; [intros l O; now constructor|].
        destruct (declWork n) as [n'|] eqn:D; cbn [rbind]; [|exact K]. destruct K as (w' & R & S' & Q' & E1 & E2). split; [exists log; eapply ss_declWork; eauto|]. exists w'. rewrite E2, Q'. auto.
      - destruct (store_alone pf w n draws S W2) as (k & K). exists (repeat (AStore draws) k). split; [intros l O; now constructor|].
        destruct (procWork n draws) as [n'|] eqn:D; cbn [rbind]; [|exact K]. destruct K as (w' & R & S' & Q' & E1 & E2). split; [exists log; eapply ss_procWork; eauto|]. exists w'. rewrite E1, Q'. auto. }
    destruct One as (pre & Ob & One). destruct (takeTurn pf t n) as [[n' q]|]; cbn [rbind fst snd].
    + destruct One as ((log' & Se') & w' & R & S' & Q' & E1 & E2). destruct q.
      * destruct (quit_rest pf w' ts Q') as (l & O & Rl'). exists (pre ++ l). split; [auto|]. exists w'. rewrite wrun_split, R. cbn [rbind]. auto 6.
      * destruct (IH log' w' n' Se' S' E1 E2 Q' Rm) as (l & O & K). exists (pre ++ l). split; [auto|]. rewrite wrun_split, R. cbn [rbind]. exact K.
    + destruct (exists_oneByOne ts) as (l & O). exists (pre ++ l). split; [auto|]. rewrite wrun_split, One. reflexivity.
Qed.

(** [rooms] by calculation *)
Definition roomB (n : nar) (line : text) (r : lineRnd) : bool :=
  (match lineJobs line r with Ok l => Nat.leb (length (nr_dq n) + length (filter (fun j => match j with JCycle _ _ => true | _ => false end) l)) 4 | Panic => true end) &&
  (match narStep0 (nr_proc n) (ln_smp r) with Ok (_, ms) => Nat.leb (length (nr_pq n) + length ms) 4 | Panic => true end).
Fixpoint roomsB (pf : text -> option f64) (l : list turn) (n : nar) : bool :=
  match l with
  | [] => true
  | t :: l' => (match t with TLine line r => roomB n line r | _ => true end) && match takeTurn pf t n with Ok (n', false) => roomsB pf l' n' | _ => true end
  end.
Lemma roomsB_ok : forall pf ts n, roomsB pf ts n = true -> rooms pf ts n.
Proof.
  intros pf. induction ts as [|t ts IH]; intros n H; [exact I|]. cbn [roomsB rooms] in *. apply andb_prop in H. destruct H as (H1 & H2). split.
  - destruct t as [line r| |draws]; auto. unfold roomB in H1. apply andb_prop in H1. destruct H1 as (Ha & Hb). split.
    + intros l E. rewrite E in Ha. now apply Nat.leb_le.
    + intros p ms E. rewrite E in Hb. now apply Nat.leb_le.
  - destruct (takeTurn pf t n) as [[n' [|]]|]; auto.
Qed.
