(** Properties C34-C38, C64-C67 and the rest of C33: the procedural reasoner. *)
From Coq Require Import String ZArith Bool Lia List Sorted Permutation.
From Verif Require Import Base F64_Model Sort_Proofs Term_Model Term_Spec Term_Proofs Unify_Model Unify_Spec Stamp_Model Tv_Model Tv_Spec Sentence_Model Sentence_Proofs
  Mem_Model PMem_Model PMem_Proofs PMem2_Proofs Goal_Model Goal_Spec Goal_Proofs Goal3_Proofs Goal4_Proofs
  Proc_Model Proc_Spec ProcA_Proofs ProcP_Proofs ProcB_Proofs ProcC_Proofs ProcV_Proofs ProcS_Model ProcS_Proofs ProcS2_Proofs.
Import ListNotations.
Local Open Scope string_scope.
Local Open Scope list_scope.
Local Open Scope Z_scope.

(** ** samples *)
Definition callOf (n : string) : term := Stmt INH (SetExt [Prod [SetExt [Name "SELF"]]]) (Name n).
Definition ops2 : list op := [mkOp "^left" true 5 OpPlain; mkOp "^go" false 1 OpExecAndInject].
Definition ev (t : term) (k : Z) : event := mkEvent t k k.
Definition withTrace (tr : list event) (t : Z) : pnar := setTime (setTrace (narInit ops2) tr) t.
Definition u0 : nat -> usage := fun _ => mkUsage 0 0.
Definition implT (c o e : term) : term := Stmt PREDIMPL (Seq [c; o]) e.

(** ** C34 *)
Theorem c34_window : forall l, runTrace (l ++ [None]) = lastEvents 20 (eventsOf l).
Proof. exact run_window. Qed.
Theorem c34_between : forall l, exists k, (20 <= k)%nat /\ runTrace l = lastEvents k (eventsOf l).
Proof. exact run_suffix. Qed.
Theorem c34_append : forall tr e, event_happened tr e = tr ++ [e].
Proof. reflexivity. Qed.
Theorem c34_bound : forall tr, (length (traceLimit tr) <= 20)%nat.
Proof. intros tr. rewrite limit_length. apply Nat.le_min_l. Qed.
Example c34_ex : let l := map (fun i => Some (ev (Name "a") (Z.of_nat i))) (seq 0 23) in
  map ev_occ (runTrace (l ++ [None; Some (ev (Name "b") 30)])) = map Z.of_nat (seq 3 20) ++ [30].
Proof. vm_compute. reflexivity. Qed.

(** ** C35 *)
Theorem c35_counts : forall us y a, yReach us y -> (a < length (cells (n_mem (y_nar y))))%nat ->
  exists p c, s_evi (rd (cells (n_mem (y_nar y))) a) = Some (CNT p c) /\ 0 <= p <= c /\ 1 <= c.
Proof. exact counts_ok. Qed.
Theorem c35_truth : forall us y a p c, yReach us y -> (a < length (cells (n_mem (y_nar y))))%nat ->
  s_evi (rd (cells (n_mem (y_nar y))) a) = Some (CNT p c) -> c < 2 ^ 63 ->
  exists v, retTv (rd (cells (n_mem (y_nar y))) a) = Some v /\ tvInRange v.
Proof.
  intros us y a p c R Ha E Hc. destruct (counts_ok us y a R Ha) as (p' & c' & E' & B & L). assert (p' = p /\ c' = c) as [-> ->] by (split; congruence).
  exists (evidenceTv (CNT p c)). unfold retTv. rewrite E. split; auto. apply cnt_range; lia.
Qed.
(** In every execution the belief at an address keeps its implication and its
    interval, and its evidence only grows. *)
Theorem c35_grows : forall us y y' a, yReach us y -> ysteps us y y' -> (a < length (cells (n_mem (y_nar y))))%nat ->
  (a < length (cells (n_mem (y_nar y'))))%nat /\ grows (rd (cells (n_mem (y_nar y))) a) (rd (cells (n_mem (y_nar y'))) a).
Proof. exact evidence_grows. Qed.
Theorem c35_channel : forall us y, yReach us y -> (length (y_chan y) <= 4)%nat.
Proof. intros us y R. exact (yo_cap _ (reach_yOk us y R)). Qed.
(** a run: three events, an observation is sent, received and stored *)
Definition goodSmp : smp := mkSmp false [0%nat] 0 false 0.
Definition badSmp : smp := mkSmp false [] 0 false 0.
Definition seen3 : list event := [ev (Name "a") 0; ev (callOf "^left") 0; ev (Name "b") 0].
Definition obs3 : sentence := Eval vm_compute in
  match perceive (withTrace seen3 0) goodSmp with Ok (Some s) => s | _ => noSentence end.
Definition mem3 : pmem := Eval vm_compute in
  match mem_add_evidence_internal u0 pmemMake obs3 100 0 with Ok m => m | Panic => pmemMake end.
Example c35_run : yReach u0 (mkPsys (setMem (withTrace seen3 0) mem3) MFree [] (WAdd 0 [])) /\
  length (cells mem3) = 4%nat /\ s_evi (rd (cells mem3) 1) = Some (CNT 5 5).
Proof.
  split; [|split; reflexivity].
  assert (Go : forall y y1 y2, yReach u0 y -> ystep u0 y y1 -> y1 = y2 -> yReach u0 y2) by (intros y y1 y2 A B <-; exact (yr_step u0 y y1 A B)).
  assert (R0 : yReach u0 (mkPsys (withTrace [] 0) MFree [] WIdle)).
  { assert (E : ystart (mkPnar defaultCfg ops2 defaultTable 0 [] [] pmemMake (makeGoalSystem 20 8)) = mkPsys (withTrace [] 0) MFree [] WIdle) by (vm_compute; reflexivity).
    rewrite <- E. apply yr_start; [cbn; lia|]. intros o [<-|[<-|[]]]; cbn; lia. }
  assert (R1 : yReach u0 (mkPsys (withTrace [ev (Name "a") 0] 0) MFree [] WIdle)).
  { refine (Go _ _ _ R0 (y_event u0 (withTrace [] 0) [] WIdle (Name "a")) _). vm_compute. reflexivity. }
  assert (R2 : yReach u0 (mkPsys (withTrace [ev (Name "a") 0; ev (callOf "^left") 0] 0) MFree [] WIdle)).
  { refine (Go _ _ _ R1 (y_event u0 (withTrace [ev (Name "a") 0] 0) [] WIdle (callOf "^left")) _). vm_compute. reflexivity. }
  assert (R3 : yReach u0 (mkPsys (withTrace seen3 0) MFree [] WIdle)).
  { refine (Go _ _ _ R2 (y_event u0 (withTrace [ev (Name "a") 0; ev (callOf "^left") 0] 0) [] WIdle (Name "b")) _). vm_compute. reflexivity. }
  assert (R4 : yReach u0 (mkPsys (withTrace seen3 0) (MNeg []) [] WIdle)).
  { refine (Go _ _ _ R3 (y_step0 u0 (withTrace seen3 0) [] WIdle [] _) _); vm_compute; reflexivity. }
  assert (R5 : yReach u0 (mkPsys (withTrace seen3 0) (MSend [(obs3, 0)]) [] WIdle)).
  { refine (Go _ _ _ R4 (y_trace u0 (withTrace seen3 0) [] WIdle (fun i => match i with O => goodSmp | _ => badSmp end) (n_goals (withTrace seen3 0)) [(obs3, 0)] _) _); vm_compute; reflexivity. }
  assert (E6 : (length (@nil msg) < chanCap)%nat) by (unfold chanCap; cbn; lia).
  assert (R6 := yr_step _ _ _ R5 (y_send u0 _ _ _ _ _ E6)).
  assert (R7 := yr_step _ _ _ R6 (y_sent u0 _ _ _)). cbn [app] in R7.
  assert (E8 : mergeTargets (n_mem (withTrace seen3 0)) obs3 = Ok []) by (vm_compute; reflexivity).
  assert (R8 := yr_step _ _ _ R7 (y_recv u0 (withTrace seen3 0) MFree obs3 0 [] [] E8)).
  assert (E9 : matchandintro_var1_sentence obs3 [] = Ok []) by (vm_compute; reflexivity).
  assert (R9 := yr_step _ _ _ R8 (y_new u0 _ _ _ obs3 0 [] [] E9)).
  assert (E10 : mem_add_evidence_internal u0 (n_mem (withTrace seen3 0)) obs3 (c_nBeliefs (n_cfg (withTrace seen3 0))) 0 = Ok mem3) by (vm_compute; reflexivity).
  exact (yr_step _ _ _ R9 (y_wfiled u0 (withTrace seen3 0) MFree [] 0 obs3 [] mem3 E10)).
Qed.
(** the same implication seen again later is merged, a miss adds a total *)
Definition obs3b : sentence := mkSentence (s_term obs3) None JUGEMENT [7; 8; 9] (Some 0) (Some (CNT 5 5)) 0.
Example c35_ex :
  match storeEvidence u0 mem3 obs3b 9 100 [] with
  | Ok m => match negConfirm (cells m) (1%nat, 12) with
            | Ok h => s_evi (rd h 1) = Some (CNT 10 11) /\ s_stamp (rd h 1) = [0; 7; 0; 8; 0; 9] /\ s_evi (rd h 0) = Some (CNT 10 10) /\ length h = 4%nat
            | Panic => False end
  | Panic => False
  end.
Proof. vm_compute. repeat split. Qed.

(** ** C36 *)
(** An anticipation stays exactly if its effect is not among the last events and
    its deadline is in the future; a belief gets one miss for every anticipation
    about it whose effect was not seen and whose deadline has passed. *)
Theorem c36_settled : forall n rs n' ms, narStep0 n rs = Ok (n', ms) ->
  exists keep late,
    (forall a, keep a = true <-> ~ seen n a /\ n_t n < snd a) /\ (forall a, late a = true <-> ~ seen n a /\ snd a <= n_t n) /\
    n_ant n' = filter keep (n_ant n) /\
    (forall b, rd (cells (n_mem n')) b = addMiss (length (filter (fun a => late a && Nat.eqb (fst a) b) (n_ant n))) (rd (cells (n_mem n)) b)) /\
    length (cells (n_mem n')) = length (cells (n_mem n)) /\ pcs (n_mem n') = pcs (n_mem n) /\
    n_trace n' = n_trace n /\ n_t n' = n_t n /\ n_ops n' = n_ops n /\ n_cfg n' = n_cfg n /\ n_table n' = n_table n /\
    n_goals n' = match List.rev (n_trace n) with [] => n_goals n | e :: _ => event_occurred (n_goals n) (ev_name e) end.
Proof. exact step0_spec. Qed.
Theorem c36_future : forall n rs n' ms a, narStep0 n rs = Ok (n', ms) -> In a (n_ant n') -> n_t n' < snd a.
Proof.
  intros n rs n' ms a H Ha. destruct (step0_spec _ _ _ _ H) as (keep & late & K & _ & A & _ & _ & _ & _ & T & _).
  rewrite A in Ha. apply filter_In in Ha. destruct Ha as (_ & Ha). apply K in Ha. rewrite T. tauto.
Qed.
(** The first half step does not panic if every anticipation is about counted
    evidence for an implication. *)
Theorem c36_total : forall n rs, (1 <= c_nOpsMax (n_cfg n))%nat ->
  (forall a, In a (n_ant n) -> exists q e p c, s_term (rd (cells (n_mem n)) (fst a)) = Stmt PREDIMPL q e /\ s_evi (rd (cells (n_mem n)) (fst a)) = Some (CNT p c)) ->
  exists r, narStep0 n rs = Ok r.
Proof. exact step0_total. Qed.
Definition withAnt (tr : list event) (t : Z) (ant : list (nat * Z)) : pnar := setAnt (setMem (withTrace tr t) mem3) ant.
(** three anticipations of b: one late, one early, both missed; after b both go *)
Example c36_ex :
  match narStep0 (withAnt [ev (Name "x") 5; ev (Name "b") 3; ev (Name "y") 6; ev (Name "z") 7] 8 [(1%nat, 8); (0%nat, 9)]) (fun _ => badSmp) with
  | Ok (n', ms) => n_ant n' = [(0%nat, 9)] /\ s_evi (rd (cells (n_mem n')) 1) = Some (CNT 5 6) /\ s_evi (rd (cells (n_mem n')) 0) = Some (CNT 5 5)
  | Panic => False
  end /\
  match narStep0 (withAnt [ev (Name "b") 8; ev (Name "y") 8] 8 [(1%nat, 8); (0%nat, 9)]) (fun _ => badSmp) with
  | Ok (n', ms) => n_ant n' = [] /\ s_evi (rd (cells (n_mem n')) 1) = Some (CNT 5 5)
  | Panic => False
  end.
Proof. vm_compute. repeat split. Qed.
(** Finding: an effect that happened before the operation confirms the
    anticipation. b is seen at 3, the operation is executed at 4, the
    anticipation it leaves is gone in the next half step. *)
Definition opGoal (t : term) (evi : option nat) (v : tv) : entry := mkEntry (newEternalSentenceByTv t GOAL v [99] 0) evi 0 0 f1 f1 f0.
Definition withGoals (n : pnar) (l : list entry) : pnar :=
  setGoals n (match rfold addEntry2 l (n_goals n) with Ok g => g | Panic => n_goals n end).
Definition in1 : step1In := mkIn 0 [] 100 (fun _ => f1) [].
Definition tvG : tv := mkTv f1 (f_frac 9 10).
Definition oldEvent : pnar := withGoals (withAnt [ev (Name "a") 2; ev (Name "b") 3] 4 []) [opGoal (callOf "^left") (Some 1%nat) tvG].
Theorem c36_old_event_refuted : exists n n1 n2 ms b d,
  narStep1 n true in1 = Ok n1 /\ n_ant n1 = [(b, d)] /\ narStep0 n1 (fun _ => badSmp) = Ok (n2, ms) /\ n_ant n2 = [] /\
  s_term (rd (cells (n_mem n)) b) = implT (Name "a") (callOf "^left") (Name "b") /\
  (forall e, In e (n_trace n1) -> ev_name e = Name "b" -> ev_occ e < n_t n) /\ rd (cells (n_mem n2)) b = rd (cells (n_mem n)) b.
Proof.
  exists oldEvent.
  destruct (narStep1 oldEvent true in1) as [n1|] eqn:E1; [|vm_compute in E1; discriminate].
  destruct (narStep0 n1 (fun _ => badSmp)) as [[n2 ms]|] eqn:E0.
  - exists n1, n2, ms, 1%nat, 5. vm_compute in E1. injection E1 as <-. vm_compute in E0. injection E0 as <- <-.
    split; [reflexivity|]. repeat (split; [reflexivity|]). split; [|reflexivity].
    intros e [<-|[<-|[<-|[]]]]; cbn; intros Q; try discriminate; lia.
  - vm_compute in E1. injection E1 as <-. vm_compute in E0. discriminate.
Qed.
(** Finding: a miss is counted for one of the copies of the belief only. *)
Theorem c36_one_copy_refuted : exists n rs n' ms a b,
  narStep0 n rs = Ok (n', ms) /\ a <> b /\ In a (slots (n_mem n)) /\ In b (slots (n_mem n)) /\ rd (cells (n_mem n)) a = rd (cells (n_mem n)) b /\
  s_evi (rd (cells (n_mem n')) a) = Some (CNT 5 6) /\ s_evi (rd (cells (n_mem n')) b) = Some (CNT 5 5).
Proof.
  exists (withAnt [ev (Name "x") 5; ev (Name "y") 6] 8 [(1%nat, 8)]), (fun _ => badSmp).
  destruct (narStep0 _ _) as [[n' ms]|] eqn:E; [|vm_compute in E; discriminate]. exists n', ms, 1%nat, 0%nat. vm_compute in E. injection E as <- <-.
  split; [reflexivity|]. split; [discriminate|]. split; [right; now left|]. split; [now left|]. repeat split.
Qed.

(** ** C37 *)
Theorem c37_quantised : forall v tab, StronglySorted Z.lt tab -> tab <> [] -> quantised v tab (findMinTableIdx v tab).
Proof. exact find_quantised. Qed.
Theorem c37_unique : forall v tab a b, quantised v tab a -> quantised v tab b -> a = b.
Proof. exact quantised_unique. Qed.
Theorem c37_monotone : forall v w tab, StronglySorted Z.lt tab -> tab <> [] -> v <= w -> findMinTableIdx v tab <= findMinTableIdx w tab.
Proof. intros v w tab S N L. eapply quantised_mono; eauto using find_quantised. Qed.
Theorem c37_in_table : forall v tab, tab <> [] -> 0 <= findMinTableIdx v tab < Z.of_nat (length tab).
Proof. exact find_range. Qed.
(** every table built at the start is increasing, whatever the powers are; the
    built-in one is this *)
Theorem c37_increasing : forall fuel pw max i last, StronglySorted Z.lt (buildTable fuel pw max i last).
Proof. exact build_sorted. Qed.
Theorem c37_fuel : forall fuel pw max i last k, (k <= fuel)%nat -> pw (i + k)%nat > max ->
  forall fuel', (k <= fuel')%nat -> buildTable (S fuel) pw max i last = buildTable (S fuel') pw max i last.
Proof. exact build_fuel. Qed.
Example c37_ex : defaultTable = [1; 2; 3; 4; 6; 8; 10; 13; 17] /\
  map (fun v => findMinTableIdx v defaultTable) [-5; 0; 1; 2; 5; 6; 16; 17; 1000] = [0; 0; 0; 1; 3; 4; 7; 8; 8].
Proof. vm_compute. repeat split. Qed.

(** ** C38 *)
Theorem c38_decompose : forall c o rest e, let t := Stmt PREDIMPL (Seq (c :: o :: rest)) e in
  retSeqCond t = Ok c /\ retImplSeqOp t = Ok o /\ retPred t = Ok e /\ retSubj t = Ok (Seq (c :: o :: rest)) /\ retSeqCond2 (Seq (c :: o :: rest)) = Ok c.
Proof. exact decompose. Qed.
Theorem c38_recompose : forall t c o e, retSeqCond t = Ok c -> retImplSeqOp t = Ok o -> retPred t = Ok e ->
  exists rest, t = Stmt PREDIMPL (Seq (c :: o :: rest)) e.
Proof. exact recompose. Qed.
Theorem c38_callable : forall ops t, checkIsCallableOp ops t = true <-> callable ops t.
Proof. exact callable_iff. Qed.
Theorem c38_first : forall ops name o, ret_op_by_name ops name = Some o <-> firstNamed ops name o.
Proof. exact ret_op_some. Qed.
Theorem c38_none : forall ops name, ret_op_by_name ops name = None <-> forall o, In o ops -> op_name o <> name.
Proof. exact ret_op_none. Qed.
Theorem c38_operation : forall t args name, decodeOp t = Some (args, name) <-> opCall t args name.
Proof. exact decodeOp_some. Qed.
(** Finding: the decomposition panics for an implication whose condition is not
    a sequence, which can be typed in. *)
Theorem c38_no_sequence_refuted : exists t s, t = Stmt PREDIMPL (Name "a") (Name "b") /\ s = userBelief t 1 0 /\
  retSeqCond t = Panic /\ mem_add_evidence u0 pmemMake s 20 0 [] = Panic.
Proof. exists (Stmt PREDIMPL (Name "a") (Name "b")). eexists. repeat split. Qed.
Example c38_ex : checkIsCallableOp ops2 (callOf "^left") = true /\ checkIsCallableOp ops2 (callOf "^right") = false /\
  checkIsCallableOp ops2 (Name "^left") = false /\ retImplSeqOp (implT (Name "a") (callOf "^left") (Name "b")) = Ok (callOf "^left").
Proof. vm_compute. repeat split. Qed.

(** ** C33: the decision *)
Theorem c33_best : forall n r, bestByState n = Ok r ->
  asGoodAsGoals n r /\ forall b, r = Some b -> candidate n b /\ fltb f0 (b_exp b) = true.
Proof. exact best_spec. Qed.
(** Forward planning replaces the choice only by something strictly better and
    justified by a plan of at most two beliefs. *)
Theorem c33_plan : forall n u rs cur r, planForward n u rs cur = Ok r -> asGoodAsGoals n cur ->
  (forall b, cur = Some b -> candidate n b /\ fltb f0 (b_exp b) = true) ->
  (forall b, r = Some b -> candidate n b) /\
  (forall c, cur = Some c -> exists b, r = Some b /\ asGoodAsGoals n r /\ (b = c \/ fltb (b_exp c) (b_exp b) = true)).
Proof. exact forward_spec. Qed.
(** The choice becomes a goal for its operation exactly if it is above the
    threshold and based on a belief. *)
Theorem c33_decide : forall n decl u b n', decide n decl u b = Ok n' ->
  match b with
  | Some (mkBest sq x (Some a)) =>
      if fltb (c_thresh (n_cfg n)) x then
        exists pre opT e, sq = Seq (pre ++ [opT]) /\ opTerm opT /\ decl = true /\ decisionGoal n a opT e /\
          (exists g, n' = setGoals n g) /\
          (forall y, In y (g_active (n_goals n')) -> In y (g_active (n_goals n)) \/ sameButAcc y e) /\
          (forall y, In y (g_active (n_goals n)) -> In y (g_active (n_goals n'))) /\
          (gReach (n_goals n) -> gReach (n_goals n') /\ exists y, In y (g_active (n_goals n')) /\ sameGoal y e)
      else n' = n
  | _ => n' = n
  end.
Proof. exact decide_spec. Qed.
(** The operation goal that is executed is eligible, no eligible one is better,
    and of the best ones it is the first; none is picked only if none is
    eligible. *)
Theorem c33_pick : forall g th r, pickGoal g th = Ok r ->
  match r with
  | None => forall e y, In e (g_active g) -> ~ eligible th e y
  | Some (k, e) => nth_error (g_active g) k = Some e /\ exists x, eligible th e x /\
      (forall e' y, In e' (g_active g) -> eligible th e' y -> fltb x y = false) /\
      (forall j e' y, (j < k)%nat -> nth_error (g_active g) j = Some e' -> eligible th e' y -> fltb y x = true)
  end.
Proof. exact pick_spec. Qed.
(** Belief [a ; ^left =/> b], goal b, event a: the plan makes ^left a goal and it
    is carried out; without a goal nothing happens. *)
Definition goalB : entry := mkEntry (newEternalSentenceByTv (Name "b") GOAL tvG [98] 0) None 0 0 f1 f1 f0.
Definition planner : pnar := withGoals (withAnt [ev (Name "a") 5] 5 []) [goalB].
Example c33_decision_ex :
  match narStep1 planner true in1 with
  | Ok n' => n_trace n' = [ev (Name "a") 5; ev (callOf "^left") 5] /\ n_ant n' = [(0%nat, 6)] /\ g_active (n_goals n') = [] /\ n_t n' = 6
  | Panic => False
  end /\
  match narStep1 (withAnt [ev (Name "a") 5] 5 []) true in1 with Ok n' => n_trace n' = [ev (Name "a") 5] /\ n_ant n' = [] | Panic => False end.
Proof. vm_compute. repeat split. Qed.
(** Finding: an operation that is itself given as a goal is never carried out
    (it has no belief) and, being the best one, blocks the others. *)
Definition blockedN : pnar := withGoals (withAnt [] 4 []) [opGoal (callOf "^go") None tvG; opGoal (callOf "^left") (Some 1%nat) (mkTv f1 (f_frac 8 10))].
Definition blockedX : f64 := Eval vm_compute in calcExp (mkTv f1 (f_frac 8 10)).
Theorem c33_blocked_refuted : exists n e x,
  In e (g_active (n_goals n)) /\ eligible (c_thresh (n_cfg n)) e x /\ e_evi e = Some 1%nat /\ callable (n_ops n) (e_term e) /\
  execGoal n = Ok (n, None).
Proof.
  exists blockedN, (opGoal (callOf "^left") (Some 1%nat) (mkTv f1 (f_frac 8 10))), blockedX.
  split; [right; now left|]. split; [|split; [reflexivity|split; [now apply callable_iff|vm_compute; reflexivity]]].
  split; [vm_compute; reflexivity|]. split; [exists (mkTv f1 (f_frac 8 10)); split; vm_compute; reflexivity|]. split; vm_compute; reflexivity.
Qed.

(** ** C64 *)
Theorem c64_sound : forall n r, (3 <= length (n_trace n))%nat -> (1 <= c_nOpsMax (n_cfg n))%nat ->
  match perceive n r with
  | Panic => False
  | Ok None => True
  | Ok (Some s) => observation (n_ops n) (n_table n) (n_trace n) s
  end.
Proof. exact perceive_sound. Qed.
Theorem c64_complete : forall n i j k e0 ej ek, (3 <= length (n_trace n))%nat -> c_nOpsMax (n_cfg n) = 1%nat -> (i < j < k)%nat ->
  (k = length (n_trace n) - 1 \/ k = length (n_trace n) - 2)%nat ->
  nth_error (n_trace n) i = Some e0 -> nth_error (n_trace n) j = Some ej -> nth_error (n_trace n) k = Some ek ->
  callable (n_ops n) (ev_name ej) -> ~ callable (n_ops n) (ev_name e0) -> ~ callable (n_ops n) (ev_name ek) -> ev_name e0 <> ev_name ek ->
  exists r s, perceive n r = Ok (Some s) /\ s_term s = Stmt PREDIMPL (Seq [ev_name e0; ev_name ej]) (ev_name ek) /\
    s_stamp s = [ev_evi e0; ev_evi ej; ev_evi ek].
Proof. exact perceive_complete. Qed.
Theorem c64_messages : forall n rs n' ms, narStep0 n rs = Ok (n', ms) -> (1 <= c_nOpsMax (n_cfg n))%nat ->
  (length ms <= c_samples (n_cfg n))%nat /\
  forall s now, In (s, now) ms -> now = n_t n /\ observation (n_ops n) (n_table n) (n_trace n) s.
Proof. exact step0_sends. Qed.
Example c64_ex :
  match perceive (withTrace [ev (Name "x") 1; ev (Name "a") 2; ev (callOf "^left") 4; ev (Name "b") 7] 7) (mkSmp false [0%nat] 1 false 0) with
  | Ok (Some s) => s_term s = implT (Name "a") (callOf "^left") (Name "b") /\ s_stamp s = [2; 4; 7] /\ s_expDt s = Some 2 /\ s_evi s = Some (CNT 5 5)
  | _ => False
  end.
Proof. vm_compute. repeat split. Qed.
(** Finding: several events of one moment have the same evidence id, so
    different observations share evidence. *)
Definition twoAt1 : pnar := withTrace [ev (Name "x") 1; ev (Name "a") 1; ev (callOf "^left") 4; ev (Name "b") 7] 7.
Definition at1 (k : nat) : sentence := Eval vm_compute in
  match perceive twoAt1 (mkSmp false [0%nat] k false 0) with Ok (Some s) => s | _ => noSentence end.
Theorem c64_same_id_refuted : exists n r1 r2 s1 s2, perceive n r1 = Ok (Some s1) /\ perceive n r2 = Ok (Some s2) /\ s_term s1 <> s_term s2 /\
  s_stamp s1 = s_stamp s2.
Proof.
  exists twoAt1, (mkSmp false [0%nat] 0 false 0), (mkSmp false [0%nat] 1 false 0), (at1 0), (at1 1).
  split; [vm_compute; reflexivity|]. split; [vm_compute; reflexivity|]. split; [discriminate|reflexivity].
Qed.

(** ** C65 *)
(** A variable is introduced exactly for the subject of a property condition
    that occurs again; putting the subject back gives the original term, no
    occurrence of the subject is left (apart from relations of images), and the
    rest of the sentence is copied. *)
Theorem c65_intro : forall s draws vs, matchandintro_var1_sentence s draws = Ok vs ->
  vs = [] \/
  exists subj prop o e x v, s_term s = Stmt PREDIMPL (Seq [Stmt INH subj (SetInt prop); o]) e /\
    2 <= count_occurence_subterms (s_term s) subj /\ vs = [v] /\
    v = mkSentence (s_term v) (s_t s) (s_punct s) (s_stamp s) (s_expDt s) (s_evi s) (s_usage s) /\
    (~ occurs (IndepVar x) (s_term s) -> replVar (IndepVar x) subj (s_term v) = s_term s /\ ~ voccurs subj (s_term v)).
Proof. exact intro_spec. Qed.
Definition propT (s p : string) : term := Stmt INH (Name s) (SetInt [Name p]).
Definition pickT (s : string) : term := Stmt INH (SetExt [Prod [SetExt [Name "SELF"]; Name s]]) (Name "^pick").
Definition propObs : sentence := mkSentence (implT (propT "cup" "seen") (pickT "cup") (propT "cup" "held")) None JUGEMENT [1; 2; 3] (Some 0) (Some (CNT 5 5)) 0.
Example c65_ex : match matchandintro_var1_sentence propObs (repeat 3%nat 24) with
  | Ok [v] => s_term v = implT (Stmt INH (IndepVar "Q444444444444444444444444") (SetInt [Name "seen"]))
                 (Stmt INH (SetExt [Prod [SetExt [Name "SELF"]; IndepVar "Q444444444444444444444444"]]) (Name "^pick"))
                 (Stmt INH (IndepVar "Q444444444444444444444444") (SetInt [Name "held"])) /\ s_stamp v = [1; 2; 3]
  | _ => False
  end.
Proof. vm_compute. repeat split. Qed.
(** Finding: the random name panics for one of the sixteen possible draws; the
    worker then dies on an ordinary observation. *)
Theorem c65_name : forall draws, (forall d, In d (firstn 24 draws) -> Nat.modulo d 16 <> 15%nat) <-> exists x, create_random_varname draws = Ok (IndepVar x).
Proof. exact varname_ok. Qed.
Theorem c65_panic_refuted : exists s draws, s_term s = implT (propT "cup" "seen") (pickT "cup") (propT "cup" "held") /\
  storeEvidence u0 pmemMake s 3 100 draws = Panic.
Proof. exists propObs, [15%nat]. split; [reflexivity|]. vm_compute. reflexivity. Qed.
(** Finding: if the subject is the name of the operation, the operation itself
    is replaced and the new belief has no operation any more. *)
Theorem c65_lost_op_refuted : exists s draws v, matchandintro_var1_sentence s draws = Ok [v] /\
  (exists c o e, s_term s = implT c o e /\ opTerm o) /\ forall c o e, s_term v = implT c o e -> ~ opTerm o.
Proof.
  exists (mkSentence (implT (propT "^left" "ready") (callOf "^left") (Name "b")) None JUGEMENT [1] (Some 0) (Some (CNT 5 5)) 0), (repeat 3%nat 24).
  eexists. split; [vm_compute; reflexivity|]. split.
  - exists (propT "^left" "ready"), (callOf "^left"), (Name "b"). split; auto. exists [SetExt [Name "SELF"]], "^left"%string. split; [discriminate|reflexivity].
  - intros c o e H (args & name & _ & ->). cbn in H. discriminate.
Qed.

(** ** C66 *)
(** What one second half step does to the trace and the anticipations. *)
Theorem c66_step : forall n decl r n', narStep1 n decl r = Ok n' ->
  n_t n' = n_t n + 1 /\ n_cfg n' = n_cfg n /\ n_ops n' = n_ops n /\ n_table n' = n_table n /\
  (n_mem n' = n_mem n \/ pLimit (n_mem n) (c_nConcepts (n_cfg n)) = Ok (n_mem n')) /\
  (exists evs ant, outcome n evs ant /\ n_trace n' = lastEvents 20 (n_trace n ++ evs) /\ n_ant n' = n_ant n ++ ant) /\
  (gReach (n_goals n) -> gReach (n_goals n')).
Proof. exact step1_spec. Qed.
(** Every event a second half step adds is a call of a registered operation or
    injected by one; without registered operations it adds none. *)
Theorem c66_registered : forall n evs ant, outcome n evs ant -> evs <> [] ->
  exists t args name o inj rels, evs = map (fun e => mkEvent e (n_t n) (n_t n)) (inj ++ [t]) /\ opCall t args name /\ firstNamed (n_ops n) name o /\
    performs (n_ops n) t inj rels /\ (op_kind o <> OpExecAndInject -> inj = []).
Proof.
  assert (G : forall n t evs, executed n t evs -> evs <> [] -> exists t args name o inj rels, evs = map (fun e => mkEvent e (n_t n) (n_t n)) (inj ++ [t]) /\ opCall t args name /\ firstNamed (n_ops n) name o /\
    performs (n_ops n) t inj rels /\ (op_kind o <> OpExecAndInject -> inj = [])).
  { intros n t evs (args & name & C & [(_ & E)|(o & inj & rels & A & B & E)]) N; [contradiction|]. exists t, args, name, o, inj, rels. repeat (split; [assumption|]).
    intros K. inversion B as [| | | |t0 x0 sq0 inj0 n0 o0 e0 r0 C0 F0 K0 A0]; subst; auto. destruct (call_unique _ _ _ _ _ C C0) as (_ & <-). rewrite (named_unique _ _ _ _ A F0) in K. contradiction. }
  intros n evs ant H N. destruct H; eauto. congruence.
Qed.
(** What an operation does is fixed by the registered operations. *)
Theorem c66_performs_once : forall ops t evs rels evs' rels', performs ops t evs rels -> performs ops t evs' rels' -> evs' = evs /\ rels' = rels.
Proof. intros ops t evs rels evs' rels' A B. exact (performs_unique _ _ _ _ A _ _ B). Qed.
Theorem c66_execute : forall n n' p, execGoal n = Ok (n', p) ->
  match p with
  | None => n' = n
  | Some t => exists pre e post x a iv,
      g_active (n_goals n) = pre ++ e :: post /\ eligible (c_thresh (n_cfg n)) e x /\
      (forall e' y, In e' (g_active (n_goals n)) -> eligible (c_thresh (n_cfg n)) e' y -> fltb x y = false) /\
      t = e_term e /\ opTerm t /\ e_evi e = Some a /\
      nth_error (n_table n) (Z.to_nat (match s_expDt (rd (cells (n_mem n)) a) with Some d => d | None => 0 end)) = Some iv /\
      n' = setAnt (setGoals n (setActive (n_goals n) (pre ++ post)))
             (n_ant n ++ if c_anticipate (n_cfg n) then [(a, n_t n + iv)] else [])
  end.
Proof. exact exec_spec. Qed.
(** babbling and an operation that runs another one and injects an event *)
Definition goT : term := Stmt INH (SetExt [Prod [SetExt [Name "SELF"]; Seq [callOf "^go"; callOf "^left"]; Name "done"]]) (Name "^go").
Example c66_ex :
  match narStep1 (withTrace [] 3) true (mkIn 0 [] 0 (fun _ => f1) []) with Ok n' => n_trace n' = [ev (callOf "^left") 3] /\ n_ant n' = [] | Panic => False end /\
  match narStep1 (withTrace [] 3) true (mkIn 0 [] 1 (fun _ => f1) []) with Ok n' => n_trace n' = [] | Panic => False end /\
  match execAction (withTrace [] 3) (Some goT) with Ok n' => n_trace n' = [ev (Name "done") 3; ev goT 3] | Panic => False end.
Proof. vm_compute. repeat split. Qed.
(** one such operation inside another one *)
Definition go2 (l : list term) (e : string) : term := Stmt INH (SetExt [Prod [SetExt [Name "SELF"]; Seq l; Name e]]) (Name "^go").
Example c66_nested_ex : performs (n_ops (withTrace [] 3)) (go2 [callOf "^left"; go2 [callOf "^left"] "x"; Name "z"; go2 [] "y"] "w") [Name "x"; Name "y"; Name "w"] [] /\
  match execAction (withTrace [] 3) (Some (go2 [go2 [callOf "^left"] "x"; go2 [Name "q"] "y"] "w")) with
  | Ok n' => map ev_name (n_trace n') = [Name "x"; Name "y"; Name "w"; go2 [go2 [callOf "^left"] "x"; go2 [Name "q"] "y"] "w"] | Panic => False end.
Proof.
  split; [|vm_compute; reflexivity].
  assert (Go : exists o, firstNamed (n_ops (withTrace [] 3)) "^go" o /\ op_kind o = OpExecAndInject) by (eexists; split; [apply ret_op_some; vm_compute; reflexivity|reflexivity]).
  assert (Le : exists o, firstNamed (n_ops (withTrace [] 3)) "^left" o /\ op_kind o = OpPlain) by (eexists; split; [apply ret_op_some; vm_compute; reflexivity|reflexivity]).
  destruct Go as (go & G1 & G2). destruct Le as (le & L1 & L2).
  assert (E : forall l e evs rels, performsAll (n_ops (withTrace [] 3)) l evs rels -> performs (n_ops (withTrace [] 3)) (go2 l e) (evs ++ [Name e]) rels).
  { intros l e evs rels H. eapply pf_exec with (o := go) (x := SetExt [Name "SELF"]) (sq := l) (name := "^go"); [split; [discriminate|reflexivity]|assumption|assumption|assumption]. }
  assert (P : performs (n_ops (withTrace [] 3)) (callOf "^left") [] []) by (eapply pf_plain with (o := le) (args := [SetExt [Name "SELF"]]) (name := "^left"); [split; [discriminate|reflexivity]|assumption|assumption]).
  eapply (E _ "w"%string ([] ++ ([] ++ [Name "x"]) ++ [] ++ ([] ++ [Name "y"]) ++ []) ([] ++ [] ++ [] ++ [] ++ [])).
  constructor; [exact P|]. constructor; [apply E; exact (pa_cons _ _ [] [] [] [] [] P (pa_nil _))|]. constructor; [|constructor; [apply E; constructor|constructor]].
  apply pf_nothing. intros args name o (_ & H). discriminate H.
Qed.
(** Finding: a goal for an operation that is not registered is used up and
    anticipated although nothing is carried out; its belief then gets a miss. *)
Definition unreg : pnar := withGoals (withAnt [ev (Name "a") 2] 4 []) [opGoal (callOf "^right") (Some 1%nat) tvG].
Theorem c66_unregistered_refuted :
  exists n, n_ant n = [] /\ s_evi (rd (cells (n_mem n)) 1) = Some (CNT 5 5) /\
  match narStep1 n true in1 with
  | Ok n1 => n_ant n1 = [(1%nat, 5)] /\ n_trace n1 = n_trace n /\
     match narStep0 (setTime n1 6) (fun _ => badSmp) with Ok (n2, _) => s_evi (rd (cells (n_mem n2)) 1) = Some (CNT 5 6) | Panic => False end
  | Panic => False
  end.
Proof. exists unreg. vm_compute. repeat split. Qed.
(** Finding: a temporal belief without an operation can be typed in; the decision
    based on it panics. *)
Definition noOpMem : pmem := Eval vm_compute in
  match mem_add_evidence u0 pmemMake (userBelief (Stmt PREDIMPL (Seq [Name "a"; Name "c"]) (Name "b")) 1 0) 20 0 [] with Ok m => m | Panic => pmemMake end.
Theorem c66_no_op_refuted : exists n, n_trace n = [ev (Name "a") 5] /\
  mem_add_evidence u0 pmemMake (userBelief (Stmt PREDIMPL (Seq [Name "a"; Name "c"]) (Name "b")) 1 0) 20 0 [] = Ok (n_mem n) /\
  retEntries (n_goals n) = [goalB] /\ narStep1 n true in1 = Panic.
Proof. exists (setMem planner noOpMem). repeat (split; [vm_compute; reflexivity|]). vm_compute. reflexivity. Qed.
(** Finding: without a declarative memory (ProcChaosEntry.rs 42) the second half
    step panics at the latest at time 1. *)
Theorem c66_no_decl_refuted : forall n r, Z.rem (n_t n) 13 = 1 -> narStep1 n false r = Panic.
Proof.
  intros n r Ht. destruct (narStep1 n false r) as [n'|] eqn:H; auto. exfalso. unfold narStep1 in H.
  destruct (bestByState n) as [b0|] eqn:E0; [|discriminate]. cbn [rbind] in H.
  destruct (planForward n (i_u r) (i_plan r) b0) as [b1|] eqn:E1; [|discriminate]. cbn [rbind] in H.
  destruct (decide n false (i_u r) b1) as [n1|] eqn:E2; [|discriminate]. cbn [rbind] in H.
  destruct (execGoal n1) as [[n2 pk]|] eqn:E3; [|discriminate]. cbn [rbind] in H.
  destruct (babble n2 (i_babble r) pk) as [pk'|] eqn:E4; [|discriminate]. cbn [rbind] in H.
  destruct (execAction n2 pk') as [n3|] eqn:E5; [|discriminate]. cbn [rbind] in H.
  assert (T1 : n_t n1 = n_t n).
  { pose proof (decide_spec _ _ _ _ _ E2) as D. destruct b1 as [[sq x [a0|]]|]; try (now subst n1). destruct (fltb (c_thresh (n_cfg n)) x); [|now subst n1].
    destruct D as (pre & opT & e0 & _ & _ & D & _). discriminate D. }
  assert (T2 : n_t n2 = n_t n1).
  { pose proof (exec_spec _ _ _ E3) as X. destruct pk; [destruct X as (pre & e & post & x & a & iv & X1 & X2 & X3 & X4 & X5 & X6 & X7 & ->); reflexivity|now subst n2]. }
  assert (T3 : n_t n3 = n_t n2).
  { pose proof (action_spec _ _ _ E5) as A. destruct pk'; [destruct A as (args & name & A1 & [(A2 & A3)|(o & inj & A2 & A3 & A4 & A5)]); now subst n3|now subst n3]. }
  set (n4 := setTrace n3 (traceLimit (n_trace n3))) in *.
  destruct (if Z.rem (n_t n4) 101 =? 1 then _ else _) as [n5|] eqn:E6; [|discriminate]. cbn [rbind] in H.
  assert (T5 : n_t n5 = n_t n4).
  { destruct (Z.rem (n_t n4) 101 =? 1); [|congruence]. destruct (pLimit _ _); [|discriminate]. cbn [rbind] in E6. injection E6 as <-. reflexivity. }
  replace (n_t n5) with (n_t n) in H by (subst n4; cbn in T5; congruence). rewrite Ht in H. cbn in H. discriminate.
Qed.

(** ** C67 *)
(** What the worker does with one observation: every belief of the two concepts
    that states the same implication with the same interval and shares no
    evidence counts it once, nothing else changes, and only if there is no such
    belief the observation is stored as a new one. *)
Theorem c67_once : forall us m s now nB draws m' cond pred, wfP m -> s_stamp s <> [] -> implOf s cond pred ->
  storeEvidence us m s now nB draws = Ok m' ->
  (forall a, In a (pBeliefs m [cond; pred]) -> supports s (rd (cells m) a) -> countedOnce s (rd (cells m) a) (rd (cells m') a)) /\
  (forall a, (a < length (cells m))%nat -> ~ (In a (pBeliefs m [cond; pred]) /\ supports s (rd (cells m) a)) -> rd (cells m') a = rd (cells m) a) /\
  ((exists a, In a (pBeliefs m [cond; pred]) /\ supports s (rd (cells m) a)) -> pcs m' = pcs m /\ length (cells m') = length (cells m)) /\
  (~ (exists a, In a (pBeliefs m [cond; pred]) /\ supports s (rd (cells m) a)) -> mem_add_evidence us m s nB now draws = Ok m').
Proof. exact store_counts. Qed.
(** The same observation sent twice counts no second time. *)
Theorem c67_not_twice : forall us m s now nB draws m' cond pred, wfP m -> s_stamp s <> [] -> implOf s cond pred ->
  storeEvidence us m s now nB draws = Ok m' -> (exists a, In a (pBeliefs m [cond; pred]) /\ supports s (rd (cells m) a)) ->
  forall a, In a (pBeliefs m [cond; pred]) -> ~ supports s (rd (cells m') a).
Proof.
  intros us m s now nB draws m' cond pred W Hs Hi H Ex a Ha. destruct (store_counts _ _ _ _ _ _ _ _ _ W Hs Hi H) as (A & B & _ & _).
  destruct (supportsb s (rd (cells m) a)) eqn:E.
  - apply supportsb_iff in E. intros X. apply supportsb_iff in X. rewrite (counted_not_again s (rd (cells m) a) (rd (cells m') a)) in X; auto. discriminate.
  - rewrite B; [|now apply pBeliefs_wf with (1 := W) in Ha|intros (_ & X); apply supportsb_iff in X; congruence]. intros X. apply supportsb_iff in X. congruence.
Qed.
Example c67_ex : match storeEvidence u0 mem3 obs3b 9 100 [] with
  | Ok m => length (pBeliefs mem3 [Name "a"; Name "b"]) = 4%nat /\ map s_evi (map (rd (cells m)) (pBeliefs mem3 [Name "a"; Name "b"])) = repeat (Some (CNT 10 10)) 4 /\
      storeEvidence u0 m obs3b 9 100 [] = Ok m
  | Panic => False end.
Proof. vm_compute. repeat split. Qed.
(** The worker as a thread of its own: as long as nobody else moves, it takes
    exactly the oldest observation and does to the memory what is described
    above, whatever the order of its steps. *)
Theorem c67_alone : forall us n p s now c n',
  workerRuns us (mkPsys n p ((s, now) :: c) WIdle) (mkPsys n' p c WIdle) <->
  exists draws m', storeEvidence us (n_mem n) s now (c_nBeliefs (n_cfg n)) draws = Ok m' /\ n' = setMem n m'.
Proof. exact worker_is_store. Qed.
Example c67_alone_ex : exists n', workerRuns u0 (mkPsys (setMem planner mem3) MFree [(obs3b, 9)] WIdle) (mkPsys n' MFree [] WIdle) /\
  map s_evi (map (rd (cells (n_mem n'))) (pBeliefs mem3 [Name "a"; Name "b"])) = repeat (Some (CNT 10 10)) 4.
Proof.
  destruct (storeEvidence u0 mem3 obs3b 9 (c_nBeliefs (n_cfg (setMem planner mem3))) []) as [m|] eqn:E; [|vm_compute in E; discriminate E].
  exists (setMem (setMem planner mem3) m). split; [apply c67_alone; exists [], m; split; [exact E|reflexivity]|].
  vm_compute in E. injection E as <-. vm_compute. reflexivity.
Qed.
(** Finding: the worker panics on an observation of an implication that was typed
    in, because that belief has no interval. *)
Definition typedMem : pmem := Eval vm_compute in match mem_add_evidence u0 pmemMake (userBelief (s_term obs3) 1 0) 20 0 [] with Ok m => m | Panic => pmemMake end.
Theorem c67_typed_refuted : exists t id m, mem_add_evidence u0 pmemMake (userBelief t id 0) 20 0 [] = Ok m /\
  observation ops2 defaultTable seen3 obs3 /\ s_term obs3 = t /\ storeEvidence u0 m obs3 3 100 [] = Panic.
Proof.
  exists (s_term obs3), 1, typedMem. split; [vm_compute; reflexivity|]. split; [|split; [reflexivity|vm_compute; reflexivity]].
  assert (P : perceive (withTrace seen3 0) goodSmp = Ok (Some obs3)) by (vm_compute; reflexivity).
  assert (S0 := c64_sound (withTrace seen3 0) goodSmp ltac:(cbn; lia) ltac:(cbn; lia)). rewrite P in S0.
  assert (E1 : n_ops (withTrace seen3 0) = ops2) by (vm_compute; reflexivity). assert (E2 : n_table (withTrace seen3 0) = defaultTable) by (vm_compute; reflexivity).
  assert (E3 : n_trace (withTrace seen3 0) = seen3) by (vm_compute; reflexivity). rewrite E1, E2, E3 in S0. exact S0.
Qed.
(** Finding: the belief with a variable that was made from the first observation
    does not count the later ones. *)
Definition propMem : pmem := Eval vm_compute in match storeEvidence u0 pmemMake propObs 3 100 (repeat 3%nat 24) with Ok m => m | Panic => pmemMake end.
Definition propObs2 : sentence := mkSentence (s_term propObs) None JUGEMENT [7; 8; 9] (Some 0) (Some (CNT 5 5)) 0.
Theorem c67_general_refuted : exists m s, storeEvidence u0 pmemMake propObs 3 100 (repeat 3%nat 24) = Ok m /\ s_term s = s_term propObs /\
  match storeEvidence u0 m s 9 100 [] with
  | Ok m' => s_evi (rd (cells m') 1) = Some (CNT 10 10) /\ s_evi (rd (cells m') 15) = Some (CNT 5 5) /\
      s_term (rd (cells m') 1) = s_term propObs /\ replVar (IndepVar "Q444444444444444444444444") (Name "cup") (s_term (rd (cells m') 15)) = s_term propObs
  | Panic => False
  end.
Proof. exists propMem, propObs2. vm_compute. repeat split. Qed.

Print Assumptions c33_pick.
Print Assumptions c33_decide.
Print Assumptions c34_window.
Print Assumptions c35_counts.
Print Assumptions c35_truth.
Print Assumptions c35_grows.
Print Assumptions c36_settled.
Print Assumptions c37_quantised.
Print Assumptions c38_decompose.
Print Assumptions c64_sound.
Print Assumptions c64_complete.
Print Assumptions c65_intro.
Print Assumptions c66_step.
Print Assumptions c66_execute.
Print Assumptions c67_once.
Print Assumptions c67_alone. Print Assumptions c66_registered. Print Assumptions c66_performs_once.
