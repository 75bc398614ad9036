(** Property C106: how often something must have worked to be done again. *)
From Coq Require Import String Ascii ZArith Reals Bool Lia Lra List.
From Verif Require Import Base F64_Model F64_Proofs Term_Model Term_Spec Term_Proofs Tv_Model Sentence_Model Mem_Model Cycle_Model PMem_Model Goal_Model Goal_Spec Goal_Proofs Proc_Model Proc_Spec ProcS_Model ProcX_Model Parser_Model
  Nar_Model Nar_Spec Nar_Proofs Whole_Model Props_Whole Serial_Spec Serial_Proofs Props_Serial Teach_Spec Teach_Proofs Teach2_Proofs Props_Teach Plan_Spec Plan_Proofs Plan2_Proofs Props_Plan Tries_Spec Tries_Proofs Tries2_Proofs.
Import ListNotations.
Local Open Scope string_scope.
Local Open Scope list_scope.
Local Open Scope Z_scope.

(** The expectation of a belief that came true [p] times out of [c] is [(p+1/2)/(c+1)], up
    to rounding. *)
Theorem c106_expectation : forall p c, 0 <= p <= c -> 1 <= c < 2 ^ 53 ->
  (Rabs (fval (calcExp (evidenceTv (CNT p c))) - (IZR p + / 2) / (IZR c + 1)) <= / 2 ^ 50)%R.
Proof.
  intros p c P C. destruct (expectation p c P C) as (_ & E). assert (1 <= IZR c)%R by (apply IZR_le; lia).
  replace ((IZR p + / 2) / (IZR c + 1))%R with (IZR (2 * p + 1) / IZR (2 * c + 2))%R by (rewrite !plus_IZR, !mult_IZR; field; lra).
  eapply Rle_trans; [exact E|]. unfold hu. lra.
Qed.
(** It exceeds the usual threshold if [50p > 29c+4], and only if [50p >= 29c+4]. *)
Theorem c106_strong : forall p c, 0 <= p <= c -> 1 <= c < 2 ^ 40 ->
  (50 * p > 29 * c + 4 -> fltb (c_thresh defaultCfg) (calcExp (evidenceTv (CNT p c))) = true) /\
  (fltb (c_thresh defaultCfg) (calcExp (evidenceTv (CNT p c))) = true -> 50 * p >= 29 * c + 4).
Proof. intros p c P C. change (c_thresh defaultCfg) with usual. split; intros H; [apply strong_if; auto; lia|apply Z.le_ge; now apply strong_only]. Qed.
(** A wish without a truth value of its own reaches the operation through such a belief if
    [45p(2p-c) > 8c(c+1)], and only if [45p(2p-c) >= 8c(c+1)]. *)
Theorem c106_wished : forall p c, 0 <= p <= c -> 1 <= c < 2 ^ 20 ->
  (45 * p * (2 * p - c) > 8 * c * (c + 1) -> fltb (c_thresh defaultCfg) (calcExp (dedGoal defaultTv (evidenceTv (CNT p c)))) = true) /\
  (fltb (c_thresh defaultCfg) (calcExp (dedGoal defaultTv (evidenceTv (CNT p c)))) = true -> 45 * p * (2 * p - c) >= 8 * c * (c + 1)).
Proof. intros p c P C. change (c_thresh defaultCfg) with usual. split; intros H; [apply wished_if; auto; lia|apply Z.le_ge; now apply wished_only]. Qed.

(** In any state with the usual threshold: [A] is the last event, [C] is wanted. If all
    beliefs that start from [A] say that [O] leads to [C], and this worked often enough,
    the next step carries [O] out. *)
Theorem c106_followed : forall n r n' tr e A O C args name o, narStep1 n true r = Ok n' -> gReach (n_goals n) -> n_trace n = tr ++ [e] -> ev_name e = A ->
  opCall O args name -> firstNamed (n_ops n) name o -> op_kind o = OpPlain -> c_thresh (n_cfg n) = c_thresh defaultCfg ->
  (exists a, relevant n A a) ->
  (forall a, relevant n A a -> exists p c, tried n A O C a p c /\ 0 <= p <= c /\ 1 <= c < 2 ^ 20 /\ 45 * p * (2 * p - c) > 8 * c * (c + 1)) ->
  wants n C defaultTv -> noneFor n O ->
  exists a iv, relevant n A a /\ n_trace n' = traceLimit (n_trace n ++ [mkEvent O (n_t n) (n_t n)]) /\
    n_ant n' = n_ant n ++ (if c_anticipate (n_cfg n) then [(a, n_t n + iv)] else []).
Proof.
  intros n r n' tr e A O C args name o R GR TR EA OC FN PL TH BS BA WA NO.
  assert (T0 : fltb f0 (c_thresh (n_cfg n)) = true) by (rewrite TH; vm_compute; reflexivity).
  destruct (act_it n r n' tr e A O C defaultTv args name o R GR TR EA OC FN PL T0 BS) as (a & iv & H1 & _ & H3 & H4 & _); auto.
  - intros a Ha. destruct (BA a Ha) as (p & c & T & P & Cc & L). apply (tried_advises n A O C a p c TH T P Cc). lia.
  - exists a, iv. auto.
Qed.
(** If none of them worked often enough, nothing is done on purpose. *)
Theorem c106_given_up : forall n r n' tr e A C, narStep1 n true r = Ok n' -> n_trace n = tr ++ [e] -> ev_name e = A ->
  c_babble (n_cfg n) = false -> c_thresh (n_cfg n) = c_thresh defaultCfg ->
  (forall a, relevant n A a -> exists O p c, tried n A O C a p c /\ 0 <= p <= c /\ 1 <= c < 2 ^ 20 /\ 45 * p * (2 * p - c) < 8 * c * (c + 1)) ->
  wants n C defaultTv -> n_trace n' = traceLimit (n_trace n) /\ n_ant n' = n_ant n.
Proof.
  intros n r n' tr e A C R TR EA BB TH W (W1 & W2 & W3 & W4).
  exact (resigned n r n' tr e A C R TR EA BB TH (conj W3 W4) W2 W1 W).
Qed.
(** So a typed rule is followed until its copies at the situation failed five times each,
    and given up when they failed six times each. *)
Theorem c106_typed : forall n r n' tr e A O C args name o, narStep1 n true r = Ok n' -> gReach (n_goals n) -> n_trace n = tr ++ [e] -> ev_name e = A ->
  opCall O args name -> firstNamed (n_ops n) name o -> op_kind o = OpPlain -> c_thresh (n_cfg n) = c_thresh defaultCfg -> c_babble (n_cfg n) = false ->
  (exists a, relevant n A a) -> wants n C defaultTv -> noneFor n O ->
  ((forall a, relevant n A a -> exists k, 0 <= k <= 5 /\ tried n A O C a 10 (10 + k)) -> n_trace n' = traceLimit (n_trace n ++ [mkEvent O (n_t n) (n_t n)])) /\
  ((forall a, relevant n A a -> exists k, 6 <= k < 2 ^ 19 /\ tried n A O C a 10 (10 + k)) -> n_trace n' = traceLimit (n_trace n)).
Proof.
  intros n r n' tr e A O C args name o R GR TR EA OC FN PL TH BB BS WA NO.
  assert (Q : 2 ^ 19 + 10 < 2 ^ 20) by now vm_compute. split; intros BA.
  - destruct (c106_followed n r n' tr e A O C args name o R GR TR EA OC FN PL TH) as (a & iv & _ & Ht & _); eauto.
    intros a Ha. destruct (BA a Ha) as (k & K & T). exists 10, (10 + k). split; [exact T|]. split; [lia|]. split; [lia|nia].
  - apply (c106_given_up n r n' tr e A C R TR EA BB TH); auto. intros a Ha. destruct (BA a Ha) as (k & K & T). exists O, 10, (10 + k). split; [exact T|]. split; [lia|]. split; [lia|nia].
Qed.

(** * Examples *)
Example c106_ex_counts : fltb (c_thresh defaultCfg) (calcExp (evidenceTv (CNT 10 17))) = true /\ fltb (c_thresh defaultCfg) (calcExp (evidenceTv (CNT 10 18))) = false.
Proof. split; vm_compute; reflexivity. Qed.
Example c106_ex_wish : fltb (c_thresh defaultCfg) (calcExp (dedGoal defaultTv (evidenceTv (CNT 10 15)))) = true /\ fltb (c_thresh defaultCfg) (calcExp (dedGoal defaultTv (evidenceTv (CNT 10 16)))) = false.
Proof. split; vm_compute; reflexivity. Qed.
(** the same through the theorem, for counts no one tries out *)
Example c106_ex_large : fltb (c_thresh defaultCfg) (calcExp (evidenceTv (CNT 580000000001 1000000000000))) = true.
Proof. apply c106_strong; lia. Qed.

(** A state in which a rule worked ten times out of [10 + k], the cup is near and should be
    held. *)
Definition rule1 (k : Z) : sentence := mkSentence (ruleTerm lift) None JUGEMENT [7] (Some 0) (Some (CNT 10 (10 + k))) 0%nat.
Definition wish1 : sentence := newEternalSentenceByTv (cup "held") GOAL defaultTv [8] 1%nat.
Definition known (k : Z) : pmem := match mem_add_evidence (fun _ => mkUsage 0 0) pmemMake (rule1 k) 20 0 (repeat 3%nat 24) with Ok m => m | Panic => pmemMake end.
Definition wished : gsys := match addEntry (makeGoalSystem 20 8) 0 wish1 None 0 with Ok g => g | Panic => makeGoalSystem 20 8 end.
Definition roomK (k : Z) : pnar := mkPnar (mkPcfg 2 (f_frac 58 100) 1 4 false true 1000 100) ops1 [1; 2; 4] 0 [mkEvent (cup "near") 0 0] [] (known k) wished.
Definition startsFrom (m : pmem) (a : nat) : bool := match s_term (rd (cells m) a) with Stmt PREDIMPL (Seq (x :: _)) _ => checkEqTerm x (cup "near") | _ => false end.
Definition isRule (m : pmem) (k : Z) (a : nat) : bool :=
  checkEqTerm (s_term (rd (cells m) a)) (ruleTerm lift) && match s_stamp (rd (cells m) a) with [x] => x =? 7 | _ => false end && match s_evi (rd (cells m) a) with Some (CNT p c) => (p =? 10) && (c =? 10 + k) | _ => false end.
Lemma room_rules : forall k, forallb (fun a => negb (startsFrom (known k) a) || isRule (known k) k a) (pBeliefs (known k) [cup "near"]) = true ->
  forall a, relevant (roomK k) (cup "near") a -> tried (roomK k) (cup "near") grasp (cup "held") a 10 (10 + k).
Proof.
  intros k F a (I & rest & p & T). cbn [roomK n_mem] in *. rewrite forallb_forall in F. specialize (F a I). apply orb_prop in F. destruct F as [F|F].
  - exfalso. unfold startsFrom in F. rewrite T, checkEqTerm_refl in F. cbn [negb] in F. discriminate F.
  - apply andb_prop in F. destruct F as (F & E). apply andb_prop in F. destruct F as (F & St). apply checkEqTerm_eq in F. split; [exact F|]. cbn [roomK n_mem]. split.
    + destruct (s_stamp (rd (cells (known k)) a)) as [|x [|y l]]; [discriminate St| |discriminate St]. apply Z.eqb_eq in St. subst x. intros [X|[]]; discriminate X.
    + destruct (s_evi (rd (cells (known k)) a)) as [[q c|v]|]; [|discriminate E|discriminate E]. apply andb_prop in E. destruct E as (E1 & E2). apply Z.eqb_eq in E1, E2. rewrite E1, E2. reflexivity.
Qed.
Lemma room_wish : forall en, stored wished en -> en = mkEntry wish1 None 0 0 f1 f1 f0.
Proof. intros en H. apply stored_iff in H. revert H. change (retEntries wished) with (retEntries (match addEntry (makeGoalSystem 20 8) 0 wish1 None 0 with Ok g => g | Panic => makeGoalSystem 20 8 end)). vm_compute. intros [H|[]]. now rewrite H. Qed.
Lemma room_wants : forall k, wants (roomK k) (cup "held") defaultTv.
Proof.
  intros k. split; [|split; [|split]].
  - exists (mkEntry wish1 None 0 0 f1 f1 f0). split; [|reflexivity]. apply stored_iff. vm_compute. now left.
  - intros en S _. apply room_wish in S. now subst en.
  - intros en l S. apply room_wish in S. subst en. discriminate.
  - intros en y I. change (g_active (n_goals (roomK k))) with (g_active wished) in I. vm_compute in I. destruct I.
Qed.
Lemma room_step : forall k r n' a0, forallb (fun a => negb (startsFrom (known k) a) || isRule (known k) k a) (pBeliefs (known k) [cup "near"]) = true ->
  relevant (roomK k) (cup "near") a0 -> 0 <= k < 2 ^ 19 -> narStep1 (roomK k) true r = Ok n' ->
  n_trace n' = if k <=? 5 then [mkEvent (cup "near") 0 0; mkEvent grasp 0 0] else [mkEvent (cup "near") 0 0].
Proof.
  intros k r n' a0 F R0 K H. destruct grasp_deed as (_ & args & name & o & OC & FN & PL & _).
  assert (GR : gReach wished). { eapply gr_add; [apply gr_make|]. instantiate (1 := 0). instantiate (1 := None). instantiate (1 := wish1). instantiate (1 := 0). instantiate (1 := 8). instantiate (1 := 20). vm_compute. reflexivity. }
  destruct (c106_typed (roomK k) r n' [] (mkEvent (cup "near") 0 0) (cup "near") grasp (cup "held") args name o H GR eq_refl eq_refl OC FN PL eq_refl eq_refl (ex_intro _ a0 R0) (room_wants k)) as (T1 & T2).
  - intros en S. apply room_wish in S. subst en. discriminate.
  - destruct (Z.leb_spec k 5) as [L|L]; [rewrite T1 by (intros a Ra; exists k; split; [lia|now apply room_rules])|rewrite T2 by (intros a Ra; exists k; split; [lia|now apply room_rules])]; reflexivity.
Qed.
Definition in1 : step1In := mkIn 9 [] 1 (fun _ => f1) [(f0, f0, draw0); (f1, f0, draw0)].
(** After five failures it is tried again. *)
Example c106_ex_five : exists n', narStep1 (roomK 5) true in1 = Ok n' /\ n_trace n' = [mkEvent (cup "near") 0 0; mkEvent grasp 0 0].
Proof.
  destruct (comesOut _ (narStep1 (roomK 5) true in1) (fun _ => true)) as (n' & R & _); [vm_compute; reflexivity|]. exists n'. split; [exact R|].
  refine (room_step 5 in1 n' (hd 0%nat (pBeliefs (known 5) [cup "near"])) _ _ _ R); [vm_compute; reflexivity| |lia].
  split; [vm_compute; now left|]. exists [grasp], (cup "held"). vm_compute. reflexivity.
Qed.
(** After six it is not. *)
Example c106_ex_six : exists n', narStep1 (roomK 6) true in1 = Ok n' /\ n_trace n' = [mkEvent (cup "near") 0 0].
Proof.
  destruct (comesOut _ (narStep1 (roomK 6) true in1) (fun _ => true)) as (n' & R & _); [vm_compute; reflexivity|]. exists n'. split; [exact R|].
  refine (room_step 6 in1 n' (hd 0%nat (pBeliefs (known 6) [cup "near"])) _ _ _ R); [vm_compute; reflexivity| |lia].
  split; [vm_compute; now left|]. exists [grasp], (cup "held"). vm_compute. reflexivity.
Qed.
Definition course k := instruct [(liftLine, drawA)] (tx "<{cup} --> [held]>! :|:") near drawA drawA drawA drawA ++
  concat (repeat [TLine near drawA; TLine (tx "!sp") drawA; TLine (tx "!sp") drawA; TLine (tx "!sp") drawA] k) ++ [TLine near drawA; TLine (tx "!sp") drawA; TLine (tx "!sp") drawA].
(** The operation just carried out for the belief [a], which came true [p] times out of [c]. *)
Definition justTried (n : nar) (p c : Z) : Prop :=
  exists a t, In (a, t) (n_ant (nr_proc n)) /\ s_evi (rd (cells (n_mem (nr_proc n))) a) = Some (CNT p c).
(** Wishes derived earlier keep the strength they had: in this session the rule is tried
    even after seven failures, although the wish does not reach it any more. *)
Definition seven (x : nar * bool) : bool :=
  match n_ant (nr_proc (fst x)) with
  | [(a, _)] => match s_evi (rd (cells (n_mem (nr_proc (fst x)))) a) with Some (CNT p c) => (p =? 10) && (c =? 17) | _ => false end
  | _ => false
  end.
Lemma seven_tried : forall x, seven x = true -> justTried (fst x) 10 17.
Proof.
  intros x E. unfold seven in E. destruct (n_ant (nr_proc (fst x))) as [|[a t] [|? ?]] eqn:EA; try discriminate. destruct (s_evi (rd (cells (n_mem (nr_proc (fst x)))) a)) as [[p c|v]|] eqn:Ev; try discriminate.
  apply andb_prop in E. destruct E as (E1 & E2). apply Z.eqb_eq in E1, E2. subst p c. exists a, t. rewrite EA. split; [now left|exact Ev].
Qed.
Theorem c106_stale_refuted : ~ forall log n0 ops turns n q p c, Nar_Spec.session log n0 -> nr_proc n0 = narInit ops -> takeTurns pf1 turns n0 = Ok (n, q) ->
  justTried n p c -> 45 * p * (2 * p - c) >= 8 * c * (c + 1).
Proof.
  intros H. destruct (comesOut _ (takeTurns pf1 (course 3) room1) seven) as ([n q] & R & E); [vm_compute; reflexivity|].
  pose proof (H [] room1 ops1 (course 3) n q 10 17 (fresh ops1 0) eq_refl R (seven_tried _ E)) as L. clear - L. lia.
Qed.

Print Assumptions c106_expectation. Print Assumptions c106_strong. Print Assumptions c106_wished. Print Assumptions c106_followed. Print Assumptions c106_given_up. Print Assumptions c106_typed. Print Assumptions c106_stale_refuted.
