(** Properties C80-C83: the benchmark, the programs of main.rs, chaos, the
    perception limit. *)
From Coq Require Import String Ascii ZArith Bool Lia Lra Reals Sorted List.
From Verif Require Import Base F64_Model Term_Model Term_Spec Stamp_Model Tv_Model Sentence_Model Mem_Model Mem_Spec Props_Mem Cycle_Model Cycle_Spec Cycle_Proofs PMem_Model Goal_Model Proc_Model Proc_Spec ProcB_Proofs ProcC_Proofs
  Parser_Model Ad_Model Nar_Model Nar_Spec Nar2_Proofs Sched_Model Sched_Spec Sched_Proofs Props_Sched Props_Proc Eval_Model Eval_Proofs Eval2_Proofs.
Import ListNotations.
Local Open Scope string_scope.
Local Open Scope list_scope.
Local Open Scope nat_scope.

(** ** C80 *)
(** If the evaluation returns a cycle, an answer was reported since it began, the
    reasoner did exactly that many cycles and one more, and the check after
    every earlier cycle saw no answer. *)
Theorem c80_found : forall maxC n st e i, nth_error (y_clients st) 0 = Some CIdle -> esteps maxC n (evalStart st) e -> es_pc e = EDone (Some i) ->
  i < 180 /\ (exists a l, y_log (es_sys e) = y_log st ++ a :: l) /\ cycleCtr (y_sh (es_sys e)) = (cycleCtr (y_sh st) + Z.of_nat i + 1)%Z /\
  forall j, j < i -> exists e', esteps maxC n (evalStart st) e' /\ esteps maxC n e' e /\ es_pc e' = EIn j /\ nth_error (y_clients (es_sys e')) 0 = Some CIdle /\
    cycleCtr (y_sh (es_sys e')) = (cycleCtr (y_sh st) + Z.of_nat j + 1)%Z /\ y_log (es_sys e') = y_log st.
Proof.
  intros maxC n st e i Id H P. apply run_inv in H; auto. destruct H as (_ & (l & L) & H). rewrite P in H. destruct H as (A & B & C & D). split; auto. split; [|split; auto].
  rewrite L, app_length in D. destruct l as [|a l]; [cbn in D; lia|eauto].
Qed.
(** If it returns none, the reasoner did 180 cycles and no check saw an answer. *)
Theorem c80_none : forall maxC n st e, nth_error (y_clients st) 0 = Some CIdle -> esteps maxC n (evalStart st) e -> es_pc e = EDone None ->
  cycleCtr (y_sh (es_sys e)) = (cycleCtr (y_sh st) + 180)%Z /\
  exists e', esteps maxC n (evalStart st) e' /\ esteps maxC n e' e /\ es_pc e' = EIn 179 /\ nth_error (y_clients (es_sys e')) 0 = Some CIdle /\
    cycleCtr (y_sh (es_sys e')) = (cycleCtr (y_sh st) + 180)%Z /\ y_log (es_sys e') = y_log st.
Proof.
  intros maxC n st e Id H P. apply run_inv in H; auto. destruct H as (_ & _ & H). rewrite P in H. destruct H as (A & B). split; auto.
  destruct (B 179) as (e' & X1 & X2 & X3 & X4 & X5 & X6); [unfold maxCycles; lia|]. exists e'. repeat (split; auto). rewrite X5. lia.
Qed.
(** It always ends, whatever the schedule, and until then somebody can move
    unless a thread has panicked. *)
Theorem c80_ends : forall maxC n, well_founded (fun e' e => estep maxC n e e').
Proof. exact eval_ends. Qed.
Theorem c80_moves : forall maxC n st e, nth_error (y_clients st) 0 = Some CIdle -> esteps maxC n (evalStart st) e ->
  (exists r, es_pc e = EDone r) \/ (exists e', estep maxC n e e') \/ exec maxC n (ChClient 0) (es_sys e) = Panic \/ exec maxC n ChWorker (es_sys e) = Panic.
Proof. exact eval_moves. Qed.
(** The answers counted follow from what was put in. *)
Theorem c80_sound : forall Inp maxC nB wN k st e, (1 <= wN <= nB)%nat -> reach (choiceOk Inp nB) maxC wN k st -> esteps maxC wN (evalStart st) e ->
  forall q s l, y_log (es_sys e) = y_log st ++ (q, s) :: l -> Unify_Spec.instanceOf (s_term s) q /\ s_punct s = JUGEMENT /\ (isTemporal q = false -> derivable Inp s).
Proof.
  intros Inp maxC nB wN k st e HW R H q s l L. pose proof (eval_reach _ _ _ _ _ _ _ R H) as R'. apply (c49_answers _ _ _ _ _ _ HW R'). rewrite L. apply in_elt.
Qed.
(** two premises, one question *)
Definition qAB : task2 := mkTask2 (mkSentence (mStmt "a" "b") None QUESTION [9%Z] None None 0) false f0 f1.
Definition evIn : list choice := sAdd 0 jAX 9 ++ sAdd 0 jXB 9 ++ [ChStart 0 (OpAsk qAB)].
Definition evSt (cs : list choice) : sys := match execAll 50 10 cs (sysMake 1) with Ok (Some st) => st | _ => sysMake 1 end.
Definition evDone (st : sys) : esys := mainRun 50 10 sCyc 5000 (evalStart st).
(** the question of one of the premises is answered at once *)
Definition qAX : task2 := mkTask2 (mkSentence (mStmt "a" "x") None QUESTION [9%Z] None None 0) false f0 f1.
Example c80_ex : es_pc (evDone (evSt (sAdd 0 jAX 9 ++ [ChStart 0 (OpAsk qAX)]))) = EDone (Some 0) /\ map fst (y_log (es_sys (evDone (evSt (sAdd 0 jAX 9 ++ [ChStart 0 (OpAsk qAX)]))))) = [mStmt "a" "x"].
Proof. vm_compute. split; reflexivity. Qed.
(** Finding: an answer that was given while the file was read is not counted: the
    question is answered and the evaluation still says it is not. *)
Theorem c80_early_refuted : exists st e, reach (choiceOk inp3 10) 50 10 1 st /\ In (mStmt "a" "x", jAX) (y_log st) /\
  esteps 50 10 (evalStart st) e /\ es_pc e = EDone None.
Proof.
  destruct (sRun (sAdd 0 jAX 9 ++ ChStart 0 (OpAsk qAX) :: ChStart 0 (OpCycle sCyc) :: repeat (ChClient 0) 18) 1
    (fun st => map fst (y_log st) = [mStmt "a" "x"] /\ map snd (y_log st) = [jAX] /\ es_pc (evDone st) = EDone None)) as (st & R & A & B & C).
  - inps.
  - vm_compute. auto.
  - exists st, (evDone st). split; auto. split; [|split; [apply mainRun_steps|exact C]].
    destruct (y_log st) as [|[q s] [|]]; try discriminate. cbn in A, B. injection A as ->. injection B as ->. now left.
Qed.
(** Finding: the evaluation does not wait for the worker; an answer that is
    derived from the last messages comes too late. *)
Theorem c80_late_refuted : exists st e e', reach (choiceOk inp3 10) 50 10 1 st /\ y_log st = [] /\
  esteps 50 10 (evalStart st) e /\ es_pc e = EDone None /\ esteps 50 10 e e' /\ map fst (y_log (es_sys e')) = [mStmt "a" "b"].
Proof.
  destruct (sRun evIn 1 (fun st => y_log st = [] /\ es_pc (evDone st) = EDone None /\
    match execAll 50 10 (repeat ChWorker 5) (es_sys (evDone st)) with Ok (Some st') => map fst (y_log st') = [mStmt "a" "b"] | _ => False end)) as (st & R & A & B & C).
  - inps.
  - vm_compute. auto.
  - destruct (execAll 50 10 (repeat ChWorker 5) (es_sys (evDone st))) as [[st'|]|] eqn:E; try contradiction.
    exists st, (evDone st), (mkEsys st' (es_from (evDone st)) (es_pc (evDone st))). split; auto. split; auto. split; [apply mainRun_steps|]. split; auto. split; auto.
    replace (evDone st) with (mkEsys (es_sys (evDone st)) (es_from (evDone st)) (es_pc (evDone st))) at 1 by (destruct (evDone st); reflexivity). eapply workers_steps; eauto.
Qed.

(** ** C81 *)
Local Open Scope R_scope.
(** The score is the sum of exp(-cycles/500) over all answered evaluations,
    divided by the number of runs. *)
Theorem c81_score : forall runs, scoreR runs = total (concat runs) / INR (length runs).
Proof. exact score_total. Qed.
(** With k files per run it is between 0 and k, and k exactly if every question
    was answered in the first cycle of every run. *)
Theorem c81_bounds : forall k runs, runs <> [] -> Forall (fun f => length f = k) runs -> Forall sane (concat runs) ->
  0 <= scoreR runs <= INR k /\ (scoreR runs = INR k <-> Forall (fun r => r = Some 0%Z) (concat runs)).
Proof. exact score_bounds. Qed.
(** Answering more, or sooner, never lowers it. *)
Theorem c81_sooner : forall runs runs', Forall2 (Forall2 noBetter) runs runs' -> scoreR runs <= scoreR runs'.
Proof. exact score_mono. Qed.
(** The ratio of unanswered evaluations. *)
Theorem c81_ratio : forall runs, concat runs <> [] ->
  0 <= ratioR runs <= 1 /\ (ratioR runs = 0 <-> ~ In None (concat runs)) /\ (ratioR runs = 1 <-> Forall (fun r => r = None) (concat runs)).
Proof. exact ratio_spec. Qed.
Example c81_ex : scoreR [[Some 0%Z; None]; [Some 0%Z; Some 500%Z]] = (2 + exp (-1)) / 2 /\ ratioR [[Some 0%Z; None]; [Some 0%Z; Some 500%Z]] = 1 / 4.
Proof.
  split.
  - rewrite c81_score. cbn [concat app total gain length INR]. replace (- (0 / 500)) with 0 by lra. replace (- (500 / 500)) with (-1) by lra. rewrite exp_0. lra.
  - unfold ratioR, unansweredOf. cbn. lra.
Qed.
(** Finding: in doubles, no run at all, or no file, gives not-a-number. *)
Theorem c81_no_runs_refuted : forall expf c002 cneg1, let score := scoreOf f64_arith expf f_of_Z c002 cneg1 in let ratio := unansweredOf f64_arith f_of_Z in
  score [] = SpecFloat.S754_nan /\ ratio [] = SpecFloat.S754_nan /\ forall runs, Forall (fun f => f = []) runs -> ratio runs = SpecFloat.S754_nan.
Proof.
  intros. split; [reflexivity|]. split; [reflexivity|]. intros runs H. assert (E : concat runs = []) by (induction H as [|f l -> _ IH]; cbn; auto).
  unfold ratio, unansweredOf. rewrite E. reflexivity.
Qed.

(** ** C82 *)
Local Open Scope nat_scope.
(** "it": the lines of the files are fed in order up to the first quit command,
    which ends the program; otherwise the user takes over where the files ended. *)
Theorem c82_it : forall pf files lines n q, mainIt pf files lines = Ok (n, q) ->
  (exists pre e rest, concat files = pre ++ e :: rest /\ Forall (fun e => ~ quits e) pre /\ quits e /\ fed pf (pre ++ [e]) createNar n /\ q = true) \/
  (Forall (fun e => ~ quits e) (concat files) /\ exists m, fed pf (concat files) createNar m /\ runInteractive pf m [] lines = Ok (n, q)).
Proof. exact mainIt_spec. Qed.
(** Finding: the chaos environment, which is to check that the memory management
    works, panics in its second round, whatever is drawn and whatever the storage
    worker does: it passes no declarative memory, which the planner of that round
    needs. *)
Lemma chaos_time : forall pf nameOf w t r n n', chaosRound pf nameOf w t r n = Ok n' -> n_t (nr_proc n') = (n_t (nr_proc n) + 1)%Z.
Proof.
  intros pf nameOf w t r n n' H. unfold chaosRound in H.
  destruct (if Z.rem t 10 =? 0 then _ else _)%Z as [n0|] eqn:E0 in H; [|discriminate]. cbn [rbind] in H.
  assert (T0 : n_t (nr_proc n0) = n_t (nr_proc n)).
  { destruct (Z.rem t 10 =? 0)%Z; [|now injection E0 as <-]. destruct (inputN pf n _ (ch_draws r)) as [[m b]|] eqn:I; [|discriminate]. cbn [rbind] in E0. injection E0 as <-. eapply inputN_time; eauto. }
  unfold procStep0 in H. destruct (narStep0 (nr_proc n0) (ch_smp r)) as [[p ms]|] eqn:E1; [|discriminate]. cbn [rbind] in H.
  destruct (step0_spec _ _ _ _ E1) as (? & ? & _ & _ & _ & _ & _ & _ & _ & T1 & _). cbn [nr_proc withPq withProc] in H.
  match type of H with rbind (narStep1 ?m _ _) _ = _ => destruct (narStep1 m false (ch_step r)) as [p2|] eqn:E2; [|discriminate]; destruct (step1_spec _ _ _ _ E2) as (T2 & _) end.
  cbn [rbind] in H. injection H as <-. cbn [nr_proc withProc]. rewrite T2. cbn. rewrite T1. now rewrite T0.
Qed.
Lemma chaos_two : forall pf nameOf worker rs k, chaosLoop pf nameOf worker rs (S (S k)) 0%Z chaosNar = Panic.
Proof.
  intros. cbn [chaosLoop]. destruct (chaosRound pf nameOf (worker 0%Z) 0 (rs 0%Z) chaosNar) as [n1|] eqn:E; [|reflexivity]. cbn [rbind].
  change (0 >=? 1100)%Z with false. cbn [chaosLoop]. apply chaos_time in E. change (n_t (nr_proc chaosNar)) with 0%Z in E.
  destruct (chaosRound pf nameOf (worker (0 + 1)%Z) (0 + 1) (rs (0 + 1)%Z) n1) as [n2|] eqn:E2; [|reflexivity]. exfalso.
  unfold chaosRound in E2. change (Z.rem (0 + 1) 10 =? 0)%Z with false in E2. cbn [rbind] in E2.
  unfold procStep0 in E2. destruct (narStep0 (nr_proc n1) (ch_smp (rs (0 + 1)%Z))) as [[p ms]|] eqn:E1; [|discriminate]. cbn [rbind nr_proc withPq withProc] in E2.
  destruct (step0_spec _ _ _ _ E1) as (? & ? & _ & _ & _ & _ & _ & _ & _ & T1 & _).
  rewrite c66_no_decl_refuted in E2; [discriminate|]. cbn. rewrite T1, E. reflexivity.
Qed.
Theorem c82_chaos_refuted : forall pf nameOf worker rs, chaos pf nameOf worker rs = Panic.
Proof. intros. exact (chaos_two pf nameOf worker rs 1099). Qed.
(** the first round goes well *)
Example c82_ex : match chaosRound (fun _ => None) (fun _ => "0"%string) (fun m => m) 0 (mkChaosRnd [] (fun _ => mkSmp false [] 0 false 0) (mkIn 0 [] 0 (fun _ => f1) [])) chaosNar with
  | Ok n => n_t (nr_proc n) = 1%Z /\ map ev_name (n_trace (nr_proc n)) = [Name "0"; callOf "^L"] | Panic => False end.
Proof. vm_compute. auto. Qed.

(** ** C83 *)
(** What is kept is the beginning of the list, all of it if it is short enough. *)
Theorem c83_limit : forall T (arr : list (perceptItem T)) maxLen, exists dropped, arr = limitPercepts arr maxLen ++ dropped /\
  length (limitPercepts arr maxLen) = Nat.min maxLen (length arr).
Proof.
  intros T arr maxLen. unfold limitPercepts. destruct (Nat.ltb_spec maxLen (length arr)) as [L|L].
  - exists (skipn maxLen arr). rewrite firstn_skipn, firstn_length. auto.
  - exists []. rewrite app_nil_r. split; auto. lia.
Qed.
(** If the list was sorted, nothing dropped is above anything kept. *)
Lemma sorted_app : forall A (R : A -> A -> Prop) l d, StronglySorted R (l ++ d) -> forall a b, In a l -> In b d -> R a b.
Proof.
  intros A R l d S a b. revert S. induction l as [|x l IH]; intros S HA HB; [contradiction|]. cbn [app] in S. inversion S as [|? ? S' F]; subst.
  destruct HA as [->|HA]; [|auto]. rewrite Forall_forall in F. apply F, in_or_app. auto.
Qed.
Theorem c83_best : forall T (above : perceptItem T -> perceptItem T -> Prop) arr maxLen, StronglySorted above arr ->
  exists dropped, arr = limitPercepts arr maxLen ++ dropped /\ forall a b, In a (limitPercepts arr maxLen) -> In b dropped -> above a b.
Proof.
  intros T above arr maxLen S. destruct (c83_limit T arr maxLen) as (d & E & _). exists d. split; [exact E|]. apply sorted_app. now rewrite <- E.
Qed.
(** Finding: it does not look at the values, so the most salient item may go. *)
Theorem c83_salient_refuted : exists (arr : list (perceptItem nat)) a b, limitPercepts arr 1 = [a] /\ In b arr /\ fltb (pi_salience a) (pi_salience b) = true.
Proof. exists [mkPercept 1 f05 f0; mkPercept 2 f1 f0], (mkPercept 1 f05 f0), (mkPercept 2 f1 f0). split; [reflexivity|]. split; [cbn; auto|reflexivity]. Qed.
Example c83_ex : limitPercepts [mkPercept 1 f1 f0; mkPercept 2 f05 f0; mkPercept 3 f0 f0] 2 = [mkPercept 1 f1 f0; mkPercept 2 f05 f0].
Proof. reflexivity. Qed.

Print Assumptions c80_found. Print Assumptions c80_none. Print Assumptions c80_ends. Print Assumptions c80_moves. Print Assumptions c80_sound.
Print Assumptions c80_early_refuted. Print Assumptions c80_late_refuted. Print Assumptions c81_score. Print Assumptions c81_bounds. Print Assumptions c81_sooner.
Print Assumptions c81_ratio. Print Assumptions c81_no_runs_refuted. Print Assumptions c82_it. Print Assumptions c82_chaos_refuted. Print Assumptions c83_limit.
Print Assumptions c83_best. Print Assumptions c83_salient_refuted.
