(** The lesson, line by line. *)
From Coq Require Import String Ascii ZArith Bool Lia List.
From Verif Require Import Base F64_Model Term_Model Term_Spec Term_Proofs Stamp_Model Tv_Model Sentence_Model Mem_Model Mem_Spec Mem_Proofs PMem_Model PMem_Proofs
  Cycle_Model Goal_Model Goal_Spec Goal_Proofs Goal2_Proofs Goal3_Proofs Goal4_Proofs Proc_Model Proc_Spec ProcA_Proofs ProcB_Proofs ProcV_Proofs Parser_Model Nar_Model Nar_Spec Nar_Proofs Nar2_Proofs Serial_Spec Teach_Spec Teach_Proofs.
Import ListNotations.
Local Open Scope string_scope.
Local Open Scope list_scope.
Local Open Scope Z_scope.

(** * Steps of a reasoner that knows and wants nothing *)
Definition calmCfg : pcfg := mkPcfg 2 (f_frac 58 100) 1 4 false true 1000 100.
Definition empty (tb : list Z) (ops : list op) (t : Z) (tr : list event) : pnar := mkPnar calmCfg ops tb t tr [] pmemMake (makeGoalSystem 20 8).
Lemma no_beliefs : forall t, query_by_antecedent t pmemMake = Ok [].
Proof.
  intros t. unfold query_by_antecedent. assert (E : pBeliefs pmemMake [term_clone t] = []).
  { unfold pBeliefs. cbn [flat_map]. rewrite app_nil_r. induction (retSubterms (term_clone t)) as [|x l IH]; [reflexivity|]. cbn [flat_map]. rewrite IH. reflexivity. }
  rewrite E. reflexivity.
Qed.
Lemma sample_empty : forall a b, sample (makeGoalSystem 20 8) a b = Ok None.
Proof.
  intros a b. unfold sample. cbn [makeGoalSystem g_batches idx nth_error unwrap rbind]. change (repeat (@nil group) (Z.to_nat 8)) with [@nil group; []; []; []; []; []; []; []]. cbn [idx nth_error unwrap rbind].
  set (sp := fmul a _). assert (K : forall l, Forall (fun x => x = []) l -> forall s, fold_left (selBatchStep sp) l (s, []) = (s, [])).
  { induction l as [|x l IH]; intros F s; [reflexivity|]. inversion F; subst. cbn [fold_left selBatchStep]. destruct (fgeb s sp); apply IH; assumption. }
  rewrite K; [reflexivity|]. repeat constructor.
Qed.
Lemma step1_empty : forall tb ops t tr r p, (length tr <= 20)%nat -> narStep1 (empty tb ops t tr) true r = Ok p -> p = empty tb ops (t + 1) tr.
Proof.
  intros tb ops t tr r p L H. unfold narStep1 in H.
  rewrite noSeq_best in H; [|intros en l0 Hin; destruct Hin]. cbn [rbind] in H.
  assert (P : planForward (empty tb ops t tr) (i_u r) (i_plan r) None = Ok None).
  { unfold planForward. destruct (recent _ 0) as [e|]; [|reflexivity]. cbn [plan empty n_mem]. rewrite no_beliefs. reflexivity. }
  rewrite P in H. cbn [rbind decide] in H. change (execGoal (empty tb ops t tr)) with (Ok (empty tb ops t tr, @None term)) in H. cbn [rbind] in H.
  change (babble (empty tb ops t tr) (i_babble r) None) with (Ok (@None term)) in H. cbn [rbind execAction] in H.
  assert (Tl : traceLimit tr = tr) by (unfold traceLimit; destruct (Nat.ltb_spec 20 (length tr)); [lia|reflexivity]).
  assert (S4 : setTrace (empty tb ops t tr) (traceLimit (n_trace (empty tb ops t tr))) = empty tb ops t tr) by (cbn [empty n_trace]; rewrite Tl; reflexivity).
  cbv zeta in H. rewrite S4 in H.
  match type of H with rbind ?x _ = _ => assert (E5 : x = Ok (empty tb ops t tr)) by (cbn [empty n_t]; destruct (Z.rem t 101 =? 1); reflexivity); rewrite E5 in H; clear E5 end. cbn [rbind] in H.
  match type of H with rbind ?x _ = _ => assert (E6 : x = Ok (empty tb ops t tr)) by (cbn [empty n_t]; destruct (Z.rem t 13 =? 1); reflexivity); rewrite E6 in H; clear E6 end. cbn [rbind] in H.
  match type of H with rbind (rfold ?f ?l _) _ = _ => assert (E7 : rfold f l (makeGoalSystem 20 8) = Ok (makeGoalSystem 20 8)) end.
  { clear H. induction (i_derive r) as [|d l IH]; [reflexivity|]. cbn [rfold enforce rbind]. unfold sampleAndInference at 1. rewrite sample_empty. cbn [rbind]. exact IH. }
  change (n_goals (empty tb ops t tr)) with (makeGoalSystem 20 8) in H. rewrite E7 in H. cbn [rbind] in H. injection H as <-. reflexivity.
Qed.
Lemma confirm_none : forall n, n_ant n = [] -> confirm n = Ok [].
Proof.
  intros n E. unfold confirm. rewrite E. induction (seq 0 (c_window (n_cfg n))) as [|i l IH]; [reflexivity|]. cbn [rfold]. destruct (recent (n_trace n) i); cbn [rfilter rbind]; exact IH.
Qed.
(** a first half step without anticipations *)
Lemma step0_plain : forall n rs, n_ant n = [] -> narStep0 n rs = (do '(g, ms) <- traceStep n rs; Ok (setGoals n g, ms)).
Proof.
  intros n rs E. unfold narStep0. rewrite confirm_none by exact E. cbn [rbind filter rfold]. destruct n as [cf op tb t tr an [ce pc] g]. cbn [n_ant] in E. subst an. reflexivity.
Qed.
Lemma step0_short : forall tb ops t tr rs, (length tr < 3)%nat -> narStep0 (empty tb ops t tr) rs = Ok (empty tb ops t tr, []).
Proof.
  intros tb ops t tr rs L. rewrite step0_plain by reflexivity. unfold traceStep. cbn [empty n_trace n_goals]. destruct (Nat.leb_spec 3 (length tr)); [lia|].
  destruct (List.rev tr); reflexivity.
Qed.

(** * What is seen *)
Section Seen.
  Variables (tb : list Z) (ops : list op) (A O C : term).
  Hypothesis TB : findMinTableIdx 1 tb = 0.
  Hypothesis HA : checkIsCallableOp ops A = false.
  Hypothesis HO : checkIsCallableOp ops O = true.
  Hypothesis HC : checkIsCallableOp ops C = false.
  Hypothesis NE : checkEqTerm A C = false.
  Variables (args : list term) (name : string) (o : op).
  Hypothesis OC : opCall O args name.
  Hypothesis FN : firstNamed ops name o.
  Hypothesis EV : op_evi o = 3.
  Definition seen3 : list event := [mkEvent A 0 0; mkEvent O 1 1; mkEvent C 2 2].
  Definition told (u : nat) : sentence := mkSentence (Stmt PREDIMPL (Seq [A; O]) C) None JUGEMENT [0; 1; 2] (Some 0) (Some (CNT 3 3)) u.
  Lemma build : try_build_implSeq ops [A; O; C] = Ok (Some (Stmt PREDIMPL (Seq [A; O]) C)).
  Proof. unfold try_build_implSeq. cbn [length Nat.ltb Nat.leb skipn firstn Nat.sub idx nth_error unwrap rbind forallb]. rewrite HA, HO, HC, NE. cbn [andb negb map]. rewrite !term_clone_id. reflexivity. Qed.
  Lemma see : forall r, r_draws r <> [] -> perceive (empty tb ops 2 seen3) r = Ok (Some (told (r_usage r))).
  Proof.
    intros r D. unfold perceive. cbn [empty n_trace n_ops n_cfg n_table].
    assert (I : calcIdxsOfOps ops seen3 = [1%nat]) by (unfold calcIdxsOfOps, seen3; cbn [length seq filter nth_error ev_name]; rewrite HA, HO, HC; reflexivity).
    rewrite I.
    assert (N1 : (if Nat.eqb (c_nOpsMax calmCfg) 1 then 1%nat else if r_multi r then Nat.min (length [1%nat]) (c_nOpsMax calmCfg) else 1%nat) = 1%nat) by (destruct (r_multi r); reflexivity).
    rewrite N1. destruct (r_draws r) as [|d ds]; [congruence|]. cbn [selOps]. change (length [1%nat]) with 1%nat. rewrite Nat.mod_1_r. cbn [nth existsb app length Nat.eqb].
    cbn [minOf fold_left Nat.ltb Nat.leb]. rewrite Nat.mod_1_r.
    change (idx seen3 (length seen3 - 1 - 1)) with (Ok (mkEvent O 1 1)). cbn [rbind].
    match goal with |- context [if r_prev r && ?x && ?y then ?u else ?w] => assert (B : (if r_prev r && x && y then u else w) = 2%nat) by (destruct (r_prev r); reflexivity) end.
    rewrite B. cbn [app]. change (sort_by Nat.ltb [0%nat; 1%nat; 2%nat]) with [0%nat; 1%nat; 2%nat].
    change (rmapM (idx seen3) [0%nat; 1%nat; 2%nat]) with (Ok seen3). cbn [rbind]. change (map ev_name seen3) with [A; O; C]. rewrite build. cbn [rbind].
    change (idx seen3 (length seen3 - 1)) with (Ok (mkEvent C 2 2)). change (idx seen3 (length seen3 - 2)) with (Ok (mkEvent O 1 1)). cbn [rbind].
    change (retImplSeqOp (Stmt PREDIMPL (Seq [A; O]) C)) with (Ok O). cbn [rbind]. rewrite (op_decode _ _ _ OC). cbn [unwrap rbind snd].
    assert (Fo : ret_op_by_name ops name = Some o) by now apply ret_op_some. rewrite Fo, EV, term_clone_id. cbn [ev_occ]. change (2 - 1) with 1. rewrite TB. reflexivity.
  Qed.
  Lemma step0_seen : forall rs, (forall i, r_draws (rs i) <> []) ->
    narStep0 (empty tb ops 2 seen3) rs = Ok (empty tb ops 2 seen3, map (fun i => (told (r_usage (rs i)), 2)) [0%nat; 1%nat; 2%nat; 3%nat]).
  Proof.
    intros rs D. rewrite step0_plain by reflexivity. unfold traceStep. change (length (n_trace (empty tb ops 2 seen3))) with 3%nat. cbn [Nat.leb].
    change (seq 0 (c_samples (n_cfg (empty tb ops 2 seen3)))) with [0%nat; 1%nat; 2%nat; 3%nat]. cbn [rmapM]. rewrite !see by apply D. reflexivity.
  Qed.
End Seen.

(** * Lines *)
Lemma turn_sp : forall pf n r, facade pf n (tx "!sp") r = (do n1 <- procStep0 n (ln_smp r); do n2 <- procStep1 n1 (ln_step r); Ok (n2, false, INone)).
Proof. intros. reflexivity. Qed.
Lemma turn_peb : forall pf n r, facade pf n (tx "!peb 0") r = Ok (withProc n (setBabble (nr_proc n) false), false, INone).
Proof. intros. reflexivity. Qed.
Lemma turn_says : forall pf n line t p r x, says pf line t p -> facade pf n line r = Ok x -> snd (fst x) = false /\ inputT2 n t p defaultTv true (ln_draws r 0) = Ok (fst (fst x)).
Proof.
  intros pf n line t p r x (c & i & Tr & N1 & N2 & As & Pa) H.
  assert (S : forall k, ~ splits (c :: i) k).
  { intros k (d & E & Cb). apply nth_error_In in E. unfold asciiText in As. rewrite Forall_forall in As. apply As in E. unfold contByte in Cb. lia. }
  rewrite (facade_narsese pf n line r c i) in H; auto. unfold inputN in H. rewrite Pa in H. cbn [rbind] in H. destruct (inputT2 _ _ _ _ _ _) as [n'|] eqn:I; [|discriminate H]. cbn [rbind fst] in H. injection H as <-. split; reflexivity || exact I.
Qed.
(** what the procedural half does in a turn *)
Definition at_ (n : nar) (p : pnar) (q : list msg) : Prop := nr_proc n = p /\ nr_pq n = q.
Lemma then_event : forall pf line t r ts n x p q, says pf line t JUGEMENT -> at_ n p q -> takeTurns pf (TLine line r :: ts) n = Ok x ->
  exists n', takeTurns pf ts n' = Ok x /\ at_ n' (setTrace p (n_trace p ++ [mkEvent t (n_t p) (n_t p)])) q.
Proof.
  intros pf line t r ts n x p q S (E1 & E2) H. cbn [takeTurns takeTurn] in H. destruct (facade pf n line r) as [y|] eqn:F; [|discriminate H]. cbn [rbind fst snd] in H.
  apply (turn_says _ _ _ _ _ _ _ S) in F. destruct F as (Q & F). rewrite Q in H. apply input_cases in F. exists (fst (fst y)). split; [exact H|]. rewrite F. split; cbn; [now rewrite E1|exact E2].
Qed.
Lemma then_goal : forall pf line t r ts n x p q, says pf line t GOAL -> at_ n p q -> takeTurns pf (TLine line r :: ts) n = Ok x ->
  exists n' g id u, takeTurns pf ts n' = Ok x /\ addEntry (n_goals p) (n_t p) (newEternalSentenceByTv t GOAL defaultTv [id] u) None 0 = Ok g /\ at_ n' (setGoals p g) q.
Proof.
  intros pf line t r ts n x p q S (E1 & E2) H. cbn [takeTurns takeTurn] in H. destruct (facade pf n line r) as [y|] eqn:F; [|discriminate H]. cbn [rbind fst snd] in H.
  apply (turn_says _ _ _ _ _ _ _ S) in F. destruct F as (Q & F). rewrite Q in H. apply input_cases in F. destruct F as (g & G & F). exists (fst (fst y)), g, (stampCtr (nr_decl n)), (nextU (nr_decl n)).
  split; [exact H|]. rewrite E1 in G. split; [exact G|]. rewrite F. split; cbn; [now rewrite E1|exact E2].
Qed.
Lemma then_step : forall pf r ts n x p q, at_ n p q -> takeTurns pf (TLine (tx "!sp") r :: ts) n = Ok x ->
  exists n' p1 ms p2, takeTurns pf ts n' = Ok x /\ narStep0 p (ln_smp r) = Ok (p1, ms) /\ narStep1 p1 true (ln_step r) = Ok p2 /\ at_ n' p2 (q ++ ms).
Proof.
  intros pf r ts n x p q (E1 & E2) H. cbn [takeTurns takeTurn] in H. rewrite turn_sp in H. unfold procStep0 in H. rewrite E1 in H. destruct (narStep0 p (ln_smp r)) as [[p1 ms]|] eqn:S0; [|discriminate H]. cbn [rbind] in H.
  unfold procStep1 in H. cbn [nr_proc withPq withProc nr_decl] in H. destruct (nlpOf p1 (ln_step r)) as [calls|]; [|discriminate H]. cbn [rbind] in H. destruct (rfold _ calls _) as [d|]; [|discriminate H]. cbn [rbind] in H.
  destruct (narStep1 p1 true (ln_step r)) as [p2|] eqn:S1; [|discriminate H]. cbn [rbind fst snd] in H. eexists _, p1, ms, p2. split; [exact H|]. split; [first [exact S0|reflexivity]|]. split; [exact S1|]. split; cbn; [reflexivity|now rewrite E2].
Qed.

Lemma then_calm : forall pf r ts n x p q, at_ n p q -> takeTurns pf (TLine (tx "!peb 0") r :: ts) n = Ok x ->
  exists n', takeTurns pf ts n' = Ok x /\ at_ n' (setBabble p false) q.
Proof.
  intros pf r ts n x p q (E1 & E2) H. cbn [takeTurns takeTurn] in H. rewrite turn_peb in H. cbn [rbind fst snd] in H. eexists. split; [exact H|]. split; cbn; [now rewrite E1|exact E2].
Qed.

Lemma next : forall pf t ts b n x p q, mixed pf (t :: ts) b -> at_ n p q -> takeTurns pf b n = Ok x ->
  exists b' n', mixed pf ts b' /\ at_ n' p q /\ takeTurns pf (t :: b') n' = Ok x.
Proof.
  intros pf t ts b n x p q M. remember (t :: ts) as l eqn:E. revert n. induction M as [|t0 a b M IH|t0 a b As M IH]; intros n At H; [discriminate E| |].
  - injection E as -> ->. exists b, n. auto.
  - cbn [takeTurns] in H. destruct (takeTurn pf t0 n) as [[n1 q1]|] eqn:T0; [|discriminate H]. cbn [rbind fst snd] in H. apply As in T0. destruct T0 as (-> & T1 & T2). apply (IH E n1); [|exact H]. destruct At as (A1 & A2). split; congruence.
Qed.
Lemma last_ : forall pf b n x p q, mixed pf [] b -> at_ n p q -> takeTurns pf b n = Ok x -> at_ (fst x) p q.
Proof.
  intros pf b n x p q M. remember (@nil turn) as l eqn:E. revert n. induction M as [|t0 a b M IH|t0 a b As M IH]; intros n At H; [|discriminate E|].
  - injection H as <-. exact At.
  - cbn [takeTurns] in H. destruct (takeTurn pf t0 n) as [[n1 q1]|] eqn:T0; [|discriminate H]. cbn [rbind fst snd] in H. apply As in T0. destruct T0 as (-> & T1 & T2). apply (IH E n1); [|exact H]. destruct At as (A1 & A2). split; congruence.
Qed.

Ltac onward Mx At H := let M := fresh in let A := fresh in let K := fresh in let b := fresh "b_" in let n := fresh "m_" in
  destruct (next _ _ _ _ _ _ _ _ Mx At H) as (b & n & M & A & K); clear Mx H At; rename M into Mx, A into At, K into H.

(** * The lesson *)
Section Lesson.
  Variables (pf : text -> option f64) (tb : list Z) (ops : list op) (A O C : term) (la lo lc lg : text).
  Hypothesis TB : findMinTableIdx 1 tb = 0.
  Hypothesis SA : situation A.
  Hypothesis SC : situation C.
  Hypothesis DO : deed ops O.
  Hypothesis NE : A <> C.
  Hypothesis LA : says pf la A JUGEMENT.
  Hypothesis LO : says pf lo O JUGEMENT.
  Hypothesis LC : says pf lc C JUGEMENT.
  Hypothesis LG : says pf lg C GOAL.
  Let T := Stmt PREDIMPL (Seq [A; O]) C.
  Lemma gT : ground T.
  Proof.
    destruct SA as (GA & _). destruct SC as (GC & _). destruct DO as (GO & _). unfold T. intros x Ox. apply occurs_inv in Ox. destruct Ox as [->|(y & Cy & Ox)]; [now intros []|].
    inversion Cy; subst; [|now apply GC]. apply occurs_inv in Ox. destruct Ox as [->|(z & Cz & Ox)]; [now intros []|]. inversion Cz as [| |? ? Hz| | | | | | | | | |]; subst. destruct Hz as [<-|[<-|[]]]; auto.
  Qed.
  Lemma notOp : forall t, situation t -> checkIsCallableOp ops t = false.
  Proof. intros t (_ & N & _). destruct (checkIsCallableOp ops t) eqn:E; [|reflexivity]. apply callable_iff in E. destruct E as (args & name & o & H & _). now apply N in H. Qed.
  Lemma teach_end : forall r ts b n0 x, drawn (r 6%nat) -> at_ n0 (mkPnar defaultCfg ops tb 0 [] [] pmemMake (makeGoalSystem 20 8)) [] -> mixed pf (teach la lo lc r ++ ts) b -> takeTurns pf b n0 = Ok x ->
    exists n us b', mixed pf ts b' /\ takeTurns pf b' n = Ok x /\ at_ n (empty tb ops 3 (seen3 A O C)) (map (fun u => (told A O C u, 2)) us) /\ length us = 4%nat.
  Proof.
    intros r ts b n00 x Dr A00 Mx H.
    assert (Et : teach la lo lc r ++ ts = TLine (tx "!peb 0") (r 0%nat) :: TLine la (r 1%nat) :: TLine (tx "!sp") (r 2%nat) :: TLine lo (r 3%nat) :: TLine (tx "!sp") (r 4%nat) :: TLine lc (r 5%nat) :: TLine (tx "!sp") (r 6%nat) :: ts) by reflexivity.
    rewrite Et in Mx. clear Et.
    destruct DO as (_ & args & name & o & OC & FN & PL & EV).
    assert (HO : checkIsCallableOp ops O = true) by (apply callable_iff; exists args, name, o; destruct FN as (pre & post & -> & En & _); split; [exact OC|]; split; [apply in_or_app; right; now left|exact En]).
    assert (Ne : checkEqTerm A C = false) by (destruct (checkEqTerm A C) eqn:E; [apply checkEqTerm_eq in E; contradiction|reflexivity]).
    onward Mx A00 H. apply (then_calm _ _ _ _ _ _ _ A00) in H. destruct H as (n0 & H & A0). clear A00. change (setBabble (mkPnar defaultCfg ops tb 0 [] [] pmemMake (makeGoalSystem 20 8)) false) with (empty tb ops 0 []) in A0.
    onward Mx A0 H. apply (then_event _ _ _ _ _ _ _ _ _ LA A0) in H. destruct H as (n1 & H & A1). clear A0. change (setTrace (empty tb ops 0 []) _) with (empty tb ops 0 [mkEvent A 0 0]) in A1.
    onward Mx A1 H. apply (then_step _ _ _ _ _ _ _ A1) in H. destruct H as (n2 & p1 & ms & p2 & H & S0 & S1 & A2). clear A1. rewrite step0_short in S0 by (cbn; lia). injection S0 as <- <-. apply step1_empty in S1; [|cbn; lia]. subst p2. cbn [app] in A2.
    onward Mx A2 H. apply (then_event _ _ _ _ _ _ _ _ _ LO A2) in H. destruct H as (n3 & H & A3). clear A2. change (setTrace (empty tb ops (0 + 1) _) _) with (empty tb ops 1 [mkEvent A 0 0; mkEvent O 1 1]) in A3.
    onward Mx A3 H. apply (then_step _ _ _ _ _ _ _ A3) in H. destruct H as (n4 & p1 & ms & p2 & H & S0 & S1 & A4). clear A3. rewrite step0_short in S0 by (cbn; lia). injection S0 as <- <-. apply step1_empty in S1; [|cbn; lia]. subst p2. cbn [app] in A4.
    onward Mx A4 H. apply (then_event _ _ _ _ _ _ _ _ _ LC A4) in H. destruct H as (n5 & H & A5). clear A4. change (setTrace (empty tb ops (1 + 1) _) _) with (empty tb ops 2 (seen3 A O C)) in A5.
    onward Mx A5 H. apply (then_step _ _ _ _ _ _ _ A5) in H. destruct H as (n6 & p1 & ms & p2 & H & S0 & S1 & A6). clear A5.
    rewrite (step0_seen tb ops A O C TB (notOp A SA) HO (notOp C SC) Ne args name o OC FN EV) in S0 by exact Dr. injection S0 as <- <-. apply step1_empty in S1; [|cbn; lia]. subst p2.
    eexists n6, (map (fun i => r_usage (ln_smp (r 6%nat) i)) [0%nat; 1%nat; 2%nat; 3%nat]), _. split; [exact Mx|]. split; [exact H|]. split; [|reflexivity]. destruct A6 as (B1 & B2). split; [exact B1|]. rewrite B2. rewrite map_map. reflexivity.
  Qed.
  (** the storing thread *)
  Definition learned (m : pmem) : Prop := wfP m /\ known A O C (deref m) /\ exists K, lessonK A O C K /\ famM K (deref m).
  Lemma told_fam : forall u K, lessonK A O C K -> fam K (told A O C u).
  Proof. intros u K (HT & _). split; [exact HT|]. repeat split; reflexivity. Qed.
  Lemma filed_end : forall ds ts b n x m us K, at_ n (setMem (empty tb ops 3 (seen3 A O C)) m) (map (fun u => (told A O C u, 2)) us) ->
    wfP m -> lessonK A O C K -> famM K (deref m) -> (length K + length us < 90)%nat -> known A O C (deref m) \/ (us <> [] /\ ds <> []) ->
    mixed pf (filed ds ++ ts) b -> takeTurns pf b n = Ok x -> exists n' m' us' b', mixed pf ts b' /\ takeTurns pf b' n' = Ok x /\ at_ n' (setMem (empty tb ops 3 (seen3 A O C)) m') (map (fun u => (told A O C u, 2)) us') /\ learned m'.
  Proof.
    induction ds as [|d ds IH]; intros ts b n x m us K At W LK M L Kn Mx H; cbn [filed map app] in Mx.
    - destruct Kn as [Kn|(_ & Kn)]; [|congruence]. exists n, m, us, b. split; [exact Mx|]. split; [exact H|]. split; [exact At|]. split; [exact W|]. split; [exact Kn|]. exists K. auto.
    - destruct (next _ _ _ _ _ _ _ _ Mx At H) as (b' & n' & Mx' & At' & H'). clear Mx H At n b. rename Mx' into Mx, H' into H, At' into At, n' into n, b' into b.
      cbn [takeTurns takeTurn] in H. unfold procWork in H. destruct At as (E1 & E2). rewrite E2 in H. destruct us as [|u us]; cbn [map] in H.
      + cbn [rbind fst snd] in H. eapply (IH ts b n x m []); eauto; [split; auto|]. destruct Kn as [Kn|([] & _)]; auto.
      + rewrite E1 in H. cbn [setMem n_mem n_cfg empty c_nBeliefs calmCfg] in H. destruct (storeEvidence _ m (told A O C u) 2 100 d) as [m'|] eqn:St; [|discriminate H]. cbn [rbind fst snd] in H.
        apply (evidence_fam A O C gT K) in St; auto; [|lia|now apply told_fam]. destruct St as (W' & Kn' & K' & LK' & L' & M').
        eapply (IH ts b _ x m' us K'); eauto; [split; reflexivity|cbn [length] in L; lia].
  Qed.
  (** the wish *)
  Lemma goal_added : forall id u t g, addEntry (makeGoalSystem 20 8) t (newEternalSentenceByTv C GOAL defaultTv [id] u) None 0 = Ok g ->
    gReach g /\ g_active g = [] /\ retEntries g = [mkEntry (newEternalSentenceByTv C GOAL defaultTv [id] u) None t 0 f1 f1 f0].
  Proof.
    intros id u t g H. split; [eapply gr_add; [apply gr_make|exact H]|]. unfold addEntry, addEntry2 in H.
    assert (Dc : decodeOp C = None). { destruct (decodeOp C) as [[args name]|] eqn:E; [|reflexivity]. apply decodeOp_some in E. destruct SC as (_ & N & _). now apply N in E. }
    cbn [newEternalSentenceByTv s_punct punct_eqb negb goalKnown makeGoalSystem g_byTerm mget s_term e_sentence] in H. rewrite Dc in H.
    change (g_maxDepth _) with 8 in H. cbn [e_depth] in H. change (Z.min 0 (8 - 1)) with 0 in H. unfold idxZ in H. change (0 <? 0) with false in H. change (repeat (@nil group) (Z.to_nat 8)) with [@nil group; []; []; []; []; []; []; []] in H.
    cbn [g_batches idx nth_error unwrap Z.to_nat rbind addToGroups app] in H. injection H as <-. split; reflexivity.
  Qed.
  Lemma relevant_learned : forall n, learned (n_mem n) -> (exists a, relevant n A a) /\
    forall a, relevant n A a -> s_term (rd (cells (n_mem n)) a) = T /\ s_stamp (rd (cells (n_mem n)) a) = [0; 1; 2] /\ s_evi (rd (cells (n_mem n)) a) = Some (CNT 3 3) /\ s_expDt (rd (cells (n_mem n)) a) = Some 0.
  Proof.
    intros n (W & (c & b & G & B & E) & K & (KT & KO) & M). split.
    - assert (Hb : In b (ret_beliefs_by_terms_nonunique (deref (n_mem n)) [A])).
      { apply (retrieve_many _ _ _ (proj1 M)). exists A, A, c. split; [now left|]. split; [apply Relation_Operators.rt_refl|]. split; [now apply mget_in|auto]. }
      rewrite <- pBeliefs_refines in Hb. apply in_map_iff in Hb. destruct Hb as (a & Ea & Ha). exists a. split; [exact Ha|]. exists [O], C. rewrite Ea. exact E.
    - intros a (Ha & rest & p & Et). apply (beliefs_fam K) in Ha; auto. destruct Ha as (Hk & H1 & H2 & H3 & _). split; [|auto]. destruct (KO _ Hk) as [K1|K1]; [exact K1|]. exfalso. eapply K1; eauto.
  Qed.
  Definition lesson_tv : tv := match retTv (mkSentence (Name "") None JUGEMENT [] None (Some (CNT 3 3)) 0%nat) with Some v => v | None => defaultTv end.
  Lemma recall_end : forall r b n x m q, at_ n (setMem (empty tb ops 3 (seen3 A O C)) m) q -> learned m -> mixed pf (recall lg la r) b -> takeTurns pf b n = Ok x ->
    exists a iv, nth_error tb 0 = Some iv /\ n_trace (nr_proc (fst x)) = [mkEvent A 0 0; mkEvent O 1 1; mkEvent C 2 2; mkEvent A 3 3; mkEvent O 3 3] /\
      n_ant (nr_proc (fst x)) = [(a, 3 + iv)] /\ s_term (rd (cells (n_mem (nr_proc (fst x)))) a) = T /\ n_t (nr_proc (fst x)) = 4.
  Proof.
    intros r b00 n x m q A0 Lm Mx H. unfold recall in Mx. destruct DO as (_ & args & name & o & OC & FN & PL & EV).
    onward Mx A0 H. apply (then_goal _ _ _ _ _ _ _ _ _ LG A0) in H. destruct H as (n1 & g & id & u & H & G & A1). clear A0. cbn [setMem empty n_goals n_t] in G. apply goal_added in G. destruct G as (GR & GA & GE).
    set (e0 := mkEntry (newEternalSentenceByTv C GOAL defaultTv [id] u) None 3 0 f1 f1 f0) in GE.
    onward Mx A1 H. apply (then_event _ _ _ _ _ _ _ _ _ LA A1) in H. destruct H as (n2 & H & A2). clear A1.
    onward Mx A2 H. apply (then_step _ _ _ _ _ _ _ A2) in H. destruct H as (n3 & p1 & ms & p2 & H & S0 & S1 & A3). clear A2.
    rewrite step0_plain in S0 by reflexivity. apply (last_ _ _ _ _ _ _ Mx A3) in H. destruct H as (-> & _). clear A3.
    match type of S0 with context [traceStep ?p _] => set (p0 := p) in S0 end.
    assert (E1 : p1 = setGoals p0 (event_occurred g A)).
    { unfold traceStep in S0. change (List.rev (n_trace p0)) with [mkEvent A 3 3; mkEvent C 2 2; mkEvent O 1 1; mkEvent A 0 0] in S0. change (length (n_trace p0)) with 4%nat in S0. cbn [Nat.leb ev_name] in S0. change (n_goals p0) with g in S0.
      destruct (rmapM _ _) as [os|]; [|discriminate S0]. cbn [rbind] in S0. injection S0 as <- _. reflexivity. }
    subst p1. clear S0.
    assert (St : forall en, stored (event_occurred g A) en -> e_term en = C /\ retTv (e_sentence en) = Some defaultTv).
    { intros en Hs. apply stored_iff in Hs. unfold retEntries in Hs, GE. cbn [event_occurred g_batches g_active] in Hs. rewrite GA in *. cbn [map app] in Hs. rewrite app_nil_r in Hs, GE.
      apply in_flat_map in Hs. destruct Hs as (b' & Hb & Hs). apply in_map_iff in Hb. destruct Hb as (b & <- & Hb). apply in_flat_map in Hs. destruct Hs as (gr' & Hg & Hs). apply in_map_iff in Hg. destruct Hg as (gr & <- & Hg). cbn [snd] in Hs.
      apply in_map_iff in Hs. destruct Hs as (e & <- & He). assert (Ee : In e (flat_map (fun b => flat_map snd b) (g_batches g))) by (apply in_flat_map; exists b; split; [exact Hb|]; apply in_flat_map; eauto).
      rewrite GE in Ee. destruct Ee as [<-|[]]. unfold satisfy. destruct (_ && _); split; reflexivity. }
    assert (Ex : exists en, stored (event_occurred g A) en).
    { assert (Hs : In e0 (retEntries g)) by (rewrite GE; now left). unfold retEntries in Hs. rewrite GA, app_nil_r in Hs. apply in_flat_map in Hs. destruct Hs as (b & Hb & Hs). apply in_flat_map in Hs. destruct Hs as (gr & Hg & Hs).
      exists (satisfy (g_sat g) A e0). apply stored_iff. unfold retEntries. apply in_or_app. left. cbn [event_occurred g_batches].
      apply in_flat_map. eexists. split; [apply in_map; exact Hb|]. apply in_flat_map. eexists. split; [apply in_map_iff; exists gr; split; [reflexivity|exact Hg]|]. cbn [snd]. now apply in_map. }
    set (p1 := setGoals p0 (event_occurred g A)) in *.
    assert (Rl : learned (n_mem p1)) by exact Lm. apply relevant_learned in Rl. destruct Rl as (R1 & R2).
    destruct (act_it p1 (ln_step (r 9%nat)) p2 (seen3 A O C) (mkEvent A 3 3) A O C defaultTv args name o) as (a & iv & Ra & Iv & Tr & An & Ce & Ti); auto.
    - now apply gr_event.
    - intros a Ha. destruct (R2 a Ha) as (T1 & T2 & T3 & T4). split; [exact T1|]. split; [rewrite T2; intros [X|[X|[X|[]]]]; discriminate X|].
      exists lesson_tv. split; [unfold retTv; rewrite T3; reflexivity|]. change (c_thresh (n_cfg p1)) with (f_frac 58 100). clear. split; vm_compute; reflexivity.
    - split; [destruct Ex as (en & Hs); exists en; split; [exact Hs|now apply St in Hs]|]. split; [intros en Hs _; now apply St in Hs|]. split.
      + intros en l Hs. apply St in Hs. destruct Hs as (-> & _). destruct SC as (_ & _ & N). apply N.
      + intros en y Hin. change (g_active (n_goals p1)) with (g_active (event_occurred g A)) in Hin. cbn [event_occurred g_active] in Hin. rewrite GA in Hin. destruct Hin.
    - intros en Hs E. apply St in Hs. destruct Hs as (Hc & _). destruct SC as (_ & N & _). apply (N args name). rewrite <- Hc, E. exact OC.
    - destruct (R2 a Ra) as (T1 & T2 & T3 & T4). rewrite T4 in Iv. exists a, iv. split; [exact Iv|]. split; [exact Tr|]. split; [exact An|]. split; [rewrite Ce; exact T1|exact Ti].
  Qed.
  Theorem taught : forall r ds b n0 x, nr_proc n0 = mkPnar defaultCfg ops tb 0 [] [] pmemMake (makeGoalSystem 20 8) -> nr_pq n0 = [] -> drawn (r 6%nat) -> ds <> [] ->
    mixed pf (teach la lo lc r ++ filed ds ++ recall lg la r) b -> takeTurns pf b n0 = Ok x ->
    exists a iv, nth_error tb 0 = Some iv /\ n_trace (nr_proc (fst x)) = [mkEvent A 0 0; mkEvent O 1 1; mkEvent C 2 2; mkEvent A 3 3; mkEvent O 3 3] /\
      n_ant (nr_proc (fst x)) = [(a, 3 + iv)] /\ s_term (rd (cells (n_mem (nr_proc (fst x)))) a) = T /\ n_t (nr_proc (fst x)) = 4.
  Proof.
    intros r ds b n0 x E1 E2 Dr Nd Mx H. destruct (teach_end r _ b n0 x Dr (conj E1 E2) Mx H) as (n & us & b1 & Mx1 & H1 & A1 & L).
    assert (A1' : at_ n (setMem (empty tb ops 3 (seen3 A O C)) pmemMake) (map (fun u => (told A O C u, 2)) us)) by exact A1.
    destruct (filed_end ds (recall lg la r) b1 n x pmemMake us [T] A1') as (n2 & m2 & us2 & b2 & Mx2 & H2 & A2 & Lm); auto.
    - intros t c a [].
    - split; [now left|]. intros t [<-|[]]. now left.
    - split; [split; [constructor|intros t c []]|]. intros t c [].
    - cbn [length]. lia.
    - right. split; [intros ->; discriminate L|exact Nd].
    - eapply recall_end; eauto.
  Qed.
End Lesson.

(** * Turns that do not matter *)
Lemma aside_derive : forall pf, aside pf TDerive.
Proof.
  intros pf n n' q H. cbn [takeTurn] in H. unfold declWork in H. destruct (nr_dq n) as [|m l]; [injection H as <- <-; auto|].
  destruct (workerStep _ _ _ m) as [[d u]|]; [|discriminate H]. cbn [rbind] in H. injection H as <- <-. auto.
Qed.
Lemma aside_comment : forall pf line r i, trimmed line i -> utf8 i -> starts (tx "//") i -> aside pf (TLine line r).
Proof. intros pf line r i T U S n n' q H. cbn [takeTurn] in H. rewrite (facade_comment pf n line r i T U S) in H. cbn [rbind fst snd] in H. injection H as <- <-. auto. Qed.
Lemma cycles_proc : forall k r n n', cycles k r n = Ok n' -> nr_proc n' = nr_proc n /\ nr_pq n' = nr_pq n.
Proof.
  induction k as [|k IH]; intros r n n' H; cbn [cycles] in H; [injection H as <-; auto|].
  destruct (cycle _ _ n) as [n1|] eqn:Cy; [|discriminate H]. cbn [rbind] in H. unfold cycle in Cy. destruct (reasonCycle _ _ _ _) as [[[[d now] u] m]|]; [|discriminate Cy]. cbn [rbind] in Cy. injection Cy as <-.
  apply IH in H. exact H.
Qed.
Lemma aside_cycles : forall pf line r w z, trimmed line (tx "!s" ++ w) -> numeral w z -> - 2 ^ 63 <= z < 2 ^ 63 -> aside pf (TLine line r).
Proof.
  intros pf line r w z T N B n n' q H. cbn [takeTurn] in H. rewrite (facade_cycles pf n line r w z T N B) in H. destruct (cycles (Z.to_nat z) r n) as [n1|] eqn:Cy; [|discriminate H]. cbn [rbind fst snd] in H. injection H as <- <-.
  apply cycles_proc in Cy. auto.
Qed.
Lemma aside_said : forall pf line r c i t v p ev, trimmed line (c :: i) -> c <> "!"%char -> ~ starts (tx "//") (c :: i) -> asciiText (c :: i) -> parseNarsese pf (c :: i) = Ok (Some (t, v, p, ev)) ->
  (ev = false /\ (temporal t -> p <> JUGEMENT)) \/ p = QUESTION -> aside pf (TLine line r).
Proof.
  intros pf line r c i t v p ev T N1 N2 As Pa K n n' q H. cbn [takeTurn] in H.
  assert (S : forall k, ~ splits (c :: i) k).
  { intros k (d & E & Cb). apply nth_error_In in E. unfold asciiText in As. rewrite Forall_forall in As. apply As in E. unfold contByte in Cb. lia. }
  rewrite (facade_narsese pf n line r c i) in H; auto. unfold inputN in H. rewrite Pa in H. cbn [rbind] in H. destruct (inputT2 _ _ _ _ _ _) as [n1|] eqn:I; [|discriminate H]. cbn [rbind fst snd] in H. injection H as <- <-. split; [reflexivity|].
  apply input_cases in I. assert (D : forall p, toDecl n t p v n1 -> nr_proc n1 = nr_proc n /\ nr_pq n1 = nr_pq n) by (intros p0 (d & -> & _); auto).
  assert (W : nowhere n n1 -> nr_proc n1 = nr_proc n /\ nr_pq n1 = nr_pq n) by (intros X; red in X; subst n1; auto).
  destruct ev, p; try (now apply W); try (now apply (D _ I)).
  - destruct K as [(K & _)|K]; discriminate K.
  - destruct K as [(K & _)|K]; discriminate K.
  - destruct K as [(_ & K)|K]; [|discriminate K]. destruct I as [(_ & I)|(Tm & _)]; [now apply (D _ I)|]. now apply K in Tm.
Qed.
