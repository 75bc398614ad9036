(** Properties C29-C33, C61-C63: the goal system and the procedural memory it
    plans with. *)
From Coq Require Import String ZArith Reals Bool Lia List Permutation Sorted SpecFloat.
From Verif Require Import Base F64_Model F64_Proofs Sort_Proofs Term_Model Term_Spec Term_Proofs Unify_Model Unify_Spec Stamp_Model Tv_Model
  Sentence_Model Mem_Model Mem_Spec Mem_Proofs Props_Mem PMem_Model PMem_Proofs PMem2_Proofs Goal_Model Goal_Spec Goal_Proofs Goal2_Proofs Goal3_Proofs GoalW_Proofs Goal4_Proofs Goal5_Proofs.
Import ListNotations.
Local Open Scope string_scope.
Local Open Scope list_scope.
Local Open Scope Z_scope.

(** ** sample goals *)
Definition gG (t : term) (st : stamp) (v : tv) : sentence := newEternalSentenceByTv t GOAL v st 0.
Definition opT (n : string) : term := Stmt INH (SetExt [Prod [Name "SELF"]]) (Name n).
Definition addsTo (g : gsys) (l : list (sentence * Z)) : gsys :=
  match rfold (fun g sd => addEntry g 7 (fst sd) None (snd sd)) l g with Ok g' => g' | Panic => g end.
Lemma addsTo_reach : forall l g, gReach g -> gReach (addsTo g l).
Proof.
  intros l g R. unfold addsTo. destruct (rfold _ l g) as [g'|] eqn:E; auto.
  apply (rfold_ind _ _ _ gReach) in E; auto. intros s a s' Hs _ H. eapply gr_add; eauto.
Qed.
Definition noDecay : Z -> f64 := fun _ => f1.

(** ** C29 *)
Theorem c29_bound : forall g decay t g', gReach g -> limitGoals decay g t = Ok g' ->
  Z.of_nat (length (retEntries g')) <= g_maxEntries g /\ g_maxEntries g' = g_maxEntries g.
Proof. intros g decay t g' R H. destruct (limit_spec g decay t g' R H) as (A & _ & _ & B & _). auto. Qed.
(** What is kept is unchanged; what is dropped is worth no more than anything
    kept, and something is dropped only if the count exceeds the bound, where
    operator goals count twice (see the refutation below). *)
Theorem c29_keeps_best : forall g decay t g', gReach g -> limitGoals decay g t = Ok g' ->
  (forall x, stored g' x -> exists e, stored g e /\ sameEntry x e /\ utilOf decay t e (e_util x)) /\
  (forall e, stored g e -> (exists x, stored g' x /\ sameEntry x e) \/
     (g_maxEntries g < Z.of_nat (length (retEntries g) + length (g_active g)) /\
      forall x u, stored g' x -> utilOf decay t e u -> fleb u (e_util x) = true)).
Proof. intros g decay t g' R H. destruct (limit_spec g decay t g' R H) as (_ & A & B & _). auto. Qed.
(** In every reachable store a goal is filed under its own depth (the deepest
    level collects the rest), except operator goals, which form their own set. *)
Theorem c29_filed : forall g, gReach g -> forall x,
  (forall i, atLevel g i x -> ~ opTerm (e_term x) /\ Z.of_nat i = Z.min (e_depth x) (g_maxDepth g - 1)) /\
  (In x (g_active g) -> opTerm (e_term x)).
Proof. exact reach_filed. Qed.
Theorem c29_only_goals : forall g, gReach g -> forall x, stored g x -> s_punct (e_sentence x) = GOAL.
Proof. exact only_goals. Qed.
Theorem c29_total : forall g decay t, gReach g -> 0 <= g_maxEntries g -> 1 <= g_maxDepth g ->
  (forall e, stored g e -> 0 <= e_depth e /\ exists u, utilOf decay t e u /\ fis_nan u = false) ->
  exists g', limitGoals decay g t = Ok g'.
Proof. exact limit_total. Qed.

Definition g3 := Eval vm_compute in addsTo (makeGoalSystem 2 4)
  [(gG (Name "a") [1] (mT 1 2), 0); (gG (Name "b") [2] (mT 9 10), 1); (gG (Name "c") [3] (mT 7 10), 9)].
Lemma g3_reach : gReach g3.
Proof. replace g3 with (addsTo (makeGoalSystem 2 4) [(gG (Name "a") [1] (mT 1 2), 0); (gG (Name "b") [2] (mT 9 10), 1); (gG (Name "c") [3] (mT 7 10), 9)]) by (vm_compute; reflexivity).
  apply addsTo_reach. constructor. Qed.
Example c29_ex : length (retEntries g3) = 3%nat /\ map (fun b : list group => length b) (g_batches g3) = [1; 1; 0; 1]%nat /\
  match limitGoals noDecay g3 9 with Ok g' => map e_term (retEntries g') = [Name "b"; Name "c"] | Panic => False end.
Proof. vm_compute. auto. Qed.
(** Operator goals are counted twice: a store within its bound loses one. *)
Definition g2ops := Eval vm_compute in addsTo (makeGoalSystem 2 4) [(gG (opT "^l") [1] (mT 1 2), 0); (gG (opT "^r") [2] (mT 9 10), 0)].
Theorem c29_double_count_refuted : exists g g' e, gReach g /\ limitGoals noDecay g 9 = Ok g' /\
  Z.of_nat (length (retEntries g)) <= g_maxEntries g /\ stored g e /\ forall x, stored g' x -> ~ sameEntry x e.
Proof.
  assert (R : gReach g2ops).
  { replace g2ops with (addsTo (makeGoalSystem 2 4) [(gG (opT "^l") [1] (mT 1 2), 0); (gG (opT "^r") [2] (mT 9 10), 0)]) by (vm_compute; reflexivity).
    apply addsTo_reach. constructor. }
  destruct (limitGoals noDecay g2ops 9) as [g'|] eqn:E; [|vm_compute in E; discriminate].
  exists g2ops, g', (mkEntry (gG (opT "^l") [1] (mT 1 2)) None 7 0 f1 f1 f0). split; auto. split; auto. split; [vm_compute; discriminate|].
  split; [right; vm_compute; auto|]. intros x Hx (Hs & _). apply stored_iff in Hx.
  assert (Q : map e_stamp (retEntries g') = [[2]]) by (vm_compute in E; injection E as <-; reflexivity).
  assert (In (e_stamp x) [[2]]) as [W|[]] by (rewrite <- Q; now apply in_map).
  unfold e_stamp in W. rewrite Hs in W. vm_compute in W. discriminate.
Qed.

(** ** C30 *)
Theorem c30_ops : forall g, gReach g -> ForallOrdPairs (fun a b => ~ sameGoal a b) (g_active g).
Proof. exact reach_ops_distinct. Qed.
(** The first goal about a term is recognised until goals are forgotten. *)
Theorem c30_first : forall g t goal evi depth g1 g2 t' evi' depth', gReach g ->
  ~ opTerm (s_term goal) -> (forall e, stored g e -> e_term e <> s_term goal) ->
  addEntry g t goal evi depth = Ok g1 -> gGrow g1 g2 -> addEntry g2 t' goal evi' depth' = Ok g2.
Proof. exact add_first. Qed.
(** A goal that is added is there afterwards. *)
Theorem c30_never_lost : forall g t goal evi depth g', gReach g -> addEntry g t goal evi depth = Ok g' ->
  exists x, stored g' x /\ e_term x = s_term goal /\ e_stamp x = s_stamp goal.
Proof. exact add_there. Qed.
(** What is recognised is the first goal of its term at some level. *)
Theorem c30_recognised : forall g t goal evi depth, gReach g -> ~ opTerm (s_term goal) -> addEntry g t goal evi depth = Ok g ->
  exists i e, opens g i e /\ e_term e = s_term goal /\ e_stamp e = s_stamp goal.
Proof. exact recognised_opens. Qed.
(** The first goal of its term at a level is recognised, unless it shares evidence with that of another level. *)
Theorem c30_opener : forall g i e t goal evi depth, gReach g -> opens g i e -> s_punct goal = GOAL -> e_term e = s_term goal -> e_stamp e = s_stamp goal ->
  addEntry g t goal evi depth = Ok g \/ exists j x, opens g j x /\ j <> i /\ e_term x = e_term e /\ exists id, In id (e_stamp x) /\ In id (e_stamp e).
Proof. exact opens_recognised. Qed.
(** So if the goals of a term are on one level, exactly the first of them is recognised. *)
Theorem c30_one_level : forall g i e t goal evi depth, gReach g -> opens g i e -> (forall j x, opens g j x -> e_term x = e_term e -> j = i) ->
  s_punct goal = GOAL -> s_term goal = e_term e -> (addEntry g t goal evi depth = Ok g <-> s_stamp goal = e_stamp e).
Proof. exact one_level. Qed.
(** Finding: even the first goal of its term at a level may be stored twice. *)
Definition gLevels := Eval vm_compute in addsTo (makeGoalSystem 20 4) [(gG (Name "a") [1] (mT 1 2), 0); (gG (Name "a") [1; 2] (mT 1 2), 1)].
Theorem c30_opener_refuted : exists g i e g', gReach g /\ opens g i e /\ addEntry g 50 (e_sentence e) None (e_depth e) = Ok g' /\
  (length (retEntries g') = S (length (retEntries g)))%nat.
Proof.
  exists gLevels, 1%nat. do 2 eexists. split.
  - replace gLevels with (addsTo (makeGoalSystem 20 4) [(gG (Name "a") [1] (mT 1 2), 0); (gG (Name "a") [1; 2] (mT 1 2), 1)]) by (vm_compute; reflexivity).
    apply addsTo_reach. constructor.
  - split; [do 3 eexists; split; [reflexivity|left; reflexivity]|]. split; vm_compute; reflexivity.
Qed.
Definition gTwice := Eval vm_compute in addsTo (makeGoalSystem 20 4)
  [(gG (Name "a") [1] (mT 1 2), 0); (gG (Name "a") [2] (mT 1 2), 0); (gG (Name "a") [1] (mT 1 2), 0); (gG (Name "a") [2] (mT 1 2), 0)].
Example c30_ex : match addEntry g3 50 (gG (Name "b") [2] (mT 9 10)) None 3 with Ok g' => g' = g3 | Panic => False end /\
  match addEntry g2ops 50 (gG (opT "^r") [2] (mT 9 10)) None 3 with Ok g' => g' = g2ops | Panic => False end.
Proof. vm_compute. auto. Qed.
Example c30_one_ex : addEntry gTwice 50 (gG (Name "a") [1] (mT 1 2)) None 0 = Ok gTwice /\
  match addEntry gTwice 50 (gG (Name "a") [2] (mT 1 2)) None 0 with Ok g' => length (retEntries g') = 4%nat | Panic => False end.
Proof. vm_compute. auto. Qed.
(** Only the goal that opened the group of its term is recognised: the same
    goal from the same evidence can be stored twice. *)
Theorem c30_refuted : exists g, gReach g /\ ~ ForallOrdPairs (fun a b => ~ sameGoal a b) (retEntries g).
Proof.
  exists gTwice. split.
  - replace gTwice with (addsTo (makeGoalSystem 20 4) [(gG (Name "a") [1] (mT 1 2), 0); (gG (Name "a") [2] (mT 1 2), 0); (gG (Name "a") [1] (mT 1 2), 0); (gG (Name "a") [2] (mT 1 2), 0)]) by (vm_compute; reflexivity).
    apply addsTo_reach. constructor.
  - assert (Q : map (fun e => (e_term e, e_stamp e)) (retEntries gTwice) = [(Name "a", [1]); (Name "a", [2]); (Name "a", [2])]) by (vm_compute; reflexivity).
    revert Q. generalize (retEntries gTwice). intros [|a [|b [|c [|d l]]]] Q; try discriminate.
    cbn [map] in Q. assert (Qb : (e_term b, e_stamp b) = (Name "a", [2])) by congruence. assert (Qc : (e_term c, e_stamp c) = (Name "a", [2])) by congruence.
    intros H. inversion H as [|? ? _ H2]; subst. inversion H2 as [|? ? H3 _]; subst. inversion H3 as [|? ? H4 _]; subst.
    apply H4. split; congruence.
Qed.

(** ** C31 *)
Theorem c31_satisfied : forall g ev e, g_sat g = true -> stored (event_occurred g ev) e -> e_term e = ev -> e_des e = f0 /\ is_desired e = false.
Proof. exact event_satisfied. Qed.
Theorem c31_others : forall g ev e, e_term e <> ev -> (stored (event_occurred g ev) e <-> stored g e).
Proof. exact event_others. Qed.
(** No goal disappears, and only its desire changes. *)
Theorem c31_kept : forall g ev e, stored g e -> exists x, stored (event_occurred g ev) x /\ e_sentence x = e_sentence e /\ e_evi x = e_evi e /\
  e_create x = e_create e /\ e_depth x = e_depth e /\ e_util x = e_util e /\ e_acc x = e_acc e.
Proof. exact event_all. Qed.
Theorem c31_off : forall g ev, g_sat g = false -> event_occurred g ev = g.
Proof. exact event_off. Qed.
Example c31_ex : map is_desired (retEntries (event_occurred g3 (Name "b"))) = [true; false; true].
Proof. vm_compute. reflexivity. Qed.

(** ** C32. One step: exactly the goals of the two rules. *)
Theorem c32_detach : forall g u,
  match infGoalDetach g u with
  | Ok (Some c) => exists x rest v, s_term g = Seq (x :: rest) /\ retTv g = Some v /\ isGoal c x v (s_stamp g)
  | Ok None => forall x rest, s_term g <> Seq (x :: rest)
  | Panic => retTv g = None
  end.
Proof. exact detach_spec. Qed.
Theorem c32_belief : forall g b u,
  match infGoalBelief g b u with
  | Ok (Some c) => exists subj vg vb, s_term b = Stmt PREDIMPL subj (s_term g) /\ ~ shareEvidence g b /\
        retTv g = Some vg /\ retTv b = Some vb /\ isGoal c subj (dedGoal vg vb) (merge (s_stamp g) (s_stamp b))
  | Ok None => shareEvidence g b \/ forall subj, s_term b <> Stmt PREDIMPL subj (s_term g)
  | Panic => retTv g = None \/ retTv b = None
  end.
Proof. exact belief_spec. Qed.
(** The derivation cycle: every new goal is reached by a chain of steps from a
    stored goal, through beliefs of the memory, and is as much deeper as the
    chain is long. *)
Theorem c32_sound : forall u g t m r1 r2 rnd g' x, sampleAndInference u g t m r1 r2 rnd = Ok g' -> stored g' x -> stored g x \/
  exists e i n, atLevel g i e /\ goalChain (believed m) n (e_sentence e) (e_evi x) (e_sentence x) /\
    e_depth x = e_depth e + Z.of_nat n /\ e_create x = t.
Proof. exact infer_sound. Qed.
Theorem c32_keeps : forall u g t m r1 r2 rnd g' x, sampleAndInference u g t m r1 r2 rnd = Ok g' -> stored g x -> stored g' x.
Proof. exact infer_keeps. Qed.
(** Every direct subgoal of the sampled goal is there afterwards. *)
Theorem c32_complete : forall u g t m r1 r2 rnd g' goal depth, gReach g -> sampleAndInference u g t m r1 r2 rnd = Ok g' ->
  sample g r1 r2 = Ok (Some (goal, depth)) -> NoDup (map fst (pcs m)) ->
  (forall x rest v, s_term goal = Seq (x :: rest) -> retTv goal = Some v -> exists e, stored g' e /\ e_term e = x /\ e_stamp e = s_stamp goal) /\
  (forall k c a subj vg vb, (forall x rest, s_term goal <> Seq (x :: rest)) -> In (k, c) (pcs m) -> occurs k (s_term goal) -> In a (pExp c ++ pUse c) ->
     s_term (rd (cells m) a) = Stmt PREDIMPL subj (s_term goal) -> ~ shareEvidence goal (rd (cells m) a) ->
     retTv goal = Some vg -> retTv (rd (cells m) a) = Some vb ->
     exists e, stored g' e /\ e_term e = subj /\ e_stamp e = merge (s_stamp goal) (s_stamp (rd (cells m) a))).
Proof. exact infer_complete. Qed.
Theorem c32_bounded : forall u g t m r1 r2 rnd g', sampleAndInference u g t m r1 r2 rnd = Ok g' ->
  exists q, (length (retEntries g') <= length (retEntries g) + 2 * Z.to_nat (g_rounds g) + Nat.max 1 (length (query_by_consequence q m)))%nat.
Proof. exact infer_bounded. Qed.
Theorem c32_total : forall u g t m r1 r2 rnd, gReach g -> 1 <= g_maxDepth g ->
  (forall e, stored g e -> 0 <= e_depth e /\ retTv (e_sentence e) <> None) ->
  (forall a b, believed m a b -> retTv b <> None) ->
  exists g', sampleAndInference u g t m r1 r2 rnd = Ok g'.
Proof. exact infer_total. Qed.

Definition bel1 := mJ (Stmt PREDIMPL (Seq [Name "s"; opT "^l"]) (Name "b")) [11] (mT 9 10) 0.
Definition pm1 : pmem := Eval vm_compute in
  match pStoreInConcepts2 us0 pmemMake bel1 [Name "s"; Name "b"] 10 3 with Ok m => m | Panic => pmemMake end.
Definition gB := Eval vm_compute in addsTo (makeGoalSystem 20 8) [(gG (Name "b") [2] (mT 9 10), 0)].
Example c32_ex : match sampleAndInference 0 gB 8 pm1 f05 f05 (fun _ => (0, 0, 0)%nat) with
  | Ok g' => map (fun e => (e_term e, e_stamp e, e_evi e, e_depth e)) (retEntries g') =
      [(Name "b", [2], None, 0); (Seq [Name "s"; opT "^l"], [2; 11], Some 2%nat, 1); (Name "s", [2; 11], None, 2)]
  | Panic => False end.
Proof. vm_compute. reflexivity. Qed.

(** ** C33. The choice among goals for a situation. *)
Theorem c33_best : forall g state x r, selHighestExpGoalByState g state = Ok (x, r) ->
  (forall e ut v, stored g e -> applies state e ut -> retTv (e_sentence e) = Some v -> fltb x (calcExp v) = false) /\
  match r with
  | None => x = f0
  | Some (e, ut) => stored g e /\ applies state e ut /\ fltb f0 x = true /\ exists v, retTv (e_sentence e) = Some v /\ x = calcExp v
  end.
Proof. exact sel_spec. Qed.
Theorem c33_panics_iff : forall g state, (exists r, selHighestExpGoalByState g state = Ok r) <->
  (forall e ut, stored g e -> applies state e ut -> retTv (e_sentence e) <> None).
Proof. exact sel_total. Qed.
Definition gSeqs := Eval vm_compute in addsTo (makeGoalSystem 20 8)
  [(gG (Seq [Name "s"; opT "^l"]) [1] (mT 1 2), 0); (gG (Seq [Stmt INH (IndepVar "1") (Name "q"); opT "^r"]) [2] (mT 9 10), 1); (gG (Seq [Name "z"; opT "^l"]) [3] (mT 99 100), 1)].
Example c33_ex : match selHighestExpGoalByState gSeqs (mStmt "x" "q") with
  | Ok (_, Some (e, ut)) => e_stamp e = [2] /\ ut = Seq [mStmt "x" "q"; opT "^r"] | _ => False end /\
  match selHighestExpGoalByState gSeqs (Name "s") with Ok (_, Some (e, _)) => e_stamp e = [1] | _ => False end /\
  match selHighestExpGoalByState gSeqs (Name "y") with Ok (_, None) => True | _ => False end.
Proof. vm_compute. auto. Qed.

(** ** C61. The memory with shared belief cells. *)
Theorem c61_store : forall us m s ts n now, wfP m ->
  match pStoreInConcepts2 us m s ts n now with
  | Ok m' => storeInConcepts2 us (deref m) s ts n now = Ok (deref m') /\ wfP m' /\ stable m m'
  | Panic => storeInConcepts2 us (deref m) s ts n now = Panic
  end.
Proof. exact pStore_refines. Qed.
Theorem c61_limit : forall m k, wfP m ->
  match pLimit m k with
  | Ok m' => limitMemory (deref m) k = Ok (deref m') /\ wfP m' /\ cells m' = cells m
  | Panic => limitMemory (deref m) k = Panic
  end.
Proof. exact pLimit_refines. Qed.
Theorem c61_beliefs : forall m ts, map (rd (cells m)) (pBeliefs m ts) = ret_beliefs_by_terms_nonunique (deref m) ts.
Proof. exact pBeliefs_refines. Qed.
(** So everything proved about concept memory holds for it. *)
Theorem c61_history : forall n m, pHist n m -> wfP m /\ history n (deref m).
Proof. exact pHist_history. Qed.
(** No two table slots share a cell, whatever is stored, forgotten or written. *)
Theorem c61_private : forall m, pReach m -> NoDup (slots m) /\ wfP m.
Proof. intros m R. destruct (pReach_ok m R) as (A & _ & _ & B). auto. Qed.
Theorem c61_write : forall m a s b, pReach m -> In b (slots m) -> In a (slots m) ->
  rd (wr (cells m) a s) b = if Nat.eqb b a then s else rd (cells m) b.
Proof. exact write_local. Qed.
Example c61_ex : slots pm1 = [0; 1; 2; 3]%nat /\ map s_stamp (map (rd (cells pm1)) (pBeliefs pm1 [Name "b"])) = [[11]; [11]].
Proof. vm_compute. auto. Qed.
(** One stored belief is several cells, so an update through a pointer leaves
    the other copies as they were. *)
Theorem c61_copies_refuted : exists m a s t c, pReach m /\ In (t, c) (deref m) /\ byExp c = byUsage c /\
  exists c', In (t, c') (deref (mkPmem (wr (cells m) a s) (pcs m))) /\ byExp c' <> byUsage c'.
Proof.
  exists pm1, 0%nat, noSentence, (Name "s"), (mkConcept (Name "s") [bel1] [bel1]). split.
  - apply (pr_store pmemMake us0 bel1 [Name "s"; Name "b"] 10 3); [constructor|vm_compute; reflexivity].
  - split; [vm_compute; auto|]. split; auto. exists (mkConcept (Name "s") [noSentence] [bel1]). split; [vm_compute; auto|]. vm_compute. discriminate.
Qed.

(** ** C62. Sampling goals. *)
Theorem c62_stored : forall g r1 r2 s d, sample g r1 r2 = Ok (Some (s, d)) -> exists e i, atLevel g i e /\ e_sentence e = s /\ e_depth e = d.
Proof. exact sample_in. Qed.
Theorem c62_total : forall g r1 r2, gReach g -> 1 <= g_maxDepth g -> exists r, sample g r1 r2 = Ok r.
Proof. exact sample_total. Qed.
Example c62_ex : match sample g3 f05 f05 with Ok (Some (s, 1)) => s_term s = Name "b" | _ => False end.
Proof. vm_compute. reflexivity. Qed.
(** The first random number decides the level; the bound on the number of
    levels keeps the running sum exact. Every filled level can be drawn. *)
Theorem c62_level : forall g r1 r2 j s d, ffin r1 -> nFilled (g_batches g) < 2 ^ 50 -> 0 <= j < nFilled (g_batches g) ->
  (IZR j + / 4 <= fval r1 * IZR (nFilled (g_batches g)) <= IZR (j + 1))%R ->
  sample g r1 r2 = Ok (Some (s, d)) ->
  exists pre b post gr e, g_batches g = pre ++ b :: post /\ b <> [] /\ nFilled pre = j /\ In gr b /\ In e (snd gr) /\ e_sentence e = s /\ e_depth e = d.
Proof. exact level_drawn. Qed.
Theorem c62_level_drawable : forall n j, 0 <= j < n -> n < 2 ^ 50 ->
  exists r1, in01 r1 /\ (fval r1 < 1)%R /\ (IZR j + / 4 <= fval r1 * IZR n <= IZR (j + 1))%R.
Proof. exact level_drawable. Qed.
Example c62_level_ex : nFilled (g_batches g3) = 3 /\
  match sample g3 (f_frac 1 6) f05, sample g3 f05 f05 with Ok (Some (s, 0)), Ok (Some (s', 1)) => s_term s <> s_term s' | _, _ => False end.
Proof. vm_compute. split; [reflexivity|discriminate]. Qed.
(** Some goals are never sampled: the position inside a group is looked up
    with a weight that still contains the weights of the groups before. *)
Definition gU := Eval vm_compute in addsTo (makeGoalSystem 20 2)
  [(gG (Name "a") [1] (mT 1 2), 0); (gG (Name "b") [2] (mT 1 2), 0); (gG (Name "b") [3] (mT 1 2), 0)].
Theorem c62_unreachable_refuted : exists g e, gReach g /\ atLevel g 0 e /\ is_desired e = true /\
  forall r1 r2 s d, sample g r1 r2 = Ok (Some (s, d)) -> s <> e_sentence e.
Proof.
  exists gU, (mkEntry (gG (Name "b") [2] (mT 1 2)) None 7 0 f1 f1 f0). split.
  - replace gU with (addsTo (makeGoalSystem 20 2) [(gG (Name "a") [1] (mT 1 2), 0); (gG (Name "b") [2] (mT 1 2), 0); (gG (Name "b") [3] (mT 1 2), 0)]) by (vm_compute; reflexivity).
    apply addsTo_reach. constructor.
  - split; [|split; [vm_compute; reflexivity|]].
    + unfold atLevel. exists (nth 0 (g_batches gU) []). exists (nth 1 (nth 0 (g_batches gU) []) (Name "x", [])). split; [reflexivity|]. split; vm_compute; auto.
    + intros r1 r2 s d H. unfold sample in H.
      assert (Q : forall p, snd (fold_left (selBatchStep p) (g_batches gU) (f0, nth 0 (g_batches gU) [])) = nth 0 (g_batches gU) []).
      { intros p. unfold gU. cbn [g_batches fold_left nth]. unfold selBatchStep. destruct (fgeb f0 p); cbv beta iota; [destruct (fgeb f0 p)|destruct (fgeb (fadd f0 f1) p)]; reflexivity. }
      change (idx (g_batches gU) 0) with (Ok (nth 0 (g_batches gU) [])) in H. cbn [rbind] in H. rewrite Q in H. clear Q.
      revert H. generalize (fmul r1 (fsum (map (fun b : list group => match b with [] => f0 | _ :: _ => f1 end) (g_batches gU)))). intros p.
      set (b := nth 0 (g_batches gU) []). assert (W : rmapM groupWeight b = Ok [f1; f_frac 2 1]) by (vm_compute; reflexivity). rewrite W. cbn [rbind].
      generalize (fmul r2 (fsum [f1; f_frac 2 1])). intros q H. subst b. unfold gU in H. cbn [g_batches nth selInBatch snd] in H.
      replace (fsum [f1; f_frac 2 1]) with (f_frac 3 1) in H by (vm_compute; reflexivity).
      replace (fleb f0 (f_frac 3 1)) with true in H by (vm_compute; reflexivity). cbn [negb] in H.
      match type of H with context [groupWeight ?x] => replace (groupWeight x) with (Ok f1) in H by (vm_compute; reflexivity) end. cbn [rbind] in H.
      replace (fadd f1 f0) with f1 in H by (vm_compute; reflexivity). destruct (fgtb f1 q) eqn:G.
      * simpl in H. intros E. subst s. vm_compute in H. discriminate.
      * replace (fadd f0 f1) with f1 in H by (vm_compute; reflexivity). replace (fleb f1 (f_frac 3 1)) with true in H by (vm_compute; reflexivity). cbn [negb] in H.
        match type of H with context [groupWeight ?x] => replace (groupWeight x) with (Ok (f_frac 2 1)) in H by (vm_compute; reflexivity) end. cbn [rbind] in H.
        destruct (fgtb (fadd (f_frac 2 1) f1) q); [|discriminate]. cbn [binSearch length] in H.
        change (Nat.div 2 2) with 1%nat in H. cbn [idx nth_error unwrap rbind e_acc] in H.
        match type of H with context [fgtb ?x q] => change x with f1 in H end. rewrite G in H. cbn [skipn binSearch rbind e_sentence e_depth] in H.
        intros E. subst s. vm_compute in H. discriminate.
Qed.
(** The random number 0 always selects level 0, even if only other levels hold
    goals. *)
Theorem c62_zero_refuted : exists g e, gReach g /\ atLevel g 1 e /\ is_desired e = true /\ forall r2, sample g f0 r2 = Ok None.
Proof.
  set (l := [(gG (Name "a") [1] (mT 1 2), 1)]). exists (addsTo (makeGoalSystem 20 2) l), (mkEntry (gG (Name "a") [1] (mT 1 2)) None 7 1 f1 f1 f0).
  split; [apply addsTo_reach; constructor|]. split; [|split; [vm_compute; reflexivity|]].
  - exists [(Name "a", [mkEntry (gG (Name "a") [1] (mT 1 2)) None 7 1 f1 f1 f0])], (Name "a", [mkEntry (gG (Name "a") [1] (mT 1 2)) None 7 1 f1 f1 f0]).
    split; [vm_compute; reflexivity|]. split; now left.
  - intros r2. vm_compute. reflexivity.
Qed.
(** A negative depth or limit is an index out of range. *)
Theorem c62_negative : (forall g t goal evi depth, ~ opTerm (s_term goal) -> depth < 0 -> goalKnown g goal = false -> addEntry g t goal evi depth = Panic) /\
  (forall decay g t, g_maxEntries g < 0 -> limitGoals decay g t = Panic).
Proof.
  split.
  - intros g t goal evi depth O D K. unfold addEntry. destruct (negb _); auto. rewrite K. unfold addEntry2. simpl.
    apply decodeOp_none in O. rewrite O. unfold idxZ. destruct (Z.ltb_spec (Z.min depth (g_maxDepth g - 1)) 0); [reflexivity|lia].
  - intros decay g t H. unfold limitGoals. destruct (rmapM _ _); auto. cbn [rbind]. destruct (fsort_desc _ _); auto. cbn [rbind].
    destruct (Z.ltb_spec (g_maxEntries g) 0); [reflexivity|lia].
Qed.

(** ** C63 *)
Theorem c63_goal : forall g t,
  match query g t with
  | Some e => In e (retEntries g ++ g_active g) /\ s_term (e_sentence e) = t
  | None => forall e, In e (retEntries g ++ g_active g) -> s_term (e_sentence e) <> t
  end.
Proof. exact query_spec. Qed.
Theorem c63_antecedent : forall m t l, query_by_antecedent t m = Ok l ->
  forall a, In a l <-> In a (pBeliefs m [t]) /\ exists rest p, s_term (rd (cells m) a) = Stmt PREDIMPL (Seq (t :: rest)) p.
Proof. exact antecedent_spec. Qed.
Theorem c63_consequence : forall m t a,
  In a (query_by_consequence t m) <-> In a (pBeliefs m [t]) /\ exists q, s_term (rd (cells m) a) = Stmt PREDIMPL q t.
Proof. exact consequence_spec. Qed.
Definition lookM : pmem := mkPmem [newEternalSentenceByTv (Stmt PREDIMPL (Seq [Name "a"; opT "^x"]) (Name "b")) JUGEMENT (mT 1 2) [1] 0]
  [(Name "a", mkPC (Name "a") [0%nat] []); (Name "b", mkPC (Name "b") [] [0%nat])].
Example c63_ex : query_by_antecedent (Name "a") lookM = Ok [0%nat] /\ query_by_antecedent (Name "b") lookM = Ok [] /\
  query_by_consequence (Name "b") lookM = [0%nat] /\ query_by_consequence (Name "a") lookM = [] /\
  option_map (fun e => s_term (e_sentence e)) (query g3 (Name "b")) = Some (Name "b") /\ query g3 (Name "zz") = None.
Proof. vm_compute. repeat split. Qed.

Print Assumptions c29_bound.
Print Assumptions c29_keeps_best.
Print Assumptions c29_filed.
Print Assumptions c29_total.
Print Assumptions c30_first. Print Assumptions c30_recognised. Print Assumptions c30_opener. Print Assumptions c30_one_level. Print Assumptions c30_opener_refuted.
Print Assumptions c31_satisfied.
Print Assumptions c32_sound.
Print Assumptions c32_complete.
Print Assumptions c32_total.
Print Assumptions c33_best.
Print Assumptions c61_history.
Print Assumptions c61_private.
Print Assumptions c62_total.
Print Assumptions c62_level.
Print Assumptions c62_level_drawable.
Print Assumptions c63_antecedent.
Print Assumptions c62_unreachable_refuted.
