(** No second half step panics: the parts of a step. *)
From Coq Require Import String ZArith Bool Lia List Relations Sorted Permutation.
From Verif Require Import Base F64_Model F64_Proofs Term_Model Term_Spec Term_Proofs Unify_Model Unify_Spec Unify_Proofs Stamp_Model Stamp_Proofs Tv_Model Tv_Spec Tv_Proofs
  Sentence_Model Sentence_Proofs Sort_Proofs Mem_Model Mem_Spec Mem_Proofs PMem_Model PMem_Proofs PMem2_Proofs Safe2_Proofs
  Goal_Model Goal_Spec Goal_Proofs Goal2_Proofs Goal3_Proofs GoalW_Proofs Goal4_Proofs Proc_Model Proc_Spec ProcA_Proofs ProcP_Proofs ProcB_Proofs ProcC_Proofs ProcV_Proofs
  ProcS_Model ProcS_Proofs ProcX_Model Speak_Spec Speak_Proofs ProcX_Spec ProcX_Proofs.
Import ListNotations.
Local Open Scope list_scope.
Local Open Scope Z_scope.

Definition small (s : sentence) : Prop := forall p c, s_evi s = Some (CNT p c) -> c < 2 ^ 63.
(** a sequence that ends with a call *)
Definition plan_ (t : term) : Prop := exists pre o, t = Seq (pre ++ [o]) /\ opTerm o.
Record beliefOk (tab : list Z) (s : sentence) : Prop := mkBOk {
  bo_term : exists c pre o p, s_term s = Stmt PREDIMPL (Seq (c :: pre ++ [o])) p /\ opTerm o;
  bo_text : speakable (s_term s);
  bo_punct : s_punct s = JUGEMENT;
  bo_counts : okCounts s;
  bo_dt : exists d, s_expDt s = Some d /\ 0 <= d < Z.of_nat (length tab);
  bo_stamp : forall i, In i (s_stamp s) -> 0 <= i
}.
Definition eviOk (h : list sentence) (t : term) (a : nat) : Prop := (a < length h)%nat /\ speakable t /\ (opTerm t \/ plan_ t).
Record entryOk (h : list sentence) (now : Z) (e : entry) : Prop := mkEOk {
  eo_depth : 0 <= e_depth e;
  eo_tv : exists v, retTv (e_sentence e) = Some v /\ tvInRange v;
  eo_create : e_create e <= now;
  eo_evi : forall a, e_evi e = Some a -> eviOk h (e_term e) a
}.
Record goalsOk (h : list sentence) (now : Z) (g : gsys) : Prop := mkGsOk {
  go_reach : gReach g;
  go_depth : 1 <= g_maxDepth g;
  go_entries : 0 <= g_maxEntries g;
  go_all : forall e, stored g e -> entryOk h now e
}.
Lemma entryOk_more : forall h h' now now' e, (length h <= length h')%nat -> now <= now' -> entryOk h now e -> entryOk h' now' e.
Proof.
  intros h h' now now' e L N [A B C D]. constructor; auto; [lia|]. intros a Ha. destruct (D a Ha) as (D1 & D2). split; [lia|auto].
Qed.
Lemma goalsOk_more : forall h h' now now' g, (length h <= length h')%nat -> now <= now' -> goalsOk h now g -> goalsOk h' now' g.
Proof. intros h h' now now' g L N [A B C D]. constructor; auto. intros e He. eapply entryOk_more; eauto. Qed.
Lemma entryOk_same : forall h now x e, e_sentence x = e_sentence e -> e_evi x = e_evi e -> e_create x = e_create e -> e_depth x = e_depth e ->
  entryOk h now e -> entryOk h now x.
Proof. intros h now x e E1 E2 E3 E4 [A B C D]. constructor; rewrite ?E1, ?E2, ?E3, ?E4; auto. unfold e_term in *. now rewrite E1. Qed.

(** * Goals *)
Lemma gx_add : forall h now g t goal evi depth, goalsOk h now g -> s_punct goal = GOAL -> 0 <= depth -> t <= now ->
  (exists v, retTv goal = Some v /\ tvInRange v) -> (forall a, evi = Some a -> eviOk h (s_term goal) a) ->
  exists g', addEntry g t goal evi depth = Ok g' /\ goalsOk h now g'.
Proof.
  intros h now g t goal evi depth [R D N A] P Dp T V E. destruct (add_total g t goal evi depth (reach_ok _ R) D P Dp) as (g' & H).
  exists g'. split; auto. assert (R' : gReach g') by (eapply gr_add; eauto). apply addEntry_cases in H. destruct H as (_ & [[_ ->]|H]); [constructor; auto|].
  destruct (added_cfg _ _ _ H) as (C1 & C2 & _). constructor; auto; [lia|lia|]. intros e He. apply stored_iff in He.
  apply (added_from _ _ _ _ H) in He. destruct He as [He|He]; [apply A; now apply stored_iff|].
  apply sameButAcc_fields in He. cbn in He. destruct He as (E1 & E2 & E3 & E4 & _).
  constructor; unfold e_term; rewrite ?E1, ?E2, ?E3, ?E4; auto.
Qed.
Lemma gx_event : forall h now g ev, goalsOk h now g -> goalsOk h now (event_occurred g ev).
Proof.
  intros h now g ev [R D N A]. constructor; auto; [now apply gr_event|]. intros x Hx. apply event_stored in Hx. destruct Hx as (e & He & ->).
  eapply entryOk_same; [| | | |apply A; exact He]; unfold satisfy; destruct (_ && _); reflexivity.
Qed.
Lemma gx_exec : forall h now g i, goalsOk h now g -> goalsOk h now (setActive g (remove_at i (g_active g))).
Proof.
  intros h now g i [R D N A]. constructor; auto; [now apply gr_exec|]. intros e [He|He]; apply A; [now left|]. right. cbn in He. eapply remove_at_in; eauto.
Qed.
Lemma unit_nan : forall x, unit64 x -> fis_nan x = false.
Proof. intros x H. destruct x; auto. exfalso. revert H. vm_compute. intuition discriminate. Qed.
Lemma unit_0 : unit64 f0. Proof. vm_compute. repeat split. Qed.
Lemma unit_1 : unit64 f1. Proof. vm_compute. repeat split. Qed.
Lemma gx_limit : forall h now g decay t, goalsOk h now g -> now <= t -> (forall z, 0 <= z -> unit64 (decay z)) ->
  exists g', limitGoals decay g t = Ok g' /\ goalsOk h now g'.
Proof.
  intros h now g decay t [R D N A] T Dc.
  destruct (Goal3_Proofs.limit_total g decay t R N D) as (g' & H).
  { intros e He. destruct (A e He) as [A1 (v & V & Rg) A3 _]. split; auto. eexists. split; [exists v; split; [exact V|reflexivity]|].
    apply unit_nan. apply unit_mul; [apply unit_mul|].
    - now apply calcExp_range.
    - destruct (reach_weighted g R e) as (_ & [-> | ->]); [now apply stored_iff|exact unit_0|exact unit_1].
    - apply Dc. lia. }
  exists g'. split; auto. destruct (Goal2_Proofs.limit_spec _ _ _ _ R H) as (_ & B & _ & C1 & C2). constructor; [eapply gr_limit; eauto|lia|lia|].
  intros x Hx. destruct (B x Hx) as (e & He & (E1 & E2 & E3 & E4 & _) & _). eapply entryOk_same; eauto.
Qed.
Lemma believed_in : forall m a b, wfP m -> believed m a b -> (a < length (cells m))%nat /\ b = rd (cells m) a.
Proof. intros m a b W (-> & t & c & Hc & Ha). split; auto. apply in_app_iff in Ha. eapply W; eauto. Qed.
Definition cellsOk (tab : list Z) (m : pmem) : Prop := pOk m /\ forall s, In s (cells m) -> beliefOk tab s /\ small s.
Lemma cell_ok : forall tab m a, cellsOk tab m -> (a < length (cells m))%nat -> beliefOk tab (rd (cells m) a) /\ small (rd (cells m) a).
Proof. intros tab m a (_ & H) L. apply H. unfold rd. now apply nth_In. Qed.
Lemma counts_tv : forall s, okCounts s -> small s -> exists v, retTv s = Some v /\ tvInRange v.
Proof. intros s (p & c & E & B & L) S. exists (evidenceTv (CNT p c)). unfold retTv. rewrite E. split; auto. apply cnt_range; auto. split; auto. eapply S; eauto. Qed.
Lemma cell_tv : forall tab m a, cellsOk tab m -> (a < length (cells m))%nat -> exists v, retTv (rd (cells m) a) = Some v /\ tvInRange v.
Proof. intros tab m a C L. destruct (cell_ok _ _ _ C L) as (B & S). apply counts_tv; auto. apply B. Qed.
Lemma believed_ok : forall tab m a b, cellsOk tab m -> believed m a b -> (a < length (cells m))%nat /\ b = rd (cells m) a /\ beliefOk tab b /\ exists v, retTv b = Some v /\ tvInRange v.
Proof.
  intros tab m a b C H. destruct (believed_in m a b (proj1 (proj1 C)) H) as (L & ->). split; auto. split; auto. split; [now apply cell_ok|eapply cell_tv; eauto].
Qed.
Lemma term_plan : forall tab s sq p, beliefOk tab s -> s_term s = Stmt PREDIMPL sq p -> plan_ sq /\ speakable sq.
Proof.
  intros tab s sq p [(c & pre & o & p' & T & O) B _ _ _ _] E. rewrite E in B. apply sp_stmt in B. split; [|apply B].
  rewrite E in T. injection T as -> _. exists (c :: pre), o. split; auto.
Qed.
Lemma step_range : forall tab m g ev c, cellsOk tab m -> goalStep (believed m) g ev c -> (exists v, retTv g = Some v /\ tvInRange v) ->
  (exists v, retTv c = Some v /\ tvInRange v) /\ forall a, ev = Some a -> eviOk (cells m) (s_term c) a.
Proof.
  intros tab m g ev c C H (v0 & V0 & R0). destruct H as [g x rest v c _ V (_ & _ & E & _)|g a b subj vg vb c _ B T _ Vg Vb (Tc & _ & E & _)].
  - split; [|discriminate]. exists v. unfold retTv at 1. rewrite E. split; auto. assert (v = v0) by congruence. now subst.
  - destruct (believed_ok _ _ _ _ C B) as (L & _ & Bo & w & Vw & Rw). split.
    + exists (dedGoal vg vb). unfold retTv at 1. rewrite E. split; auto. assert (vg = v0) by congruence. assert (vb = w) by congruence. subst. now apply dedGoal_range.
    + intros a' [= <-]. rewrite Tc. destruct (term_plan _ _ _ _ Bo T) as (P & S). split; auto.
Qed.
Lemma chain_range : forall tab m n g ev c, cellsOk tab m -> goalChain (believed m) n g ev c -> (exists v, retTv g = Some v /\ tvInRange v) ->
  (exists v, retTv c = Some v /\ tvInRange v) /\ forall a, ev = Some a -> eviOk (cells m) (s_term c) a.
Proof.
  intros tab m n g ev c C H V. induction H as [g ev c H|n g ev1 c1 ev c H IH S].
  - eapply step_range; eauto.
  - eapply step_range; eauto. now apply IH.
Qed.
Lemma gx_infer : forall tab m now g u r1 r2 rnd, cellsOk tab m -> goalsOk (cells m) now g ->
  exists g', sampleAndInference u g now m r1 r2 rnd = Ok g' /\ goalsOk (cells m) now g'.
Proof.
  intros tab m now g u r1 r2 rnd C [R D N A]. destruct (infer_total u g now m r1 r2 rnd R D) as (g' & H).
  { intros e He. destruct (A e He) as [A1 (v & V & _) _ _]. split; auto. congruence. }
  { intros a b B. destruct (believed_ok _ _ _ _ C B) as (_ & _ & _ & v & V & _). congruence. }
  exists g'. split; auto.
  assert (Cf : g_maxDepth g' = g_maxDepth g /\ g_maxEntries g' = g_maxEntries g).
  { apply (infer_ind (fun x => g_maxDepth x = g_maxDepth g /\ g_maxEntries x = g_maxEntries g)) in H; auto.
    intros x goal evi depth y (I1 & I2) Hy. apply addEntry_cases in Hy. destruct Hy as (_ & [[_ ->]|Hy]); auto. destruct (added_cfg _ _ _ Hy) as (C1 & C2 & _). split; congruence. }
  destruct Cf. constructor; [eapply gr_infer; eauto|lia|lia|]. intros x Hx. destruct (infer_sound _ _ _ _ _ _ _ _ _ H Hx) as [Hx0|(e & i & n & At & Ch & Dp & Cr)]; auto.
  assert (He : entryOk (cells m) now e) by (apply A; left; eauto). destruct He as [E1 E2 E3 E4].
  destruct (chain_range _ _ _ _ _ _ C Ch E2) as (V & Ev). constructor; auto; [lia|lia].
Qed.

(** * The state of the reasoner *)
Record nOk (n : pnar) : Prop := mkNOk {
  no_cells : cellsOk (n_table n) (n_mem n);
  no_goals : goalsOk (cells (n_mem n)) (n_t n) (n_goals n);
  no_ant : forall a, In a (n_ant n) -> (fst a < length (cells (n_mem n)))%nat;
  no_time : 0 <= n_t n;
  no_events : forall e, In e (n_trace n) -> 0 <= ev_evi e
}.
Definition texts (n : pnar) : Prop := forall e, In e (n_trace n) -> speakable (ev_name e).

Lemma rfold_total : forall A B (P : B -> Prop) (f : B -> A -> res B) l b, (forall b a, In a l -> P b -> exists b', f b a = Ok b' /\ P b') -> P b ->
  exists b', rfold f l b = Ok b' /\ P b'.
Proof.
  intros A B P f l. induction l as [|a l IH]; intros b H Hb; cbn [rfold]; [eauto|]. destruct (H b a) as (b1 & E & P1); [now left|auto|]. rewrite E. cbn [rbind].
  apply IH; auto. intros. apply H; auto. now right.
Qed.
Lemma best_total : forall n, nOk n -> exists b, bestByState n = Ok b.
Proof.
  intros n H. unfold bestByState. destruct (rfold_total nat (option best) (fun _ => True) (fun cur i =>
    match recent (n_trace n) i with
    | None => Ok cur
    | Some e =>
        do '(exp, r) <- selHighestExpGoalByState (n_goals n) (term_clone (ev_name e));
        Ok (match r with
            | Some (en, ut) => better cur (mkBest (term_clone ut) exp (e_evi en))
            | None => cur
            end)
    end) (seq 0 (c_window (n_cfg n))) None) as (b & E & _); eauto.
  intros b i _ _. destruct (recent _ _) as [e|]; [|eauto].
  destruct (proj2 (sel_total (n_goals n) (term_clone (ev_name e)))) as ([x r] & ->).
  { intros en ut St _. destruct (no_goals _ H) as [_ _ _ A]. destruct (A en St) as [_ (v & V & _) _ _]. congruence. }
  cbn [rbind]. eauto.
Qed.
Lemma idx_mod : forall A (l : list A) k, l <> [] -> exists x, idx l (Nat.modulo k (length l)) = Ok x /\ In x l.
Proof.
  intros A l k N. unfold idx. destruct (nth_error l (Nat.modulo k (length l))) as [x|] eqn:E.
  - exists x. split; auto. eapply nth_error_In; eauto.
  - apply nth_error_None in E. assert (length l <> 0%nat) by (destruct l; [congruence|discriminate]). pose proof (Nat.mod_upper_bound k (length l)). lia.
Qed.
Lemma antecedent_total : forall tab m q, cellsOk tab m -> exists l, query_by_antecedent q m = Ok l.
Proof.
  intros tab m q C. unfold query_by_antecedent. destruct (rfold_total nat (list nat) (fun _ => True) (fun acc a =>
    match s_term (rd (cells m) a) with
    | Stmt PREDIMPL (Seq sq) _ =>
        do c <- idx sq 0;
        Ok (if checkEqTerm q c then acc ++ [a] else acc)
    | _ => Ok acc
    end) (pBeliefs m [term_clone q]) []) as (b & E & _); eauto.
  intros b a Ha _. apply pBeliefs_wf in Ha; [|apply C]. destruct (cell_ok _ _ _ C Ha) as ([(c & pre & o & p & -> & _) _ _ _ _ _] & _). cbn [idx nth_error unwrap rbind]. eauto.
Qed.
(** the beliefs of a forward plan, the last one first *)
Lemma chain_total : forall tab m u l p ev v r, cellsOk tab m -> planChain m ev l p ->
  exists x, rfold (fun '(ctv, cterm, _) a =>
      do c <- infGoalBelief (newEternalSentenceByTv cterm GOAL ctv (newStamp [-1]) u) (rd (cells m) a) u;
      do concl <- unwrap c;
      do ctv' <- unwrap (retTv concl);
      do cterm' <- retSeqCond2 (s_term concl);
      Ok (ctv', cterm', Some (s_term concl))) (List.rev l) (v, p, r) = Ok x.
Proof.
  intros tab m u l p ev v r C H. revert v r. induction H as [|l p a rest p' H IH Ha T]; intros v r; [cbn; eauto|].
  rewrite rev_app_distr. cbn [List.rev app rfold]. apply pBeliefs_wf in Ha; [|apply C].
  destruct (cell_ok _ _ _ C Ha) as ([_ _ _ _ _ St] & _). destruct (cell_tv _ _ _ C Ha) as (vb & Vb & _).
  assert (O : checkOverlap (newStamp [-1]) (s_stamp (rd (cells m) a)) = false).
  { apply overlap_false. intros (i & [<-|[]] & Hi). apply St in Hi. lia. }
  assert (I : exists s st, infGoalBelief (newEternalSentenceByTv p' GOAL v (newStamp [-1]) u) (rd (cells m) a) u = Ok (Some (newEternalSentenceByTv (Seq (p :: rest)) GOAL s st u))).
  { unfold infGoalBelief. rewrite T. cbn [newEternalSentenceByTv s_term s_stamp]. rewrite (proj2 (checkEqTerm_eq _ _) eq_refl). cbn [negb].
    rewrite O, Vb. eexists. eexists. reflexivity. }
  destruct I as (s & st & I). rewrite I. cbn [rbind unwrap retTv s_evi evidenceTv newEternalSentenceByTv s_term retSeqCond2 idx nth_error]. apply IH.
Qed.
Lemma plan_total : forall tab n u ev k first p exec rs cur, cellsOk tab (n_mem n) -> goalsOk (cells (n_mem n)) (n_t n) (n_goals n) ->
  planChain (n_mem n) ev exec p -> exists r, plan k first n u p exec rs cur = Ok r.
Proof.
  intros tab n u ev k. induction k as [|k IH]; intros first p exec rs cur C G H; cbn [plan]; [eauto|].
  set (adv := do qr <- query_by_antecedent p (n_mem n);
        match qr with
        | [] => Ok cur
        | _ =>
            do sel <- idx qr (Nat.modulo (hd O rs) (length qr));
            do p <- retPred (s_term (rd (cells (n_mem n)) sel));
            plan k false n u p (exec ++ [sel]) (tl rs) cur
        end).
  assert (Adv : exists r, adv = Ok r).
  { unfold adv. destruct (antecedent_total _ _ p C) as (qr & Q). rewrite Q. cbn [rbind]. destruct qr as [|q0 qr]; [eauto|]. set (l := q0 :: qr) in *.
    destruct (idx_mod _ l (hd O rs)) as (sel & -> & Hs); [discriminate|]. cbn [rbind].
    apply (antecedent_spec _ _ _ Q) in Hs. destruct Hs as (Hin & rest & p1 & Ht). rewrite Ht. cbn [retPred rbind]. rewrite term_clone_id.
    apply IH; auto. eapply pl_more; eauto. }
  destruct first; auto. destruct (query (n_goals n) p) as [hit|] eqn:Q; auto. destruct exec as [|a l]; auto.
  assert (St : stored (n_goals n) hit).
  { pose proof (query_spec (n_goals n) p) as Qs. rewrite Q in Qs. destruct Qs as (Q1 & Q2).
    apply stored_iff. apply in_app_iff in Q1. destruct Q1 as [Q1|Q1]; auto. unfold retEntries. apply in_app_iff. auto. }
  destruct (go_all _ _ _ G hit St) as [_ (v & V & _) _ _].
  destruct (chainBack (n_mem n) u (e_sentence hit) p (a :: l)) as [[v' us]|] eqn:B.
  - cbn [rbind]. apply back_ok in B. destruct B as (v0 & sq & p0 & _ & _ & -> & B3).
    assert (La : (a < length (cells (n_mem n)))%nat).
    { assert (X : forall e y, planChain (n_mem n) ev e y -> forall a, In a e -> (a < length (cells (n_mem n)))%nat).
      { intros e y Hp. induction Hp as [|e y b rest z Hp IHp Hb _]; intros c Hc; [easy|]. apply in_app_iff in Hc. destruct Hc as [Hc|[<-|[]]]; auto. eapply pBeliefs_wf; eauto. apply C. }
      eapply X; [exact H|now left]. }
    destruct (cell_ok _ _ _ C La) as (Bo & _). destruct (term_plan _ _ _ _ Bo B3) as (_ & S). destruct (sp_text _ S) as (txt & ->). cbn [rbind]. eauto.
  - exfalso. unfold chainBack in B. rewrite V in B. cbn [unwrap rbind] in B. destruct (chain_total _ _ u _ _ _ v None C H) as ([[x1 x2] x3] & E). rewrite E in B. discriminate.
Qed.
Lemma forward_total : forall n u rs cur, nOk n -> exists r, planForward n u rs cur = Ok r.
Proof.
  intros n u rs cur H. unfold planForward. destruct (recent (n_trace n) 0) as [e|]; [|eauto]. rewrite term_clone_id.
  eapply plan_total; [apply (no_cells _ H)|apply (no_goals _ H)|constructor].
Qed.

(** every candidate decision can be carried out *)
Lemma subst_plan : forall t asg, plan_ t -> plan_ (unifySubst t asg).
Proof.
  intros t asg (pre & o & -> & O). rewrite subst_inst. cbn [inst]. rewrite map_app. cbn [map]. eexists. eexists. split; [reflexivity|]. now apply op_inst.
Qed.
Lemma last_in : forall w tr e, In e (lastEvents w tr) -> In e tr.
Proof. intros w tr e H. unfold lastEvents in H. rewrite <- (firstn_skipn (length tr - w) tr). apply in_app_iff. auto. Qed.
Definition bestOk (n : pnar) (b : best) : Prop := forall a, b_evi b = Some a -> (a < length (cells (n_mem n)))%nat /\ plan_ (b_seq b) /\ speakable (b_seq b).
Lemma candidate_ok : forall n b, nOk n -> texts n -> candidate n b -> bestOk n b.
Proof.
  intros n b H T Cd a Ea. destruct Cd as [e en ut v He St Ap V|tr e a0 l p hit v v' sq p0 _ Pc _ _ _ _ Tm _]; cbn [b_evi b_seq] in *.
  - destruct (go_all _ _ _ (no_goals _ H) en St) as [_ _ _ Ev]. destruct (Ev a Ea) as (L & S & Sh). split; auto.
    destruct Ap as (pre & opT & asg & Et & U & ->).
    assert (P : plan_ (e_term en)).
    { destruct Sh as [(args & name & _ & E)|P]; auto. congruence. }
    split; [now apply subst_plan|]. eapply sp_subst; eauto. apply T. eapply last_in; eauto.
  - assert (a0 = a) by congruence. subst a0. pose proof (no_cells _ H) as C.
    assert (L : (a < length (cells (n_mem n)))%nat).
    { assert (X : forall e0 y, planChain (n_mem n) (ev_name e) e0 y -> forall a, In a e0 -> (a < length (cells (n_mem n)))%nat).
      { intros e0 y Hp. induction Hp as [|e0 y b rest z Hp IHp Hb _]; intros c Hc; [easy|]. apply in_app_iff in Hc. destruct Hc as [Hc|[<-|[]]]; auto. eapply pBeliefs_wf; eauto. apply C. }
      eapply X; [exact Pc|now left]. }
    split; auto. destruct (cell_ok _ _ _ C L) as (Bo & _). eapply term_plan; eauto.
Qed.
Lemma op_sp : forall pre o, speakable (Seq (pre ++ [o])) -> speakable o.
Proof. intros pre o H. apply sp_seq in H. destruct H as (_ & H). apply Forall_app in H. destruct H as (_ & H). now inversion H. Qed.
Lemma op_decode : forall o, opTerm o -> exists args name, decodeOp o = Some (args, name).
Proof. intros o (args & name & N & E). exists args, name. apply decodeOp_some. split; auto. Qed.
Lemma cell_text : forall tab m a, cellsOk tab m -> (a < length (cells m))%nat -> sentenceText (rd (cells m) a) = Ok tt.
Proof.
  intros tab m a C L. destruct (cell_ok _ _ _ C L) as ([_ S P _ _ _] & _). destruct (cell_tv _ _ _ C L) as (v & V & _). unfold sentenceText.
  destruct (sp_text _ S) as (s & ->). cbn [rbind]. rewrite P, V. reflexivity.
Qed.
Lemma decide_total : forall n u b, nOk n -> (forall x, b = Some x -> bestOk n x) -> exists g, decide n true u b = Ok (setGoals n g) /\ goalsOk (cells (n_mem n)) (n_t n) g.
Proof.
  intros n u b H B. pose proof (no_goals _ H) as G. pose proof (no_cells _ H) as C.
  assert (Same : exists g, Ok n = Ok (setGoals n g) /\ goalsOk (cells (n_mem n)) (n_t n) g) by (exists (n_goals n); split; [now destruct n|auto]).
  unfold decide. destruct b as [[sq x [a|]]|]; auto. destruct (fgtb _ _); auto.
  destruct (B _ eq_refl a eq_refl) as (L & (pre & o & E & O) & S). cbn [b_seq] in *. subst sq. destruct (sp_text _ S) as (txt & ->). cbn [rbind is_seq enforce].
  unfold is_seqAndLastOp. rewrite seqLast_ok. cbn [rbind]. destruct (op_decode _ O) as (args & name & ->). cbn [enforce rbind].
  rewrite (cell_text _ _ _ C L). cbn [rbind]. pose proof (op_sp _ _ S) as So. destruct (sp_text _ So) as (txo & ->). cbn [rbind].
  destruct (cell_tv _ _ _ C L) as (v & V & R). rewrite V. cbn [unwrap rbind]. rewrite term_clone_id.
  destruct (gx_add (cells (n_mem n)) (n_t n) (n_goals n) (n_t n) (newEternalSentenceByTv o GOAL v (s_stamp (rd (cells (n_mem n)) a)) u) (Some a) 0 G) as (g & -> & G2); auto; try lia.
  - exists v. split; auto.
  - intros a' [= <-]. split; auto.
  - cbn [rbind]. eauto.
Qed.
Lemma pick_total : forall h now g th, goalsOk h now g -> exists r, pickGoal g th = Ok r.
Proof.
  intros h now g th G. unfold pickGoal. destruct (rfold_total entry _ (fun _ => True) (pickStep th) (g_active g) (f0, None, O)) as ([[x r] i] & -> & _); auto.
  - intros [[x r] i] e He _. unfold pickStep. destruct (is_desired e); [|eauto].
    destruct (go_all _ _ _ G e) as [_ (v & V & _) _ _]; [now right|]. rewrite V. cbn [unwrap rbind]. eauto.
  - cbn [rbind]. eauto.
Qed.
Lemma exec_total : forall n, nOk n -> exists n' p, execGoal n = Ok (n', p) /\ goalsOk (cells (n_mem n)) (n_t n) (n_goals n') /\
  n_mem n' = n_mem n /\ n_t n' = n_t n /\ n_table n' = n_table n /\ n_trace n' = n_trace n /\ n_ops n' = n_ops n /\ n_cfg n' = n_cfg n /\
  (forall a, In a (n_ant n') -> (fst a < length (cells (n_mem n)))%nat) /\ forall t, p = Some t -> opTerm t /\ speakable t.
Proof.
  intros n H. pose proof (no_goals _ H) as G. pose proof (no_cells _ H) as C. unfold execGoal.
  destruct (pick_total _ _ _ (c_thresh (n_cfg n)) G) as (r & E). rewrite E. cbn [rbind].
  assert (Same : exists n' p, Ok (n, None) = Ok (n', p) /\ goalsOk (cells (n_mem n)) (n_t n) (n_goals n') /\
    n_mem n' = n_mem n /\ n_t n' = n_t n /\ n_table n' = n_table n /\ n_trace n' = n_trace n /\ n_ops n' = n_ops n /\ n_cfg n' = n_cfg n /\
    (forall a, In a (n_ant n') -> (fst a < length (cells (n_mem n)))%nat) /\ forall t : term, p = Some t -> opTerm t /\ speakable t).
  { exists n, None. split; auto. split; auto. repeat (split; [reflexivity|]). split; [apply (no_ant _ H)|discriminate]. }
  destruct r as [[i e]|]; auto. destruct (e_evi e) as [a|] eqn:Ev; auto. destruct (decodeOp (s_term (e_sentence e))) as [[args name]|] eqn:D; auto.
  apply pick_spec in E. destruct E as (En & _). assert (St : stored (n_goals n) e) by (right; eapply nth_error_In; eauto).
  destruct (go_all _ _ _ G e St) as [_ _ _ Eo]. destruct (Eo a Ev) as (L & S & _).
  destruct (cell_ok _ _ _ C L) as ([_ _ _ _ (d & Ed & Rd) _] & _). rewrite Ed.
  assert (X : exists iv, idxZ (n_table n) d = Ok iv).
  { unfold idxZ. destruct (Z.ltb_spec d 0); [lia|]. unfold idx. destruct (nth_error (n_table n) (Z.to_nat d)) as [iv|] eqn:N; [cbn; eauto|].
    apply nth_error_None in N. lia. }
  destruct X as (iv & ->). cbn [rbind]. eexists. eexists. split; [reflexivity|].
  assert (Ge : goalsOk (cells (n_mem n)) (n_t n) (setActive (n_goals n) (remove_at i (g_active (n_goals n))))) by now apply gx_exec.
  destruct (c_anticipate (n_cfg n)); cbn [setAnt setGoals n_goals n_mem n_t n_table n_trace n_ops n_cfg n_ant]; (split; [exact Ge|]); repeat (split; [reflexivity|]);
    (split; [|intros t Et; injection Et as <-; rewrite term_clone_id; split; [apply decodeOp_some in D; exists args, name; apply D|exact S]]).
  - intros b Hb. apply in_app_iff in Hb. destruct Hb as [Hb|[<-|[]]]; [now apply (no_ant _ H)|exact L].
  - apply (no_ant _ H).
Qed.
Lemma call_sp : forall name, speakable (Stmt INH (SetExt [Prod [SetExt [Name "SELF"%string]]]) (Name name)).
Proof.
  intros name. apply sp_stmt. split; [|apply sp_name]. apply sp_setext. split; [discriminate|]. constructor; [|constructor].
  apply sp_prod. split; [discriminate|]. constructor; [|constructor]. apply sp_setext. split; [discriminate|]. constructor; [apply sp_name|constructor].
Qed.
Lemma babble_total : forall n k p, (forall t, p = Some t -> opTerm t /\ speakable t) -> exists p', babble n k p = Ok p' /\ forall t, p' = Some t -> opTerm t /\ speakable t.
Proof.
  intros n k p H. assert (X : exists p', babble n k p = Ok p').
  { unfold babble. destruct p as [t|]; [eauto|]. destruct (c_babble (n_cfg n)); cbn [andb]; [|eauto]. destruct (Nat.ltb_spec 0 (length (n_ops n))) as [L|L]; [|eauto].
    destruct (Nat.ltb_spec (Nat.modulo k (length (n_ops n) * 9)) (length (n_ops n))) as [L2|L2]; [|eauto].
    unfold idx. destruct (nth_error (n_ops n) _) as [o|] eqn:N; [cbn; eauto|]. apply nth_error_None in N.
    match type of N with (length ?l <= ?i)%nat => change (length (n_ops n) <= Nat.modulo k (length (n_ops n) * 9))%nat in N end. lia. }
  destruct X as (p' & E). exists p'. split; auto. apply babble_spec in E. destruct E as [->|(_ & _ & o & _ & _ & ->)]; auto.
  intros t [= <-]. split; [|apply call_sp]. eexists. eexists. split; [|reflexivity]. discriminate.
Qed.
Lemma action_total : forall n p, (forall t, p = Some t -> opTerm t /\ speakable t) -> exists tr, execAction n p = Ok (setTrace n tr).
Proof.
  intros n p H. unfold execAction. destruct p as [t|]; [|exists (n_trace n); now destruct n]. destruct (H t eq_refl) as (O & S).
  destruct (op_decode _ O) as (args & name & ->). cbn [unwrap rbind snd fst]. destruct (ret_op_by_name (n_ops n) name) as [o|]; [|exists (n_trace n); now destruct n].
  destruct (sp_text _ S) as (txt & ->). cbn [rbind]. eexists. reflexivity.
Qed.
Lemma storable_cells : forall tab m, cellsOk tab m -> allStorable (deref m).
Proof.
  intros tab m C t c b Hc Hb. unfold holds, deref in Hc. apply in_map_iff in Hc. destruct Hc as ([t' c'] & E & Hc). injection E as <- <-. cbn in Hb.
  apply in_map_iff in Hb. destruct Hb as (a & <- & Ha). assert (L : (a < length (cells m))%nat) by (eapply (proj1 (proj1 C)); eauto).
  destruct (cell_tv _ _ _ C L) as (v & V & R). exists (calcExp v). split; [exists v; auto|]. apply unit_nan. now apply calcExp_range.
Qed.
Lemma deref_ok : forall m, pOk m -> mapOk (deref m).
Proof.
  intros m (W & K & Nm & _). split; [now rewrite deref_mapOk_keys|]. intros t c H. unfold holds, deref in H. apply in_map_iff in H. destruct H as ([t' c'] & E & H).
  injection E as <- <-. cbn. eauto.
Qed.
Lemma plimit_total : forall tab m k, cellsOk tab m -> exists m', pLimit m k = Ok m' /\ cellsOk tab m' /\ cells m' = cells m.
Proof.
  intros tab m k C. pose proof (pLimit_refines m k (proj1 (proj1 C))) as R. destruct (pLimit m k) as [m'|] eqn:E.
  - destruct R as (_ & _ & R). exists m'. split; auto. split; auto. split; [eapply pLimit_ok; eauto; apply C|]. rewrite R. apply C.
  - exfalso. destruct (Mem_Proofs.limit_total (deref m) k) as (m' & Q); [apply deref_ok, C|eapply storable_cells; eauto|congruence].
Qed.

(** * The whole step *)
Lemma step1_ok : forall n r, nOk n -> texts n -> (forall z, 0 <= z -> unit64 (i_decay r z)) ->
  exists n', narStep1 n true r = Ok n' /\ cellsOk (n_table n') (n_mem n') /\ goalsOk (cells (n_mem n')) (n_t n') (n_goals n') /\
    (forall a, In a (n_ant n') -> (fst a < length (cells (n_mem n')))%nat).
Proof.
  intros n r H T Dc. unfold narStep1. destruct (best_total n H) as (b0 & E0). rewrite E0. cbn [rbind].
  destruct (forward_total n (i_u r) (i_plan r) b0 H) as (b1 & E1). rewrite E1. cbn [rbind].
  assert (B1 : forall x, b1 = Some x -> bestOk n x).
  { intros x ->. apply candidate_ok; auto. destruct (best_spec _ _ E0) as (G0 & C0). destruct (forward_spec _ _ _ _ _ E1 G0 C0) as (F & _). now apply F. }
  destruct (decide_total n (i_u r) b1 H B1) as (g & E & G). rewrite E. cbn [rbind]. clear E.
  assert (H1 : nOk (setGoals n g)) by (destruct H; constructor; auto). set (n1 := setGoals n g) in *.
  destruct (exec_total n1 H1) as (n2 & p & E & G2 & M2 & T2 & Tb2 & Tr2 & O2 & C2 & A2 & P2). rewrite E. cbn [rbind]. clear E.
  destruct (babble_total n2 (i_babble r) p P2) as (p' & E & P'). rewrite E. cbn [rbind]. clear E.
  destruct (action_total n2 p' P') as (tr & E). rewrite E. cbn [rbind]. clear E.
  set (n4 := setTrace (setTrace n2 tr) (traceLimit (n_trace (setTrace n2 tr)))).
  assert (F4 : n_mem n4 = n_mem n /\ n_t n4 = n_t n /\ n_table n4 = n_table n /\ n_cfg n4 = n_cfg n /\ n_goals n4 = n_goals n2 /\ n_ant n4 = n_ant n2) by (cbn; repeat split; auto).
  destruct F4 as (F4m & F4t & F4b & F4c & F4g & F4a).
  assert (X : exists n5, (if Z.rem (n_t n4) 101 =? 1 then do m <- pLimit (n_mem n4) (c_nConcepts (n_cfg n4)); Ok (setMem n4 m) else Ok n4) = Ok n5 /\
    cellsOk (n_table n) (n_mem n5) /\ cells (n_mem n5) = cells (n_mem n) /\ n_t n5 = n_t n /\ n_table n5 = n_table n /\ n_goals n5 = n_goals n2 /\ n_ant n5 = n_ant n2).
  { destruct (Z.rem (n_t n4) 101 =? 1).
    - rewrite F4m. destruct (plimit_total (n_table n) (n_mem n) (c_nConcepts (n_cfg n4)) (no_cells _ H)) as (m & -> & Cm & Q). cbn [rbind]. eexists. split; [reflexivity|].
      cbn [setMem n_mem n_t n_table n_goals n_ant]. split; [exact Cm|]. auto.
    - eexists. split; [reflexivity|]. rewrite F4m. split; [exact (no_cells _ H)|]. auto. }
  destruct X as (n5 & -> & C5 & Q5 & T5 & Tb5 & G5 & A5). cbn [rbind].
  assert (GO5 : goalsOk (cells (n_mem n5)) (n_t n5) (n_goals n5)) by (rewrite Q5, T5, G5; exact G2).
  assert (X : exists n6, (if Z.rem (n_t n5) 13 =? 1 then
              do _ <- enforce true; do g <- limitGoals (i_decay r) (n_goals n5) (n_t n5); Ok (setGoals n5 g) else Ok n5) = Ok n6 /\
    n_mem n6 = n_mem n5 /\ n_t n6 = n_t n5 /\ n_table n6 = n_table n5 /\ n_ant n6 = n_ant n5 /\ goalsOk (cells (n_mem n5)) (n_t n5) (n_goals n6)).
  { destruct (Z.rem (n_t n5) 13 =? 1); [|eexists; split; [reflexivity|auto]]. cbn [enforce rbind].
    destruct (gx_limit _ _ _ (i_decay r) (n_t n5) GO5) as (g6 & -> & G6); auto; [lia|]. cbn [rbind]. eexists. split; [reflexivity|]. cbn. auto. }
  destruct X as (n6 & -> & M6 & T6 & Tb6 & A6 & G6). cbn [rbind].
  destruct (rfold_total _ gsys (fun g => goalsOk (cells (n_mem n6)) (n_t n6) g)
    (fun g d => do _ <- enforce true; sampleAndInference (i_u r) g (n_t n6) (n_mem n6) (fst (fst d)) (snd (fst d)) (snd d)) (i_derive r) (n_goals n6)) as (g7 & -> & G7).
  - intros gg d _ Hg. cbn [enforce rbind]. eapply gx_infer; eauto. rewrite M6. exact C5.
  - rewrite M6, T6. exact G6.
  - cbn [rbind]. eexists. split; [reflexivity|]. cbn [setTime setGoals n_table n_mem n_t n_goals n_ant]. rewrite Tb6, Tb5, M6, A6, A5, T6, T5.
    split; [exact C5|]. split; [|rewrite Q5; exact A2]. rewrite M6, T6, T5 in G7. eapply goalsOk_more; [| |exact G7]; [lia|lia].
Qed.
