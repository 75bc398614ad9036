(** Decision making and execution. *)
From Coq Require Import String ZArith Bool Lia List Sorted Permutation.
From Verif Require Import Base F64_Model Sort_Proofs Term_Model Term_Spec Term_Proofs Unify_Model Stamp_Model Stamp_Proofs Tv_Model Sentence_Model Mem_Model Mem_Proofs PMem_Model PMem_Proofs PMem2_Proofs
  Goal_Model Goal_Spec Goal_Proofs Goal2_Proofs Goal3_Proofs Goal4_Proofs Run_Proofs Proc_Model Proc_Spec ProcA_Proofs ProcP_Proofs ProcB_Proofs.
Import ListNotations.
Local Open Scope list_scope.
Local Open Scope Z_scope.

(** * Choice of an operation *)
Definition pickInv (thresh : f64) (done : list entry) (st : f64 * option (nat * entry) * nat) : Prop :=
  let '(x, r, i) := st in
  i = length done /\
  (forall e y, In e done -> eligible thresh e y -> fltb x y = false) /\
  match r with
  | None => x = f0
  | Some (k, e) => nth_error done k = Some e /\ eligible thresh e x /\ (forall j e' y, (j < k)%nat -> nth_error done j = Some e' -> eligible thresh e' y -> fltb y x = true)
  end.
Lemma pickStep_inv : forall th done st e st', pickInv th done st -> pickStep th st e = Ok st' -> pickInv th (done ++ [e]) st'.
Proof.
  intros th done [[x r] i] e st' (Hi & A & B) H. unfold pickStep in H.
  assert (Skip : st' = (x, r, S i) -> (forall y, eligible th e y -> fltb x y = false) -> pickInv th (done ++ [e]) st').
  { intros -> N. split; [rewrite app_length; simpl; lia|]. split.
    - intros e' y He Hy. apply in_app_iff in He. destruct He as [He|[<-|[]]]; eauto.
    - destruct r as [[k e0]|]; auto. destruct B as (B1 & B2 & B3). assert (k < length done)%nat by (apply nth_error_Some; congruence).
      split; [now rewrite nth_error_app1|]. split; auto. intros j e' y Hj Hn. rewrite nth_error_app1 in Hn by lia. eauto. }
  destruct (is_desired e) eqn:D.
  2:{ apply Skip; [congruence|]. intros y (Q & _). congruence. }
  destruct (retTv (e_sentence e)) as [v|] eqn:V; [|discriminate]. cbn [unwrap rbind] in H.
  destruct (fgtb (calcExp v) x) eqn:G1; cbn [andb] in H.
  2:{ apply Skip; [congruence|]. intros y (_ & (v' & E & ->) & _). assert (v' = v) by congruence. subst. now rewrite fgtb_flip in G1. }
  destruct (fgtb (calcExp v) th) eqn:G2.
  2:{ apply Skip; [congruence|]. intros y (_ & (v' & E & ->) & _ & Q). assert (v' = v) by congruence. subst. rewrite fgtb_flip in G2. congruence. }
  rewrite fgtb_flip in G1, G2. assert (E : st' = (calcExp v, Some (i, e), S i)) by congruence. subst st'.
  assert (X0 : fltb f0 (calcExp v) = true).
  { destruct r as [[k e0]|]; [|now subst x]. destruct B as (_ & (_ & _ & B & _) & _). eapply fltb_trans'; eauto. }
  split; [rewrite app_length; simpl; lia|]. split.
  - intros e' y He Hy. apply in_app_iff in He. destruct He as [He|[<-|[]]].
    + destruct (fltb (calcExp v) y) eqn:F; auto. assert (W := A e' y He Hy). rewrite (fltb_trans' _ _ _ G1 F) in W. discriminate.
    + destruct Hy as (_ & (v' & E & ->) & _). assert (v' = v) by congruence. subst. apply fltb_irrefl.
  - split; [subst i; rewrite nth_error_app2, Nat.sub_diag by lia; reflexivity|]. split.
    + split; auto. split; [eauto|]. auto.
    + intros j e' y Hj Hn Hy. rewrite nth_error_app1 in Hn by lia. apply nth_error_In in Hn. assert (W := A e' y Hn Hy).
      eapply fleb_ltb_trans; [|exact G1]. destruct Hy as (_ & _ & Y & _). 
      rewrite fleb_not_lt; [now rewrite W|exact (proj2 (fltb_nan_l _ _ Y))|exact (proj1 (fltb_nan_l _ _ G1))].
Qed.
Lemma pick_fold : forall th l done st st', rfold (pickStep th) l st = Ok st' -> pickInv th done st -> pickInv th (done ++ l) st'.
Proof.
  induction l as [|e l IH]; intros done st st' H I; cbn [rfold] in H.
  - rewrite app_nil_r. congruence.
  - destruct (pickStep th st e) as [st1|] eqn:E; [|discriminate]. cbn [rbind] in H.
    replace (done ++ e :: l) with ((done ++ [e]) ++ l) by now rewrite <- app_assoc. eapply IH; eauto. eapply pickStep_inv; eauto.
Qed.
Theorem pick_spec : forall g th r, pickGoal g th = Ok r ->
  match r with
  | None => forall e y, In e (g_active g) -> ~ eligible th e y
  | Some (k, e) => nth_error (g_active g) k = Some e /\ exists x, eligible th e x /\
      (forall e' y, In e' (g_active g) -> eligible th e' y -> fltb x y = false) /\
      (forall j e' y, (j < k)%nat -> nth_error (g_active g) j = Some e' -> eligible th e' y -> fltb y x = true)
  end.
Proof.
  intros g th r H. unfold pickGoal in H. destruct (rfold (pickStep th) (g_active g) (f0, None, O)) as [[[x r'] i]|] eqn:E; [|discriminate].
  cbn [rbind] in H. assert (r' = r) by congruence. subst r'. apply (pick_fold _ _ []) in E.
  2:{ split; auto. split; [intros e y []|reflexivity]. }
  destruct E as (_ & A & B). cbn [app] in A, B. destruct r as [[k e]|].
  - destruct B as (B1 & B2 & B3). split; auto. exists x. auto.
  - subst x. intros e y He Hy. assert (W := A _ _ He Hy). destruct Hy as (_ & _ & Hy & _). congruence.
Qed.

(** * Execution of an operation goal *)
Lemma remove_at_spec : forall A (l : list A) k e, nth_error l k = Some e -> exists pre post, l = pre ++ e :: post /\ length pre = k /\ remove_at k l = pre ++ post.
Proof.
  intros A l k e H. destruct (nth_error_split l k H) as (pre & post & -> & Hk). exists pre, post. split; auto. split; auto.
  subst k. induction pre as [|x pre IH]; simpl; auto. f_equal. apply IH. now rewrite nth_error_app2, Nat.sub_diag by lia.
Qed.
Theorem exec_spec : forall n n' p, execGoal n = Ok (n', p) ->
  match p with
  | None => n' = n
  | Some t => exists pre e post x a iv,
      g_active (n_goals n) = pre ++ e :: post /\ eligible (c_thresh (n_cfg n)) e x /\
      (forall e' y, In e' (g_active (n_goals n)) -> eligible (c_thresh (n_cfg n)) e' y -> fltb x y = false) /\
      t = e_term e /\ opTerm t /\ e_evi e = Some a /\
      nth_error (n_table n) (Z.to_nat (match s_expDt (rd (cells (n_mem n)) a) with Some d => d | None => 0 end)) = Some iv /\
      n' = setAnt (setGoals n (setActive (n_goals n) (pre ++ post)))
             (n_ant n ++ if c_anticipate (n_cfg n) then [(a, n_t n + iv)] else [])
  end.
Proof.
  intros n n' p H. unfold execGoal in H. destruct (pickGoal (n_goals n) (c_thresh (n_cfg n))) as [r|] eqn:E; [|discriminate]. cbn [rbind] in H.
  apply pick_spec in E. destruct r as [[k e]|].
  2:{ assert (n' = n /\ p = None) as [-> ->] by (split; congruence). reflexivity. }
  destruct E as (E1 & x & E2 & E3 & E4).
  destruct (e_evi e) as [a|] eqn:Ev.
  2:{ assert (n' = n /\ p = None) as [-> ->] by (split; congruence). reflexivity. }
  destruct (decodeOp (s_term (e_sentence e))) as [[args name]|] eqn:D.
  2:{ assert (n' = n /\ p = None) as [-> ->] by (split; congruence). reflexivity. }
  destruct (remove_at_spec _ _ _ _ E1) as (pre & post & P1 & P2 & P3).
  destruct (idxZ (n_table n) _) as [iv|] eqn:I; [|discriminate]. cbn [rbind] in H. rewrite term_clone_id in H. rewrite P3 in H.
  assert (p = Some (s_term (e_sentence e))) by congruence. subst p.
  exists pre, e, post, x, a, iv. split; auto. split; auto. split; auto. split; auto. split; [exists args, name; now apply decodeOp_some in D|].
  split; auto. split.
  - unfold idxZ in I. destruct (_ <? 0); [discriminate|]. unfold idx in I. match type of I with unwrap ?o = _ => change (o = Some iv) end.
    match type of I with unwrap ?o = _ => destruct o; [|discriminate] end. cbn in I. congruence.
  - destruct (c_anticipate (n_cfg n)); rewrite ?app_nil_r; injection H as <-; reflexivity.
Qed.

(** * The best candidate *)
Definition stateInv (n : pnar) (seen : event -> Prop) (cur : option best) : Prop :=
  (forall e en ut v, seen e -> stored (n_goals n) en -> applies (ev_name e) en ut -> retTv (e_sentence en) = Some v ->
     fltb (match cur with Some x => b_exp x | None => f0 end) (calcExp v) = false) /\
  match cur with
  | None => True
  | Some b => fltb f0 (b_exp b) = true /\ exists e en ut v, seen e /\ stored (n_goals n) en /\ applies (ev_name e) en ut /\ retTv (e_sentence en) = Some v /\ b = mkBest ut (calcExp v) (e_evi en)
  end.
Lemma best_fold : forall n l sn cur r,
  rfold (fun cur i =>
    match recent (n_trace n) i with
    | None => Ok cur
    | Some e =>
        do '(exp, r) <- selHighestExpGoalByState (n_goals n) (term_clone (ev_name e));
        Ok (match r with
            | Some (en, ut) => better cur (mkBest (term_clone ut) exp (e_evi en))
            | None => cur
            end)
    end) l cur = Ok r ->
  stateInv n sn cur -> stateInv n (fun e => sn e \/ exists i, In i l /\ recent (n_trace n) i = Some e) r.
Proof.
  intros n. induction l as [|i l IH]; intros sn cur r H (A & B); cbn [rfold] in H.
  - assert (cur = r) by congruence. subst r. split.
    + intros e en ut v [S|(j & [] & _)]; eauto.
    + destruct cur as [b|]; auto. destruct B as (B0 & e & en & ut & v & B). split; auto. exists e, en, ut, v. tauto.
  - destruct (recent (n_trace n) i) as [e0|] eqn:R.
    2:{ cbn [rbind] in H. apply (IH sn) in H; [|split; auto]. destruct H as (A' & B'). split.
        - intros e en ut v [Hs|(j & [<-|Hj] & Hr)]; [|congruence|]; eauto.
        - destruct r as [b|]; auto. destruct B' as (B0 & e & en & ut & v & B1 & B'). split; auto. exists e, en, ut, v. split; auto.
          destruct B1 as [B1|(j & Hj & Hr)]; auto. right. exists j. split; [now right|auto]. }
    destruct (selHighestExpGoalByState (n_goals n) (term_clone (ev_name e0))) as [[x rr]|] eqn:Sel; [|discriminate]. cbn [rbind] in H.
    rewrite term_clone_id in Sel. apply sel_spec in Sel. destruct Sel as (S1 & S2).
    set (cur1 := match rr with Some (en, ut) => better cur (mkBest (term_clone ut) x (e_evi en)) | None => cur end) in *.
    assert (I1 : stateInv n (fun e => sn e \/ e = e0) cur1).
    { destruct rr as [[en0 ut0]|]; subst cur1.
      - rewrite term_clone_id. destruct S2 as (Q1 & Q2 & Q3 & v0 & Q4 & Q5).
        assert (New : stateInv n (fun e => sn e \/ e = e0) (Some (mkBest ut0 x (e_evi en0))) \/ better cur (mkBest ut0 x (e_evi en0)) = cur /\ exists c, cur = Some c /\ fltb (b_exp c) x = false).
        { unfold better. cbn [b_exp]. destruct cur as [c|].
          - destruct B as (B0 & B). rewrite fgtb_flip. destruct (fltb (b_exp c) x) eqn:F; [left|right; eauto].
            split.
            + intros e en ut v [Hs| ->] St Ap Tv.
              * destruct (fltb x (calcExp v)) eqn:F2; auto. assert (W := A e en ut v Hs St Ap Tv). cbv beta iota in W. rewrite (fltb_trans' _ _ _ F F2) in W. discriminate.
              * eapply S1; eauto.
            + split; auto. exists e0, en0, ut0, v0. repeat split; auto. now rewrite Q5.
          - left. split.
            + intros e en ut v [Hs| ->] St Ap Tv; [|eapply S1; eauto]. cbn [b_exp]. destruct (fltb x (calcExp v)) eqn:F2; auto.
              assert (W := A e en ut v Hs St Ap Tv). cbv beta iota in W. rewrite (fltb_trans' _ _ _ Q3 F2) in W. discriminate.
            + split; auto. exists e0, en0, ut0, v0. repeat split; auto. now rewrite Q5. }
        destruct New as [New|(-> & c & -> & F)].
        + unfold better. destruct cur as [c|]; auto. destruct (fgtb _ _) eqn:G; auto.
          rewrite fgtb_flip in G. cbn [b_exp] in G. split.
          * intros e en ut v [Hs| ->] St Ap Tv; [eapply A; eauto|]. destruct (fltb (b_exp c) (calcExp v)) eqn:F2; auto.
            assert (W := S1 _ _ _ St Ap Tv).
            assert (fleb (calcExp v) x = true).
            { rewrite fleb_not_lt; [now rewrite W|exact (proj2 (fltb_nan_l _ _ F2))|exact (proj2 (fltb_nan_l _ _ Q3))]. }
            rewrite (fltb_leb_trans _ _ _ F2 H0) in G. discriminate.
          * destruct B as (B0 & e & en & ut & v & B). split; auto. exists e, en, ut, v. tauto.
        + split.
          * intros e en ut v [Hs| ->] St Ap Tv; [eapply A; eauto|]. destruct (fltb (b_exp c) (calcExp v)) eqn:F2; auto.
            assert (W := S1 _ _ _ St Ap Tv).
            assert (fleb (calcExp v) x = true).
            { rewrite fleb_not_lt; [now rewrite W|exact (proj2 (fltb_nan_l _ _ F2))|exact (proj2 (fltb_nan_l _ _ Q3))]. }
            rewrite (fltb_leb_trans _ _ _ F2 H0) in F. discriminate.
          * destruct B as (B0 & e & en & ut & v & B). split; auto. exists e, en, ut, v. tauto.
      - subst x. split.
        + intros e en ut v [Hs| ->] St Ap Tv; [eapply A; eauto|]. assert (W := S1 _ _ _ St Ap Tv). destruct cur as [c|]; auto.
          destruct (fltb (b_exp c) (calcExp v)) eqn:F2; auto. destruct B as (B0 & _). rewrite (fltb_trans' _ _ _ B0 F2) in W. discriminate.
        + destruct cur as [c|]; auto. destruct B as (B0 & e & en & ut & v & B). split; auto. exists e, en, ut, v. tauto. }
    apply (IH _ _ _ H) in I1. destruct I1 as (A' & B'). split.
    + intros e en ut v [Hs|(j & [<-|Hj] & Hr)] St Ap Tv.
      * exact (A' e en ut v (or_introl (or_introl Hs)) St Ap Tv).
      * assert (e = e0) by congruence. exact (A' e en ut v (or_introl (or_intror H0)) St Ap Tv).
      * exact (A' e en ut v (or_intror (ex_intro _ j (conj Hj Hr))) St Ap Tv).
    + destruct r as [b|]; auto. destruct B' as (B0 & e & en & ut & v & B1 & B'). split; auto. exists e, en, ut, v. split; auto.
      destruct B1 as [[B1| ->]|(j & Hj & Hr)]; auto.
      * right. exists i. split; [now left|auto].
      * right. exists j. split; [now right|auto].
Qed.
Theorem best_spec : forall n r, bestByState n = Ok r ->
  asGoodAsGoals n r /\ forall b, r = Some b -> candidate n b /\ fltb f0 (b_exp b) = true.
Proof.
  intros n r H. unfold bestByState in H. apply (best_fold _ _ (fun _ => False)) in H.
  2:{ split; auto. intros; contradiction. }
  destruct H as (A & B).
  assert (Q : forall e, In e (lastEvents (c_window (n_cfg n)) (n_trace n)) <-> (False \/ exists i, In i (seq 0 (c_window (n_cfg n))) /\ recent (n_trace n) i = Some e)).
  { intros e. rewrite <- recent_last. split.
    - intros (i & Hi & Hr). right. exists i. split; auto. apply in_seq. lia.
    - intros [[]|(i & Hi & Hr)]. exists i. split; auto. apply in_seq in Hi. lia. }
  split.
  - intros e en ut v He. apply Q in He. eauto.
  - intros b ->. destruct B as (B0 & e & en & ut & v & B1 & B2 & B3 & B4 & ->). split; auto. apply Q in B1. econstructor; eauto.
Qed.

(** * Forward planning *)
Lemma carried_snoc : forall m v l v1 a vb, carriedBack m v l v1 -> retTv (rd (cells m) a) = Some vb -> carriedBack m v (l ++ [a]) (dedGoal v1 vb).
Proof.
  intros m v l v1 a vb H. induction H; intros T; cbn [app].
  - eapply cb_cons; eauto. constructor.
  - eapply cb_cons; eauto.
Qed.
Lemma chain_fold : forall m u l v0 ctv cterm r vf tf rf done,
  rfold (fun '(ctv, cterm, _) a =>
      do c <- infGoalBelief (newEternalSentenceByTv cterm GOAL ctv (newStamp [-1]) u) (rd (cells m) a) u;
      do concl <- unwrap c;
      do ctv' <- unwrap (retTv concl);
      do cterm' <- retSeqCond2 (s_term concl);
      Ok (ctv', cterm', Some (s_term concl))) l (ctv, cterm, r) = Ok (vf, tf, rf) ->
  carriedBack m v0 done ctv ->
  carriedBack m v0 (done ++ l) vf /\
  (l = [] -> rf = r) /\ (forall l' a, l = l' ++ [a] -> exists sq p, rf = Some sq /\ s_term (rd (cells m) a) = Stmt PREDIMPL sq p).
Proof.
  intros m u. induction l as [|a l IH]; intros v0 ctv cterm r vf tf rf done H C; cbn [rfold] in H.
  - assert (vf = ctv /\ rf = r) as [-> ->] by (split; congruence). rewrite app_nil_r. split; auto. split; auto. intros l' a E. now destruct l'.
  - pose proof (belief_spec (newEternalSentenceByTv cterm GOAL ctv (newStamp [-1]) u) (rd (cells m) a) u) as Bs.
    destruct (infGoalBelief _ _ u) as [[c|]|]; cbn [rbind unwrap] in H; try discriminate.
    destruct Bs as (subj & vg & vb & B1 & _ & B3 & B4 & (B5 & _ & B6 & _)). 
    assert (vg = ctv) by (cbn in B3; congruence). subst vg.
    assert (Rt : retTv c = Some (dedGoal ctv vb)) by (unfold retTv; now rewrite B6). rewrite Rt in H. cbn [rbind unwrap] in H.
    destruct (retSeqCond2 (s_term c)) as [ct'|]; [|discriminate]. cbn [rbind] in H.
    apply (IH v0 _ _ _ _ _ _ (done ++ [a])) in H; [|now apply carried_snoc]. destruct H as (H1 & H2 & H3). rewrite <- app_assoc in H1. split; auto.
    split; [discriminate|]. intros l' a' E. destruct l as [|x l].
    + destruct l' as [|y l']; [|destruct l'; discriminate]. cbn [app] in E. assert (a' = a) by congruence. subst a'. rewrite (H2 eq_refl). exists subj, cterm.
      split; [congruence|]. now rewrite B1.
    + destruct l' as [|y l']; [discriminate|]. cbn [app] in E. injection E as -> E. eauto.
Qed.
Lemma back_ok : forall m u hit p a l vf r, chainBack m u hit p (a :: l) = Ok (vf, r) ->
  exists v sq p0, retTv hit = Some v /\ carriedBack m v (List.rev (a :: l)) vf /\ r = Some sq /\ s_term (rd (cells m) a) = Stmt PREDIMPL sq p0.
Proof.
  intros m u hit p a l vf r H. unfold chainBack in H. destruct (retTv hit) as [v|]; [|discriminate]. cbn [unwrap rbind] in H.
  destruct (rfold _ (List.rev (a :: l)) (v, p, None)) as [[[vf' tf] rf]|] eqn:E; [|discriminate]. cbn [rbind] in H.
  assert (vf' = vf /\ rf = r) as [-> ->] by (split; congruence).
  apply (chain_fold _ _ _ v _ _ _ _ _ _ []) in E; [|constructor]. destruct E as (E1 & _ & E3).
  destruct (E3 (List.rev l) a) as (sq & p0 & -> & Q); [reflexivity|]. exists v, sq, p0. auto.
Qed.
Definition planned (n : pnar) (ev : term) (k : nat) (b : best) : Prop :=
  exists a l p hit v v' sq p0, planChain (n_mem n) ev (a :: l) p /\ stored (n_goals n) hit /\ e_term hit = p /\ retTv (e_sentence hit) = Some v /\
    carriedBack (n_mem n) v (List.rev (a :: l)) v' /\ s_term (rd (cells (n_mem n)) a) = Stmt PREDIMPL sq p0 /\ (length l < k)%nat /\
    b = mkBest sq (calcExp v') (Some a).
Lemma better_cases : forall cur b, better cur b = cur \/ (better cur b = Some b /\ forall c, cur = Some c -> fltb (b_exp c) (b_exp b) = true).
Proof.
  intros [c|] b; unfold better.
  - rewrite fgtb_flip. destruct (fltb (b_exp c) (b_exp b)) eqn:F; auto. right. split; auto. intros c' E. congruence.
  - right. split; auto. intros c E. discriminate.
Qed.
Lemma plan_spec : forall n u ev k first p exec rs cur r, plan k first n u p exec rs cur = Ok r ->
  planChain (n_mem n) ev exec p ->
  r = cur \/ exists b, r = Some b /\ planned n ev (length exec + k - 1) b /\ forall c, cur = Some c -> fltb (b_exp c) (b_exp b) = true.
Proof.
  intros n u ev. induction k as [|k IH]; intros first p exec rs cur r H C; cbn [plan] in H; [left; congruence|].
  match type of H with (if first then ?adv else _) = _ => assert (Adv : adv = Ok r -> 
    r = cur \/ exists b, r = Some b /\ planned n ev (length exec + S k - 1) b /\ forall c, cur = Some c -> fltb (b_exp c) (b_exp b) = true) end.
  { intros A. destruct (query_by_antecedent p (n_mem n)) as [qr|] eqn:Q; [|discriminate]. cbn [rbind] in A.
    destruct qr as [|q0 qr]; [left; congruence|]. set (l := q0 :: qr) in *.
    destruct (idx l _) as [sel|] eqn:Ix; [|discriminate]. cbn [rbind] in A.
    destruct (retPred _) as [p'|] eqn:Rp; [|discriminate]. cbn [rbind] in A.
    assert (In sel l) by (unfold idx in Ix; match type of Ix with unwrap ?o = _ => destruct o eqn:N; [|discriminate] end; apply nth_error_In in N; cbn in Ix; congruence).
    apply (antecedent_spec _ _ _ Q) in H0. destruct H0 as (Hin & rest & p1 & Ht).
    rewrite Ht in Rp. cbn [retPred] in Rp. rewrite term_clone_id in Rp. assert (p1 = p') by congruence. subst p1.
    apply IH in A.
    - rewrite app_length in A. cbn [length] in A. destruct A as [A|(b & A1 & A2 & A3)]; auto. right. exists b. split; auto. split; auto.
      replace (length exec + S k - 1)%nat with (length exec + 1 + k - 1)%nat by lia. auto.
    - eapply pl_more; eauto. }
  destruct first; auto. destruct (query (n_goals n) p) as [hit|] eqn:Q; auto. destruct exec as [|a l]; auto.
  destruct (chainBack (n_mem n) u (e_sentence hit) p (a :: l)) as [[v us]|] eqn:B; [|discriminate]. cbn [rbind] in H.
  apply back_ok in B. destruct B as (v0 & sq & p0 & B1 & B2 & -> & B3).
  destruct (convTermToStr sq); [|discriminate]. cbn [rbind] in H. assert (E : r = better cur (mkBest sq (calcExp v) (Some a))) by congruence. subst r.
  destruct (better_cases cur (mkBest sq (calcExp v) (Some a))) as [E|[E F]]; rewrite E; auto. right. eexists. split; [reflexivity|]. split; auto.
  pose proof (query_spec (n_goals n) p) as Qs. rewrite Q in Qs. destruct Qs as (Q1 & Q2).
  exists a, l, p, hit, v0, v, sq, p0. split; auto. split.
  { apply stored_iff. apply in_app_iff in Q1. destruct Q1 as [Q1|Q1]; auto. unfold retEntries. apply in_app_iff. auto. }
  split; auto. split; auto. split; auto. split; auto. split; auto. cbn [length]. lia.
Qed.
Theorem forward_spec : forall n u rs cur r, planForward n u rs cur = Ok r -> asGoodAsGoals n cur ->
  (forall b, cur = Some b -> candidate n b /\ fltb f0 (b_exp b) = true) ->
  (forall b, r = Some b -> candidate n b) /\ (forall c, cur = Some c -> exists b, r = Some b /\ asGoodAsGoals n r /\ (b = c \/ fltb (b_exp c) (b_exp b) = true)).
Proof.
  intros n u rs cur r H G Cc. unfold planForward in H.
  assert (Same : r = cur -> (forall b, r = Some b -> candidate n b) /\ (forall c, cur = Some c -> exists b, r = Some b /\ asGoodAsGoals n r /\ (b = c \/ fltb (b_exp c) (b_exp b) = true))).
  { intros ->. split; [intros b E; now apply Cc|]. intros c ->. eauto. }
  destruct (recent (n_trace n) 0) as [e|] eqn:R; [|apply Same; congruence].
  rewrite term_clone_id in H. apply (plan_spec _ _ (ev_name e)) in H; [|constructor]. destruct H as [H|(b & -> & P & L)]; auto.
  apply recent_some in R. destruct R as (pre & post & T & Lp). destruct post; [|discriminate].
  destruct P as (a & l & p & hit & v & v' & sq & p0 & P1 & P2 & P3 & P4 & P5 & P6 & P7 & ->). cbn in P7. split.
  - intros b E. injection E as <-. eapply cd_plan; eauto. lia.
  - intros c ->. eexists. split; [reflexivity|]. split; [|right; now apply L].
    assert (F := L c eq_refl). cbn [b_exp] in F. intros e1 en ut w He St Ap Tv. cbn [b_exp]. destruct (fltb (calcExp v') (calcExp w)) eqn:F2; auto.
    assert (W := G e1 en ut w He St Ap Tv). cbv beta iota in W. rewrite (fltb_trans' _ _ _ F F2) in W. discriminate.
Qed.

(** * The decision *)
Theorem decide_spec : forall n decl u b n', decide n decl u b = Ok n' ->
  match b with
  | Some (mkBest sq x (Some a)) =>
      if fltb (c_thresh (n_cfg n)) x then
        exists pre opT e, sq = Seq (pre ++ [opT]) /\ opTerm opT /\ decl = true /\ decisionGoal n a opT e /\
          (exists g, n' = setGoals n g) /\
          (forall y, In y (g_active (n_goals n')) -> In y (g_active (n_goals n)) \/ sameButAcc y e) /\
          (forall y, In y (g_active (n_goals n)) -> In y (g_active (n_goals n'))) /\
          (gReach (n_goals n) -> gReach (n_goals n') /\ exists y, In y (g_active (n_goals n')) /\ sameGoal y e)
      else n' = n
  | _ => n' = n
  end.
Proof.
  intros n decl u b n' H. unfold decide in H. destruct b as [[sq x [a|]]|]; try congruence.
  rewrite fgtb_flip in H. destruct (fltb (c_thresh (n_cfg n)) x); [|congruence].
  destruct (convTermToStr sq); [|discriminate]. cbn [rbind] in H. destruct sq as [|l| | | | | | | | | | | | |]; try discriminate. cbn [is_seq enforce rbind] in H.
  destruct (is_seqAndLastOp (Seq l)) as [[|]|] eqn:L; try discriminate. cbn [enforce rbind] in H.
  destruct (retSeqLast (Seq l)) as [opT|] eqn:Rl; [|discriminate]. cbn [rbind] in H.
  destruct (sentenceText _); [|discriminate]. cbn [rbind] in H. destruct (convTermToStr opT); [|discriminate]. cbn [rbind] in H.
  destruct (retTv (rd (cells (n_mem n)) a)) as [v|] eqn:V; [|discriminate]. cbn [unwrap rbind] in H.
  destruct decl; [|discriminate]. cbn [enforce rbind] in H. rewrite term_clone_id in H.
  destruct (addEntry _ _ _ _ _) as [g|] eqn:Ad; [|discriminate]. cbn [rbind] in H. assert (n' = setGoals n g) by congruence. subst n'.
  assert (Lop : exists pre, l = pre ++ [opT]).
  { destruct (@exists_last _ l) as (pre & z & ->); [intros ->; discriminate|]. exists pre. rewrite seqLast_ok in Rl. congruence. }
  destruct Lop as (pre & ->). assert (Op : opTerm opT).
  { cbn [is_seqAndLastOp] in L. rewrite Rl in L. cbn [rbind] in L. destruct (decodeOp opT) as [[args name]|] eqn:D; [|discriminate].
    apply decodeOp_some in D. exists args, name. exact D. }
  set (goal := newEternalSentenceByTv opT GOAL v (s_stamp (rd (cells (n_mem n)) a)) u) in *.
  exists pre, opT, (mkEntry goal (Some a) (n_t n) 0 f1 f1 f0). split; auto. split; auto. split; auto. split.
  { exists v. split; auto. split; [|cbn; auto]. unfold isGoal. cbn. auto. }
  split; [eauto|]. cbn [n_goals setGoals].
  assert (Th : gReach (n_goals n) -> gReach g /\ exists y, In y (g_active g) /\ sameGoal y (mkEntry goal (Some a) (n_t n) 0 f1 f1 f0)).
  { intros R. split; [eapply gr_add; eauto|]. destruct (add_there _ _ _ _ _ _ R Ad) as (y & Y1 & Y2 & Y3). exists y. split; [|split; auto].
    destruct Y1 as [(i & bt & gr & Y4 & Y5 & Y6)|Y1]; auto. exfalso.
    assert (Ok' : gOk g) by (apply reach_ok; eapply gr_add; eauto). destruct gr as [tt es].
    destruct (ok_groups _ Ok' _ _ _ _ Y4 Y5) as (_ & No & Al). destruct (Al _ Y6) as (<- & _). apply No. rewrite Y2. exact Op. }
  split; [|split; auto].
  - intros y Hy. apply addEntry_cases in Ad. destruct Ad as (_ & [[K ->]|Ad]); auto. apply addEntry2_as in Ad.
    destruct Ad; subst g; auto. cbn [setActive g_active] in Hy. apply in_app_iff in Hy. destruct Hy as [Hy|[<-|[]]]; auto. right. apply sameButAcc_refl.
  - intros y Hy. apply addEntry_cases in Ad. destruct Ad as (_ & [[K ->]|Ad]); auto. apply addEntry2_as in Ad.
    destruct Ad; subst g; auto. apply in_app_iff. auto.
Qed.

(** * Execution *)
Scheme performs_mut := Minimality for performs Sort Prop with performsAll_mut := Minimality for performsAll Sort Prop.
Lemma named_unique : forall ops name o o', firstNamed ops name o -> firstNamed ops name o' -> o = o'.
Proof. intros ops name o o' H H'. apply ret_op_some in H, H'. congruence. Qed.
Lemma call_unique : forall t a n a' n', opCall t a n -> opCall t a' n' -> a = a' /\ n = n'.
Proof. intros t a n a' n' (_ & ->) (_ & E). injection E as -> ->. auto. Qed.
(** only one outcome *)
Lemma performs_unique : forall ops t evs rels, performs ops t evs rels -> forall evs' rels', performs ops t evs' rels' -> evs' = evs /\ rels' = rels.
Proof.
  intros ops. apply (performs_mut ops (fun t evs rels => forall evs' rels', performs ops t evs' rels' -> evs' = evs /\ rels' = rels)
    (fun l evs rels => forall evs' rels', performsAll ops l evs' rels' -> evs' = evs /\ rels' = rels)).
  - intros t N evs' rels' H. inversion H; subst; auto; exfalso; eapply N; eauto.
  - intros t args name o C Fn K evs' rels' H. inversion H as [t0 N|t0 a0 n0 o0 C0 F0 K0|t0 a0 n0 o0 C0 F0 K0|t0 a0 n0 o0 C0 F0 K0 B0|t0 x0 sq0 inj0 n0 o0 e0 r0 C0 F0 K0 A0]; subst; auto;
      destruct (call_unique _ _ _ _ _ C C0) as (Ea & En); rewrite <- En in F0; rewrite <- (named_unique _ _ _ _ Fn F0) in K0; congruence.
  - intros t args name o C Fn K evs' rels' H. inversion H as [t0 N|t0 a0 n0 o0 C0 F0 K0|t0 a0 n0 o0 C0 F0 K0|t0 a0 n0 o0 C0 F0 K0 B0|t0 x0 sq0 inj0 n0 o0 e0 r0 C0 F0 K0 A0]; subst; [exfalso; eapply N; eauto| | | |];
      destruct (call_unique _ _ _ _ _ C C0) as (Ea & En); rewrite <- En in F0; rewrite <- (named_unique _ _ _ _ Fn F0) in K0; try congruence. subst. auto.
  - intros t args name o C Fn K B evs' rels' H. inversion H as [t0 N|t0 a0 n0 o0 C0 F0 K0|t0 a0 n0 o0 C0 F0 K0|t0 a0 n0 o0 C0 F0 K0 B0|t0 x0 sq0 inj0 n0 o0 e0 r0 C0 F0 K0 A0]; subst; auto;
      destruct (call_unique _ _ _ _ _ C C0) as (Ea & En); rewrite <- En in F0; rewrite <- (named_unique _ _ _ _ Fn F0) in K0; try congruence.
  - intros t x sq inj name o evs rels C Fn K A IH evs' rels' H. inversion H as [t0 N|t0 a0 n0 o0 C0 F0 K0|t0 a0 n0 o0 C0 F0 K0|t0 a0 n0 o0 C0 F0 K0 B0|t0 x0 sq0 inj0 n0 o0 e0 r0 C0 F0 K0 A0]; subst; [exfalso; eapply N; eauto| | | |];
      destruct (call_unique _ _ _ _ _ C C0) as (Ea & En); rewrite <- En in F0; rewrite <- (named_unique _ _ _ _ Fn F0) in K0; try congruence.
    injection Ea as _ <- <-. destruct (IH _ _ A0) as (-> & ->). auto.
  - intros evs' rels' H. inversion H. auto.
  - intros t l evs rels evs' rels' P IHP A IHA e2 r2 H. inversion H as [|t0 l0 e0 r0 e1 r1 P0 A0]; subst. destruct (IHP _ _ P0) as (-> & ->). destruct (IHA _ _ A0) as (-> & ->). auto.
Qed.
Lemma height_in : forall x (l : list term), In x l -> (height x <= fold_right (fun x m => Nat.max (height x) m) O l)%nat.
Proof. induction l as [|y l IH]; intros H; [destruct H|]. cbn [fold_right]. destruct H as [->|H]; [lia|]. specialize (IH H). lia. Qed.
Lemma call_height : forall t args name, opCall t args name -> forall x, In x args -> (height x < height t)%nat.
Proof. intros t args name (_ & ->) x H. apply height_in in H. cbn [height fold_right]. lia. Qed.
Lemma seq_height : forall l x, In x l -> (height x < height (Seq l))%nat.
Proof. intros l x H. apply height_in in H. cbn [height]. lia. Qed.
Lemma call_performs : forall fuel ops now t args name o, (height t <= fuel)%nat -> opCall t args name -> firstNamed ops name o ->
  exists inj rels, performs ops t inj rels /\ callOp fuel ops now (op_kind o) args = map (fun e => mkEvent e now now) inj.
Proof.
  induction fuel as [|f IH]; intros ops now t args name o L C Fn; [destruct C as (_ & ->); cbn in L; lia|].
  cbn [callOp]. destruct (op_kind o) eqn:K; [exists [], []; split; [eapply pf_plain; eauto|reflexivity]| |exists [], [args]; split; [eapply pf_rel; eauto|reflexivity]].
  assert (Bad : (forall x sq inj, args <> [x; Seq sq; inj]) -> exists inj rels, performs ops t inj rels /\ [] = map (fun e => mkEvent e now now) inj) by (intros B; exists [], []; split; [eapply pf_bad; eauto|reflexivity]).
  destruct args as [|a0 [|a1 [|a2 [|a3 r]]]]; try (apply Bad; intros; discriminate);
  destruct a1 as [|l|l|l|l|l|l|l|l|l|l|l|l|l|l]; try (apply Bad; intros; discriminate). clear Bad.
  match goal with |- context [flat_map ?h _] => set (g := h) end. assert (G : forall sq, (forall x, In x sq -> (height x <= f)%nat) -> exists inj rels, performsAll ops sq inj rels /\ flat_map g sq = map (fun e => mkEvent e now now) inj).
  { induction sq as [|x sq IHs]; intros H; [exists [], []; split; [constructor|reflexivity]|]. destruct IHs as (e1 & r1 & P1 & E1); [intros; apply H; now right|]. cbn [flat_map].
    assert (X : exists e0 r0, performs ops x e0 r0 /\ g x = map (fun e => mkEvent e now now) e0).
    { unfold g. destruct (decodeOp x) as [(a, nm)|] eqn:D.
      - apply decodeOp_some in D. destruct (ret_op_by_name ops nm) as [o'|] eqn:R.
        + apply ret_op_some in R. eapply IH; eauto. apply H. now left.
        + exists [], []. split; [|reflexivity]. apply pf_nothing. intros a' n' o' C' F'. destruct (call_unique _ _ _ _ _ D C') as (_ & <-). apply ret_op_some in F'. congruence.
      - exists [], []. split; [|reflexivity]. apply pf_nothing. intros a' n' o' C' _. apply decodeOp_some in C'. congruence. }
    destruct X as (e0 & r0 & P0 & E0). exists (e0 ++ e1), (r0 ++ r1). split; [now constructor|]. now rewrite E0, E1, map_app. }
  match goal with |- context [flat_map g ?sq] => destruct (G sq) as (inj & rels & P & E) end.
  - intros x Hx. apply seq_height in Hx. pose proof (call_height _ _ _ C _ (or_intror (or_introl eq_refl))). lia.
  - exists (inj ++ [a2]), rels. split; [eapply pf_exec; eauto|]. rewrite E, map_app. reflexivity.
Qed.
Theorem action_spec : forall n p n', execAction n p = Ok n' ->
  match p with
  | None => n' = n
  | Some t => exists args name, opCall t args name /\
      (((forall o, In o (n_ops n) -> op_name o <> name) /\ n' = n) \/
       exists o inj rels, firstNamed (n_ops n) name o /\ performs (n_ops n) t inj rels /\
         n' = setTrace n (n_trace n ++ map (fun e => mkEvent e (n_t n) (n_t n)) (inj ++ [t])))
  end.
Proof.
  intros n p n' H. unfold execAction in H. destruct p as [t|]; [|congruence]. destruct (decodeOp t) as [[args name]|] eqn:D; [|discriminate]. apply decodeOp_some in D.
  cbn [unwrap rbind fst snd] in H. exists args, name. split; auto. destruct (ret_op_by_name (n_ops n) name) as [o|] eqn:R.
  - right. destruct (convTermToStr t); [|discriminate]. cbn [rbind] in H. rewrite term_clone_id in H. apply ret_op_some in R.
    destruct (call_performs (height t) (n_ops n) (n_t n) t args name o (le_n _) D R) as (inj & rels & P & E). exists o, inj, rels. split; auto. split; auto.
    rewrite E in H. injection H as <-. rewrite map_app, app_assoc. reflexivity.
  - left. split; [now apply ret_op_none|congruence].
Qed.
Lemma babble_spec : forall n k p p', babble n k p = Ok p' ->
  p' = p \/ (p = None /\ c_babble (n_cfg n) = true /\ exists o, In o (n_ops n) /\ op_babble o = true /\ p' = Some (encodeOp [SetExt [Name "SELF"%string]] (op_name o))).
Proof.
  intros n k p p' H. unfold babble in H. destruct p as [t|]; [left; congruence|]. destruct (c_babble (n_cfg n)) eqn:B; cbn [andb] in H; [|left; congruence].
  destruct (Nat.ltb 0 (length (n_ops n))); [|left; congruence]. destruct (Nat.ltb _ _); [|left; congruence].
  destruct (idx (n_ops n) _) as [o|] eqn:I; [|discriminate]. cbn [rbind] in H. destruct (op_babble o) eqn:Bo; [|left; congruence].
  right. split; auto. split; auto. exists o. split; [|split; auto; congruence].
  unfold idx in I. match type of I with unwrap ?o = _ => destruct o eqn:N; [|discriminate] end. apply nth_error_In in N. cbn in I. congruence.
Qed.

(** * The whole second half step *)
Lemma limit_last : forall tr, traceLimit tr = lastEvents 20 tr.
Proof.
  intros tr. unfold traceLimit, lastEvents. destruct (Nat.ltb_spec 20 (length tr)); auto.
  replace (length tr - 20)%nat with 0%nat by lia. reflexivity.
Qed.
Theorem step1_spec : forall n decl r n', narStep1 n decl r = Ok n' ->
  n_t n' = n_t n + 1 /\ n_cfg n' = n_cfg n /\ n_ops n' = n_ops n /\ n_table n' = n_table n /\
  (n_mem n' = n_mem n \/ pLimit (n_mem n) (c_nConcepts (n_cfg n)) = Ok (n_mem n')) /\
  (exists evs ant, outcome n evs ant /\ n_trace n' = lastEvents 20 (n_trace n ++ evs) /\ n_ant n' = n_ant n ++ ant) /\
  (gReach (n_goals n) -> gReach (n_goals n')).
Proof.
  intros n decl r n' H. unfold narStep1 in H.
  destruct (bestByState n) as [b0|] eqn:E0; [|discriminate]. cbn [rbind] in H.
  destruct (planForward n (i_u r) (i_plan r) b0) as [b1|] eqn:E1; [|discriminate]. cbn [rbind] in H.
  destruct (decide n decl (i_u r) b1) as [n1|] eqn:E2; [|discriminate]. cbn [rbind] in H.
  destruct (execGoal n1) as [[n2 pk]|] eqn:E3; [|discriminate]. cbn [rbind] in H.
  destruct (babble n2 (i_babble r) pk) as [pk'|] eqn:E4; [|discriminate]. cbn [rbind] in H.
  destruct (execAction n2 pk') as [n3|] eqn:E5; [|discriminate]. cbn [rbind] in H.
  set (n4 := setTrace n3 (traceLimit (n_trace n3))) in *.
  destruct (if Z.rem (n_t n4) 101 =? 1 then _ else _) as [n5|] eqn:E6; [|discriminate]. cbn [rbind] in H.
  destruct (if Z.rem (n_t n5) 13 =? 1 then _ else _) as [n6|] eqn:E7; [|discriminate]. cbn [rbind] in H.
  destruct (rfold _ (i_derive r) (n_goals n6)) as [g|] eqn:E8; [|discriminate]. cbn [rbind] in H.
  assert (n' = setTime (setGoals n6 g) (n_t n6 + 1)) by congruence. subst n'. clear H.
  apply best_spec in E0. destruct E0 as (E0 & E0').
  pose proof (forward_spec _ _ _ _ _ E1 E0 E0') as (Cd & _).
  assert (D1 : n_cfg n1 = n_cfg n /\ n_ops n1 = n_ops n /\ n_table n1 = n_table n /\ n_t n1 = n_t n /\ n_trace n1 = n_trace n /\ n_ant n1 = n_ant n /\ n_mem n1 = n_mem n /\
    (forall e a, In e (g_active (n_goals n1)) -> e_evi e = Some a -> motivated n e a) /\ (gReach (n_goals n) -> gReach (n_goals n1))).
  { pose proof (decide_spec _ _ _ _ _ E2) as D. 
    assert (Same : n1 = n -> n_cfg n1 = n_cfg n /\ n_ops n1 = n_ops n /\ n_table n1 = n_table n /\ n_t n1 = n_t n /\ n_trace n1 = n_trace n /\ n_ant n1 = n_ant n /\ n_mem n1 = n_mem n /\
      (forall e a, In e (g_active (n_goals n1)) -> e_evi e = Some a -> motivated n e a) /\ (gReach (n_goals n) -> gReach (n_goals n1))).
    { intros ->. repeat split; auto. intros e a He _. now left. }
    destruct b1 as [[sq x [a0|]]|]; auto. destruct (fltb (c_thresh (n_cfg n)) x) eqn:Th; auto.
    destruct D as (pre & opT & e0 & -> & Op & -> & Dg & (g0 & ->) & D2 & D3 & D4). clear D3 Same.
    do 7 (split; [reflexivity|]). split.
    - intros e a He Ha. destruct (D2 e He) as [O|Sb]; [now left|]. right.
      assert (Q : e_sentence e = e_sentence e0 /\ e_evi e = e_evi e0) by (unfold sameButAcc, setAcc in Sb; split; congruence). destruct Q as (Q1 & Q2).
      destruct Dg as (v & G1 & G2 & G3 & G4). assert (a = a0) by congruence. subst a0.
      assert (Te : e_term e = opT) by (unfold e_term; rewrite Q1; apply G2). rewrite Te.
      exists (mkBest (Seq (pre ++ [opT])) x (Some a)), pre, e0. split; [now apply Cd|]. split; auto. split; auto. split; auto. split; auto.
      exists v. auto.
    - intros R. now apply D4. }
  destruct D1 as (C1 & C2 & C3 & C4 & C5 & C6 & C7 & C8 & C9).
  pose proof (exec_spec _ _ _ E3) as X. pose proof (babble_spec _ _ _ _ E4) as Bb. pose proof (action_spec _ _ _ E5) as Ac.
  assert (F2 : n_cfg n2 = n_cfg n /\ n_ops n2 = n_ops n /\ n_table n2 = n_table n /\ n_t n2 = n_t n /\ n_trace n2 = n_trace n /\ n_mem n2 = n_mem n /\ (gReach (n_goals n) -> gReach (n_goals n2))).
  { destruct pk as [t|].
    - destruct X as (pre & e & post & x & a & iv & X1 & X2 & X3 & X4 & X5 & X6 & X7 & ->). cbn. repeat (split; [congruence|]).
      intros R. replace (pre ++ post) with (remove_at (length pre) (g_active (n_goals n1))); [apply gr_exec; auto|].
      rewrite X1. clear. induction pre; simpl; auto. now f_equal.
    - subst n2. repeat (split; [congruence|]). auto. }
  destruct F2 as (G1 & G2 & G3 & G4 & G5 & G6 & G7).
  assert (Ex : forall t, pk' = Some t -> exists evs, executed n t evs /\ n3 = setTrace n2 (n_trace n2 ++ evs)).
  { intros t ->. destruct Ac as (args & name & A1 & [(A2 & A3)|(o & inj & rels & A2 & A3 & A5)]).
    - exists []. split; [exists args, name; split; auto; left; split; [now rewrite <- G2|reflexivity]|]. rewrite app_nil_r. subst n3. now destruct n2.
    - exists (map (fun e => mkEvent e (n_t n2) (n_t n2)) (inj ++ [t])). split; auto. exists args, name. split; auto. right. exists o, inj, rels. rewrite <- G2. rewrite <- G4. auto. }
  assert (F3 : exists evs ant, outcome n evs ant /\ n3 = setTrace n2 (n_trace n2 ++ evs) /\ n_ant n2 = n_ant n ++ ant).
  { destruct pk as [t|].
    - destruct Bb as [->|[? _]]; [|discriminate]. destruct (Ex t eq_refl) as (evs & Ex1 & Ex2).
      destruct X as (pre & e & post & x & a & iv & X1 & X2 & X3 & X4 & X5 & X6 & X7 & ->).
      exists evs, (if c_anticipate (n_cfg n) then [(a, n_t n + iv)] else []). split; [|split; auto].
      + eapply oc_goal with (e := e); [apply C8; auto; rewrite X1; apply in_elt|rewrite <- C1; eauto|auto| |now rewrite <- X4].
        rewrite <- C3, <- C7. exact X7.
      + cbn. now rewrite C6, C1, C4.
    - subst n2. destruct Bb as [->|(_ & B1 & o & B2 & B3 & B4)].
      + exists [], []. split; [constructor|]. rewrite !app_nil_r. split; auto. subst n3. now destruct n1.
      + destruct (Ex _ B4) as (evs & Ex1 & Ex2). exists evs, []. split; [|split; auto; rewrite app_nil_r; auto].
        eapply oc_babble with (o := o); [congruence|congruence|auto|]. exact Ex1. }
  destruct F3 as (evs & ant & O1 & O2 & O3).
  assert (F5 : n_cfg n5 = n_cfg n /\ n_ops n5 = n_ops n /\ n_table n5 = n_table n /\ n_t n5 = n_t n /\ n_trace n5 = lastEvents 20 (n_trace n ++ evs) /\ n_ant n5 = n_ant n ++ ant /\
     (n_mem n5 = n_mem n \/ pLimit (n_mem n) (c_nConcepts (n_cfg n)) = Ok (n_mem n5)) /\ n_goals n5 = n_goals n2).
  { assert (F4 : n_cfg n4 = n_cfg n /\ n_ops n4 = n_ops n /\ n_table n4 = n_table n /\ n_t n4 = n_t n /\ n_trace n4 = lastEvents 20 (n_trace n ++ evs) /\ n_ant n4 = n_ant n ++ ant /\ n_mem n4 = n_mem n /\ n_goals n4 = n_goals n2).
    { subst n4. rewrite O2. cbn. rewrite limit_last, G5. repeat split; congruence. }
    clearbody n4. destruct F4 as (P1 & P2 & P3 & P4 & P5 & P6 & P7 & P8). destruct (Z.rem (n_t n4) 101 =? 1).
    - destruct (pLimit (n_mem n4) (c_nConcepts (n_cfg n4))) as [m|] eqn:L; [|discriminate]. cbn [rbind] in E6. assert (n5 = setMem n4 m) by congruence. subst n5. cbn.
      repeat (split; [congruence|]). split; [right; congruence|congruence].
    - assert (n5 = n4) by congruence. subst n5. repeat (split; [congruence|]). split; [left; congruence|congruence]. }
  clear E6. destruct F5 as (P1 & P2 & P3 & P4 & P5 & P6 & P7 & P8).
  assert (F6 : exists g6, n6 = setGoals n5 g6 /\ (gReach (n_goals n5) -> gReach g6)).
  { destruct (Z.rem (n_t n5) 13 =? 1).
    - destruct (enforce decl); [|discriminate]. cbn [rbind] in E7. destruct (limitGoals (i_decay r) (n_goals n5) (n_t n5)) as [g6|] eqn:L; [|discriminate]. cbn [rbind] in E7.
      exists g6. split; [congruence|]. intros R. eapply gr_limit; eauto.
    - exists (n_goals n5). split; auto. assert (n6 = n5) by congruence. subst. now destruct n5. }
  destruct F6 as (g6 & -> & F6). cbn [n_t n_cfg n_ops n_table n_mem n_trace n_ant n_goals setGoals setTime] in *.
  split; [congruence|]. split; auto. split; auto. split; auto. split; auto. split; [exists evs, ant; auto|].
  intros R. assert (R6 : gReach g6) by (apply F6; rewrite P8; auto).
  revert E8 R6. clear. generalize (i_derive r) as l. intros l. revert g6. induction l as [|d l IH]; intros g6 E8 R6; cbn [rfold] in E8; [congruence|].
  destruct (enforce decl); [|discriminate]. cbn [rbind] in E8. destruct (sampleAndInference _ _ _ _ _ _ _) as [g1|] eqn:I; [|discriminate]. cbn [rbind] in E8.
  apply (IH _ E8). eapply gr_infer; eauto.
Qed.

(** * Histories of the trace *)
Lemma skip_skip : forall A (l : list A) a b, skipn a (skipn b l) = skipn (a + b) l.
Proof. intros A l a b. revert l. induction b as [|b IH]; intros l; [now rewrite Nat.add_0_r|]. rewrite <- plus_n_Sm. destruct l; [now rewrite skipn_nil|]. apply IH. Qed.
Definition runTrace (l : list (option event)) : list event :=
  fold_left (fun tr o => match o with Some e => event_happened tr e | None => traceLimit tr end) l [].
Lemma events_app : forall a b, eventsOf (a ++ b) = eventsOf a ++ eventsOf b.
Proof. intros. apply flat_map_app. Qed.
Lemma run_snoc : forall l o, runTrace (l ++ [o]) = match o with Some e => event_happened (runTrace l) e | None => traceLimit (runTrace l) end.
Proof. intros. unfold runTrace. now rewrite fold_left_app. Qed.
Lemma run_suffix : forall l, exists k, (20 <= k)%nat /\ runTrace l = lastEvents k (eventsOf l).
Proof.
  induction l as [|o l IH] using rev_ind; [exists 20%nat; auto|]. destruct IH as (k & K & IH). rewrite run_snoc, events_app, IH. destruct o as [e|].
  - exists (S k). split; [lia|]. unfold event_happened, lastEvents. cbn [eventsOf flat_map app]. rewrite app_length. cbn [length].
    replace (length (eventsOf l) + 1 - S k)%nat with (length (eventsOf l) - k)%nat by lia. rewrite skipn_app.
    replace (length (eventsOf l) - k - length (eventsOf l))%nat with 0%nat by lia. reflexivity.
  - exists 20%nat. split; auto. cbn [eventsOf flat_map]. rewrite app_nil_r, limit_last. unfold lastEvents. rewrite skipn_length, skip_skip. f_equal. lia.
Qed.
Theorem run_window : forall l, runTrace (l ++ [None]) = lastEvents 20 (eventsOf l).
Proof.
  intros l. rewrite run_snoc, limit_last. destruct (run_suffix l) as (k & K & ->). unfold lastEvents. rewrite skipn_length, skip_skip. f_equal. lia.
Qed.
