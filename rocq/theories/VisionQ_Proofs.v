(** The classifier B in exact arithmetic. *)
From Coq Require Import List ZArith QArith Qfield Lqa Bool Lia.
From Verif Require Import Base F64_Model Tv_Model Tv_Spec TvQ_Proofs Map_Model Vision_Model Vision_Spec Vision_Proofs.
Import ListNotations.
Local Open Scope list_scope.

(** * In exact arithmetic, B recognises images of frequencies 0 and 1 *)
Local Open Scope Q_scope.
(** all positive or without evidence *)
Definition pure (t : qtv) : Prop := 0 <= tvc t /\ tvc t < 1 /\ (tvf t == 1 \/ tvc t == 0).
Lemma pure_ok : forall t, pure t -> tvc t == 0 -> qw (tvc t) == 0.
Proof. intros t _ H. rewrite qw_val, H. reflexivity. Qed.
Lemma pure_rev : forall a b, pure a -> pure b -> pure (qrev a b).
Proof.
  intros a b Pa Pb. assert (Pa' := Pa). assert (Pb' := Pb). destruct Pa as (A1 & A2 & A3), Pb as (B1 & B2 & B3). assert (Wa := qw_nonneg _ A1 A2). assert (Wb := qw_nonneg _ B1 B2).
  assert (C := qrev_c a b). destruct (qc_range (qw (tvc a) + qw (tvc b))) as (C1 & C2); [lra|]. split; [rewrite C; auto|]. split; [rewrite C; auto|].
  rewrite qrev_f. destruct (Q_ltb 0 (qw (tvc a) + qw (tvc b))) eqn:E.
  - apply Q_ltb_true in E. left. destruct A3 as [A3|A3]; destruct B3 as [B3|B3].
    + rewrite A3, B3. field. lra.
    + apply pure_ok in B3; auto. rewrite A3, B3 in *. field. lra.
    + apply pure_ok in A3; auto. rewrite A3, B3 in *. field. lra.
    + apply pure_ok in A3; auto. apply pure_ok in B3; auto. lra.
  - apply Q_ltb_false in E. right. rewrite C. assert (Z : qw (tvc a) + qw (tvc b) == 0) by lra. rewrite Z. reflexivity.
Qed.
Lemma pure_comp : forall t, (tvf t == 0 \/ tvf t == 1) -> unitQ (tvc t) -> pure (g_comp Q_arith t t).
Proof.
  intros t [H|H] (C1 & C2); unfold pure, g_comp; cbn [tvf tvc].
  - assert (O : g_or Q_arith (tvf t) (tvf t) == 0) by (unfold g_or; cbn; rewrite H; reflexivity).
    assert (W : g_w2c Q_arith (Amul Q_arith (Amul Q_arith (g_or Q_arith (tvf t) (tvf t)) (tvc t)) (tvc t)) == 0).
    { change (qc (g_or Q_arith (tvf t) (tvf t) * tvc t * tvc t) == 0). rewrite qc_val, O. field_simplify; reflexivity. }
    rewrite W. split; [lra|]. split; [reflexivity|]. right. reflexivity.
  - assert (O : g_or Q_arith (tvf t) (tvf t) == 1) by (unfold g_or; cbn; rewrite H; reflexivity).
    assert (W : g_w2c Q_arith (Amul Q_arith (Amul Q_arith (g_or Q_arith (tvf t) (tvf t)) (tvc t)) (tvc t)) == qc (tvc t * tvc t)).
    { change (qc (g_or Q_arith (tvf t) (tvf t) * tvc t * tvc t) == qc (tvc t * tvc t)). rewrite !qc_val, O, Qmult_1_l. reflexivity. }
    rewrite W. assert (N : 0 <= tvc t * tvc t) by nra. destruct (qc_range _ N). split; auto. split; auto. left.
    assert (E : Altb Q_arith (Aabs Q_arith (g_or Q_arith (tvf t) (tvf t))) (Aeps Q_arith) = false).
    { apply Q_ltb_false. cbn [Aabs Aeps Q_arith]. rewrite O. discriminate. }
    rewrite E. change (tvf t * tvf t / g_or Q_arith (tvf t) (tvf t) == 1). rewrite O, H. reflexivity.
Qed.
Lemma pure_fold : forall l t, Forall pure l -> pure t -> pure (fold_left (fun r x => g_rev Q_arith r x) l t).
Proof. intros l. induction l as [|a l IH]; intros t H Ht; cbn [fold_left]; auto. inversion H; subst. apply IH; auto. now apply pure_rev. Qed.
Lemma pure_0 : pure (mkTv 0 0).
Proof. split; [cbn; lra|]. split; [reflexivity|]. right. reflexivity. Qed.
Lemma self_comp : forall v, oneHot v -> Forall pure (g_compVec Q_arith v v).
Proof.
  intros v H. unfold g_compVec. induction H as [|t v (H1 & H2) H IH]; cbn [combine map]; constructor; auto. now apply pure_comp.
Qed.
Lemma simB_self : forall stim now, Forall oneHot stim -> exists s, g_simB Q_arith stim (g_freshB stim now) = Ok s /\ (1 # 2) <= s.
Proof.
  intros stim now H. unfold g_simB, g_calcSim. cbn [g_freshB pb_ch].
  enough (G : forall n k t, pure t -> (k + n <= length stim)%nat -> exists t', rfold (fun t i => do s <- idx stim i; do p <- idx stim i; Ok (g_rev Q_arith t (g_foldVec Q_arith (g_compVec Q_arith s p)))) (seq k n) t = Ok t' /\ pure t').
  { destruct (G (length stim) O (mkTv 0 0) pure_0 ltac:(lia)) as (t & E & P). exists (g_calcExp Q_arith t). split; [exact (f_equal (fun r => rbind r (fun t => Ok (g_calcExp Q_arith t))) E)|]. unfold g_calcExp. cbn [Aadd Amul Asub Ahalf Q_arith].
    destruct P as (P1 & P2 & [P3|P3]); rewrite P3; lra. }
  induction n as [|n IH]; intros k t Ht L; cbn [seq rfold]; [eauto|]. unfold idx at 1 2. destruct (nth_error stim k) as [v|] eqn:V; [|apply nth_error_None in V; lia]. cbn [unwrap rbind]. apply IH; [|lia].
  apply pure_rev; auto. apply pure_fold; [|exact pure_0]. apply self_comp. exact (nth_Forall _ _ _ _ _ H V).
Qed.
Theorem recognisedB : forall cls stim now cls' now', Forall oneHot stim -> g_classifyB Q_arith cls stim now true = Ok (Some (length cls), cls') ->
  g_classifyB Q_arith cls' stim now' false = Ok (Some (length cls), cls').
Proof.
  intros cls stim now cls' now' O H. destruct (simB_self stim now O) as (s & E & S). eapply (recognised Q_arith (g_simB Q_arith) (g_reviseB Q_arith) g_freshB classifyMax_Q classifyMax_new_Q); eauto.
  now apply Qle_bool_iff.
Qed.

(** * The similarity is the expectation of the pooled evidence *)
Lemma weight_qw : forall t, weightQ t == qw (tvc t).
Proof. intros t. rewrite qw_val. reflexivity. Qed.
Lemma fold_pool : forall l t, qok t -> Forall qok l -> let r := fold_left (fun r x => g_rev Q_arith r x) l t in
  qok r /\ qw (tvc r) == qw (tvc t) + totalW l /\ qw (tvc r) * tvf r == qw (tvc t) * tvf t + positiveW l.
Proof.
  induction l as [|x l IH]; intros t Ht H; cbn [fold_left totalW positiveW fold_right].
  - split; auto. split; ring.
  - inversion H as [|? ? Hx Hl]; subst. destruct (IH (qrev t x) (qrev_ok t x Ht Hx) Hl) as (A & B & C). split; [exact A|]. assert (W := qrev_w t x Ht Hx). assert (V := qrev_fval t x Ht Hx).
    split.
    + fold (totalW l). etransitivity; [exact B|]. rewrite W, weight_qw. ring.
    + fold (positiveW l). etransitivity; [exact C|]. rewrite W, V, weight_qw. ring.
Qed.
Lemma pool_app : forall a b, totalW (a ++ b) == totalW a + totalW b /\ positiveW (a ++ b) == positiveW a + positiveW b.
Proof.
  induction a as [|x a IH]; intros b.
  - change (totalW []) with 0. change (positiveW []) with 0. cbn [app]. split; ring.
  - destruct (IH b) as (A & B). change (totalW ((x :: a) ++ b)) with (weightQ x + totalW (a ++ b)). change (totalW (x :: a)) with (weightQ x + totalW a).
    change (positiveW ((x :: a) ++ b)) with (weightQ x * tvf x + positiveW (a ++ b)). change (positiveW (x :: a)) with (weightQ x * tvf x + positiveW a). rewrite A, B. split; ring.
Qed.
Lemma comp_qok : forall a b, qInRange a -> qInRange b -> qok (g_comp Q_arith a b).
Proof.
  intros a b (Fa & Ca) (Fb & Cb). destruct Fa as (A1 & A2), Ca as (A3 & A4), Fb as (B1 & B2), Cb as (B3 & B4).
  assert (Oe : g_or Q_arith (tvf a) (tvf b) == tvf a + tvf b - tvf a * tvf b) by (unfold g_or; cbn; ring).
  assert (O0 : 0 <= g_or Q_arith (tvf a) (tvf b)) by (rewrite Oe; nra). assert (O1 : tvf a * tvf b <= g_or Q_arith (tvf a) (tvf b)) by (rewrite Oe; nra).
  assert (N : 0 <= g_or Q_arith (tvf a) (tvf b) * tvc a * tvc b) by (apply Qmult_le_0_compat; auto; apply Qmult_le_0_compat; auto).
  destruct (qc_range _ N) as (C1 & C2). unfold g_comp. split; [|exact C2]. split; [|split; [exact C1|apply Qlt_le_weak; exact C2]]. cbn [tvf].
  destruct (Altb Q_arith (Aabs Q_arith (g_or Q_arith (tvf a) (tvf b))) (Aeps Q_arith)) eqn:E; [split; cbn; lra|].
  apply Q_ltb_false in E. cbn [Aabs Aeps Q_arith] in E. rewrite Qabs.Qabs_pos in E by auto. change (unitQ (tvf a * tvf b / g_or Q_arith (tvf a) (tvf b))). split.
  - apply Qle_shift_div_l; [lra|nra].
  - apply Qle_shift_div_r; [lra|]. rewrite Qmult_1_l. exact O1.
Qed.
Lemma comps_qok : forall s p, Forall qInRange s -> Forall qInRange p -> Forall qok (g_compVec Q_arith s p).
Proof.
  unfold g_compVec. induction s as [|a s IH]; intros [|b p] Hs Hp; cbn [combine map]; constructor; inversion Hs; inversion Hp; subst; auto. now apply comp_qok.
Qed.
Lemma qok_0 : qok (mkTv 0 0).
Proof. split; [split; split; cbn; lra|reflexivity]. Qed.
Lemma nth_Forall' : forall T (P : T -> Prop) l i x, Forall P l -> nth_error l i = Some x -> P x.
Proof. intros T P l i x H N. rewrite Forall_forall in H. apply H. eapply nth_error_In; eauto. Qed.
Lemma skipn_nth : forall T (l : list T) k c, nth_error l k = Some c -> skipn k l = c :: skipn (S k) l.
Proof. intros T l k c. revert l. induction k as [|k IH]; intros [|a l] H; cbn in *; try discriminate; [congruence|]. rewrite (IH l H). reflexivity. Qed.
Theorem simB_spec : forall stim (p : protoB Q), Forall (Forall qInRange) stim -> Forall (Forall qInRange) (pb_ch p) -> (length stim <= length (pb_ch p))%nat ->
  exists s, g_simB Q_arith stim p = Ok s /\ let E := comparisons stim (pb_ch p) in s == (positiveW E + (1 # 2)) / (totalW E + 1).
Proof.
  intros stim p HS HP L. unfold g_simB, g_calcSim.
  enough (G : forall rest k t pre, stim = pre ++ rest -> length pre = k -> qok t -> exists t', rfold (fun t i => do s <- idx stim i; do q <- idx (pb_ch p) i; Ok (g_rev Q_arith t (g_foldVec Q_arith (g_compVec Q_arith s q)))) (seq k (length rest)) t = Ok t' /\ qok t' /\
    qw (tvc t') == qw (tvc t) + totalW (comparisons rest (skipn k (pb_ch p))) /\ qw (tvc t') * tvf t' == qw (tvc t) * tvf t + positiveW (comparisons rest (skipn k (pb_ch p)))).
  { destruct (G stim O (mkTv 0 0) [] eq_refl eq_refl qok_0) as (t & E & K & A & B). cbn [skipn tvc tvf] in A, B. rewrite (qw_val 0) in A. rewrite (qw_val 0) in B. 
    exists (g_calcExp Q_arith t). split; [exact (f_equal (fun r => rbind r (fun t => Ok (g_calcExp Q_arith t))) E)|]. cbn zeta.
    assert (A' : totalW (comparisons stim (pb_ch p)) == qw (tvc t)) by (rewrite A; field). assert (B' : positiveW (comparisons stim (pb_ch p)) == qw (tvc t) * tvf t) by (rewrite B; field).
    rewrite A', B'. assert (W := qok_w t K). change (tvc t * (tvf t - (1 # 2)) + (1 # 2) == (qw (tvc t) * tvf t + (1 # 2)) / (qw (tvc t) + 1)).
    rewrite qw_val. destruct K as (_ & K). field. lra. }
  induction rest as [|s rest IH]; intros k t pre Es Ek Kt; cbn [length seq rfold].
  - exists t. split; auto. split; auto. change (totalW (comparisons [] (skipn k (pb_ch p)))) with 0. change (positiveW (comparisons [] (skipn k (pb_ch p)))) with 0. split; ring.
  - assert (S0 : nth_error stim k = Some s) by (rewrite Es, nth_error_app2, Ek, Nat.sub_diag by lia; reflexivity).
    unfold idx at 1 2. destruct (nth_error (pb_ch p) k) as [c|] eqn:C0; [|apply nth_error_None in C0; assert (k < length stim)%nat by (apply nth_error_Some; congruence); lia].
    rewrite S0. cbn [unwrap rbind]. rewrite (skipn_nth _ _ _ _ C0). cbn [combine]. unfold comparisons. cbn [combine flat_map]. fold (comparisons rest (skipn (S k) (pb_ch p))).
    assert (KC := comps_qok s c (nth_Forall' _ _ _ _ _ HS S0) (nth_Forall' _ _ _ _ _ HP C0)). destruct (fold_pool (g_compVec Q_arith s c) (mkTv 0 0) qok_0 KC) as (F1 & F2 & F3).
    change (fold_left (fun r x => g_rev Q_arith r x) (g_compVec Q_arith s c) (mkTv 0 0)) with (g_foldVec Q_arith (g_compVec Q_arith s c)) in F1, F2, F3. set (u := g_foldVec Q_arith (g_compVec Q_arith s c)) in *.
    destruct (IH (S k) (qrev t u) (pre ++ [s])) as (t' & E & K' & A & B); [rewrite <- app_assoc; exact Es|rewrite app_length; cbn; lia|now apply qrev_ok|].
    exists t'. split; [exact E|]. split; auto. change (map (fun '(a, b) => g_comp Q_arith a b) (combine s c)) with (g_compVec Q_arith s c).
    destruct (pool_app (g_compVec Q_arith s c) (comparisons rest (skipn (S k) (pb_ch p)))) as (P1 & P2). assert (W := qrev_w t u Kt F1). assert (V := qrev_fval t u Kt F1).
    cbn [tvc tvf] in F2, F3. rewrite (qw_val 0) in F2, F3. split.
    + rewrite A, W, F2, P1. field.
    + rewrite B, P2, W, V, F3. field.
Qed.
