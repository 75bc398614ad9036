(** Algebraic laws of the truth functions in exact arithmetic. *)
From Coq Require Import ZArith QArith Qabs Bool Lia Lqa Setoid Morphisms.
From Verif Require Import Base F64_Model Tv_Model Tv_Spec.
Local Open Scope Q_scope.

Ltac qs := cbn [tvf tvc A0 A1 Ahalf Aeps Aadd Asub Amul Adiv Aabs Altb Aleb Q_arith] in *.

Lemma Q_ltb_true : forall a b, Q_ltb a b = true <-> a < b.
Proof.
  intros a b. unfold Q_ltb. rewrite negb_true_iff, <- not_true_iff_false, Qle_bool_iff.
  split; [apply Qnot_le_lt|apply Qlt_not_le].
Qed.
Lemma Q_ltb_false : forall a b, Q_ltb a b = false <-> b <= a.
Proof.
  intros a b. unfold Q_ltb. rewrite negb_false_iff, Qle_bool_iff. reflexivity.
Qed.

Definition qw (c : Q) : Q := g_c2w Q_arith c.
Definition qc (w : Q) : Q := g_w2c Q_arith w.

#[global] Instance qw_mor : Proper (Qeq ==> Qeq) qw.
Proof. intros x y E. unfold qw, g_c2w. qs. now rewrite E. Qed.
#[global] Instance qc_mor : Proper (Qeq ==> Qeq) qc.
Proof. intros x y E. unfold qc, g_w2c. qs. now rewrite E. Qed.

Lemma qw_val : forall c, qw c == c / (1 - c).
Proof. intros c. unfold qw, g_c2w. qs. now rewrite Qmult_1_l. Qed.
Lemma qc_val : forall w, qc w == w / (w + 1).
Proof. intros w. reflexivity. Qed.

Lemma Qdiv_nonneg : forall a b, 0 <= a -> 0 < b -> 0 <= a / b.
Proof. intros a b Ha Hb. apply Qle_shift_div_l; auto. lra. Qed.
Lemma qw_nonneg : forall c, 0 <= c -> c < 1 -> 0 <= qw c.
Proof. intros c H1 H2. rewrite qw_val. apply Qdiv_nonneg; lra. Qed.
Lemma qc_qw : forall c, c < 1 -> qc (qw c) == c.
Proof. intros c H. rewrite qc_val, qw_val. field. split; lra. Qed.
Lemma qw_qc : forall w, 0 <= w -> qw (qc w) == w.
Proof. intros w H. rewrite qw_val, qc_val. field. split; lra. Qed.
Lemma qc_range : forall w, 0 <= w -> 0 <= qc w /\ qc w < 1.
Proof.
  intros w H. rewrite qc_val. split; [apply Qdiv_nonneg; lra|]. apply Qlt_shift_div_r; lra.
Qed.
Lemma qc_mono : forall w v, 0 <= w -> w <= v -> qc w <= qc v.
Proof.
  intros w v H1 H2. rewrite !qc_val.
  assert (E : v / (v + 1) == w / (w + 1) + (v - w) * (/ ((v + 1) * (w + 1)))) by (field; split; lra).
  rewrite E. assert (0 <= / ((v + 1) * (w + 1))) by (apply Qinv_le_0_compat; nra). nra.
Qed.

Definition qrev := g_rev Q_arith.

Lemma qrev_c : forall a b, tvc (qrev a b) == qc (qw (tvc a) + qw (tvc b)).
Proof. reflexivity. Qed.
Lemma qrev_f : forall a b, tvf (qrev a b) =
  if Q_ltb 0 (qw (tvc a) + qw (tvc b)) then (qw (tvc a) * tvf a + qw (tvc b) * tvf b) / (qw (tvc a) + qw (tvc b)) else 0.
Proof. reflexivity. Qed.

Definition qok (t : qtv) : Prop := qInRange t /\ tvc t < 1.

Lemma qrev_comm : forall a b, qeqv (qrev a b) (qrev b a).
Proof.
  intros a b. split; [|rewrite !qrev_c; now rewrite Qplus_comm].
  rewrite !qrev_f. destruct (Q_ltb 0 (qw (tvc a) + qw (tvc b))) eqn:E1;
  destruct (Q_ltb 0 (qw (tvc b) + qw (tvc a))) eqn:E2; rewrite ?Q_ltb_true, ?Q_ltb_false in *; try lra.
  - field. lra.
Qed.

Lemma qok_w : forall t, qok t -> 0 <= qw (tvc t).
Proof. intros t [[_ [H1 _]] H2]. now apply qw_nonneg. Qed.

Lemma qrev_conf : forall a b, qok a -> qok b -> tvc a <= tvc (qrev a b) /\ tvc b <= tvc (qrev a b) /\ tvc (qrev a b) < 1.
Proof.
  intros a b Ha Hb. assert (Wa := qok_w a Ha). assert (Wb := qok_w b Hb).
  destruct Ha as [_ Ca], Hb as [_ Cb].
  repeat split; rewrite qrev_c.
  - rewrite <- (qc_qw (tvc a)) at 1 by assumption. apply qc_mono; lra.
  - rewrite <- (qc_qw (tvc b)) at 1 by assumption. apply qc_mono; lra.
  - apply qc_range. lra.
Qed.

Lemma qrev_freq : forall a b lo hi, qok a -> qok b -> 0 < tvc a \/ 0 < tvc b ->
  lo <= tvf a <= hi -> lo <= tvf b <= hi -> lo <= tvf (qrev a b) <= hi.
Proof.
  intros a b lo hi Ha Hb Hc Hfa Hfb.
  assert (Wa := qok_w a Ha). assert (Wb := qok_w b Hb).
  assert (Hw : 0 < qw (tvc a) + qw (tvc b)).
  { assert (P : forall t, qok t -> 0 < tvc t -> 0 < qw (tvc t)).
    { intros t [_ H1] H2. rewrite qw_val. apply Qlt_shift_div_l; lra. }
    destruct Hc as [H|H]; [assert (X := P a Ha H)|assert (X := P b Hb H)]; lra. }
  rewrite qrev_f. destruct (Q_ltb 0 _) eqn:E; [|apply Q_ltb_false in E; lra].
  split; [apply Qle_shift_div_l|apply Qle_shift_div_r]; auto; nra.
Qed.

Lemma qrev_neutral : forall a b, qok a -> 0 < tvc a -> tvc b == 0 -> qeqv (qrev a b) a.
Proof.
  intros a b Ha Hpos Hb.
  assert (E : qw (tvc b) == 0) by (rewrite Hb; reflexivity).
  assert (P : 0 < qw (tvc a)).
  { destruct Ha as [_ H1]. rewrite qw_val. apply Qlt_shift_div_l; lra. }
  split.
  - rewrite qrev_f. destruct (Q_ltb 0 _) eqn:E2; [|apply Q_ltb_false in E2; rewrite E in E2; lra].
    rewrite E. field. lra.
  - rewrite qrev_c, E, Qplus_0_r. apply qc_qw. apply Ha.
Qed.

Lemma qrev_fval : forall a b, qok a -> qok b ->
  (qw (tvc a) + qw (tvc b)) * tvf (qrev a b) == qw (tvc a) * tvf a + qw (tvc b) * tvf b.
Proof.
  intros a b Ha Hb. assert (Wa := qok_w a Ha). assert (Wb := qok_w b Hb).
  rewrite qrev_f. destruct (Q_ltb 0 _) eqn:E.
  - apply Q_ltb_true in E. field. lra.
  - apply Q_ltb_false in E. assert (qw (tvc a) == 0) by lra. assert (qw (tvc b) == 0) by lra.
    rewrite H, H0. ring.
Qed.

Lemma qrev_ok : forall a b, qok a -> qok b -> qok (qrev a b).
Proof.
  intros a b Ha Hb. assert (Wa := qok_w a Ha). assert (Wb := qok_w b Hb).
  assert (R := qc_range (qw (tvc a) + qw (tvc b)) ltac:(lra)).
  split; [|rewrite qrev_c; apply R]. split; [|split; rewrite qrev_c; lra].
  rewrite qrev_f. destruct Ha as [[[? ?] _] _], Hb as [[[? ?] _] _].
  destruct (Q_ltb 0 _) eqn:E; [apply Q_ltb_true in E|split; lra].
  split; [apply Qle_shift_div_l|apply Qle_shift_div_r]; auto; nra.
Qed.

Lemma qrev_w : forall a b, qok a -> qok b -> qw (tvc (qrev a b)) == qw (tvc a) + qw (tvc b).
Proof.
  intros a b Ha Hb. assert (Wa := qok_w a Ha). assert (Wb := qok_w b Hb).
  rewrite qrev_c. apply qw_qc. lra.
Qed.

Lemma qrev_assoc : forall a b c, qok a -> qok b -> qok c ->
  qeqv (qrev a (qrev b c)) (qrev (qrev a b) c).
Proof.
  intros a b c Ha Hb Hc.
  assert (Wa := qok_w a Ha). assert (Wb := qok_w b Hb). assert (Wc := qok_w c Hc).
  assert (Eab := qrev_w a b Ha Hb). assert (Ebc := qrev_w b c Hb Hc).
  assert (Fab := qrev_fval a b Ha Hb). assert (Fbc := qrev_fval b c Hb Hc).
  assert (F1 := qrev_fval a (qrev b c) Ha (qrev_ok b c Hb Hc)).
  assert (F2 := qrev_fval (qrev a b) c (qrev_ok a b Ha Hb) Hc).
  rewrite Ebc in F1. rewrite Eab in F2. rewrite Fbc in F1. rewrite Fab in F2.
  split.
  - destruct (Qlt_le_dec 0 (qw (tvc a) + (qw (tvc b) + qw (tvc c)))) as [H|H].
    + apply Qmult_inj_l with (qw (tvc a) + (qw (tvc b) + qw (tvc c))); [lra|].
      rewrite F1. setoid_replace (qw (tvc a) + (qw (tvc b) + qw (tvc c))) with (qw (tvc a) + qw (tvc b) + qw (tvc c)) by ring.
      rewrite F2. ring.
    + assert (Z1 : Q_ltb 0 (qw (tvc a) + qw (tvc (qrev b c))) = false) by (apply Q_ltb_false; rewrite Ebc; lra).
      assert (Z2 : Q_ltb 0 (qw (tvc (qrev a b)) + qw (tvc c)) = false) by (apply Q_ltb_false; rewrite Eab; lra).
      rewrite (qrev_f a (qrev b c)), (qrev_f (qrev a b) c), Z1, Z2. reflexivity.
  - rewrite (qrev_c a (qrev b c)), (qrev_c (qrev a b) c), Eab, Ebc, Qplus_assoc. reflexivity.
Qed.

(** expectation and negation *)
Lemma qexp_range : forall t, qInRange t -> unitQ (g_calcExp Q_arith t).
Proof. intros t [[? ?] [? ?]]. unfold g_calcExp, unitQ. qs. split; nra. Qed.
Lemma qneg_inv : forall t, qeqv (g_neg Q_arith (g_neg Q_arith t)) t.
Proof. intros t. split; unfold g_neg; qs; ring. Qed.
Lemma qneg_exp : forall t, g_calcExp Q_arith (g_neg Q_arith t) == 1 - g_calcExp Q_arith t.
Proof. intros t. unfold g_calcExp, g_neg. qs. ring. Qed.
Lemma qexp_mono_f : forall t t', 0 <= tvc t -> tvc t == tvc t' -> tvf t <= tvf t' ->
  g_calcExp Q_arith t <= g_calcExp Q_arith t'.
Proof. intros t t' H1 H2 H3. unfold g_calcExp. qs. rewrite <- H2. nra. Qed.
Lemma qexp_mono_c : forall t t', 1 # 2 <= tvf t -> tvf t == tvf t' -> tvc t <= tvc t' ->
  g_calcExp Q_arith t <= g_calcExp Q_arith t'.
Proof. intros t t' H1 H2 H3. unfold g_calcExp. qs. rewrite <- H2. nra. Qed.

(** * The published formulas *)
Lemma qded_formula : forall a b, qeqv (g_ded Q_arith a b) (mkTv (tvf a * tvf b) (tvf a * tvf b * tvc a * tvc b)).
Proof. intros a b. split; unfold g_ded; qs; ring. Qed.
Lemma qabd_formula : forall a b, qeqv (g_abd Q_arith a b) (mkTv (tvf a) (tvf b * tvc a * tvc b / (tvf b * tvc a * tvc b + 1))).
Proof. intros a b. split; unfold g_abd, g_w2c; qs; reflexivity. Qed.
Lemma qind_formula : forall a b, qeqv (g_ind Q_arith a b) (mkTv (tvf b) (tvf a * tvc a * tvc b / (tvf a * tvc a * tvc b + 1))).
Proof.
  intros a b. split; unfold g_ind, g_abd, g_w2c; qs; [reflexivity|].
  assert (E : tvf a * tvc b * tvc a == tvf a * tvc a * tvc b) by ring. rewrite E. reflexivity.
Qed.
Lemma qint_formula : forall a b, qeqv (g_int Q_arith a b) (mkTv (tvf a * tvf b) (tvc a * tvc b)).
Proof. intros a b. split; reflexivity. Qed.
Lemma qneg_formula : forall a, qeqv (g_neg Q_arith a) (mkTv (1 - tvf a) (tvc a)).
Proof. intros a. split; reflexivity. Qed.
Lemma qcomp_formula : forall a b, let o := tvf a + tvf b - tvf a * tvf b in
  tvc (g_comp Q_arith a b) == o * tvc a * tvc b / (o * tvc a * tvc b + 1) /\
  (1 # 100000000 <= o -> tvf (g_comp Q_arith a b) == tvf a * tvf b / o).
Proof.
  intros a b o. assert (E : g_or Q_arith (tvf a) (tvf b) == o) by (unfold g_or, o; qs; ring).
  split; unfold g_comp, g_w2c; qs.
  - rewrite E. reflexivity.
  - intros H. destruct (Q_ltb (Qabs (g_or Q_arith (tvf a) (tvf b))) (1 # 100000000)) eqn:Q.
    + apply Q_ltb_true in Q. rewrite E in Q. rewrite Qabs_pos in Q by lra. lra.
    + rewrite E. reflexivity.
Qed.
Lemma qrev_formula : forall a b, qok a -> qok b -> 0 < tvc a + tvc b ->
  let wa := tvc a * (1 - tvc b) in let wb := tvc b * (1 - tvc a) in
  qeqv (g_rev Q_arith a b) (mkTv ((wa * tvf a + wb * tvf b) / (wa + wb)) ((wa + wb) / (wa + wb + (1 - tvc a) * (1 - tvc b)))).
Proof.
  intros a b [[Fa [Ca _]] Ka] [[Fb [Cb _]] Kb] P wa wb.
  assert (Hw : 0 < wa + wb).
  { unfold wa, wb. assert (0 <= tvc a * (1 - tvc b)) by (apply Qmult_le_0_compat; lra).
    assert (0 <= tvc b * (1 - tvc a)) by (apply Qmult_le_0_compat; lra).
    destruct (Qlt_le_dec 0 (tvc a)) as [L|L].
    - assert (0 < tvc a * (1 - tvc b)) by (apply Qmult_lt_0_compat; lra). lra.
    - assert (0 < tvc b * (1 - tvc a)) by (apply Qmult_lt_0_compat; lra). lra. }
  assert (E : qw (tvc a) + qw (tvc b) == (wa + wb) / ((1 - tvc a) * (1 - tvc b))).
  { rewrite !qw_val. unfold wa, wb. field. split; lra. }
  assert (Q0 : 0 < (1 - tvc a) * (1 - tvc b)) by (apply Qmult_lt_0_compat; lra).
  assert (Hs : 0 < qw (tvc a) + qw (tvc b)).
  { rewrite E. apply Qlt_shift_div_l; auto. lra. }
  split; cbn [tvf tvc].
  - change (tvf (g_rev Q_arith a b)) with (tvf (qrev a b)). rewrite qrev_f.
    apply Q_ltb_true in Hs. rewrite Hs. rewrite E. rewrite !qw_val. unfold wa, wb. field.
    unfold wa, wb in Hw. split; [|split]; intros K; lra.
  - change (tvc (g_rev Q_arith a b)) with (tvc (qrev a b)). rewrite qrev_c, qc_val, E. field. split; lra.
Qed.
Lemma qdedGoal_formula : forall a b, qInRange a -> qInRange b ->
  let hi := tvf a * tvf b * tvc a * tvc b in let lo := (1 - tvf a) * tvf b * tvc a * tvc b in
  (lo <= hi -> qeqv (g_dedGoal Q_arith a b) (mkTv (tvf a * tvf b) hi)) /\
  (hi < lo -> qeqv (g_dedGoal Q_arith a b) (mkTv (1 - (1 - tvf a) * tvf b) lo)).
Proof.
  intros a b _ _ hi lo.
  assert (E1 : tvc (g_ded Q_arith a b) == hi) by (unfold g_ded, hi; qs; ring).
  assert (E2 : tvc (g_neg Q_arith (g_ded Q_arith (g_neg Q_arith a) b)) == lo) by (unfold g_neg, g_ded, lo; qs; ring).
  unfold g_dedGoal. qs.
  destruct (Qle_bool (tvc (g_neg Q_arith (g_ded Q_arith (g_neg Q_arith a) b))) (tvc (g_ded Q_arith a b))) eqn:Q.
  - apply Qle_bool_iff in Q. rewrite E1, E2 in Q. split; [intros _|intros K; lra]. split; cbn [tvf tvc]; [reflexivity|exact E1].
  - split.
    + intros K. rewrite <- E1, <- E2 in K. apply Qle_bool_iff in K. congruence.
    + intros _. split; cbn [tvf tvc]; [reflexivity|exact E2].
Qed.
