From Coq Require Import ZArith Reals Bool Lia Lra List Psatz.
From Coq Require Import Floats.SpecFloat.
From Flocq Require Import Core.Core IEEE754.BinarySingleNaN Sterbenz Relative.
From Verif Require Import Base F64_Model F64_Proofs Tv_Model Tv_Spec.
Local Open Scope R_scope.

Lemma unit64_in01 : forall x, unit64 x <-> in01 x.
Proof. reflexivity. Qed.

Ltac tvs := cbn [tvf tvc A0 A1 Ahalf Aeps Aadd Asub Amul Adiv Aabs Altb Aleb f64_arith].

Definition R01 (x : f64) : Prop := ffin x /\ 0 <= fval x <= 1.
Lemma unit64_R01 : forall x, unit64 x <-> R01 x.
Proof. exact in01_iff. Qed.

Lemma R01_mul : forall x y, R01 x -> R01 y -> R01 (fmul x y) /\ fval (fmul x y) = rnd (fval x * fval y).
Proof.
  intros x y [Fx Hx] [Fy Hy].
  assert (H : 0 <= fval x * fval y <= 1) by nra.
  destruct (fmul_ok x y Fx Fy) as [F V]; [apply (rnd_small 0 1); auto using fmt_0, fmt_1; lra|].
  split; auto. split; auto. rewrite V. apply rnd_between; auto using fmt_0, fmt_1.
Qed.

Lemma R01_neg : forall x, R01 x -> R01 (fsub f1 x) /\ fval (fsub f1 x) = rnd (1 - fval x).
Proof.
  intros x [Fx Hx]. destruct f1_ok as [F1 V1].
  destruct (fsub_ok f1 x F1 Fx) as [F V].
  - rewrite V1. apply (rnd_small 0 1); auto using fmt_0, fmt_1; lra.
  - rewrite V1 in V. split; auto. split; auto. rewrite V. apply rnd_between; auto using fmt_0, fmt_1. lra.
Qed.

Definition big : R := bpow radix2 70.
Lemma fmt_big : fmt big.
Proof. apply fmt_bpow. lia. Qed.
Lemma big_lt : big + 1 < fmaxR.
Proof.
  unfold big. assert (bpow radix2 71 < fmaxR) by (apply bpow_lt; reflexivity).
  assert (bpow radix2 71 = 2 * bpow radix2 70) by (replace 71%Z with (1 + 70)%Z by lia; rewrite bpow_plus; reflexivity).
  assert (1 <= bpow radix2 70) by (apply (bpow_le radix2 0 70); lia). lra.
Qed.
Lemma rnd_upto : forall u r, fmt u -> 0 <= r <= u -> u < fmaxR -> Rabs (rnd r) < fmaxR.
Proof.
  intros u r Hu Hr Hm. destruct (rnd_between 0 u r fmt_0 Hu Hr). apply Rabs_def1; lra.
Qed.

Lemma w2c_ok : forall w, ffin w -> 0 <= fval w <= big -> R01 (w2c w).
Proof.
  intros w Fw Hw. unfold w2c, g_w2c. tvs. destruct f1_ok as [F1 V1].
  assert (Fm2 : fmt (bpow radix2 71)) by (apply fmt_bpow; lia).
  assert (E : bpow radix2 71 = 2 * big) by (unfold big; replace 71%Z with (1 + 70)%Z by lia; rewrite bpow_plus; reflexivity).
  assert (B1 : 1 <= big) by (apply (bpow_le radix2 0 70); lia).
  assert (L56 : bpow radix2 71 < fmaxR) by (apply bpow_lt; reflexivity).
  destruct (fadd_ok w f1 Fw F1) as [Fs Vs].
  { rewrite V1. apply (rnd_upto (bpow radix2 71)); auto. lra. }
  rewrite V1 in Vs.
  assert (H1 : 1 <= fval (fadd w f1)) by (rewrite Vs; apply rnd_ge; [apply fmt_1|lra]).
  assert (H2 : fval w <= fval (fadd w f1)).
  { rewrite Vs. apply rnd_ge; [now apply ffin_fmt|lra]. }
  assert (H3 : 0 <= fval w / fval (fadd w f1) <= 1).
  { split; [apply Rmult_le_pos; [lra|]; apply Rlt_le, Rinv_0_lt_compat; lra|].
    apply Rmult_le_reg_r with (fval (fadd w f1)); [lra|]. unfold Rdiv. rewrite Rmult_assoc, Rinv_l by lra. lra. }
  destruct (fdiv_ok w (fadd w f1)) as [Fd Vd]; auto; [apply Rgt_not_eq; lra| |].
  { apply (rnd_small 0 1); auto using fmt_0, fmt_1; lra. }
  split; auto. rewrite Vd. apply rnd_between; auto using fmt_0, fmt_1.
Qed.

Lemma big_ge1 : 1 <= big.
Proof. apply (bpow_le radix2 0 70); lia. Qed.

Lemma w2c_R01 : forall w, R01 w -> R01 (w2c w).
Proof. intros w [F H]. apply w2c_ok; auto. generalize big_ge1. lra. Qed.

(** the largest double below 1 *)
Lemma below_one : forall r, fmt r -> r < 1 -> r <= 1 - bpow radix2 (-53).
Proof.
  intros r Hr H.
  assert (E : pred radix2 fexp64 1 = 1 - bpow radix2 (-53)).
  { change 1 with (bpow radix2 0). rewrite pred_bpow. reflexivity. }
  rewrite <- E. apply pred_ge_gt; try typeclasses eauto; auto. apply fmt_1.
Qed.

Lemma c2w_ok : forall c, R01 c -> fval c < 1 -> ffin (c2w c) /\ 0 <= fval (c2w c) <= bpow radix2 53.
Proof.
  intros c [Fc Hc] Hlt. unfold c2w, g_c2w. tvs. destruct f1_ok as [F1 V1].
  destruct (R01_mul f1 c) as [[Fm Hm] Vm]; [split; [auto|lra]|split; auto|].
  rewrite V1, Rmult_1_l, rnd_id in Vm by now apply ffin_fmt.
  destruct (R01_neg c (conj Fc Hc)) as [[Fn Hn] Vn].
  assert (Hb := below_one _ (ffin_fmt _ Fc) Hlt).
  assert (Hd : bpow radix2 (-53) <= fval (fsub f1 c)).
  { rewrite Vn. apply rnd_ge; [apply fmt_bpow; lia|lra]. }
  assert (Hp : 0 < bpow radix2 (-53)) by apply bpow_gt_0.
  assert (E : bpow radix2 53 * bpow radix2 (-53) = 1) by (rewrite <- bpow_plus; reflexivity).
  assert (H3 : 0 <= fval (fmul f1 c) / fval (fsub f1 c) <= bpow radix2 53).
  { rewrite Vm. split; [apply Rmult_le_pos; [lra|]; apply Rlt_le, Rinv_0_lt_compat; lra|].
    apply Rmult_le_reg_r with (fval (fsub f1 c)); [lra|]. unfold Rdiv. rewrite Rmult_assoc, Rinv_l by lra.
    assert (0 < bpow radix2 53) by apply bpow_gt_0. nra. }
  assert (F53 : fmt (bpow radix2 53)) by (apply fmt_bpow; lia).
  assert (L53 : bpow radix2 53 < fmaxR) by (apply bpow_lt; reflexivity).
  destruct (fdiv_ok (fmul f1 c) (fsub f1 c)) as [Fd Vd]; auto; [apply Rgt_not_eq; lra| |].
  { now apply (rnd_upto (bpow radix2 53)). }
  split; auto. rewrite Vd. apply rnd_between; auto using fmt_0.
Qed.

(** * The truth functions *)
Lemma ded_range : forall a b, tvInRange a -> tvInRange b -> tvInRange (ded a b).
Proof.
  intros a b [Fa Ca] [Fb Cb]. unfold tvInRange. rewrite !unit64_R01 in *. simpl.
  split; [apply R01_mul; auto|]. apply R01_mul; apply R01_mul; auto.
Qed.
Lemma neg_range : forall a, tvInRange a -> tvInRange (neg a).
Proof.
  intros a [Fa Ca]. unfold tvInRange. rewrite !unit64_R01 in *. simpl. split; auto. now apply R01_neg.
Qed.
Lemma dedGoal_range : forall a b, tvInRange a -> tvInRange b -> tvInRange (dedGoal a b).
Proof.
  intros a b Ha Hb. unfold dedGoal, g_dedGoal.
  match goal with |- context [if ?c then _ else _] => destruct c end.
  - now apply ded_range.
  - apply neg_range, ded_range; auto. now apply neg_range.
Qed.
Lemma abd_range : forall a b, tvInRange a -> tvInRange b -> tvInRange (abd a b).
Proof.
  intros a b [Fa Ca] [Fb Cb]. unfold tvInRange. rewrite !unit64_R01 in *. simpl. split; auto.
  apply w2c_R01. apply R01_mul; auto. apply R01_mul; auto.
Qed.
Lemma ind_range : forall a b, tvInRange a -> tvInRange b -> tvInRange (ind a b).
Proof. intros. now apply abd_range. Qed.
Lemma int_range : forall a b, tvInRange a -> tvInRange b -> tvInRange (int a b).
Proof.
  intros a b [Fa Ca] [Fb Cb]. unfold tvInRange. rewrite !unit64_R01 in *. simpl.
  split; apply R01_mul; auto.
Qed.

Lemma f0_R01 : R01 f0.
Proof. destruct f0_ok as [F V]. split; auto. lra. Qed.

Lemma rev_range : forall a b, tvInRange a -> tvInRange b -> uncertain a -> uncertain b -> tvInRange (rev a b).
Proof.
  intros a b [Fa Ca] [Fb Cb] Ua Ub. unfold tvInRange, uncertain in *. rewrite !unit64_R01 in *.
  destruct f1_ok as [F1 V1]. destruct f0_ok as [F0 V0].
  apply fltb_ok in Ua; [|apply Ca|auto]. apply fltb_ok in Ub; [|apply Cb|auto]. rewrite V1 in *.
  destruct (c2w_ok _ Ca Ua) as [Fw1 Hw1]. destruct (c2w_ok _ Cb Ub) as [Fw2 Hw2].
  unfold rev, g_rev. change (g_c2w f64_arith) with c2w. tvs.
  set (w1 := c2w (tvc a)) in *. set (w2 := c2w (tvc b)) in *.
  assert (E : bpow radix2 54 = 2 * bpow radix2 53) by (replace 54%Z with (1 + 53)%Z by lia; rewrite bpow_plus; reflexivity).
  assert (E2 : bpow radix2 54 <= big) by (apply bpow_le; lia).
  assert (F54 : fmt (bpow radix2 54)) by (apply fmt_bpow; lia).
  assert (L54 : bpow radix2 54 < fmaxR) by (apply bpow_lt; reflexivity).
  assert (L53 : bpow radix2 53 < fmaxR) by (apply bpow_lt; reflexivity).
  assert (P53 : 0 < bpow radix2 53) by apply bpow_gt_0.
  destruct (fadd_ok w1 w2 Fw1 Fw2) as [Fw Vw].
  { apply (rnd_upto (bpow radix2 54)); auto. lra. }
  assert (Hw : 0 <= fval (fadd w1 w2) <= bpow radix2 54).
  { rewrite Vw. apply rnd_between; auto using fmt_0. lra. }
  split; [|apply w2c_ok; auto; lra].
  destruct (fltb f0 (fadd w1 w2)) eqn:Epos; [|apply f0_R01].
  apply fltb_ok in Epos; auto. rewrite V0 in Epos.
  assert (M : forall w x, ffin w -> 0 <= fval w <= bpow radix2 53 -> R01 x ->
     ffin (fmul w x) /\ 0 <= fval (fmul w x) <= fval w).
  { intros w x Fw' Hw' [Fx Hx].
    assert (Hp : 0 <= fval w * fval x <= fval w) by nra.
    destruct (fmul_ok w x) as [Fp Vp]; auto.
    { apply (rnd_upto (fval w)); auto; [now apply ffin_fmt|lra]. }
    split; auto. rewrite Vp. apply rnd_between; auto using fmt_0. now apply ffin_fmt. }
  destruct (M w1 (tvf a) Fw1 Hw1 Fa) as [Fp1 Hp1]. destruct (M w2 (tvf b) Fw2 Hw2 Fb) as [Fp2 Hp2].
  destruct (fadd_ok (fmul w1 (tvf a)) (fmul w2 (tvf b)) Fp1 Fp2) as [Fn Vn].
  { apply (rnd_upto (bpow radix2 54)); auto. lra. }
  assert (Hn : 0 <= fval (fadd (fmul w1 (tvf a)) (fmul w2 (tvf b))) <= fval (fadd w1 w2)).
  { rewrite Vn, Vw. split.
    - apply rnd_ge; [apply fmt_0|lra].
    - apply rnd_mono. lra. }
  assert (Hq : 0 <= fval (fadd (fmul w1 (tvf a)) (fmul w2 (tvf b))) / fval (fadd w1 w2) <= 1).
  { split; [apply Rmult_le_pos; [lra|]; apply Rlt_le, Rinv_0_lt_compat; lra|].
    apply Rmult_le_reg_r with (fval (fadd w1 w2)); [lra|]. unfold Rdiv. rewrite Rmult_assoc, Rinv_l by lra. lra. }
  destruct (fdiv_ok (fadd (fmul w1 (tvf a)) (fmul w2 (tvf b))) (fadd w1 w2)) as [Fd Vd]; auto; [apply Rgt_not_eq; lra| |].
  { apply (rnd_small 0 1); auto using fmt_0, fmt_1; lra. }
  split; auto. rewrite Vd. apply rnd_between; auto using fmt_0, fmt_1.
Qed.

Lemma fmt_half : fmt (/ 2).
Proof. change (/ 2) with (bpow radix2 (-1)). apply fmt_bpow. lia. Qed.
Lemma fmt_mhalf : fmt (- / 2).
Proof. apply generic_format_opp, fmt_half. Qed.

Lemma calcExp_range : forall t, tvInRange t -> unit64 (calcExp t).
Proof.
  intros t [Ft Ct]. rewrite unit64_R01 in *. destruct Ft as [Ff Hf], Ct as [Fc Hc].
  unfold calcExp, g_calcExp. tvs. destruct f05_ok as [F5 V5].
  destruct (fsub_ok (tvf t) f05 Ff F5) as [Fs Vs].
  { rewrite V5. apply (rnd_small (- / 2) (/ 2)); auto using fmt_half, fmt_mhalf; lra. }
  assert (Hs : - / 2 <= fval (fsub (tvf t) f05) <= / 2).
  { rewrite Vs, V5. apply rnd_between; auto using fmt_half, fmt_mhalf. lra. }
  destruct (fmul_ok (tvc t) (fsub (tvf t) f05) Fc Fs) as [Fm Vm].
  { apply (rnd_small (- / 2) (/ 2)); auto using fmt_half, fmt_mhalf; try lra. nra. }
  assert (Hm : - / 2 <= fval (fmul (tvc t) (fsub (tvf t) f05)) <= / 2).
  { rewrite Vm. apply rnd_between; auto using fmt_half, fmt_mhalf. nra. }
  destruct (fadd_ok (fmul (tvc t) (fsub (tvf t) f05)) f05 Fm F5) as [Fa Va].
  { rewrite V5. apply (rnd_small 0 1); auto using fmt_0, fmt_1; lra. }
  split; auto. rewrite Va, V5. apply rnd_between; auto using fmt_0, fmt_1. lra.
Qed.

(** * Comparison *)
Lemma rnd_err : forall r, 0 <= r <= 1 -> Rabs (rnd r - r) <= bpow radix2 (-53).
Proof.
  intros r Hr. unfold rnd.
  assert (V := valid_fexp64).
  eapply Rle_trans; [apply error_le_half_ulp; exact V|].
  assert (M : Monotone_exp fexp64).
  { intros x y Hxy. unfold SpecFloat.fexp. lia. }
  assert (U : ulp radix2 fexp64 r <= ulp radix2 fexp64 1).
  { apply ulp_le_pos; auto; lra. }
  assert (E : ulp radix2 fexp64 1 = bpow radix2 (-52)).
  { change 1 with (bpow radix2 0). rewrite ulp_bpow. reflexivity. }
  assert (E2 : bpow radix2 (-52) = 2 * bpow radix2 (-53)).
  { replace (-52)%Z with (1 + -53)%Z by lia. rewrite bpow_plus. reflexivity. }
  rewrite E in U. lra.
Qed.

Lemma comp_core : forall a b, fmt a -> fmt b -> 0 <= a <= 1 -> 0 <= b <= 1 ->
  let f0 := rnd (1 - rnd (rnd (1 - a) * rnd (1 - b))) in
  bpow radix2 (-27) <= f0 -> rnd (a * b) <= f0.
Proof.
  intros a b Fa Fb Ha Hb f0 Hf0.
  set (x := rnd (1 - a)). set (y := rnd (1 - b)). set (p := rnd (x * y)).
  change (bpow radix2 (-27) <= rnd (1 - p)) in Hf0. change (rnd (a * b) <= rnd (1 - p)).
  apply rnd_mono.
  assert (Hx : 0 <= x <= 1) by (apply rnd_between; auto using fmt_0, fmt_1; lra).
  assert (Hy : 0 <= y <= 1) by (apply rnd_between; auto using fmt_0, fmt_1; lra).
  assert (Hxy : 0 <= x * y <= 1) by nra.
  assert (Hp : 0 <= p <= 1) by (apply rnd_between; auto using fmt_0, fmt_1).
  assert (Ex := rnd_err (1 - a)). assert (Ey := rnd_err (1 - b)).
  assert (Ep := rnd_err (x * y) Hxy). assert (Eq := rnd_err (1 - p)).
  fold x in Ex. fold y in Ey. fold p in Ep.
  specialize (Ex ltac:(lra)). specialize (Ey ltac:(lra)). specialize (Eq ltac:(lra)).
  set (e := bpow radix2 (-53)) in *.
  apply Rabs_le_inv in Ex, Ey, Ep, Eq.
  assert (He : 0 < e) by apply bpow_gt_0.
  assert (He2 : 64 * e <= bpow radix2 (-27)).
  { replace 64 with (bpow radix2 6) by (simpl; lra). unfold e. rewrite <- bpow_plus. apply bpow_le. lia. }
  assert (He1 : e <= 1 / 64) .
  { apply Rle_trans with (bpow radix2 (-6)); [unfold e; apply bpow_le; lia|simpl; lra]. }
  destruct (Rle_lt_dec (4 * e) (a * (1 - b) + b * (1 - a))) as [H|H].
  { assert (x * y <= (1 - a) * (1 - b) + 3 * e) by nra. lra. }
  destruct (Rle_lt_dec a (/ 2)) as [Hsa|Hla].
  - exfalso. assert (b < 8 * e) by nra. assert (a < 8 * e) by nra.
    assert (1 - 19 * e <= x * y) by nra. lra.
  - assert (Hlb : / 2 < b) by nra.
    assert (Xe : x = 1 - a).
    { apply rnd_id. apply sterbenz; auto; try apply valid_fexp64; try apply fmt_1; try lra.
      intros u v Huv. unfold SpecFloat.fexp. lia. }
    assert (p <= x).
    { apply rnd_le; [rewrite Xe|nra]. rewrite <- Xe. apply rnd_fmt. }
    nra.
Qed.

Lemma eps_ok : ffin f_eps /\ bpow radix2 (-27) <= fval f_eps.
Proof.
  assert (F : ffin f_eps) by (split; [reflexivity|exact I]).
  split; auto.
  set (q := S754_finite false 4503599627370496 (-79)).
  assert (Fq : ffin q) by (split; [reflexivity|exact I]).
  assert (V : fval q = bpow radix2 (-27)).
  { unfold fval, q, SF2R, F2R. simpl cond_Zopp. cbn [Fnum Fexp].
    change (IZR (Z.pos 4503599627370496)) with (bpow radix2 52). rewrite <- bpow_plus; reflexivity. }
  rewrite <- V. apply fleb_ok; auto.
Qed.

Lemma fabs_R01 : forall x, R01 x -> ffin (fabs x) /\ fval (fabs x) = fval x.
Proof.
  intros x [[Hv Hf] Hx]. destruct x as [s|s| |s m e]; try tauto.
  - split; [split; auto|reflexivity].
  - split; [split; [exact Hv|exact I]|]. destruct s; auto. exfalso.
    unfold fval, SF2R in Hx. assert (F2R (Float radix2 (cond_Zopp true (Zpos m)) e) < 0).
    { apply F2R_lt_0. reflexivity. } lra.
Qed.

Lemma comp_range : forall a b, tvInRange a -> tvInRange b -> tvInRange (comp a b).
Proof.
  intros a b [Fa Ca] [Fb Cb]. unfold tvInRange. rewrite !unit64_R01 in *.
  unfold comp, g_comp. tvs. change (g_w2c f64_arith) with w2c. change (g_or f64_arith) with f_or.
  assert (Ho : R01 (f_or (tvf a) (tvf b)) /\ fval (f_or (tvf a) (tvf b)) =
    rnd (1 - rnd (rnd (1 - fval (tvf a)) * rnd (1 - fval (tvf b))))).
  { unfold f_or, g_or. tvs.
    destruct (R01_neg _ Fa) as [Na Va]. destruct (R01_neg _ Fb) as [Nb Vb].
    destruct (R01_mul _ _ Na Nb) as [M VM]. destruct (R01_neg _ M) as [N VN].
    split; auto. now rewrite VN, VM, Va, Vb. }
  destruct Ho as [Ho Vo].
  split; [|apply w2c_R01; apply R01_mul; auto; apply R01_mul; auto].
  destruct (fltb (fabs (f_or (tvf a) (tvf b))) f_eps) eqn:E; [apply f0_R01|].
  destruct (fabs_R01 _ Ho) as [Fab Vab]. destruct eps_ok as [Fe Ve].
  assert (Hge : bpow radix2 (-27) <= fval (f_or (tvf a) (tvf b))).
  { apply Rle_trans with (1 := Ve). rewrite <- Vab. apply Rnot_lt_le. intros Hlt.
    apply (fltb_ok _ _ Fab Fe) in Hlt. congruence. }
  assert (Hpos : 0 < bpow radix2 (-27)) by apply bpow_gt_0.
  destruct (R01_mul _ _ Fa Fb) as [[Fm Hm] Vm].
  assert (Hc : fval (fmul (tvf a) (tvf b)) <= fval (f_or (tvf a) (tvf b))).
  { rewrite Vm, Vo. apply comp_core; try (apply ffin_fmt; apply Fa || apply Fb); try apply Fa; try apply Fb.
    now rewrite Vo in Hge. }
  destruct Ho as [Fo Ho].
  assert (Hq : 0 <= fval (fmul (tvf a) (tvf b)) / fval (f_or (tvf a) (tvf b)) <= 1).
  { split; [apply Rmult_le_pos; [lra|]; apply Rlt_le, Rinv_0_lt_compat; lra|].
    apply Rmult_le_reg_r with (fval (f_or (tvf a) (tvf b))); [lra|].
    unfold Rdiv. rewrite Rmult_assoc, Rinv_l by lra. lra. }
  destruct (fdiv_ok (fmul (tvf a) (tvf b)) (f_or (tvf a) (tvf b))) as [Fd Vd]; auto; [apply Rgt_not_eq; lra| |].
  { apply (rnd_small 0 1); auto using fmt_0, fmt_1; lra. }
  split; auto. rewrite Vd. apply rnd_between; auto using fmt_0, fmt_1.
Qed.

(** * Full confidence *)
Definition fpos_inf : f64 := S754_infinity false.

Lemma c2w_one : c2w f1 = fpos_inf.
Proof. vm_compute. reflexivity. Qed.

Lemma valid_zero_or : forall x, R01 x -> (exists s, x = S754_zero s) \/ (exists m e, x = S754_finite false m e).
Proof.
  intros x [[Hv Hf] Hx]. destruct x as [s|s| |s m e]; try tauto; eauto. destruct s; eauto. exfalso.
  unfold fval, SF2R in Hx. assert (F2R (Float radix2 (cond_Zopp true (Zpos m)) e) < 0).
  { apply F2R_lt_0. reflexivity. } lra.
Qed.

Lemma valid_one : forall x, R01 x -> fval x = 1 -> x = f1.
Proof.
  intros x [Fx Hx] E. destruct (ffin_B x Fx) as (b & -> & Hb).
  destruct f1_ok as [F1 V1]. destruct (ffin_B f1 F1) as (o & Eo & Ho).
  rewrite Eo. f_equal. apply B2R_inj; rewrite Eo in V1; rewrite fval_B in *.
  - destruct b; simpl in *; try discriminate; try lra; reflexivity.
  - destruct o; simpl in *; try discriminate; try lra; reflexivity.
  - congruence.
Qed.

Lemma inf_num_l : forall x z, fdiv (fadd (fmul fpos_inf x) z) fpos_inf = S754_nan.
Proof. intros [s|s| |s m e] [s'|s'| |s' m' e']; try reflexivity; destruct s; try reflexivity; destruct s'; reflexivity. Qed.
Lemma inf_num_r : forall x z, fdiv (fadd z (fmul fpos_inf x)) fpos_inf = S754_nan.
Proof. intros [s|s| |s m e] [s'|s'| |s' m' e']; try reflexivity; destruct s; try reflexivity; destruct s'; reflexivity. Qed.

Lemma c2w_form : forall c, R01 c -> c2w c = fpos_inf \/ (ffin (c2w c) /\ 0 <= fval (c2w c)).
Proof.
  intros c Hc. destruct (Rlt_le_dec (fval c) 1) as [H|H].
  - right. destruct (c2w_ok c Hc H) as [F V]. split; auto. lra.
  - left. rewrite (valid_one c); [apply c2w_one|auto|]. destruct Hc. lra.
Qed.

Lemma inf_plus : forall x, x = fpos_inf \/ (ffin x /\ 0 <= fval x) ->
  fadd fpos_inf x = fpos_inf /\ fadd x fpos_inf = fpos_inf.
Proof. intros x [->|[[_ F] _]]; [split; reflexivity|]. destruct x; try tauto; split; reflexivity. Qed.

Lemma rev_full : forall a b, tvInRange a -> tvInRange b -> tvc a = f1 \/ tvc b = f1 ->
  tvf (rev a b) = S754_nan /\ tvc (rev a b) = S754_nan.
Proof.
  intros a b [Fa Ca] [Fb Cb] H. rewrite unit64_R01 in *.
  unfold rev, g_rev. tvs. change (g_c2w f64_arith) with c2w. change (g_w2c f64_arith) with w2c.
  destruct H as [E|E]; rewrite E, c2w_one.
  - destruct (inf_plus (c2w (tvc b)) (c2w_form _ Cb)) as [-> _].
    change (fltb f0 fpos_inf) with true. cbv iota. rewrite inf_num_l. split; reflexivity.
  - destruct (inf_plus (c2w (tvc a)) (c2w_form _ Ca)) as [_ ->].
    change (fltb f0 fpos_inf) with true. cbv iota. rewrite inf_num_r. split; reflexivity.
Qed.

Lemma nan_exp : forall t : tv, tvf t = S754_nan -> calcExp t = S754_nan.
Proof.
  intros t H. unfold calcExp, g_calcExp. tvs. rewrite H. destruct (tvc t); reflexivity.
Qed.

Lemma nan_sort_panics : forall (A : Type) (key : A -> f64) l x,
  In x l -> fis_nan (key x) = true -> (2 <= length l)%nat -> fsort_desc key l = Panic.
Proof.
  intros A key l x Hin Hn Hl. unfold fsort_desc.
  replace (2 <=? Z.of_nat (length l))%Z with true by (symmetry; apply Z.leb_le; lia).
  replace (existsb _ l) with true; [reflexivity|]. symmetry. apply existsb_exists. eauto.
Qed.

(** * Exact symmetry of the float operations *)
Lemma fmul_comm : forall x y, fmul x y = fmul y x.
Proof.
  intros [s|s| |s m e] [s'|s'| |s' m' e']; try reflexivity; unfold fmul, SFmul; try (now rewrite xorb_comm).
  now rewrite xorb_comm, Pos.mul_comm, Z.add_comm.
Qed.
Lemma fadd_comm : forall x y, fadd x y = fadd y x.
Proof.
  intros [s|s| |s m e] [s'|s'| |s' m' e']; try reflexivity; unfold fadd, SFadd;
    try (destruct s, s'; reflexivity).
  now rewrite Z.min_comm, Z.add_comm.
Qed.

Lemma ded_comm : forall a b, ded a b = ded b a.
Proof.
  intros a b. unfold ded, g_ded. tvs.
  now rewrite (fmul_comm (tvf b)), (fmul_comm (tvc b)).
Qed.
Lemma int_comm : forall a b, int a b = int b a.
Proof. intros a b. unfold int, g_int. tvs. now rewrite (fmul_comm (tvf b)), (fmul_comm (tvc b)). Qed.
Lemma rev_comm : forall a b, rev a b = rev b a.
Proof.
  intros a b. unfold rev, g_rev. tvs.
  rewrite (fadd_comm (g_c2w _ (tvc b))), (fadd_comm (fmul (g_c2w _ (tvc b)) _)). reflexivity.
Qed.
(** comparison is symmetric up to the association of the weight product *)
Lemma comp_freq_comm : forall a b, tvf (comp a b) = tvf (comp b a).
Proof.
  intros a b. unfold comp, g_comp, g_or. tvs.
  now rewrite (fmul_comm (fsub f1 (tvf b))), (fmul_comm (tvf b)).
Qed.

(** * Weak rules give at most one unit of evidence *)
Lemma fmt_double : forall x, fmt x -> 0 <= x <= 1 -> fmt (2 * x).
Proof.
  intros x F H. 
  assert (E : fmt (x * bpow radix2 1)).
  { unfold fmt in *. apply (FLT_format_generic radix2 (-1074) 53) in F.
    destruct F as [f E1 E2 E3].
    apply (generic_format_FLT radix2 (-1074) 53).
    exists (Float radix2 (Fnum f) (Fexp f + 1)).
    - rewrite E1. unfold F2R. simpl Fnum. simpl Fexp. rewrite bpow_plus. ring.
    - exact E2.
    - simpl. lia. }
  simpl bpow in E. replace (2 * x) with (x * 2) by ring. exact E.
Qed.

Lemma w2c_half : forall w, R01 w -> fleb (w2c w) f05 = true.
Proof.
  intros w [Fw Hw]. destruct (w2c_R01 w (conj Fw Hw)) as [Fc Hc]. destruct f05_ok as [F5 V5].
  apply fleb_ok; auto. rewrite V5. revert Fc Hc.
  unfold w2c, g_w2c. tvs. destruct f1_ok as [F1 V1].
  destruct (fadd_ok w f1 Fw F1) as [Fs Vs].
  { rewrite V1. apply (rnd_small 0 2); auto using fmt_0; try lra. apply (fmt_bpow 1). lia. }
  rewrite V1 in Vs. intros Fc Hc.
  assert (H1 : 1 <= fval (fadd w f1)) by (rewrite Vs; apply rnd_ge; [apply fmt_1|lra]).
  assert (H2 : 2 * fval w <= fval (fadd w f1)).
  { rewrite Vs. apply rnd_ge; [|lra]. apply fmt_double; auto. now apply ffin_fmt. }
  assert (H3 : 0 <= fval w / fval (fadd w f1) <= / 2).
  { split; [apply Rmult_le_pos; [lra|]; apply Rlt_le, Rinv_0_lt_compat; lra|].
    apply Rmult_le_reg_r with (fval (fadd w f1)); [lra|]. unfold Rdiv. rewrite Rmult_assoc, Rinv_l by lra. lra. }
  destruct (fdiv_ok w (fadd w f1)) as [Fd Vd]; auto; [apply Rgt_not_eq; lra| |].
  { apply (rnd_small 0 1); auto using fmt_0, fmt_1; lra. }
  rewrite Vd. apply rnd_le; [apply fmt_half|lra].
Qed.

Lemma abd_weak : forall a b, tvInRange a -> tvInRange b -> fleb (tvc (abd a b)) f05 = true.
Proof.
  intros a b [Fa Ca] [Fb Cb]. rewrite unit64_R01 in *. unfold abd, g_abd. tvs. apply w2c_half.
  apply R01_mul; auto. apply R01_mul; auto.
Qed.

Lemma fmul_le_l : forall x y, R01 x -> R01 y -> fleb (fmul x y) x = true.
Proof.
  intros x y Hx Hy. destruct (R01_mul x y Hx Hy) as [[F _] V]. destruct Hx as [Fx Hx], Hy as [Fy Hy].
  apply fleb_ok; auto. rewrite V. apply rnd_le; [now apply ffin_fmt|nra].
Qed.
Lemma fleb_trans01 : forall x y z, ffin x -> ffin y -> ffin z -> fleb x y = true -> fleb y z = true -> fleb x z = true.
Proof. intros x y z Fx Fy Fz H1 H2. apply fleb_ok in H1, H2; auto. apply fleb_ok; auto. lra. Qed.

(** deduction never increases confidence *)
Lemma ded_conf : forall a b, tvInRange a -> tvInRange b ->
  fleb (tvc (ded a b)) (tvc a) = true /\ fleb (tvc (ded a b)) (tvc b) = true.
Proof.
  intros a b [Fa Ca] [Fb Cb]. rewrite unit64_R01 in *. unfold ded, g_ded. tvs.
  destruct (R01_mul _ _ Fa Fb) as [F _]. destruct (R01_mul _ _ Ca Cb) as [C _].
  destruct (R01_mul _ _ C F) as [D _].
  assert (H := fmul_le_l _ _ C F). assert (Hl := fmul_le_l _ _ Ca Cb).
  assert (Hr := fmul_le_l _ _ Cb Ca). rewrite fmul_comm in Hr.
  split; (eapply fleb_trans01; [| | |exact H|]); try assumption; try apply D; try apply C; try apply Ca; try apply Cb.
Qed.
