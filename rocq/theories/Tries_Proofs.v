(** What counted successes and failures mean for the numbers compared in decisions. *)
From Coq Require Import ZArith Reals Bool Lia Lra List Psatz.
From Flocq Require Import Core.Core IEEE754.BinarySingleNaN.
From Coq Require Import Floats.SpecFloat.
From Verif Require Import Base F64_Model F64_Proofs Tv_Model Tv_Spec Tv_Proofs Sentence_Model Sentence_Proofs Parser_Model.
Local Open Scope R_scope.

Definition hu : R := / 9007199254740992.
Lemma hu_small : 0 < hu <= / 1000000.
Proof. unfold hu. split; [apply Rinv_0_lt_compat; lra|]. apply Rinv_le; lra. Qed.
Lemma round_err : forall x, Rabs x <= 1 -> Rabs (rnd x - x) <= hu.
Proof.
  intros x H. unfold rnd. eapply Rle_trans; [apply (error_le_half_ulp radix2 fexp64)|].
  replace hu with (/ 2 * bpow radix2 (-52)) by (unfold hu; change (bpow radix2 (-52)) with (/ 4503599627370496); lra). apply Rmult_le_compat_l; [lra|].
  assert (M : Monotone_exp fexp64) by (intros a b Hab; unfold SpecFloat.fexp; lia).
  eapply Rle_trans; [apply (ulp_le radix2 fexp64 x 1); rewrite (Rabs_pos_eq 1); lra|]. change 1%R with (bpow radix2 0). rewrite ulp_bpow. apply Rle_refl.
Qed.
Lemma fmt_int : forall z, (Z.abs z <= 2 ^ 53)%Z -> fmt (IZR z).
Proof.
  intros z H. replace (IZR z) with (F2R (Float radix2 z 0)) by (unfold F2R; cbn; ring).
  destruct (Z.eq_dec (Z.abs z) (2 ^ 53)) as [E|E].
  - destruct (Z_le_gt_dec 0 z).
    + replace z with (2 ^ 53)%Z by lia. replace (F2R (Float radix2 (2 ^ 53) 0)) with (bpow radix2 53) by (unfold F2R; cbn [Fnum Fexp]; change (bpow radix2 53) with 9007199254740992; change (IZR (2 ^ 53)) with 9007199254740992; change (bpow radix2 0) with 1; lra). apply fmt_bpow. lia.
    + replace z with (- 2 ^ 53)%Z by lia. replace (F2R (Float radix2 (- 2 ^ 53) 0)) with (- bpow radix2 53) by (unfold F2R; cbn [Fnum Fexp]; change (bpow radix2 53) with 9007199254740992; change (IZR (- 2 ^ 53)) with (-9007199254740992); change (bpow radix2 0) with 1; lra). apply generic_format_opp, fmt_bpow. lia.
  - apply generic_format_F2R. intros Nz. unfold cexp, SpecFloat.fexp, SpecFloat.emin, fprec, femax.
    assert (M : (mag radix2 (F2R (Float radix2 z 0)) <= 53)%Z).
    { apply mag_le_bpow; [now apply F2R_neq_0|]. unfold F2R. cbn [Fnum Fexp]. change (bpow radix2 0) with 1. rewrite Rmult_1_r, <- abs_IZR. change (bpow radix2 53) with (IZR (2 ^ 53)). apply IZR_lt. lia. }
    cbn [Fexp]. lia.
Qed.
Lemma int_exact : forall z, (0 <= z <= 2 ^ 53)%Z -> ffin (f_of_Z z) /\ fval (f_of_Z z) = IZR z.
Proof.
  intros z H. assert (2 ^ 53 <= 2 ^ 64)%Z by now vm_compute. destruct (f_of_Z_ok z) as (F & V); [lia|]. split; [exact F|]. rewrite V. apply rnd_id, fmt_int. lia.
Qed.
(** a number close to a given one *)
Definition within (k : R) (x : f64) (r : R) : Prop := ffin x /\ Rabs (fval x - r) <= k * hu.
Definition unit (x : R) : Prop := -1 <= x <= 1.
Lemma fits : forall r, Rabs r <= 4 -> Rabs (rnd r) < fmaxR.
Proof.
  intros r H. apply Rabs_le_inv in H. assert (fmt 4) by (apply (fmt_int 4); now vm_compute). assert (fmt (-4)) by (apply (fmt_int (-4)); now vm_compute). apply (rnd_small (-4) 4); auto; lra.
Qed.
Ltac abss := repeat match goal with H : Rabs _ <= _ |- _ => apply Rabs_le_inv in H end; try (apply Rabs_le).
Lemma near_mul : forall a b x y r s, within a x r -> within b y s -> -1 <= fval x * fval y <= 1 -> -1 <= r <= 1 -> -1 <= fval y <= 1 -> 0 <= a -> 0 <= b -> within (a + b + 1) (fmul x y) (r * s).
Proof.
  intros a b x y r s (Fx & Hx) (Fy & Hy) U Ur Uy A B. destruct (fmul_ok x y Fx Fy) as (F & V). { apply fits. abss; lra. } split; [exact F|]. rewrite V.
  assert (E := round_err (fval x * fval y) ltac:(abss; lra)).
  replace (rnd (fval x * fval y) - r * s) with ((rnd (fval x * fval y) - fval x * fval y) + ((fval x - r) * fval y + r * (fval y - s))) by ring.
  eapply Rle_trans; [apply Rabs_triang|]. eapply Rle_trans; [apply Rplus_le_compat; [exact E|apply Rabs_triang]|]. rewrite !Rabs_mult.
  assert (Rabs (fval y) <= 1) by (abss; lra). assert (Rabs r <= 1) by (abss; lra).
  assert (Rabs (fval x - r) * Rabs (fval y) <= a * hu * 1) by (apply Rmult_le_compat; try apply Rabs_pos; assumption).
  assert (Rabs r * Rabs (fval y - s) <= 1 * (b * hu)) by (apply Rmult_le_compat; try apply Rabs_pos; assumption). lra.
Qed.
Lemma near_add : forall a b x y r s, within a x r -> within b y s -> -1 <= fval x + fval y <= 1 -> within (a + b + 1) (fadd x y) (r + s).
Proof.
  intros a b x y r s (Fx & Hx) (Fy & Hy) U. destruct (fadd_ok x y Fx Fy) as (F & V). { apply fits. abss; lra. } split; [exact F|]. rewrite V.
  assert (E := round_err (fval x + fval y) ltac:(abss; lra)). abss. lra.
Qed.
Lemma near_sub : forall a b x y r s, within a x r -> within b y s -> -1 <= fval x - fval y <= 1 -> within (a + b + 1) (fsub x y) (r - s).
Proof.
  intros a b x y r s (Fx & Hx) (Fy & Hy) U. destruct (fsub_ok x y Fx Fy) as (F & V). { apply fits. abss; lra. } split; [exact F|]. rewrite V.
  assert (E := round_err (fval x - fval y) ltac:(abss; lra)). abss. lra.
Qed.
Lemma near_half : within 0 f05 (/ 2).
Proof. destruct f05_ok as (F & V). split; [exact F|]. rewrite V. replace (/ 2 - / 2) with 0 by ring. rewrite Rabs_R0. lra. Qed.
(** * One belief *)
Section Counts.
  Variables p c : Z.
  Hypothesis P : (0 <= p <= c)%Z.
  Hypothesis C : (1 <= c < 2 ^ 53)%Z.
  Lemma Pr : 0 <= IZR p <= IZR c. Proof. split; apply IZR_le; lia. Qed.
  Lemma Cr : 1 <= IZR c. Proof. apply IZR_le; lia. Qed.
  Lemma quot01 : forall a b, 0 <= a <= b -> 0 < b -> 0 <= a / b <= 1.
  Proof. intros a b H B. split; [apply Rmult_le_pos; [lra|apply Rlt_le, Rinv_0_lt_compat; lra]|]. apply Rmult_le_reg_r with b; [lra|]. unfold Rdiv. rewrite Rmult_assoc, Rinv_l by lra. lra. Qed.
  Lemma div_near : forall x y, ffin x -> ffin y -> 0 <= fval x <= fval y -> 0 < fval y -> within 1 (fdiv x y) (fval x / fval y) /\ 0 <= fval (fdiv x y) <= 1.
  Proof.
    intros x y Fx Fy H Y. pose proof (quot01 _ _ H Y) as Q. destruct (fdiv_ok x y Fx Fy) as (F & V); [lra|apply fits; abss; lra|]. split.
    - split; [exact F|]. rewrite V. pose proof (round_err (fval x / fval y) ltac:(abss; lra)). lra.
    - rewrite V. apply rnd_between; auto using fmt_0, fmt_1.
  Qed.
  Lemma freq_near : within 1 (retFreq p c) (IZR p / IZR c) /\ 0 <= fval (retFreq p c) <= 1.
  Proof.
    destruct (int_exact p ltac:(lia)) as (Fp & Vp). destruct (int_exact c ltac:(lia)) as (Fc & Vc). pose proof Pr. pose proof Cr. unfold retFreq.
    replace (IZR p / IZR c) with (fval (f_of_Z p) / fval (f_of_Z c)) by now rewrite Vp, Vc. apply div_near; auto; rewrite ?Vp, ?Vc; lra.
  Qed.
  Lemma conf_near : within 1 (retConf c) (IZR c / IZR (c + 1)) /\ 0 <= fval (retConf c) <= 1.
  Proof.
    destruct (int_exact c ltac:(lia)) as (Fc & Vc). destruct f1_ok as (F1 & V1). pose proof Cr as C1.
    assert (E : rnd (fval (f_of_Z c) + fval f1) = IZR (c + 1)). { rewrite Vc, V1, <- (plus_IZR c 1). apply rnd_id, fmt_int. lia. }
    destruct (fadd_ok (f_of_Z c) f1 Fc F1) as (Fa & Va).
    { rewrite E, Rabs_pos_eq by (apply IZR_le; lia). eapply Rle_lt_trans; [apply IZR_le; instantiate (1 := (2 ^ 53)%Z); lia|]. change (IZR (2 ^ 53)) with (bpow radix2 53). apply bpow_lt. reflexivity. }
    rewrite E in Va. unfold retConf. replace (IZR c / IZR (c + 1)) with (fval (f_of_Z c) / fval (fadd (f_of_Z c) f1)) by now rewrite Va, Vc. assert (IZR (c + 1) = IZR c + 1) by now rewrite plus_IZR. apply div_near; auto; rewrite ?Va, ?Vc; lra.
  Qed.
  (** * The expectation of a truth value *)
  Lemma exp_near : forall a b f w r s, within a f r -> within b w s -> 0 <= fval f <= 1 -> 0 <= fval w <= 1 -> 0 <= s <= 1 -> 0 <= a -> 0 <= b ->
    within (b + (a + 0 + 1) + 1 + 0 + 1) (calcExp (mkTv f w)) (s * (r - / 2) + / 2).
  Proof.
    intros a b f w r s Nf Nw Uf Uw Us A B. unfold calcExp, g_calcExp. cbn [f64_arith Aadd Asub Amul Ahalf tvf tvc].
    destruct f05_ok as (F5 & V5). destruct Nf as (Ff & Hf). assert (Fh : fmt (/ 2)) by (replace (/ 2) with (bpow radix2 (-1)) by (change (bpow radix2 (-1)) with (/ 2); lra); apply fmt_bpow; lia).
    assert (Fh' : fmt (- / 2)) by now apply generic_format_opp.
    destruct (fsub_ok f f05 Ff F5) as (Fs & Vs); [apply fits; abss; rewrite V5; lra|].
    assert (Us' : - / 2 <= fval (fsub f f05) <= / 2) by (rewrite Vs, V5; apply rnd_between; auto; lra).
    pose proof (near_sub a 0 f f05 r (/ 2) (conj Ff Hf) near_half ltac:(rewrite V5; lra)) as N1.
    pose proof (near_mul b (a + 0 + 1) w (fsub f f05) s (r - / 2) Nw N1 ltac:(split; nra) ltac:(lra) ltac:(lra) B ltac:(lra)) as N2.
    apply near_add; [exact N2|exact near_half|]. rewrite V5. destruct Nw as (Fw & _).
    destruct (fmul_ok w (fsub f f05) Fw Fs) as (Fm & Vm); [apply fits; abss; nra|]. rewrite Vm.
    assert (- / 2 <= rnd (fval w * fval (fsub f f05)) <= / 2) by (apply rnd_between; auto; nra). lra.
  Qed.
  Lemma expectation : within 5 (calcExp (evidenceTv (CNT p c))) (IZR (2 * p + 1) / IZR (2 * c + 2)).
  Proof.
    destruct freq_near as (N1 & U1). destruct conf_near as (N2 & U2). pose proof Cr as C1. pose proof Pr. assert (C2 : IZR (c + 1) = IZR c + 1) by now rewrite plus_IZR.
    cbn [evidenceTv]. pose proof (exp_near 1 1 (retFreq p c) (retConf c) _ _ N1 N2 U1 U2) as E.
    replace (IZR (2 * p + 1) / IZR (2 * c + 2)) with (IZR c / IZR (c + 1) * (IZR p / IZR c - / 2) + / 2).
    2: { rewrite C2, !plus_IZR, !mult_IZR. field. lra. }
    replace 5 with (1 + (1 + 0 + 1) + 1 + 0 + 1) by ring. apply E; try lra. rewrite C2. apply quot01; lra.
  Qed.
  (** * What a wish of the usual strength makes of it *)
  Lemma val_9 : within 1 (f_frac 9 10) (9 / 10) /\ 0 <= fval (f_frac 9 10) <= 1.
  Proof.
    assert (F : ffin (f_frac 9 10)) by (split; [reflexivity|exact I]).
    assert (V : fval (f_frac 9 10) = 8106479329266893 / 9007199254740992). { unfold fval. replace (f_frac 9 10) with (S754_finite false 8106479329266893 (-53)) by (vm_compute; reflexivity). cbn [SF2R]. unfold F2R. cbn [Fnum Fexp cond_Zopp]. change (bpow radix2 (-53)) with (/ 9007199254740992). lra. }
    split; [split; [exact F|]|]; rewrite V; [|lra]. unfold hu. abss. lra.
  Qed.
  Lemma one_mul : forall x, ffin x -> 0 <= fval x <= 1 -> ffin (fmul f1 x) /\ fval (fmul f1 x) = fval x.
  Proof.
    intros x Fx U. destruct f1_ok as (F1 & V1). destruct (fmul_ok f1 x F1 Fx) as (F & V); [apply fits; rewrite V1; abss; lra|]. split; [exact F|]. rewrite V, V1, Rmult_1_l. apply rnd_id. now apply ffin_fmt.
  Qed.
  Lemma deduced : within 9 (calcExp (dedGoal defaultTv (evidenceTv (CNT p c)))) (9 / 10 * (IZR p / IZR (c + 1)) * (IZR p / IZR c - / 2) + / 2).
  Proof.
    destruct freq_near as (N1 & U1). destruct conf_near as (N2 & U2). pose proof Cr as C1. pose proof Pr as P1. assert (C2 : IZR (c + 1) = IZR c + 1) by now rewrite plus_IZR.
    destruct val_9 as (N9 & U9). cbn [evidenceTv]. set (f := retFreq p c) in *. set (w := retConf c) in *. destruct f1_ok as (F1 & V1). destruct f0_ok as (F0 & V0).
    pose proof (quot01 (IZR c) (IZR (c + 1)) ltac:(rewrite C2; lra) ltac:(rewrite C2; lra)) as Uk. pose proof (quot01 (IZR p) (IZR c) ltac:(lra) ltac:(lra)) as Uq.
    set (k := IZR c / IZR (c + 1)) in *. set (q := IZR p / IZR c) in *.
    destruct (one_mul f (proj1 N1) U1) as (Fg & Vg). set (g := fmul f1 f) in *.
    assert (Ng : within 1 g q) by (split; [exact Fg|]; rewrite Vg; apply N1). assert (Ug : 0 <= fval g <= 1) by (rewrite Vg; exact U1).
    pose proof (near_mul 1 1 (f_frac 9 10) w (9 / 10) k N9 N2 ltac:(split; nra) ltac:(lra) ltac:(lra) ltac:(lra) ltac:(lra)) as N3.
    assert (U3 : 0 <= fval (fmul (f_frac 9 10) w) <= 1).
    { destruct (fmul_ok (f_frac 9 10) w (proj1 N9) (proj1 N2)) as (_ & V); [apply fits; abss; nra|]. rewrite V. apply rnd_between; auto using fmt_0, fmt_1. nra. }
    set (m := fmul (f_frac 9 10) w) in *.
    pose proof (near_mul (1 + 1 + 1) 1 m g (9 / 10 * k) q N3 Ng ltac:(split; nra) ltac:(split; nra) ltac:(lra) ltac:(lra) ltac:(lra)) as N4.
    assert (U4 : 0 <= fval (fmul m g) <= 1).
    { destruct (fmul_ok m g (proj1 N3) Fg) as (_ & V); [apply fits; abss; nra|]. rewrite V. apply rnd_between; auto using fmt_0, fmt_1. nra. }
    assert (D : dedGoal defaultTv (mkTv f w) = mkTv g (fmul m g)).
    { unfold dedGoal, g_dedGoal, g_neg, g_ded, defaultTv. cbn [f64_arith Asub Amul A1 Aleb tvf tvc]. fold g m.
      destruct (fsub_ok f1 f1 F1 F1) as (Fz & Vz); [apply fits; rewrite V1; abss; lra|]. rewrite V1 in Vz. replace (1 - 1) with 0 in Vz by ring. rewrite rnd_0 in Vz.
      destruct (fmul_ok (fsub f1 f1) f Fz (proj1 N1)) as (Fy & Vy); [apply fits; rewrite Vz, Rmult_0_l; abss; lra|]. rewrite Vz, Rmult_0_l, rnd_0 in Vy.
      destruct (fmul_ok m (fmul (fsub f1 f1) f) (proj1 N3) Fy) as (Fx & Vx); [apply fits; rewrite Vy, Rmult_0_r; abss; lra|]. rewrite Vy, Rmult_0_r, rnd_0 in Vx.
      fold m. assert (L : fleb (fmul m (fmul (fsub f1 f1) f)) (fmul m g) = true) by (apply fleb_ok; [exact Fx|apply N4|lra]). rewrite L. reflexivity. }
    rewrite D. pose proof (exp_near 1 (1 + 1 + 1 + 1 + 1) g (fmul m g) q (9 / 10 * k * q) Ng N4 Ug U4 ltac:(split; nra) ltac:(lra) ltac:(lra)) as E.
    replace (9 / 10 * (IZR p / IZR (c + 1)) * (q - / 2) + / 2) with (9 / 10 * k * q * (q - / 2) + / 2).
    2: { assert (k * q = IZR p / IZR (c + 1)) by (unfold k, q; rewrite C2; field; lra). rewrite <- H. ring. }
    replace 9 with (1 + 1 + 1 + 1 + 1 + (1 + 0 + 1) + 1 + 0 + 1) at 1 by ring. exact E.
  Qed.
End Counts.
(** * Against the usual threshold *)
Definition usual : f64 := f_frac 58 100.
Lemma usual_val : within 1 usual (58 / 100).
Proof.
  assert (F : ffin usual) by (split; [reflexivity|exact I]). split; [exact F|]. unfold fval, usual.
  replace (f_frac 58 100) with (S754_finite false 5224175567749775 (-53)) by (vm_compute; reflexivity). cbn [SF2R]. unfold F2R. cbn [Fnum Fexp cond_Zopp]. change (bpow radix2 (-53)) with (/ 9007199254740992). unfold hu. abss. lra.
Qed.
Lemma above : forall k x r, within k x r -> fltb usual x = true -> 58 / 100 - (k + 1) * hu < r.
Proof. intros k x r (F & H) L. destruct usual_val as (Fu & U). apply fltb_ok in L; auto. abss. lra. Qed.
Lemma above' : forall k x r, within k x r -> 58 / 100 + (k + 1) * hu < r -> fltb usual x = true.
Proof. intros k x r (F & H) L. destruct usual_val as (Fu & U). apply fltb_ok; auto. abss. lra. Qed.
Lemma IZR_gap : forall a b, IZR a < IZR b + 1 -> (a <= b)%Z.
Proof. intros a b H. change 1 with (IZR 1) in H. rewrite <- plus_IZR in H. apply lt_IZR in H. lia. Qed.
Lemma strong_only : forall p c, (0 <= p <= c)%Z -> (1 <= c < 2 ^ 40)%Z -> fltb usual (calcExp (evidenceTv (CNT p c))) = true -> (29 * c + 4 <= 50 * p)%Z.
Proof.
  intros p c P C L. assert (2 ^ 40 < 2 ^ 53)%Z by now vm_compute. pose proof (expectation p c P ltac:(lia)) as N. pose proof (above _ _ _ N L) as A. apply IZR_gap.
  assert (Cr : 1 <= IZR c) by (apply IZR_le; lia). assert (Cb : IZR c + 1 <= 1099511627776) by (rewrite <- plus_IZR; apply IZR_le; lia).
  rewrite !plus_IZR, !mult_IZR in *. set (x := IZR p) in *. set (y := IZR c) in *. clearbody x y.
  apply (Rmult_lt_compat_r (2 * y + 2)) in A; [|lra]. unfold Rdiv in A at 2. rewrite Rmult_assoc, Rinv_l, Rmult_1_r in A by lra.
  assert (hu * (y + 1) <= / 8192). { eapply Rle_trans; [apply Rmult_le_compat_l; [apply Rlt_le, hu_small|exact Cb]|]. unfold hu. lra. } lra.
Qed.
Lemma strong_if : forall p c, (0 <= p <= c)%Z -> (1 <= c < 2 ^ 40)%Z -> (29 * c + 4 < 50 * p)%Z -> fltb usual (calcExp (evidenceTv (CNT p c))) = true.
Proof.
  intros p c P C L. assert (2 ^ 40 < 2 ^ 53)%Z by now vm_compute. pose proof (expectation p c P ltac:(lia)) as N. apply (above' _ _ _ N).
  assert (Cr : 1 <= IZR c) by (apply IZR_le; lia). assert (Cb : IZR c + 1 <= 1099511627776) by (rewrite <- plus_IZR; apply IZR_le; lia).
  assert (L' : IZR (29 * c + 4 + 1) <= IZR (50 * p)) by (apply IZR_le; lia).
  rewrite !plus_IZR, !mult_IZR in *. set (x := IZR p) in *. set (y := IZR c) in *. clearbody x y.
  apply (Rmult_lt_reg_r (2 * y + 2)); [lra|]. unfold Rdiv at 2. rewrite Rmult_assoc, Rinv_l, Rmult_1_r by lra.
  assert (hu * (y + 1) <= / 8192). { eapply Rle_trans; [apply Rmult_le_compat_l; [apply Rlt_le, hu_small|exact Cb]|]. unfold hu. lra. } lra.
Qed.
Lemma wished_only : forall p c, (0 <= p <= c)%Z -> (1 <= c < 2 ^ 20)%Z -> fltb usual (calcExp (dedGoal defaultTv (evidenceTv (CNT p c)))) = true -> (8 * c * (c + 1) <= 45 * p * (2 * p - c))%Z.
Proof.
  intros p c P C L. assert (2 ^ 20 < 2 ^ 53)%Z by now vm_compute. pose proof (deduced p c P ltac:(lia)) as N. pose proof (above _ _ _ N L) as A. apply IZR_gap.
  assert (Cr : 1 <= IZR c) by (apply IZR_le; lia). assert (Cb : IZR c + 1 <= 1048576) by (rewrite <- plus_IZR; apply IZR_le; lia).
  rewrite !mult_IZR, minus_IZR, !plus_IZR, !mult_IZR in *. set (x := IZR p) in *. set (y := IZR c) in *. clearbody x y.
  assert (Y : 0 < y * (y + 1)) by nra. apply (Rmult_lt_compat_r (100 * (y * (y + 1)))) in A; [|lra].
  replace ((9 / 10 * (x / (y + 1)) * (x / y - / 2) + / 2) * (100 * (y * (y + 1)))) with (45 * x * (2 * x - y) + 50 * (y * (y + 1))) in A by (field; lra).
  assert (hu * (y * (y + 1)) <= / 8192). { eapply Rle_trans; [apply Rmult_le_compat_l; [apply Rlt_le, hu_small|instantiate (1 := 1048576 * 1048576); nra]|]. unfold hu. lra. } lra.
Qed.
Lemma wished_if : forall p c, (0 <= p <= c)%Z -> (1 <= c < 2 ^ 20)%Z -> (8 * c * (c + 1) < 45 * p * (2 * p - c))%Z -> fltb usual (calcExp (dedGoal defaultTv (evidenceTv (CNT p c)))) = true.
Proof.
  intros p c P C L. assert (2 ^ 20 < 2 ^ 53)%Z by now vm_compute. pose proof (deduced p c P ltac:(lia)) as N. apply (above' _ _ _ N).
  assert (Cr : 1 <= IZR c) by (apply IZR_le; lia). assert (Cb : IZR c + 1 <= 1048576) by (rewrite <- plus_IZR; apply IZR_le; lia).
  assert (L' : IZR (8 * c * (c + 1) + 1) <= IZR (45 * p * (2 * p - c))) by (apply IZR_le; lia).
  rewrite !plus_IZR, !mult_IZR, minus_IZR, !plus_IZR, !mult_IZR in *. set (x := IZR p) in *. set (y := IZR c) in *. clearbody x y.
  assert (Y : 0 < y * (y + 1)) by nra. apply (Rmult_lt_reg_r (100 * (y * (y + 1)))); [lra|].
  replace ((9 / 10 * (x / (y + 1)) * (x / y - / 2) + / 2) * (100 * (y * (y + 1)))) with (45 * x * (2 * x - y) + 50 * (y * (y + 1))) by (field; lra).
  assert (hu * (y * (y + 1)) <= / 8192). { eapply Rle_trans; [apply Rmult_le_compat_l; [apply Rlt_le, hu_small|instantiate (1 := 1048576 * 1048576); nra]|]. unfold hu. lra. } lra.
Qed.
Lemma wished_strong : forall p c, (0 <= p <= c)%Z -> (1 <= c)%Z -> (8 * c * (c + 1) < 45 * p * (2 * p - c))%Z -> (29 * c + 4 < 50 * p)%Z.
Proof. intros p c P C L. nia. Qed.
