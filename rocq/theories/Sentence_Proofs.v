From Coq Require Import ZArith Reals Bool Lia Lra List Psatz.
From Coq Require Import Floats.SpecFloat.
From Flocq Require Import Core.Core IEEE754.BinarySingleNaN.
From Verif Require Import Base F64_Model F64_Proofs Tv_Model Tv_Spec Tv_Proofs Sentence_Model.
Local Open Scope R_scope.

Lemma punct_eqb_eq : forall a b, punct_eqb a b = true <-> a = b.
Proof. intros [] []; simpl; split; congruence. Qed.

Lemma shallowCopy_id : forall s, shallowCopySentence s = s.
Proof. now intros []. Qed.

Lemma f_of_Z_ok : forall z, (Z.abs z <= 2 ^ 64)%Z -> ffin (f_of_Z z) /\ fval (f_of_Z z) = rnd (IZR z).
Proof.
  intros z Hz. unfold f_of_Z. rewrite normalize_equiv.
  generalize (binary_normalize_correct fprec femax Hprec53 Hmax1024 mode_NE z 0 false).
  simpl round_mode. fold fmaxR.
  assert (E : F2R (Float radix2 z 0) = IZR z) by (unfold F2R; simpl; ring).
  rewrite E. fold (rnd (IZR z)).
  assert (L : Rabs (IZR z) <= bpow radix2 64).
  { rewrite <- abs_IZR. change (bpow radix2 64) with (IZR (2 ^ 64)). now apply IZR_le. }
  assert (F64' : fmt (bpow radix2 64)) by (apply fmt_bpow; lia).
  assert (Fm : fmt (- bpow radix2 64)) by now apply generic_format_opp.
  assert (L2 : bpow radix2 64 < fmaxR) by (apply bpow_lt; reflexivity).
  apply Rabs_le_inv in L.
  destruct (rnd_between _ _ _ Fm F64' L) as [H1 H2].
  cbv zeta. fold (rnd (IZR z)). rewrite Rlt_bool_true by (apply Rabs_def1; lra).
  intros (V & F & _). split; [now apply B_ffin|now rewrite fval_B].
Qed.

Lemma f_of_Z_mono : forall a b, (0 <= a <= b)%Z -> (b <= 2 ^ 64)%Z ->
  ffin (f_of_Z a) /\ ffin (f_of_Z b) /\ 0 <= fval (f_of_Z a) <= fval (f_of_Z b) /\ fval (f_of_Z b) <= bpow radix2 64.
Proof.
  intros a b Hab Hb.
  destruct (f_of_Z_ok a) as [Fa Va]; [lia|]. destruct (f_of_Z_ok b) as [Fb Vb]; [lia|].
  split; auto. split; auto. rewrite Va, Vb. split; [split|].
  - apply rnd_ge; [apply fmt_0|]. apply IZR_le. lia.
  - apply rnd_mono, IZR_le. lia.
  - apply rnd_le; [apply fmt_bpow; lia|]. change (bpow radix2 64) with (IZR (2 ^ 64)). now apply IZR_le.
Qed.

Lemma f_of_Z_pos : forall a, (1 <= a)%Z -> (a <= 2 ^ 64)%Z -> 1 <= fval (f_of_Z a).
Proof.
  intros a H1 H2. destruct (f_of_Z_ok a) as [Fa Va]; [lia|]. rewrite Va.
  apply rnd_ge; [apply fmt_1|]. now apply IZR_le.
Qed.

Lemma big64 : bpow radix2 64 <= big.
Proof. apply bpow_le. lia. Qed.

Lemma div_R01 : forall x y, ffin x -> ffin y -> 0 <= fval x <= fval y -> 0 < fval y -> R01 (fdiv x y).
Proof.
  intros x y Fx Fy Hx Hy.
  assert (H3 : 0 <= fval x / fval y <= 1).
  { split; [apply Rmult_le_pos; [lra|]; apply Rlt_le, Rinv_0_lt_compat; lra|].
    apply Rmult_le_reg_r with (fval y); [lra|]. unfold Rdiv. rewrite Rmult_assoc, Rinv_l by lra. lra. }
  destruct (fdiv_ok x y) as [Fd Vd]; auto; [apply Rgt_not_eq; lra| |].
  { apply (rnd_small 0 1); auto using fmt_0, fmt_1; lra. }
  split; auto. rewrite Vd. apply rnd_between; auto using fmt_0, fmt_1.
Qed.

(** counted evidence gives a truth value in range *)
Lemma cnt_range : forall p c, (0 <= p <= c)%Z -> (1 <= c < 2 ^ 63)%Z -> tvInRange (evidenceTv (CNT p c)).
Proof.
  intros p c Hp Hc. unfold tvInRange. rewrite !unit64_R01. simpl.
  assert (H64 : (2 ^ 63 < 2 ^ 64)%Z) by reflexivity.
  destruct (f_of_Z_mono p c Hp) as (Fp & Fc & [H0 H1] & H2); [lia|].
  assert (H3 := f_of_Z_pos c ltac:(lia) ltac:(lia)).
  split.
  - apply div_R01; auto; lra.
  - apply (w2c_ok (f_of_Z c)); auto. generalize big64. lra.
Qed.

Lemma useful_range : forall u now, (0 <= useCount u < 2 ^ 63)%Z -> (now - lastUsed u < 2 ^ 63)%Z ->
  unit64 (calcUsageUsefulness u now).
Proof.
  intros u now Hu Hn. rewrite unit64_R01. unfold calcUsageUsefulness.
  assert (H64 : (2 ^ 63 < 2 ^ 64)%Z) by reflexivity.
  set (r := Z.max (now - lastUsed u) 0).
  destruct (f_of_Z_mono 0 r) as (_ & Fr & [_ _] & H2); [lia|lia|].
  destruct (f_of_Z_mono 0 (useCount u)) as (_ & Fc & [_ _] & H3); [lia|lia|].
  assert (Hr0 : 0 <= fval (f_of_Z r)).
  { destruct (f_of_Z_ok r) as [_ V]; [lia|]. rewrite V. apply rnd_ge; [apply fmt_0|apply IZR_le; lia]. }
  assert (Hc0 : 0 <= fval (f_of_Z (useCount u))).
  { destruct (f_of_Z_ok (useCount u)) as [_ V]; [lia|]. rewrite V. apply rnd_ge; [apply fmt_0|apply IZR_le; lia]. }
  destruct f1_ok as [F1 V1].
  assert (B64 : fmt (bpow radix2 64)) by (apply fmt_bpow; lia).
  assert (B65 : fmt (bpow radix2 65)) by (apply fmt_bpow; lia).
  assert (L65 : bpow radix2 65 < fmaxR) by (apply bpow_lt; reflexivity).
  assert (L64 : bpow radix2 64 < fmaxR) by (apply bpow_lt; reflexivity).
  assert (E : bpow radix2 65 = 2 * bpow radix2 64) by (replace 65%Z with (1 + 64)%Z by lia; rewrite bpow_plus; reflexivity).
  assert (P : 1 <= bpow radix2 64) by (apply (bpow_le radix2 0 64); lia).
  destruct (fadd_ok (f_of_Z r) f1 Fr F1) as [Fs Vs].
  { rewrite V1. apply (rnd_upto (bpow radix2 65)); auto. lra. }
  rewrite V1 in Vs.
  assert (Hs : 1 <= fval (fadd (f_of_Z r) f1)) by (rewrite Vs; apply rnd_ge; [apply fmt_1|lra]).
  assert (Hq : 0 <= fval (f_of_Z (useCount u)) / fval (fadd (f_of_Z r) f1) <= bpow radix2 64).
  { split; [apply Rmult_le_pos; [lra|]; apply Rlt_le, Rinv_0_lt_compat; lra|].
    apply Rmult_le_reg_r with (fval (fadd (f_of_Z r) f1)); [lra|]. unfold Rdiv. rewrite Rmult_assoc, Rinv_l by lra. nra. }
  destruct (fdiv_ok (f_of_Z (useCount u)) (fadd (f_of_Z r) f1)) as [Fd Vd]; auto; [apply Rgt_not_eq; lra| |].
  { now apply (rnd_upto (bpow radix2 64)). }
  apply (w2c_ok (fdiv (f_of_Z (useCount u)) (fadd (f_of_Z r) f1))); auto.
  rewrite Vd. generalize (rnd_between 0 (bpow radix2 64) _ fmt_0 B64 Hq) big64. lra.
Qed.
