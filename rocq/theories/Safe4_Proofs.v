(** How much confidence a bounded number of observations can give. *)
From Coq Require Import ZArith Reals Bool Lia Lra List Psatz Permutation.
From Coq Require Import Floats.SpecFloat.
From Flocq Require Import Core.Core IEEE754.BinarySingleNaN Relative.
From Verif Require Import Base F64_Model F64_Proofs Tv_Model Tv_Spec Tv_Proofs Stamp_Model Stamp_Proofs Term_Model Sentence_Model
  Infer_Model Infer_Spec Infer_Proofs Mem_Model Mem_Spec Cycle_Model Cycle_Spec Sched_Model Sched_Spec Safe_Spec Safe2_Proofs.
Import ListNotations.
Local Open Scope R_scope.

Definition EZ : Z := (2 ^ 53)%Z.
Definition Ei : R := bpow radix2 (-53).
Lemma EZ_val : IZR EZ = bpow radix2 53.
Proof. reflexivity. Qed.
Lemma Ei_pos : 0 < Ei.
Proof. apply bpow_gt_0. Qed.
Lemma E_pos : 0 < IZR EZ.
Proof. apply IZR_lt. reflexivity. Qed.
Lemma E_Ei : IZR EZ * Ei = 1.
Proof. rewrite EZ_val. unfold Ei. rewrite <- bpow_plus. reflexivity. Qed.
Lemma fmt_frac : forall k, (0 <= k <= EZ)%Z -> fmt (IZR k * Ei).
Proof.
  intros k Hk. destruct (Z.eq_dec k EZ) as [->|N]; [rewrite E_Ei; apply fmt_1|].
  unfold fmt. apply (generic_format_FLT radix2 (-1074) 53). exists (Float radix2 k (-53)); [reflexivity|simpl; unfold EZ in *; lia|simpl; lia].
Qed.
Lemma rnd_rel : forall x, bpow radix2 (-1022) <= x -> x * (1 - Ei) <= rnd x <= x * (1 + Ei).
Proof.
  intros x Hx. assert (P : 0 < bpow radix2 (-1022)) by apply bpow_gt_0.
  assert (K := relative_error_N_FLT radix2 (-1074) 53 eq_refl (fun x => negb (Z.even x)) x).
  rewrite Rabs_pos_eq in K by lra. specialize (K Hx).
  change (Rabs (rnd x - x) <= / 2 * bpow radix2 (- (53) + 1) * x) in K.
  assert (E : / 2 * bpow radix2 (- (53) + 1) = Ei). { rewrite bpow_plus. unfold Ei. change (bpow radix2 1) with 2. change (- (53))%Z with (-53)%Z. generalize (bpow radix2 (-53)). intros r. field. }
  rewrite E in K. apply Rabs_le_inv in K. lra.
Qed.
Lemma tiny : forall z, (1 <= z)%Z -> bpow radix2 (-1022) <= Ei * IZR z.
Proof.
  intros z Hz. apply Rle_trans with Ei; [apply bpow_le; lia|]. assert (H := Ei_pos). apply IZR_le in Hz. nra.
Qed.
(** the weight of a capped confidence *)
Lemma c2w_cap : forall c k, R01 c -> (1 <= k < EZ)%Z -> fval c <= 1 - IZR k * Ei ->
  ffin (c2w c) /\ 0 <= fval (c2w c) <= bpow radix2 53 /\ fval (c2w c) <= (IZR EZ - IZR k) / IZR k * (1 + Ei).
Proof.
  intros c k Hc Hk Hcap. assert (Pe := Ei_pos). assert (PE := E_pos). assert (EE := E_Ei).
  assert (K1 : 1 <= IZR k) by (apply IZR_le; lia). assert (K2 : IZR k + 1 <= IZR EZ). { rewrite <- plus_IZR. apply IZR_le. lia. }
  assert (Hlt : fval c < 1) by nra. destruct (c2w_ok c Hc Hlt) as [F H]. split; auto. split; auto.
  destruct Hc as [Fc Hc]. revert F H. unfold c2w, g_c2w. tvs. destruct f1_ok as [F1 V1]. intros F H.
  destruct (R01_mul f1 c) as [[Fm Hm] Vm]; [split; [auto|lra]|split; auto|].
  rewrite V1, Rmult_1_l, rnd_id in Vm by now apply ffin_fmt.
  destruct (R01_neg c (conj Fc Hc)) as [[Fn Hn] Vn].
  assert (Hd : IZR k * Ei <= fval (fsub f1 c)). { rewrite Vn. apply rnd_ge; [apply fmt_frac; lia|lra]. }
  assert (Pd : 0 < fval (fsub f1 c)) by nra.
  assert (Q : fval (fmul f1 c) / fval (fsub f1 c) <= (IZR EZ - IZR k) / IZR k).
  { rewrite Vm. apply Rmult_le_reg_r with (fval (fsub f1 c)); [lra|]. unfold Rdiv at 1. rewrite Rmult_assoc, Rinv_l, Rmult_1_r by lra.
    apply Rle_trans with ((IZR EZ - IZR k) / IZR k * (IZR k * Ei)).
    - replace ((IZR EZ - IZR k) / IZR k * (IZR k * Ei)) with (IZR EZ * Ei - IZR k * Ei) by (field; lra). lra.
    - apply Rmult_le_compat_l; [|exact Hd]. apply Rmult_le_pos; [lra|]. apply Rlt_le, Rinv_0_lt_compat. lra. }
  assert (Up : 0 <= fval (fmul f1 c) / fval (fsub f1 c)) by (apply Rmult_le_pos; [lra|apply Rlt_le, Rinv_0_lt_compat; lra]).
  assert (X1 : bpow radix2 (-1022) <= (IZR EZ - IZR k) / IZR k).
  { apply Rle_trans with Ei; [apply bpow_le; lia|]. apply Rmult_le_reg_r with (IZR k); [lra|]. unfold Rdiv. rewrite Rmult_assoc, Rinv_l, Rmult_1_r by lra. nra. }
  destruct (fdiv_ok (fmul f1 c) (fsub f1 c)) as [Fd Vd]; auto; [apply Rgt_not_eq; lra| |].
  { apply (rnd_upto (bpow radix2 53)); [apply fmt_bpow; lia| |apply bpow_lt; reflexivity]. split; [auto|].
    apply Rle_trans with (1 := Q). rewrite <- EZ_val. apply Rmult_le_reg_r with (IZR k); [lra|]. unfold Rdiv. rewrite Rmult_assoc, Rinv_l, Rmult_1_r by lra. nra. }
  rewrite Vd. apply Rle_trans with (rnd ((IZR EZ - IZR k) / IZR k)); [now apply rnd_mono|]. now apply rnd_rel.
Qed.
(** the integer inequality that carries a cap over a revision *)
Definition capStep (k1 k2 k : Z) : bool :=
  let N := ((EZ - k1) * k2 + (EZ - k2) * k1)%Z in let D := (k1 * k2)%Z in
  let P := (N * (EZ + 1) * (EZ + 1))%Z in let Q := (D * EZ * EZ)%Z in
  (P * EZ * EZ <=? (EZ - k) * (EZ - 1) * (P + Q))%Z.
Lemma rev_cap : forall a b k1 k2 k, tvInRange a -> tvInRange b -> (1 <= k1 < EZ)%Z -> (1 <= k2 < EZ)%Z -> (1 <= k < EZ)%Z ->
  fval (tvc a) <= 1 - IZR k1 * Ei -> fval (tvc b) <= 1 - IZR k2 * Ei -> capStep k1 k2 k = true ->
  fval (tvc (rev a b)) <= 1 - IZR k * Ei.
Proof.
  intros a b k1 k2 k [_ Ca] [_ Cb] H1 H2 Hk La Lb St. rewrite unit64_R01 in *.
  destruct (c2w_cap _ _ Ca H1 La) as (F1 & B1 & W1). destruct (c2w_cap _ _ Cb H2 Lb) as (F2 & B2 & W2).
  unfold rev, g_rev. change (g_c2w f64_arith) with c2w. change (g_w2c f64_arith) with w2c. cbn [tvc]. tvs.
  set (w1 := c2w (tvc a)) in *. set (w2 := c2w (tvc b)) in *.
  assert (Pe := Ei_pos). assert (PE := E_pos). assert (EE := E_Ei).
  assert (I1 : 1 <= IZR k1) by (apply IZR_le; lia). assert (I2 : 1 <= IZR k2) by (apply IZR_le; lia).
  assert (J1 : IZR k1 + 1 <= IZR EZ) by (rewrite <- plus_IZR; apply IZR_le; lia).
  assert (J2 : IZR k2 + 1 <= IZR EZ) by (rewrite <- plus_IZR; apply IZR_le; lia).
  set (X := (IZR EZ - IZR k1) / IZR k1 + (IZR EZ - IZR k2) / IZR k2).
  assert (PX : Ei <= X).
  { unfold X. assert (0 <= (IZR EZ - IZR k2) / IZR k2) by (apply Rmult_le_pos; [lra|apply Rlt_le, Rinv_0_lt_compat; lra]).
    assert (Ei <= (IZR EZ - IZR k1) / IZR k1); [|lra].
    apply Rmult_le_reg_r with (IZR k1); [lra|]. unfold Rdiv. rewrite Rmult_assoc, Rinv_l, Rmult_1_r by lra. nra. }
  assert (F54 : fmt (bpow radix2 54)) by (apply fmt_bpow; lia).
  assert (L54 : bpow radix2 54 < fmaxR) by (apply bpow_lt; reflexivity).
  assert (E54 : bpow radix2 54 = 2 * bpow radix2 53) by (replace 54%Z with (1 + 53)%Z by lia; rewrite bpow_plus; reflexivity).
  destruct (fadd_ok w1 w2 F1 F2) as [Fw Vw]. { apply (rnd_upto (bpow radix2 54)); auto. lra. }
  assert (Hw : 0 <= fval (fadd w1 w2) <= bpow radix2 54). { rewrite Vw. apply rnd_between; auto using fmt_0. lra. }
  assert (Ww : fval (fadd w1 w2) <= X * (1 + Ei) * (1 + Ei)).
  { rewrite Vw. apply Rle_trans with (rnd (X * (1 + Ei))); [apply rnd_mono; unfold X; lra|]. apply rnd_rel.
    apply Rle_trans with Ei; [apply bpow_le; lia|]. nra. }
  set (w := fadd w1 w2) in *. clearbody w. clear Vw.
  unfold w2c, g_w2c. tvs. destruct f1_ok as [G1 V1].
  assert (E2 : bpow radix2 55 = 2 * bpow radix2 54) by (replace 55%Z with (1 + 54)%Z by lia; rewrite bpow_plus; reflexivity).
  assert (L55 : bpow radix2 55 < fmaxR) by (apply bpow_lt; reflexivity).
  assert (B54 : 1 <= bpow radix2 54) by (apply (bpow_le radix2 0 54); lia).
  destruct (fadd_ok w f1 Fw G1) as [Fs Vs]. { rewrite V1. apply (rnd_upto (bpow radix2 55)); auto; [apply fmt_bpow; lia|lra]. }
  rewrite V1 in Vs.
  assert (S1 : 1 <= fval (fadd w f1)) by (rewrite Vs; apply rnd_ge; [apply fmt_1|lra]).
  assert (S2 : fval w <= fval (fadd w f1)) by (rewrite Vs; apply rnd_ge; [now apply ffin_fmt|lra]).
  assert (S3 : (fval w + 1) * (1 - Ei) <= fval (fadd w f1)).
  { rewrite Vs. apply rnd_rel. apply Rle_trans with 1; [apply (bpow_le radix2 (-1022) 0); lia|lra]. }
  assert (H3 : 0 <= fval w / fval (fadd w f1) <= 1).
  { split; [apply Rmult_le_pos; [lra|]; apply Rlt_le, Rinv_0_lt_compat; lra|].
    apply Rmult_le_reg_r with (fval (fadd w f1)); [lra|]. unfold Rdiv. rewrite Rmult_assoc, Rinv_l by lra. lra. }
  destruct (fdiv_ok w (fadd w f1)) as [Fd Vd]; auto; [apply Rgt_not_eq; lra| |].
  { apply (rnd_small 0 1); auto using fmt_0, fmt_1; lra. }
  rewrite Vd. clear Vd Fd Vs.
  assert (Ecap : 1 - IZR k * Ei = IZR (EZ - k) * Ei) by (rewrite minus_IZR; lra).
  rewrite Ecap. apply rnd_le; [apply fmt_frac; lia|].
  (* the real inequality *)
  set (M := X * (1 + Ei) * (1 + Ei)) in *.
  assert (HM : M * (IZR EZ * IZR EZ * (IZR k1 * IZR k2)) = IZR (((EZ - k1) * k2 + (EZ - k2) * k1) * (EZ + 1) * (EZ + 1))).
  { rewrite !mult_IZR, !plus_IZR, !mult_IZR, !minus_IZR. unfold M, X.
    transitivity (((IZR EZ - IZR k1) * IZR k2 + (IZR EZ - IZR k2) * IZR k1) * ((IZR EZ * (1 + Ei)) * (IZR EZ * (1 + Ei)))); [field; lra|].
    replace (IZR EZ * (1 + Ei)) with (IZR EZ + 1) by lra. ring. }
  unfold capStep in St. apply Z.leb_le in St. apply IZR_le in St.
  set (N := (((EZ - k1) * k2 + (EZ - k2) * k1))%Z) in *. 
  assert (HP : 0 < IZR EZ * IZR EZ * (IZR k1 * IZR k2)) by (apply Rmult_lt_0_compat; apply Rmult_lt_0_compat; lra).
  assert (Main : M * (IZR EZ * IZR EZ) <= IZR (EZ - k) * (IZR EZ - 1) * (M + 1)).
  { apply Rmult_le_reg_r with (IZR EZ * IZR EZ * (IZR k1 * IZR k2)); [exact HP|].
    replace (M * (IZR EZ * IZR EZ) * (IZR EZ * IZR EZ * (IZR k1 * IZR k2))) with (M * (IZR EZ * IZR EZ * (IZR k1 * IZR k2)) * IZR EZ * IZR EZ) by ring.
    replace (IZR (EZ - k) * (IZR EZ - 1) * (M + 1) * (IZR EZ * IZR EZ * (IZR k1 * IZR k2)))
      with (IZR (EZ - k) * (IZR EZ - 1) * (M * (IZR EZ * IZR EZ * (IZR k1 * IZR k2)) + IZR k1 * IZR k2 * IZR EZ * IZR EZ)) by ring.
    rewrite HM. set (P := (N * (EZ + 1) * (EZ + 1))%Z) in *. rewrite !mult_IZR, plus_IZR, !mult_IZR, (minus_IZR EZ 1) in St. exact St. }
  assert (PK : 1 <= IZR (EZ - k) <= IZR EZ) by (split; apply IZR_le; lia).
  assert (M0 : 0 <= M) by (unfold M; assert (0 < X) by lra; nra).
  assert (Main2 : fval w * (IZR EZ * IZR EZ) <= IZR (EZ - k) * (IZR EZ - 1) * (fval w + 1)).
  { assert (Hc : IZR (EZ - k) * (IZR EZ - 1) <= IZR EZ * IZR EZ) by nra. 
    assert ((M - fval w) * (IZR (EZ - k) * (IZR EZ - 1)) <= (M - fval w) * (IZR EZ * IZR EZ)) by (apply Rmult_le_compat_l; lra). lra. }
  apply Rmult_le_reg_r with (fval (fadd w f1)); [lra|]. unfold Rdiv. rewrite Rmult_assoc, Rinv_l, Rmult_1_r by lra.
  apply Rle_trans with (IZR (EZ - k) * Ei * ((fval w + 1) * (1 - Ei))).
  - replace (IZR (EZ - k) * Ei * ((fval w + 1) * (1 - Ei))) with ((IZR (EZ - k) * (IZR EZ - 1) * (fval w + 1)) * (Ei * Ei)).
    + replace (fval w) with (fval w * (IZR EZ * IZR EZ) * (Ei * Ei)) at 1.
      * apply Rmult_le_compat_r; [nra|exact Main2].
      * replace (fval w * (IZR EZ * IZR EZ) * (Ei * Ei)) with (fval w * (IZR EZ * Ei) * (IZR EZ * Ei)) by ring. rewrite EE. ring.
    + replace (IZR (EZ - k) * (IZR EZ - 1) * (fval w + 1) * (Ei * Ei)) with (IZR (EZ - k) * (fval w + 1) * Ei * ((IZR EZ * Ei) - Ei)) by ring. rewrite EE. ring.
  - apply Rmult_le_compat_l; [nra|exact S3].
Qed.

(** * The caps *)
Definition capK (n : nat) : Z := (EZ / (1000000 * Z.of_nat n + Z.of_nat n * Z.of_nat n + 1) - 4)%Z.
Definition cap (n : nat) : R := 1 - IZR (capK n) * Ei.
Definition capCheck (K : nat -> Z) (step : Z -> Z -> Z -> bool) (e : Z) : bool :=
  forallb (fun i => (1 <=? K i)%Z && (2 * K i <=? e)%Z && (K (i + 1)%nat <=? K i)%Z &&
    forallb (fun j => if (i + j <=? 120)%nat then step (K i) (K j) (K (i + j)%nat) else true) (seq 1 120)) (seq 1 120).
Lemma capCheck_ok : capCheck capK capStep EZ = true.
Proof. vm_cast_no_check (eq_refl true). Qed.
Lemma check_gen : forall K step e, capCheck K step e = true ->
  forall i, (1 <= i <= 120)%nat -> (1 <= K i)%Z /\ (2 * K i <= e)%Z /\ (K (i + 1)%nat <= K i)%Z /\
  forall j, (1 <= j)%nat -> (i + j <= 120)%nat -> step (K i) (K j) (K (i + j)%nat) = true.
Proof.
  intros K step e H i Hi. unfold capCheck in H. rewrite forallb_forall in H. specialize (H i). rewrite in_seq in H.
  specialize (H ltac:(lia)). apply andb_prop in H. destruct H as [H K4]. apply andb_prop in H. destruct H as [H K3]. apply andb_prop in H. destruct H as [K1 K2].
  apply Z.leb_le in K1, K2, K3. split; [auto|]. split; [auto|]. split; [auto|]. intros j J1 J2. rewrite forallb_forall in K4. specialize (K4 j). rewrite in_seq in K4.
  specialize (K4 ltac:(lia)). apply Nat.leb_le in J2. now rewrite J2 in K4.
Qed.
Lemma cap_facts : forall i, (1 <= i <= 120)%nat -> (1 <= capK i)%Z /\ (2 * capK i <= EZ)%Z /\ (capK (i + 1) <= capK i)%Z /\
  forall j, (1 <= j)%nat -> (i + j <= 120)%nat -> capStep (capK i) (capK j) (capK (i + j)) = true.
Proof. exact (check_gen capK capStep EZ capCheck_ok). Qed.
Lemma capK_range : forall n, (1 <= n <= 120)%nat -> (1 <= capK n < EZ)%Z.
Proof. intros n Hn. destruct (cap_facts n Hn) as (A & B & _). unfold EZ in *. lia. Qed.
Lemma cap_mono : forall n m, (1 <= n)%nat -> (n <= m)%nat -> (m <= 120)%nat -> cap n <= cap m.
Proof.
  intros n m H1 H2. induction H2 as [|m H2 IH]; intros H3; [apply Rle_refl|]. apply Rle_trans with (cap m); [apply IH; lia|].
  destruct (cap_facts m ltac:(lia)) as (_ & _ & A & _). rewrite Nat.add_1_r in A. unfold cap. apply IZR_le in A. assert (P := Ei_pos). nra.
Qed.
Lemma cap_half : forall n, (1 <= n <= 120)%nat -> / 2 <= cap n.
Proof.
  intros n Hn. destruct (cap_facts n Hn) as (_ & A & _). apply IZR_le in A. rewrite mult_IZR in A. unfold cap. assert (P := Ei_pos). assert (E := E_Ei). nra.
Qed.
Lemma cap_lt1 : forall n, (1 <= n <= 120)%nat -> cap n < 1.
Proof.
  intros n Hn. destruct (capK_range n Hn) as [A _]. apply IZR_le in A. unfold cap. assert (P := Ei_pos). nra.
Qed.
Lemma cap_input : forall c, R01 c -> fleb c (f_frac 999999 1000000) = true -> fval c <= cap 1.
Proof.
  intros c [F H] L. assert (V : ffin (f_frac 999999 1000000)) by (split; [reflexivity|exact I]).
  apply fleb_ok in L; auto. apply Rle_trans with (1 := L).
  (* the cap as a double *)
  set (q := f_frac 999999 1000000). set (p := S754_finite false (Z.to_pos (EZ - capK 1)) (-53)).
  assert (Fp : ffin p) by (split; [vm_compute; reflexivity|exact I]).
  assert (Vp : fval p = cap 1).
  { unfold fval, p, SF2R, F2R. cbn [cond_Zopp Fnum Fexp]. rewrite Z2Pos.id by (vm_compute; reflexivity). fold Ei. unfold cap. rewrite minus_IZR.
    rewrite Rmult_minus_distr_r, E_Ei. reflexivity. }
  rewrite <- Vp. apply fleb_ok; auto.
Qed.

(** * Confidence of what follows *)
Lemma share_overlap : forall a b, ~ shareEvidence a b -> forall i, In i (s_stamp a) -> ~ In i (s_stamp b).
Proof. intros a b H i Ha Hb. apply H. exists i. auto. Qed.
Lemma merge_size : forall ids a b, (length ids <= 120)%nat -> NoDup a -> NoDup b -> incl a ids -> incl b ids ->
  (forall i, In i a -> ~ In i b) -> NoDup (merge a b) /\ incl (merge a b) ids /\ length (merge a b) = (length a + length b)%nat /\ (length a + length b <= 120)%nat.
Proof.
  intros ids a b L Na Nb Ia Ib D. assert (N : NoDup (a ++ b)) by now apply NoDup_app2.
  assert (I : incl (a ++ b) ids) by now apply incl_app. assert (K := NoDup_incl_length N I). rewrite app_length in K.
  assert (P := merge_small a b ltac:(lia)). split; [eapply Permutation_NoDup; [apply Permutation_sym; exact P|auto]|].
  split; [intros i Hi; apply I; eapply Permutation_in; eauto|]. split; [|lia]. rewrite (Permutation_length P). apply app_length.
Qed.
Lemma schema_conf : forall pA a pB b t f, schema pA a pB b t (TBoth f) -> forall x y, tvInRange x -> tvInRange y ->
  fval (tvc (f x y)) <= fval (tvc x) \/ fval (tvc (f x y)) <= / 2.
Proof.
  intros pA a pB b t f H x y Hx Hy. destruct f05_ok as [F5 V5].
  assert (Rg := schema_range _ _ _ _ _ _ H). cbn in Rg. specialize (Rg x y Hx Hy). destruct Rg as [_ Rc]. rewrite unit64_R01 in Rc. destruct Rc as [Rc _].
  assert (Fx : ffin (tvc x)) by (destruct Hx as [_ Cx]; rewrite unit64_R01 in Cx; apply Cx).
  assert (Ii : fval (tvc (int x y)) <= fval (tvc x)).
  { destruct Hx as [_ Cx], Hy as [_ Cy]. rewrite unit64_R01 in *. destruct (R01_mul _ _ Cx Cy) as [[F _] _].
    unfold int, g_int. cbn [tvc]. tvs. apply fleb_ok; auto. now apply fmul_le_l. }
  assert (Dd : fval (tvc (ded x y)) <= fval (tvc x)).
  { destruct (ded_conf x y Hx Hy) as [D _]. apply fleb_ok in D; auto. destruct (ded_range x y Hx Hy) as [_ D']. rewrite unit64_R01 in D'. apply D'. }
  assert (W : forall z, R01 z -> fval (w2c z) <= / 2).
  { intros z Hz. assert (K := w2c_half z Hz). apply fleb_ok in K; auto; [lra|]. now apply w2c_R01. }
  assert (Cc : fval (tvc (comp x y)) <= / 2).
  { unfold comp, g_comp. cbn [tvc]. tvs. change (g_w2c f64_arith) with w2c. apply W.
    destruct Hx as [Qx Cx], Hy as [Qy Cy]. rewrite unit64_R01 in *. apply R01_mul; auto. apply R01_mul; auto.
    unfold g_or. tvs. apply R01_neg, R01_mul; now apply R01_neg. }
  assert (Ab : forall p q, tvInRange p -> tvInRange q -> fval (tvc (abd p q)) <= / 2).
  { intros p q Hp Hq. assert (K := abd_weak p q Hp Hq). destruct (abd_range p q Hp Hq) as [_ R]. rewrite unit64_R01 in R. apply fleb_ok in K; [|apply R|auto]. lra. }
  inversion H; subst; auto.
  right. exact (Ab y x Hy Hx).
Qed.
Theorem confidence_cap : forall ids (Inp : sentence -> Prop), (length ids <= 120)%nat -> (forall s, Inp s -> observed ids s) -> forall s, derivable Inp s ->
  NoDup (s_stamp s) /\ incl (s_stamp s) ids /\ (1 <= length (s_stamp s) <= 120)%nat /\
  exists v, retTv s = Some v /\ tvInRange v /\ fval (tvc v) <= cap (length (s_stamp s)).
Proof.
  intros ids Inp Ln HI s D.
  induction D as [s Is P|p c mir bias w D IH S E1 E2 E3 _ _ _|a b c tr v Da IHa Db IHb Nsh S E1 E2 E3 _ _ _|s b nb Ds IHs Db IHb R I].
  - destruct (HI _ Is) as [_ H]. destruct (H P) as (i & v & Es & Hi & Ev & Rv & L). rewrite Es.
    split; [repeat constructor; auto; intros []|]. split; [intros z [<-|[]]; auto|]. split; [simpl; lia|].
    exists v. split; [auto|]. split; [auto|]. apply cap_input; [|auto]. destruct Rv as [_ Rv]. now rewrite unit64_R01 in Rv.
  - destruct IH as (N & I & L & v & Ev & Rv & Cv). rewrite E3. split; [auto|]. split; [auto|]. split; [auto|]. rewrite E1 in Ev. injection Ev as ->.
    eexists. split; [exact E2|]. destruct mir; [|auto]. split; [now apply neg_range|]. exact Cv.
  - destruct IHa as (Na & Ia & La & va & Ea & Ra & Ca), IHb as (Nb & Ib & Lb & vb & Eb & Rb & Cb).
    destruct (merge_size ids _ _ Ln Na Nb Ia Ib (share_overlap _ _ Nsh)) as (M1 & M2 & M3 & M4). rewrite E3, M3. split; [auto|]. split; [auto|]. split; [lia|].
    exists v. split; [auto|]. rewrite Ea, Eb in E1.
    assert (Ma := cap_mono (length (s_stamp a)) (length (s_stamp a) + length (s_stamp b)) ltac:(lia) ltac:(lia) M4).
    assert (Mb := cap_mono (length (s_stamp b)) (length (s_stamp a) + length (s_stamp b)) ltac:(lia) ltac:(lia) M4).
    assert (Mh := cap_half (length (s_stamp a) + length (s_stamp b)) ltac:(lia)).
    destruct tr as [f|]; simpl in E1; injection E1 as <-.
    + split; [destruct S as [S|S]; apply (schema_range _ _ _ _ _ _ S); auto|].
      assert (K : fval (tvc (f va vb)) <= fval (tvc va) \/ fval (tvc (f va vb)) <= / 2) by (destruct S as [S|S]; eapply schema_conf; eauto).
      lra.
    + split; [auto|lra].
  - destruct IHs as (Ns & Is & Ls & vs & Es & Rs & Cs), IHb as (Nb & Ib & Lb & vb & Eb & Rb & Cb).
    destruct R as [_ Nsh]. destruct I as (va & vs' & Ea & Es' & E & St & _). rewrite Eb in Ea. injection Ea as <-. rewrite Es in Es'. injection Es' as <-.
    destruct (merge_size ids _ _ Ln Nb Ns Ib Is (share_overlap _ _ Nsh)) as (M1 & M2 & M3 & M4). rewrite St, M3. split; [auto|]. split; [auto|]. split; [lia|].
    unfold retTv. rewrite E. cbn [evidenceTv]. eexists. split; [reflexivity|].
    assert (Kb := capK_range (length (s_stamp b)) ltac:(lia)). assert (Ks := capK_range (length (s_stamp s)) ltac:(lia)).
    assert (U : forall x n, tvInRange x -> (1 <= n <= 120)%nat -> fval (tvc x) <= cap n -> uncertain x).
    { intros x n [_ Rx] Hn Hx. rewrite unit64_R01 in Rx. destruct f1_ok as [G1 V1]. unfold uncertain. apply fltb_ok; [apply Rx|auto|]. rewrite V1.
      assert (K := cap_lt1 n Hn). lra. }
    split; [apply rev_range; eauto|]. eapply rev_cap; [exact Rb|exact Rs|exact Kb|exact Ks|apply capK_range; lia|exact Cb|exact Cs|].
    apply cap_facts; lia.
Qed.
Theorem observed_tempered : forall ids (Inp : sentence -> Prop), (length ids <= 120)%nat -> (forall s, Inp s -> observed ids s) -> tempered Inp.
Proof.
  intros ids Inp Ln HI s v D E. destruct (confidence_cap ids Inp Ln HI s D) as (_ & _ & L & v' & E' & [_ R] & C).
  rewrite E in E'. injection E' as <-. rewrite unit64_R01 in R. destruct f1_ok as [F1 V1]. unfold uncertain. apply fltb_ok; [apply R|auto|]. rewrite V1.
  assert (K := cap_lt1 _ L). lra.
Qed.
