(** The expectation of what is not certainly false is positive. *)
From Coq Require Import ZArith Reals Psatz Bool Lia List.
From Flocq Require Import Core.Core IEEE754.BinarySingleNaN.
From Verif Require Import Base F64_Model F64_Proofs Tv_Model Tv_Spec Tv_Proofs.
Import ListNotations.
Open Scope R_scope.

Lemma fmt_below_half : fmt (/ 2 - bpow radix2 (-54)).
Proof.
  assert (E : pred radix2 fexp64 (/ 2) = / 2 - bpow radix2 (-54)).
  { change (/ 2) with (bpow radix2 (-1)). rewrite pred_bpow. reflexivity. }
  rewrite <- E. apply generic_format_pred; try typeclasses eauto. apply fmt_half.
Qed.
Lemma calcExp_pos : forall t, tvInRange t -> fltb (tvc t) f1 = true \/ fleb f05 (tvf t) = true -> fltb f0 (calcExp t) = true.
Proof.
  intros t [Ft Ct] D. rewrite unit64_R01 in *. destruct Ft as [Ff Hf], Ct as [Fc Hc].
  destruct f05_ok as [F5 V5]. destruct f1_ok as [F1 V1]. destruct f0_ok as [F0 V0].
  unfold calcExp, g_calcExp. tvs.
  destruct (fsub_ok (tvf t) f05 Ff F5) as [Fs Vs].
  { rewrite V5. apply (rnd_small (- / 2) (/ 2)); auto using fmt_half, fmt_mhalf; lra. }
  assert (Hs : - / 2 <= fval (fsub (tvf t) f05) <= / 2).
  { rewrite Vs, V5. apply rnd_between; auto using fmt_half, fmt_mhalf. lra. }
  destruct (fmul_ok (tvc t) (fsub (tvf t) f05) Fc Fs) as [Fm Vm].
  { apply (rnd_small (- / 2) (/ 2)); auto using fmt_half, fmt_mhalf; try lra. nra. }
  assert (Hm : - / 2 <= fval (fmul (tvc t) (fsub (tvf t) f05)) <= / 2).
  { rewrite Vm. apply rnd_between; auto using fmt_half, fmt_mhalf. nra. }
  destruct (fadd_ok (fmul (tvc t) (fsub (tvf t) f05)) f05 Fm F5) as [Fa Va].
  { rewrite V5. apply (rnd_small 0 1); auto using fmt_0, fmt_1; lra. }
  assert (E54 : bpow radix2 (-54) = / 18014398509481984) by reflexivity. assert (E53 : bpow radix2 (-53) = / 9007199254740992) by reflexivity.
  assert (L : - (/ 2 - bpow radix2 (-54)) <= fval (fmul (tvc t) (fsub (tvf t) f05))).
  { rewrite Vm. apply rnd_ge; [apply generic_format_opp, fmt_below_half|]. destruct D as [D|D].
    - apply fltb_ok in D; auto. rewrite V1 in D. assert (B := below_one (fval (tvc t)) (ffin_fmt _ Fc) D). rewrite E54. rewrite E53 in B. nra.
    - apply fleb_ok in D; auto. rewrite V5 in D. assert (0 <= fval (fsub (tvf t) f05)).
      { rewrite Vs, V5. apply rnd_ge; [apply fmt_0|lra]. }
      rewrite E54. assert (0 <= fval (tvc t) * fval (fsub (tvf t) f05)) by nra. lra. }
  apply fltb_ok; auto. rewrite V0, Va, V5. apply Rlt_le_trans with (bpow radix2 (-54)); [rewrite E54; lra|].
  apply rnd_ge; [apply fmt_bpow; lia|lra].
Qed.
(** what follows by deduction is never certainly false *)
Lemma ded_pos : forall a b, tvInRange a -> tvInRange b -> fltb f0 (calcExp (ded a b)) = true.
Proof.
  intros a b Ha Hb. assert (HR := ded_range a b Ha Hb). apply calcExp_pos; auto. destruct HR as [Rf Rc]. rewrite unit64_R01 in *. destruct Rf as [Ff Hf], Rc as [Fc Hc].
  destruct f05_ok as [F5 V5]. destruct f1_ok as [F1 V1].
  destruct (Rlt_le_dec (fval (tvc (ded a b))) 1) as [L|L]; [left; apply fltb_ok; auto; lra|right]. apply fleb_ok; auto. rewrite V5.
  destruct Ha as [Fa Ca], Hb as [Fb Cb]. rewrite unit64_R01 in *. destruct (R01_mul _ _ Fa Fb) as [F _]. destruct (R01_mul _ _ Ca Cb) as [C _].
  assert (H := fmul_le_l _ _ F C). rewrite fmul_comm in H. change (fleb (tvc (ded a b)) (tvf (ded a b)) = true) in H. apply fleb_ok in H; auto. lra.
Qed.
