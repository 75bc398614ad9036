(** Link between the computable float operations and Flocq's verified ones.
    The equivalence lemmas follow Flocq's own comparison of its operations with
    SpecFloat (IEEE754/PrimFloat.v) without going through primitive floats. *)
From Coq Require Import ZArith Reals Bool Lia Lra List.
From Coq Require Import Floats.SpecFloat.
From Flocq Require Import Core.Core IEEE754.BinarySingleNaN.
From Verif Require Import Base F64_Model.
Local Open Scope R_scope.

#[global] Instance Hprec53 : FLX.Prec_gt_0 fprec := eq_refl _.
#[global] Instance Hmax1024 : Prec_lt_emax fprec femax := eq_refl _.

Lemma rne_equiv s m l : round_nearest_even m l = choice_mode mode_NE s m l.
Proof.
  case l; [reflexivity|intro c]. case c; [|reflexivity..].
  now simpl; unfold Round.cond_incr; case Z.even.
Qed.

Lemma round_aux_equiv sx mx ex lx :
  SpecFloat.binary_round_aux fprec femax sx mx ex lx = binary_round_aux fprec femax mode_NE sx mx ex lx.
Proof.
  unfold SpecFloat.binary_round_aux, binary_round_aux.
  set (mrse' := shr_fexp _ _ _). case mrse'; intros mrs' e'; simpl.
  now rewrite (rne_equiv sx).
Qed.

Lemma round_equiv s m e :
  SpecFloat.binary_round fprec femax s m e = binary_round fprec femax mode_NE s m e.
Proof.
  unfold SpecFloat.binary_round, binary_round, shl_align_fexp.
  set (mez := shl_align _ _ _); case mez as [mz ez]. apply round_aux_equiv.
Qed.

Lemma normalize_equiv m e szero :
  SpecFloat.binary_normalize fprec femax m e szero
  = B2SF (binary_normalize fprec femax Hprec53 Hmax1024 mode_NE m e szero).
Proof.
  case m as [|p|p]; [now simpl|..]; simpl; rewrite B2SF_SF2B; apply round_equiv.
Qed.

Notation bf := (binary_float fprec femax).

Lemma fmul_equiv (x y : bf) : fmul (B2SF x) (B2SF y) = B2SF (Bmult mode_NE x y).
Proof.
  unfold fmul. case x as [sx|sx| |sx mx ex Bx]; case y as [sy|sy| |sy my ey By]; [now trivial..|].
  simpl. rewrite B2SF_SF2B. apply round_aux_equiv.
Qed.
Lemma fadd_equiv (x y : bf) : fadd (B2SF x) (B2SF y) = B2SF (Bplus mode_NE x y).
Proof.
  unfold fadd. case x as [sx|sx| |sx mx ex Bx]; case y as [sy|sy| |sy my ey By];
  [now (trivial || simpl; case Bool.eqb)..|]. apply normalize_equiv.
Qed.
Lemma fsub_equiv (x y : bf) : fsub (B2SF x) (B2SF y) = B2SF (Bminus mode_NE x y).
Proof.
  unfold fsub. case x as [sx|sx| |sx mx ex Bx]; case y as [sy|sy| |sy my ey By];
  [now (trivial || simpl; case Bool.eqb)..|].
  simpl. unfold Zminus. rewrite <- cond_Zopp_negb. apply normalize_equiv.
Qed.
Lemma fdiv_equiv (x y : bf) : fdiv (B2SF x) (B2SF y) = B2SF (Bdiv mode_NE x y).
Proof.
  unfold fdiv. case x as [sx|sx| |sx mx ex Bx]; case y as [sy|sy| |sy my ey By];
  [now (trivial || simpl; case Bool.eqb)..|].
  simpl. rewrite B2SF_SF2B. set (melz := SFdiv_core_binary _ _ _ _ _ _).
  case melz as [[mz ez] lz]. apply round_aux_equiv.
Qed.
Lemma fcompare_equiv (x y : bf) : SFcompare (B2SF x) (B2SF y) = Bcompare x y.
Proof. now case x as [sx|sx| |sx mx ex Bx]; case y as [sy|sy| |sy my ey By]. Qed.

(** value and finiteness *)
Definition fval (x : f64) : R := SF2R radix2 x.
Definition fvalid (x : f64) : Prop := SpecFloat.valid_binary fprec femax x = true.
Definition ffin (x : f64) : Prop :=
  fvalid x /\ match x with S754_zero _ | S754_finite _ _ _ => True | _ => False end.

Notation fexp64 := (SpecFloat.fexp fprec femax).
Definition fmt (r : R) : Prop := generic_format radix2 fexp64 r.
Definition rnd (r : R) : R := round radix2 fexp64 ZnearestE r.
Definition fmaxR : R := bpow radix2 femax.

Lemma ffin_B : forall x, ffin x -> exists b : bf, x = B2SF b /\ is_finite b = true.
Proof.
  intros x [Hv Hf]. exists (SF2B x Hv). rewrite B2SF_SF2B. split; auto.
  rewrite is_finite_SF2B. destruct x; simpl in *; tauto.
Qed.
Lemma B_ffin : forall b : bf, is_finite b = true -> ffin (B2SF b).
Proof.
  intros b H. split; [apply valid_binary_B2SF|]. destruct b; simpl in *; try discriminate; exact I.
Qed.
Lemma fval_B : forall b : bf, fval (B2SF b) = B2R b.
Proof. intros b. apply SF2R_B2SF. Qed.
Lemma ffin_fmt : forall x, ffin x -> fmt (fval x).
Proof.
  intros x H. destruct (ffin_B x H) as (b & -> & _). rewrite fval_B. apply generic_format_B2R.
Qed.
Lemma ffin_lt : forall x, ffin x -> Rabs (fval x) < fmaxR.
Proof.
  intros x H. destruct (ffin_B x H) as (b & -> & _). rewrite fval_B. apply abs_B2R_lt_emax.
Qed.

#[global] Instance valid_fexp64 : Valid_exp fexp64 := fexp_correct fprec femax Hprec53.

Lemma rnd_mono : forall a b, a <= b -> rnd a <= rnd b.
Proof. intros. now apply round_le; try typeclasses eauto. Qed.
Lemma rnd_fmt : forall a, fmt (rnd a).
Proof. intros. apply generic_format_round; typeclasses eauto. Qed.
Lemma rnd_id : forall a, fmt a -> rnd a = a.
Proof. intros. apply round_generic; auto. typeclasses eauto. Qed.
Lemma fmt_bpow : forall e, (-1074 <= e <= 1023)%Z -> fmt (bpow radix2 e).
Proof.
  intros e H. apply generic_format_bpow. unfold SpecFloat.fexp, SpecFloat.emin, fprec, femax. lia.
Qed.
Lemma fmt_0 : fmt 0.
Proof. apply generic_format_0. Qed.
Lemma fmt_1 : fmt 1.
Proof. apply (fmt_bpow 0). lia. Qed.
Lemma rnd_0 : rnd 0 = 0.
Proof. apply rnd_id, fmt_0. Qed.
Lemma rnd_1 : rnd 1 = 1.
Proof. apply rnd_id, fmt_1. Qed.
Lemma rnd_between : forall l u r, fmt l -> fmt u -> l <= r <= u -> l <= rnd r <= u.
Proof.
  intros l u r Hl Hu [H1 H2]. split.
  - rewrite <- (rnd_id l Hl). now apply rnd_mono.
  - rewrite <- (rnd_id u Hu). now apply rnd_mono.
Qed.

Lemma rnd_ge : forall l r, fmt l -> l <= r -> l <= rnd r.
Proof. intros l r Hl H. rewrite <- (rnd_id l Hl). now apply rnd_mono. Qed.
Lemma rnd_le : forall u r, fmt u -> r <= u -> rnd r <= u.
Proof. intros u r Hu H. rewrite <- (rnd_id u Hu). now apply rnd_mono. Qed.

Lemma fadd_ok : forall x y, ffin x -> ffin y -> Rabs (rnd (fval x + fval y)) < fmaxR ->
  ffin (fadd x y) /\ fval (fadd x y) = rnd (fval x + fval y).
Proof.
  intros x y Hx Hy Hr. destruct (ffin_B x Hx) as (a & -> & Ha). destruct (ffin_B y Hy) as (b & -> & Hb).
  rewrite fadd_equiv. rewrite !fval_B in *.
  generalize (Bplus_correct fprec femax Hprec53 Hmax1024 mode_NE a b Ha Hb).
  fold fmaxR. simpl round_mode. fold (rnd (B2R a + B2R b)). rewrite Rlt_bool_true by assumption.
  intros (H1 & H2 & _). rewrite <- H1. split; [now apply B_ffin|reflexivity].
Qed.
Lemma fsub_ok : forall x y, ffin x -> ffin y -> Rabs (rnd (fval x - fval y)) < fmaxR ->
  ffin (fsub x y) /\ fval (fsub x y) = rnd (fval x - fval y).
Proof.
  intros x y Hx Hy Hr. destruct (ffin_B x Hx) as (a & -> & Ha). destruct (ffin_B y Hy) as (b & -> & Hb).
  rewrite fsub_equiv. rewrite !fval_B in *.
  generalize (Bminus_correct fprec femax Hprec53 Hmax1024 mode_NE a b Ha Hb).
  fold fmaxR. simpl round_mode. fold (rnd (B2R a - B2R b)). rewrite Rlt_bool_true by assumption.
  intros (H1 & H2 & _). rewrite <- H1. split; [now apply B_ffin|reflexivity].
Qed.
Lemma fmul_ok : forall x y, ffin x -> ffin y -> Rabs (rnd (fval x * fval y)) < fmaxR ->
  ffin (fmul x y) /\ fval (fmul x y) = rnd (fval x * fval y).
Proof.
  intros x y Hx Hy Hr. destruct (ffin_B x Hx) as (a & -> & Ha). destruct (ffin_B y Hy) as (b & -> & Hb).
  rewrite fmul_equiv. rewrite !fval_B in *.
  generalize (Bmult_correct fprec femax Hprec53 Hmax1024 mode_NE a b).
  fold fmaxR. simpl round_mode. fold (rnd (B2R a * B2R b)). rewrite Rlt_bool_true by assumption.
  intros (H1 & H2 & _). rewrite <- H1. split; [|reflexivity]. apply B_ffin. now rewrite H2, Ha, Hb.
Qed.
Lemma fdiv_ok : forall x y, ffin x -> ffin y -> fval y <> 0 -> Rabs (rnd (fval x / fval y)) < fmaxR ->
  ffin (fdiv x y) /\ fval (fdiv x y) = rnd (fval x / fval y).
Proof.
  intros x y Hx Hy Hn Hr. destruct (ffin_B x Hx) as (a & -> & Ha). destruct (ffin_B y Hy) as (b & -> & Hb).
  rewrite fdiv_equiv. rewrite !fval_B in *.
  generalize (Bdiv_correct fprec femax Hprec53 Hmax1024 mode_NE a b Hn).
  fold fmaxR. simpl round_mode. fold (rnd (B2R a / B2R b)). rewrite Rlt_bool_true by assumption.
  intros (H1 & H2 & _). rewrite <- H1. split; [|reflexivity]. apply B_ffin. now rewrite H2.
Qed.

Lemma fcompare_ok : forall x y, ffin x -> ffin y -> SFcompare x y = Some (Rcompare (fval x) (fval y)).
Proof.
  intros x y Hx Hy. destruct (ffin_B x Hx) as (a & -> & Ha). destruct (ffin_B y Hy) as (b & -> & Hb).
  rewrite fcompare_equiv, !fval_B. now apply Bcompare_correct.
Qed.
Lemma fltb_ok : forall x y, ffin x -> ffin y -> (fltb x y = true <-> fval x < fval y).
Proof.
  intros x y Hx Hy. unfold fltb, SFltb. rewrite fcompare_ok by assumption.
  destruct (Rcompare_spec (fval x) (fval y)); split; intros; try discriminate; auto; lra.
Qed.
Lemma fleb_ok : forall x y, ffin x -> ffin y -> (fleb x y = true <-> fval x <= fval y).
Proof.
  intros x y Hx Hy. unfold fleb, SFleb. rewrite fcompare_ok by assumption.
  destruct (Rcompare_spec (fval x) (fval y)); split; intros; try discriminate; auto; lra.
Qed.

Lemma f0_ok : ffin f0 /\ fval f0 = 0.
Proof. split; [split; [reflexivity|exact I]|reflexivity]. Qed.
Lemma f1_ok : ffin f1 /\ fval f1 = 1.
Proof.
  split; [split; [reflexivity|exact I]|]. unfold fval. 
  replace f1 with (S754_finite false 4503599627370496 (-52)) by reflexivity.
  simpl. unfold F2R. simpl. lra.
Qed.
Lemma f05_ok : ffin f05 /\ fval f05 = / 2.
Proof.
  split; [split; [reflexivity|exact I]|]. unfold fval. 
  replace f05 with (S754_finite false 4503599627370496 (-53)) by reflexivity.
  simpl. unfold F2R. simpl. lra.
Qed.

(** A double in the closed unit interval, stated with the program's own
    comparisons (NaN and infinities fail them). *)
Definition in01 (x : f64) : Prop := fvalid x /\ fleb f0 x = true /\ fleb x f1 = true.

Lemma in01_iff : forall x, in01 x <-> ffin x /\ 0 <= fval x <= 1.
Proof.
  intros x. unfold in01. destruct f0_ok as [F0 V0]. destruct f1_ok as [F1 V1]. split.
  - intros (Hv & H1 & H2).
    assert (Hf : ffin x).
    { split; auto. destruct x as [s|s| |s m e]; auto; [destruct s; discriminate|discriminate]. }
    split; auto. apply fleb_ok in H1, H2; auto. rewrite V0 in H1. rewrite V1 in H2. lra.
  - intros [Hf [H1 H2]]. split; [apply Hf|]. split; apply fleb_ok; auto; lra.
Qed.

Lemma fmaxR_big : bpow radix2 100 < fmaxR.
Proof. apply bpow_lt. reflexivity. Qed.
Lemma bpow100_big : 1024 < bpow radix2 100.
Proof. change 1024 with (bpow radix2 10). apply bpow_lt. reflexivity. Qed.
Lemma fmaxR_1 : 1024 < fmaxR.
Proof. generalize fmaxR_big bpow100_big. lra. Qed.

Lemma rnd_small : forall l u r, fmt l -> fmt u -> -1024 <= l -> u <= 1024 -> l <= r <= u -> Rabs (rnd r) < fmaxR.
Proof.
  intros l u r Hl Hu H1 H2 H. generalize (rnd_between l u r Hl Hu H) fmaxR_1. intros. apply Rabs_def1; lra.
Qed.
