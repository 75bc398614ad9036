(** Which cells a line along an axis paints: numbers that are integers are exact. *)
From Coq Require Import ZArith Reals Bool Lia Lra List Psatz.
From Flocq Require Import Core.Core IEEE754.BinarySingleNaN.
From Coq Require Import Floats.SpecFloat.
From Verif Require Import Base F64_Model F64_Proofs Tv_Proofs Sentence_Proofs Tries_Proofs Gabor_Proofs Map_Model Map_Spec Map_Proofs.
Local Open Scope R_scope.

(** * Square roots *)
Lemma fsqrt_equiv (x : bf) : fsqrt (B2SF x) = B2SF (Bsqrt mode_NE x).
Proof.
  unfold fsqrt. case x as [sx|sx| |sx mx ex Bx]; [now (trivial || destruct sx)..|]. destruct sx; [reflexivity|].
  cbn [B2SF SFsqrt Bsqrt]. rewrite B2SF_SF2B. set (melz := SFsqrt_core_binary _ _ _ _).
  case melz as [[mz ez] lz]. apply round_aux_equiv.
Qed.
Lemma fsqrt_ok : forall x, ffin x -> 0 <= fval x -> ffin (fsqrt x) /\ fval (fsqrt x) = rnd (sqrt (fval x)).
Proof.
  intros x Hx Hp. destruct (ffin_B x Hx) as (a & -> & Ha). rewrite fsqrt_equiv, !fval_B in *.
  destruct (Bsqrt_correct fprec femax Hprec53 Hmax1024 mode_NE a) as (H1 & H2 & _). split; [|exact H1].
  apply B_ffin. rewrite H2. destruct a as [s|s| |s m e B]; try reflexivity; try discriminate Ha. destruct s; [|reflexivity].
  exfalso. assert (N := F2R_lt_0 radix2 (Float radix2 (Z.neg m) e) eq_refl). cbn [B2R cond_Zopp] in Hp. change (- Z.pos m)%Z with (Z.neg m) in Hp. lra.
Qed.

(** * Exact integers *)
Definition holds (x : f64) (z : Z) : Prop := ffin x /\ fval x = IZR z.
Definition lim (b z : Z) : Prop := (Z.abs z <= b)%Z.
Lemma int_fits : forall z, lim (2 ^ 53) z -> rnd (IZR z) = IZR z /\ Rabs (IZR z) < fmaxR.
Proof.
  intros z H. split; [apply rnd_id, fmt_int, H|]. apply (small_max _ 53); [lia|]. rewrite <- abs_IZR. change (bpow radix2 53) with (IZR (2 ^ 53)). apply IZR_le, H.
Qed.
Lemma holds_of : forall z, lim (2 ^ 53) z -> holds (f_of_Z z) z.
Proof.
  intros z H. unfold lim in H. destruct (Z_le_gt_dec 0 z) as [P|P].
  - apply int_exact. lia.
  - destruct (int_exact (- z)) as (F & V); [lia|]. replace z with (- (- z))%Z by lia. rewrite f_of_Z_neg by lia. destruct (fneg_fin _ F) as (F1 & V1). split; [exact F1|]. rewrite V1, V, !opp_IZR. reflexivity.
Qed.
Lemma holds_sub : forall x y a b, holds x a -> holds y b -> lim (2 ^ 53) (a - b) -> holds (fsub x y) (a - b).
Proof.
  intros x y a b (F1 & V1) (F2 & V2) L. destruct (int_fits _ L) as (E & M). rewrite minus_IZR in E, M. destruct (fsub_ok x y F1 F2) as (F & V); [rewrite V1, V2, E; exact M|]. split; [exact F|]. rewrite V, V1, V2, minus_IZR. exact E.
Qed.
Lemma holds_add : forall x y a b, holds x a -> holds y b -> lim (2 ^ 53) (a + b) -> holds (fadd x y) (a + b).
Proof.
  intros x y a b (F1 & V1) (F2 & V2) L. destruct (int_fits _ L) as (E & M). rewrite plus_IZR in E, M. destruct (fadd_ok x y F1 F2) as (F & V); [rewrite V1, V2, E; exact M|]. split; [exact F|]. rewrite V, V1, V2, plus_IZR. exact E.
Qed.
Lemma holds_mul : forall x y a b, holds x a -> holds y b -> lim (2 ^ 53) (a * b) -> holds (fmul x y) (a * b).
Proof.
  intros x y a b (F1 & V1) (F2 & V2) L. destruct (int_fits _ L) as (E & M). rewrite mult_IZR in E, M. destruct (fmul_ok x y F1 F2) as (F & V); [rewrite V1, V2, E; exact M|]. split; [exact F|]. rewrite V, V1, V2, mult_IZR. exact E.
Qed.
Lemma holds_div : forall x y q b, holds x (q * b) -> holds y b -> b <> 0%Z -> lim (2 ^ 53) q -> holds (fdiv x y) q.
Proof.
  intros x y q b (F1 & V1) (F2 & V2) Nb L. destruct (int_fits _ L) as (E & M). assert (Nr : IZR b <> 0) by (apply not_0_IZR; exact Nb).
  assert (Q : fval x / fval y = IZR q) by (rewrite V1, V2, mult_IZR; field; exact Nr).
  destruct (fdiv_ok x y F1 F2) as (F & V); [rewrite V2; exact Nr|rewrite Q, E; exact M|]. split; [exact F|]. rewrite V, Q. exact E.
Qed.
Lemma holds_sqrt : forall x a, holds x (a * a) -> lim (2 ^ 53) a -> holds (fsqrt x) (Z.abs a).
Proof.
  intros x a (F1 & V1) L. rewrite mult_IZR in V1. destruct (fsqrt_ok x F1) as (F & V); [rewrite V1; nra|]. split; [exact F|]. rewrite V, V1. fold (Rsqr (IZR a)). rewrite sqrt_Rsqr_abs, <- abs_IZR. apply int_fits. unfold lim in *. lia.
Qed.
Lemma holds_le : forall x y a b, holds x a -> holds y b -> fleb x y = (a <=? b)%Z.
Proof.
  intros x y a b (F1 & V1) (F2 & V2). apply eq_true_iff_eq. rewrite (fleb_ok x y F1 F2), V1, V2, Z.leb_le. split; [apply le_IZR|apply IZR_le].
Qed.

(** * The distance of two cells *)
Lemma square_small : forall x a, holds x a -> lim (2 ^ 53) a -> ffin (fmul x x) /\ fval (fmul x x) = rnd (IZR (a * a)) /\ 0 <= fval (fmul x x) <= bpow radix2 106.
Proof.
  intros x a (F & V) L. assert (B : bnd 53 x).
  { split; [exact F|]. rewrite V, <- abs_IZR. change (bpow radix2 53) with (IZR (2 ^ 53)). apply IZR_le, L. }
  destruct (bnd_mul 53 53 x x) as ((F1 & B1) & V1); [lia|exact B|exact B|]. split; [exact F1|]. rewrite V in V1. rewrite mult_IZR. split; [exact V1|]. change (53 + 53)%Z with 106%Z in B1.
  split; [rewrite V1; apply rnd_nonneg; nra|]. revert B1. unfold Rabs. destruct (Rcase_abs _); lra.
Qed.
Lemma rnd_int_ge : forall k z, lim (2 ^ 53) k -> (k <= z)%Z -> IZR k <= rnd (IZR z).
Proof. intros k z L H. apply rnd_ge; [apply fmt_int, L|apply IZR_le, H]. Qed.
Lemma rnd_int_small : forall z, lim (2 ^ 53) z -> rnd (IZR z) = IZR z.
Proof. intros z L. apply int_fits, L. Qed.
Lemma val_32 : ffin (f_frac 3 2) /\ fval (f_frac 3 2) = 3 / 2.
Proof.
  split; [vm_compute; auto|]. unfold fval, f_frac. replace (fdiv _ _) with (S754_finite false 6755399441055744 (-52)) by (vm_compute; reflexivity).
  cbn [SF2R]. unfold F2R. cbn [Fnum Fexp cond_Zopp]. change (bpow radix2 (-52)) with (/ 4503599627370496). lra.
Qed.
Lemma fmt_13_8 : fmt (13 / 8).
Proof.
  replace (13 / 8) with (F2R (Float radix2 13 (-3))) by (unfold F2R; cbn [Fnum Fexp]; change (bpow radix2 (-3)) with (/ 8); lra).
  apply generic_format_F2R. intros _. unfold cexp, SpecFloat.fexp, SpecFloat.emin, fprec, femax. cbn [Fexp].
  assert (M : (mag radix2 (F2R (Float radix2 13 (-3))) <= 1)%Z).
  { apply mag_le_bpow; [now apply F2R_neq_0|]. unfold F2R. cbn [Fnum Fexp]. change (bpow radix2 (-3)) with (/ 8). change (bpow radix2 1) with 2. rewrite Rabs_pos_eq; lra. }
  lia.
Qed.
Lemma distance : forall x y a b, holds x a -> holds y b -> lim (2 ^ 53) a -> lim (2 ^ 53) b ->
  fgtb (fsqrt (fadd (fmul x x) (fmul y y))) (f_frac 3 2) = negb (a * a + b * b <=? 2)%Z.
Proof.
  intros x y a b Hx Hy La Lb. destruct (square_small x a Hx La) as (Fx & Vx & Px & Bx). destruct (square_small y b Hy Lb) as (Fy & Vy & Py & By).
  assert (Bx' : bnd 106 (fmul x x)) by (split; [exact Fx|rewrite Rabs_pos_eq by exact Px; exact Bx]).
  assert (By' : bnd 106 (fmul y y)) by (split; [exact Fy|rewrite Rabs_pos_eq by exact Py; exact By]).
  destruct (bnd_add 106 _ _ ltac:(lia) Bx' By') as ((Fs & _) & Vs). set (s := fadd (fmul x x) (fmul y y)) in *.
  assert (Ps : 0 <= fval s) by (rewrite Vs; apply rnd_nonneg; lra).
  destruct (fsqrt_ok s Fs Ps) as (Fr & Vr). destruct val_32 as (F3 & V3).
  apply eq_true_iff_eq. change (fgtb (fsqrt s) (f_frac 3 2)) with (fltb (f_frac 3 2) (fsqrt s)). rewrite (fltb_ok _ _ F3 Fr), V3, Vr, negb_true_iff, Z.leb_gt.
  assert (P53 : (16 < 2 ^ 53)%Z) by (now vm_compute). unfold lim in *.
  split.
  - intros H. destruct (Z_lt_le_dec 2 (a * a + b * b)) as [G|G]; [exact G|exfalso].
    assert (a * a >= 0)%Z by nia. assert (b * b >= 0)%Z by nia.
    rewrite (rnd_int_small (a * a)) in Vx by (unfold lim; lia). rewrite (rnd_int_small (b * b)) in Vy by (unfold lim; lia).
    assert (V2 : fval s = IZR (a * a + b * b)) by (rewrite Vs, Vx, Vy, <- plus_IZR; apply rnd_int_small; unfold lim; lia).
    assert (U : sqrt (fval s) <= 3 / 2).
    { apply Rsqr_incr_0_var; [|lra]. rewrite Rsqr_sqrt by exact Ps. rewrite V2. apply IZR_le in G. unfold Rsqr. lra. }
    assert (U2 := rnd_le (3 / 2) _ ltac:(rewrite <- V3; apply ffin_fmt; exact F3) U). lra.
  - intros G.
    assert (S3 : 3 <= fval s).
    { rewrite Vs. change 3 with (IZR 3). apply rnd_ge; [apply fmt_int; lia|]. rewrite Vx, Vy.
      destruct (Z_lt_le_dec (a * a) 4) as [Sa|Sa]; [destruct (Z_lt_le_dec (b * b) 4) as [Sb|Sb]|].
      - assert (a * a >= 0)%Z by nia. assert (b * b >= 0)%Z by nia. rewrite !rnd_int_small by (unfold lim; lia). rewrite <- plus_IZR. apply IZR_le. lia.
      - assert (K := rnd_int_ge 4 (b * b) ltac:(unfold lim; lia) Sb). rewrite <- Vx. lra.
      - assert (K := rnd_int_ge 4 (a * a) ltac:(unfold lim; lia) Sa). rewrite <- Vy. lra. }
    assert (U : 13 / 8 <= sqrt (fval s)).
    { apply Rsqr_incr_0_var; [|apply sqrt_pos]. rewrite Rsqr_sqrt by exact Ps. unfold Rsqr. lra. }
    assert (U2 := rnd_ge (13 / 8) _ fmt_13_8 U). lra.
Qed.

(** * Lines along an axis *)
(** coordinates as in images *)
Definition mega : Z := 1048576.
Lemma along : forall ax ay bx y x, lim mega ax -> lim mega ay -> lim mega bx -> lim mega y -> lim mega x -> bx <> ax ->
  onLine ax ay bx ay y x = ((0 <=? (x - ax) * Z.sgn (bx - ax)) && ((x - ax) * Z.sgn (bx - ax) <=? Z.abs (bx - ax)) &&
    (((x - ax) * (Z.abs (bx - ax) - 1)) * ((x - ax) * (Z.abs (bx - ax) - 1)) + (y - ay) * (y - ay) <=? 2))%Z.
Proof.
  unfold mega. intros ax ay bx y x La Lay Lb Ly Lx Ne. assert (P53 : (2 ^ 53 = 9007199254740992)%Z) by (now vm_compute).
  set (dx := (bx - ax)%Z). set (ox := (x - ax)%Z).
  assert (Ldx : (Z.abs dx <= 2097152)%Z) by (unfold lim, dx in *; lia). assert (Lox : (Z.abs ox <= 2097152)%Z) by (unfold lim, ox in *; lia).
  assert (Sg : (dx = Z.sgn dx * Z.abs dx)%Z) by (rewrite Z.mul_comm; symmetry; apply Z.abs_sgn). assert (Sa : (Z.abs (Z.sgn dx) = 1)%Z) by (unfold dx; lia).
  assert (Hax : holds (f_of_Z ax) ax) by (apply holds_of; unfold lim in *; lia). assert (Hay : holds (f_of_Z ay) ay) by (apply holds_of; unfold lim in *; lia).
  assert (Hbx : holds (f_of_Z bx) bx) by (apply holds_of; unfold lim in *; lia). assert (Hx : holds (f_of_Z x) x) by (apply holds_of; unfold lim in *; lia).
  assert (Hy : holds (f_of_Z y) y) by (apply holds_of; unfold lim in *; lia).
  assert (Hdx : holds (fsub (f_of_Z bx) (f_of_Z ax)) dx) by (apply holds_sub; auto; unfold lim in *; fold dx; lia).
  assert (Hdy : holds (fsub (f_of_Z ay) (f_of_Z ay)) 0) by (replace 0%Z with (ay - ay)%Z by lia; apply holds_sub; auto; unfold lim; lia).
  unfold onLine. set (fdx := fsub (f_of_Z bx) (f_of_Z ax)) in *. set (fdy := fsub (f_of_Z ay) (f_of_Z ay)) in *.
  assert (Hlen : holds (fsqrt (fadd (fmul fdx fdx) (fmul fdy fdy))) (Z.abs dx)).
  { apply holds_sqrt; [|unfold lim; lia]. replace (dx * dx)%Z with (dx * dx + 0 * 0)%Z by lia. apply holds_add; [apply holds_mul; auto| |]; [unfold lim; nia|apply holds_mul; auto; unfold lim; lia|unfold lim; nia]. }
  set (len := fsqrt _) in *.
  assert (Hnx : holds (fdiv fdx len) (Z.sgn dx)) by (apply holds_div with (b := Z.abs dx); [rewrite <- Sg; exact Hdx|exact Hlen|unfold dx; lia|unfold lim; lia]).
  assert (Hny : holds (fdiv fdy len) 0) by (apply holds_div with (b := Z.abs dx); [exact Hdy|exact Hlen|unfold dx; lia|unfold lim; lia]).
  assert (Hox : holds (fsub (f_of_Z x) (f_of_Z ax)) ox) by (apply holds_sub; auto; unfold lim in *; fold ox; lia).
  assert (Hoy : holds (fsub (f_of_Z y) (f_of_Z ay)) (y - ay)) by (apply holds_sub; auto; unfold lim in *; lia).
  set (nx := fdiv fdx len) in *. set (ny := fdiv fdy len) in *. set (fox := fsub (f_of_Z x) (f_of_Z ax)) in *. set (foy := fsub (f_of_Z y) (f_of_Z ay)) in *.
  assert (Hdot : holds (fadd (fmul fox nx) (fmul foy ny)) (ox * Z.sgn dx)).
  { replace (ox * Z.sgn dx)%Z with (ox * Z.sgn dx + (y - ay) * 0)%Z by lia. apply holds_add; [apply holds_mul; auto; unfold lim; nia|apply holds_mul; auto; unfold lim; lia|unfold lim; nia]. }
  cbv zeta. set (dot := fadd (fmul fox nx) (fmul foy ny)) in *.
  assert (H0 : holds f0 0) by (apply f0_ok). unfold fgeb. fold (fleb f0 dot).
  rewrite (holds_le f0 dot 0 _ H0 Hdot), (holds_le dot len _ _ Hdot Hlen).
  destruct ((0 <=? ox * Z.sgn dx)%Z && (ox * Z.sgn dx <=? Z.abs dx)%Z) eqn:Rng; cbn [negb andb]; [|reflexivity].
  assert (Ldot : (Z.abs (ox * Z.sgn dx) <= 2097152)%Z) by nia.
  assert (Eq : (ox * Z.sgn dx * dx = ox * Z.abs dx)%Z) by nia.
  assert (Lod : (Z.abs (ox * Z.abs dx) <= 4398046511104)%Z) by nia.
  assert (Hpx : holds (fadd (f_of_Z ax) (fmul dot fdx)) (ax + ox * Z.abs dx)).
  { rewrite <- Eq in *. apply holds_add; auto; [apply holds_mul; auto; unfold lim; lia|unfold lim in *; lia]. }
  assert (Hpy : holds (fadd (f_of_Z ay) (fmul dot fdy)) ay).
  { replace ay with (ay + ox * Z.sgn dx * 0)%Z at 2 by lia. apply holds_add; auto; [apply holds_mul; auto; unfold lim; lia|unfold lim in *; lia]. }
  set (px := fadd (f_of_Z ax) (fmul dot fdx)) in *. set (py := fadd (f_of_Z ay) (fmul dot fdy)) in *.
  assert (Hx2 : holds (fsub (f_of_Z x) px) (x - (ax + ox * Z.abs dx))) by (apply holds_sub; auto; unfold lim in *; lia).
  assert (Hy2 : holds (fsub (f_of_Z y) py) (y - ay)) by (apply holds_sub; auto; unfold lim in *; lia).
  rewrite (distance _ _ _ _ Hx2 Hy2) by (unfold lim in *; lia). rewrite negb_involutive.
  replace (x - (ax + ox * Z.abs dx))%Z with (- (ox * (Z.abs dx - 1)))%Z by (unfold ox; ring). f_equal. ring.
Qed.
(** rows and columns play the same role *)
Lemma fadd_comm' : forall a b, fadd a b = fadd b a.
Proof.
  intros [s|s| |s m e] [s'|s'| |s' m' e']; try reflexivity; try (destruct s, s'; reflexivity).
  unfold fadd. cbn [SFadd]. rewrite Z.min_comm. rewrite Z.add_comm. reflexivity.
Qed.
Lemma turned : forall ax ay bx by_ y x, onLine ax ay bx by_ y x = onLine ay ax by_ bx x y.
Proof.
  intros ax ay bx by_ y x. unfold onLine. rewrite (fadd_comm' (fmul (fsub (f_of_Z bx) (f_of_Z ax)) _)). set (len := fsqrt _).
  rewrite (fadd_comm' (fmul (fsub (f_of_Z x) _) _)). set (dot := fadd _ _). cbv zeta. rewrite (fadd_comm' (fmul (fsub (f_of_Z x) _) _)). reflexivity.
Qed.
