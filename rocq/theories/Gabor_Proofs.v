From Coq Require Import List ZArith Bool Lia Reals Lra.
From Flocq Require Import Core IEEE754.BinarySingleNaN Mult_error.
From Coq Require Import Floats.SpecFloat.
From Verif Require Import Base F64_Model F64_Proofs Sentence_Proofs Map_Model Map_Spec Map_Proofs Ad_Model Vec_Proofs Gabor_Model Gabor_Spec.
Import ListNotations.
Local Open Scope list_scope.
Local Open Scope Z_scope.

(** * The kernel as a map *)
Theorem kernel_map : forall c s e w phi lam off asp, 0 <= w -> exists m, generateGaborKernel c s e w phi lam off asp = Ok m /\ m_w m = w /\ m_h m = w /\ wfMap m /\
  forall y x, 0 <= y < w -> 0 <= x < w -> readAt f0 m y x = Ok (gaborAt c s e w phi lam off asp y x).
Proof.
  intros c s e w phi lam off asp W. destruct (fill_map 0 w 0 w (fun y x => Ok (gaborAt c s e w phi lam off asp y x)) (gaborAt c s e w phi lam off asp) w w W W) as (m & E & Ew & Eh & WF & V); [reflexivity|].
  exists m. split; [exact E|]. split; auto. split; auto. split; auto. intros y x Y X. rewrite read_spec by auto. rewrite V.
  unfold inR. replace (0 <=? y) with true by lia. replace (y <? w) with true by lia. replace (0 <=? x) with true by lia. replace (x <? w) with true by lia. reflexivity.
Qed.
Theorem kernel_negative : forall c s e w phi lam off asp, w < 0 -> exists m, generateGaborKernel c s e w phi lam off asp = Ok m /\ forall y x, readAt f0 m y x = Ok f0.
Proof.
  intros c s e w phi lam off asp W. unfold generateGaborKernel, makeMap2d, alloc. destruct (Z.ltb_spec (w * w) 0); [nia|]. cbn [rbind].
  assert (G : grid 0 w 0 w = []). { unfold grid, zrange. replace (Z.to_nat (w - 0)) with 0%nat by lia. reflexivity. }
  rewrite G. cbn [rfold]. eexists. split; [reflexivity|]. intros y x. unfold readAt. cbn [m_w m_h]. destruct (y <? 0) eqn:A; [reflexivity|]. destruct (x <? 0) eqn:B; [reflexivity|].
  destruct (x >=? w) eqn:C; [now rewrite orb_true_r|]. lia.
Qed.

(** * Signs *)
Lemma fneg_fneg : forall a, fneg (fneg a) = a.
Proof. intros [s|s| |s m e]; cbn; rewrite ?negb_involutive; reflexivity. Qed.
Lemma round_aux_neg : forall m e l s, binary_round_aux fprec femax (negb s) m e l = fneg (binary_round_aux fprec femax s m e l).
Proof.
  intros m e l s. unfold binary_round_aux. destruct (shr_fexp _ _ _ _ _) as [mrs' e']. destruct (shr_fexp _ _ _ _ _) as [mrs'' e'']. destruct (shr_m mrs'') as [|p|p]; try reflexivity.
  destruct (_ <=? _); reflexivity.
Qed.
Lemma round_neg : forall s m e, binary_round fprec femax (negb s) m e = fneg (binary_round fprec femax s m e).
Proof. intros s m e. unfold binary_round. destruct (shl_align _ _ _) as [mz ez]. apply round_aux_neg. Qed.
Lemma norm_neg : forall m e, m <> 0 -> binary_normalize fprec femax (- m) e false = fneg (binary_normalize fprec femax m e false).
Proof. intros [|p|p] e N; [congruence| |]; cbn [Z.opp binary_normalize]; [apply (round_neg false)|apply (round_neg true)]. Qed.
Lemma f_of_Z_neg : forall z, z <> 0 -> f_of_Z (- z) = fneg (f_of_Z z).
Proof. intros z N. now apply norm_neg. Qed.
Lemma fmul_negl : forall a b, fmul (fneg a) b = fneg (fmul a b).
Proof.
  unfold fmul. intros [s|s| |s m e] [t|t| |t n g]; cbn [fneg SFopp SFmul]; try reflexivity; rewrite <- ?negb_xorb_l; try reflexivity. apply round_aux_neg.
Qed.
Lemma fmul_negr : forall a b, fmul a (fneg b) = fneg (fmul a b).
Proof.
  unfold fmul. intros [s|s| |s m e] [t|t| |t n g]; cbn [fneg SFopp SFmul]; try reflexivity; rewrite <- ?negb_xorb_r; try reflexivity. apply round_aux_neg.
Qed.
Lemma fdiv_negl : forall a b, fdiv (fneg a) b = fneg (fdiv a b).
Proof.
  unfold fdiv. intros [s|s| |s m e] [t|t| |t n g]; cbn [fneg SFopp SFdiv]; try reflexivity; rewrite <- ?negb_xorb_l; try reflexivity.
  destruct (SFdiv_core_binary _ _ _ _ _ _) as [[mz ez] lz]. apply round_aux_neg.
Qed.
Lemma fadd_neg : forall a b, mirror (fadd a b) (fadd (fneg a) (fneg b)).
Proof.
  unfold fadd. intros [s|s| |s m e] [t|t| |t n g]; cbn [fneg SFopp SFadd]; try (now left); try (now right).
  - destruct s, t; cbn; try (now left); now right.
  - destruct s, t; cbn; now left.
  - cbv zeta. set (a := Zpos _). set (b := Zpos _).
    assert (E : cond_Zopp (negb s) a + cond_Zopp (negb t) b = - (cond_Zopp s a + cond_Zopp t b)) by (destruct s, t; cbn [negb cond_Zopp]; lia).
    rewrite E. destruct (Z.eq_dec (cond_Zopp s a + cond_Zopp t b) 0) as [Z0|N].
    + rewrite Z0. right. split; reflexivity.
    + left. now apply norm_neg.
Qed.
Lemma zero_mul : forall a b, isZero a = true -> isZero (fmul a b) = true \/ fmul a b = S754_nan.
Proof. unfold fmul. intros [s|s| |s m e] [t|t| |t n g] H; cbn in *; auto; discriminate. Qed.
Lemma zero_mul2 : forall a a' b, isZero a = true -> isZero a' = true -> mirror (fmul a b) (fmul a' b).
Proof. unfold fmul. intros [s|s| |s m e] [s'|s'| |s' m' e'] [t|t| |t n g] H H'; cbn in *; try discriminate; try (now left); now right. Qed.
Lemma mirror_mul : forall a a' b, mirror a a' -> mirror (fmul a b) (fmul a' b).
Proof. intros a a' b [->|[A B]]; [left; apply fmul_negl|now apply zero_mul2]. Qed.
Lemma mirror_div : forall a a' b, mirror a a' -> mirror (fdiv a b) (fdiv a' b).
Proof.
  intros a a' b [->|[A B]]; [left; apply fdiv_negl|]. unfold fdiv. destruct a as [s|s| |s m e], a' as [s'|s'| |s' m' e'], b as [t|t| |t n g]; cbn in *; try discriminate; try (now left); now right.
Qed.
Lemma mirror_neg : forall a a', mirror a a' -> mirror (fneg a) (fneg a').
Proof. intros a a' [->|[A B]]; [now left|right]. destruct a, a'; cbn in *; auto. Qed.
Lemma zero_add : forall a b, isZero a = true -> isZero b = false -> fadd a b = b.
Proof. unfold fadd. intros [s|s| |s m e] [t|t| |t n g] A B; cbn in *; try discriminate; reflexivity. Qed.
Lemma add_zero : forall a b, isZero a = false -> isZero b = true -> fadd a b = a.
Proof. unfold fadd. intros [s|s| |s m e] [t|t| |t n g] A B; cbn in *; try discriminate; reflexivity. Qed.
Lemma zeros_add : forall a b, isZero a = true -> isZero b = true -> isZero (fadd a b) = true.
Proof. unfold fadd. intros [s|s| |s m e] [t|t| |t n g] A B; cbn in *; try discriminate; destruct (eqb s t); reflexivity. Qed.
Lemma isZero_neg : forall a, isZero (fneg a) = isZero a.
Proof. now intros [s|s| |s m e]. Qed.
Lemma mirror_add : forall a a' b b', mirror a a' -> mirror b b' -> mirror (fadd a b) (fadd a' b').
Proof.
  intros a a' b b' [->|[A A']] [->|[B B']].
  - apply fadd_neg.
  - destruct (isZero a) eqn:Ea; [right; split; apply zeros_add; rewrite ?isZero_neg; auto|]. rewrite !add_zero; rewrite ?isZero_neg; auto. now left.
  - destruct (isZero b) eqn:Eb; [right; split; apply zeros_add; rewrite ?isZero_neg; auto|]. rewrite !zero_add; rewrite ?isZero_neg; auto. now left.
  - right. split; apply zeros_add; auto.
Qed.
Lemma mirror_square : forall a a' k, mirror a a' -> fmul (fmul k a) a = fmul (fmul k a') a'.
Proof.
  intros a a' k [->|[A A']].
  - now rewrite !fmul_negr, !fmul_negl, fneg_fneg.
  - unfold fmul. destruct a as [s|s| |s m e], a' as [s'|s'| |s' m' e'], k as [t|t| |t n g]; cbn in *; try discriminate; try reflexivity; destruct t, s, s'; reflexivity.
Qed.
Lemma mirror_self : forall a a', mirror a a' -> fmul a a = fmul a' a'.
Proof.
  intros a a' [->|[A A']]; [now rewrite fmul_negr, fmul_negl, fneg_fneg|].
  unfold fmul. destruct a as [s|s| |s m e], a' as [s'|s'| |s' m' e']; cbn in *; try discriminate; destruct s, s'; reflexivity.
Qed.
Lemma plus_zero : forall a a', mirror a a' -> fadd a' f0 = fneg (fadd a f0) \/ fadd a' f0 = fadd a f0.
Proof.
  intros a a' [->|[A A']].
  - destruct (isZero a) eqn:E; [right|left]. + destruct a as [s|s| |s m e]; try discriminate. destruct s; reflexivity. + rewrite !add_zero; rewrite ?isZero_neg; auto.
  - right. destruct a as [s|s| |s m e], a' as [s'|s'| |s' m' e']; cbn in *; try discriminate. destruct s, s'; reflexivity.
Qed.
Lemma mirror_coord : forall w i, Z.odd w = true -> 0 <= w -> mirror (coord w i) (coord w (w - 1 - i)).
Proof.
  intros w i O W. assert (Q : w = 2 * Z.quot w 2 + 1). { pose proof (odd_kernel w O W). lia. }
  unfold coord. apply mirror_mul, mirror_div. replace (w - 1 - i - Z.quot w 2) with (- (i - Z.quot w 2)) by lia.
  destruct (Z.eq_dec (i - Z.quot w 2) 0) as [->|N]; [right; split; reflexivity|left; now apply f_of_Z_neg].
Qed.
Theorem kernel_mirror : forall c s e w phi lam asp y x, Z.odd w = true -> 0 <= w -> evenFun c ->
  gaborAt c s e w phi lam f0 asp (w - 1 - y) (w - 1 - x) = gaborAt c s e w phi lam f0 asp y x.
Proof.
  intros c s e w phi lam asp y x O W C. unfold gaborAt. cbv zeta.
  pose proof (mirror_coord w x O W) as X. pose proof (mirror_coord w y O W) as Y.
  set (x1 := coord w x) in *. set (x2 := coord w (w - 1 - x)) in *. set (y1 := coord w y) in *. set (y2 := coord w (w - 1 - y)) in *.
  assert (T : mirror (fadd (fmul x1 (c phi)) (fmul y1 (s phi))) (fadd (fmul x2 (c phi)) (fmul y2 (s phi)))) by (apply mirror_add; now apply mirror_mul).
  assert (U : mirror (fadd (fmul (fneg x1) (s phi)) (fmul y1 (c phi))) (fadd (fmul (fneg x2) (s phi)) (fmul y2 (c phi)))) by (apply mirror_add; apply mirror_mul; auto; now apply mirror_neg).
  set (t1 := fadd (fmul x1 (c phi)) (fmul y1 (s phi))) in *. set (t2 := fadd (fmul x2 (c phi)) (fmul y2 (s phi))) in *.
  set (u1 := fadd (fmul (fneg x1) (s phi)) (fmul y1 (c phi))) in *. set (u2 := fadd (fmul (fneg x2) (s phi)) (fmul y2 (c phi))) in *.
  f_equal; [f_equal; f_equal; f_equal; f_equal; [symmetry; now apply mirror_self|symmetry; now apply mirror_square]|].
  assert (V : mirror (fmul (fmul f2 fpi) (fdiv t1 lam)) (fmul (fmul f2 fpi) (fdiv t2 lam))).
  { pose proof (mirror_div _ _ lam T) as D. destruct D as [->|[A B]]; [left; apply fmul_negr|]. destruct (fdiv t1 lam), (fdiv t2 lam); try discriminate. right. split; reflexivity. }
  destruct (plus_zero _ _ V) as [->| ->]; [apply C|reflexivity].
Qed.

(** * Sizes *)
Local Open Scope R_scope.
Definition bnd (p : Z) (x : f64) : Prop := ffin x /\ Rabs (fval x) <= bpow radix2 p.
Lemma rnd_abs : forall r p, (-1074 <= p <= 1023)%Z -> Rabs r <= bpow radix2 p -> Rabs (rnd r) <= bpow radix2 p.
Proof.
  intros r p P H. pose proof (fmt_bpow p P) as F. pose proof (generic_format_opp radix2 fexp64 _ F) as G.
  assert (A : - bpow radix2 p <= r <= bpow radix2 p) by (apply Rabs_le_inv; exact H). apply Rabs_le. apply rnd_between; auto.
Qed.
Lemma small_max : forall r p, (p <= 1023)%Z -> Rabs r <= bpow radix2 p -> Rabs r < fmaxR.
Proof. intros r p P H. eapply Rle_lt_trans; [exact H|]. apply bpow_lt. unfold femax. lia. Qed.
Lemma bnd_mul : forall p q x y, (-1074 <= p + q <= 1023)%Z -> bnd p x -> bnd q y -> bnd (p + q) (fmul x y) /\ fval (fmul x y) = rnd (fval x * fval y).
Proof.
  intros p q x y P [Fx Bx] [Fy By].
  assert (B : Rabs (rnd (fval x * fval y)) <= bpow radix2 (p + q)).
  { apply rnd_abs; auto. rewrite Rabs_mult, bpow_plus. apply Rmult_le_compat; auto using Rabs_pos. }
  destruct (fmul_ok x y Fx Fy) as [F V]; [eapply small_max; [|exact B]; lia|]. split; auto. split; auto. now rewrite V.
Qed.
Lemma bnd_add : forall p x y, (-1074 <= p + 1 <= 1023)%Z -> bnd p x -> bnd p y -> bnd (p + 1) (fadd x y) /\ fval (fadd x y) = rnd (fval x + fval y).
Proof.
  intros p x y P [Fx Bx] [Fy By].
  assert (B : Rabs (rnd (fval x + fval y)) <= bpow radix2 (p + 1)).
  { apply rnd_abs; auto. rewrite bpow_plus. pose proof (Rabs_triang (fval x) (fval y)). change (bpow radix2 1) with 2. lra. }
  destruct (fadd_ok x y Fx Fy) as [F V]; [eapply small_max; [|exact B]; lia|]. split; auto. split; auto. now rewrite V.
Qed.
Lemma bnd_div : forall p q x y, (-1074 <= p - q <= 1023)%Z -> bnd p x -> ffin y -> bpow radix2 q <= Rabs (fval y) -> bnd (p - q) (fdiv x y) /\ fval (fdiv x y) = rnd (fval x / fval y).
Proof.
  intros p q x y P [Fx Bx] Fy By. pose proof (bpow_gt_0 radix2 q) as Q.
  assert (N : fval y <> 0). { intros E. rewrite E, Rabs_R0 in By. lra. }
  assert (B : Rabs (rnd (fval x / fval y)) <= bpow radix2 (p - q)).
  { apply rnd_abs; auto. unfold Rdiv. rewrite Rabs_mult, Rabs_inv. unfold Z.sub. rewrite bpow_plus, bpow_opp. apply Rmult_le_compat; auto using Rabs_pos.
    - left. apply Rinv_0_lt_compat. lra. - apply Rinv_le; lra. }
  destruct (fdiv_ok x y Fx Fy N) as [F V]; [eapply small_max; [|exact B]; lia|]. split; auto. split; auto. now rewrite V.
Qed.
Lemma fneg_fin : forall x, ffin x -> ffin (fneg x) /\ fval (fneg x) = - fval x.
Proof.
  intros x [V F]. destruct x as [s|s| |s m e]; cbn in F; try easy.
  - split; [split; [reflexivity|exact I]|]. cbn. lra.
  - split; [split; [exact V|exact I]|]. unfold fval. cbn [fneg SFopp SF2R]. unfold F2R, cond_Zopp. cbn [Fnum Fexp]. destruct s; cbn [negb]; rewrite ?opp_IZR; cbn [Z.opp]; try lra.
Qed.
Lemma bnd_neg : forall p x, bnd p x -> bnd p (fneg x) /\ fval (fneg x) = - fval x.
Proof. intros p x [F B]. destruct (fneg_fin x F) as [F' V]. split; auto. split; auto. now rewrite V, Rabs_Ropp. Qed.
Lemma bnd_le : forall p q x, (p <= q)%Z -> bnd p x -> bnd q x.
Proof. intros p q x H [F B]. split; auto. eapply Rle_trans; [exact B|]. now apply bpow_le. Qed.
Lemma rnd_nonneg : forall r, 0 <= r -> 0 <= rnd r.
Proof. intros r H. rewrite <- rnd_0. now apply rnd_mono. Qed.

Ltac literal c := let v := eval vm_compute in c in replace c with v by (vm_compute; reflexivity); unfold fval; simpl; unfold F2R; simpl.
Lemma f2_val : fval f2 = 2.
Proof. literal f2. lra. Qed.
Lemma bnd_2 : bnd 1 f2.
Proof. split; [split; [reflexivity|exact I]|]. rewrite f2_val. change (bpow radix2 1) with 2. rewrite Rabs_pos_eq; lra. Qed.
Lemma bnd_pi : bnd 2 fpi.
Proof. split; [split; [reflexivity|exact I]|]. change (bpow radix2 2) with 4. assert (0 <= fval fpi <= 4) by (literal fpi; lra). rewrite Rabs_pos_eq; lra. Qed.
Lemma val_56 : ffin (f_frac 56 100) /\ / 2 <= fval (f_frac 56 100) <= 1.
Proof. split; [split; [reflexivity|exact I]|]. literal (f_frac 56 100). lra. Qed.
Lemma rnd_abs_ge : forall r p, (-1074 <= p <= 1023)%Z -> bpow radix2 p <= Rabs r -> bpow radix2 p <= Rabs (rnd r).
Proof. intros r p P H. apply abs_round_ge_generic; auto with typeclass_instances. now apply fmt_bpow. Qed.

Lemma coord_bnd : forall w i, (0 <= i < w)%Z -> (w <= 2 ^ 31)%Z -> bnd 0 (coord w i).
Proof.
  intros w i Hi Hw. unfold coord.
  assert (Q : (2 * Z.quot w 2 <= w <= 2 * Z.quot w 2 + 1)%Z). { rewrite Z.quot_div_nonneg by lia. pose proof (Z.div_mod w 2). pose proof (Z.mod_pos_bound w 2). lia. }
  destruct (f_of_Z_ok (i - Z.quot w 2)) as [Fn Vn]; [lia|]. destruct (f_of_Z_ok w) as [Fw Vw]; [lia|].
  assert (In : forall z, (Z.abs z <= 2 ^ 31)%Z -> rnd (IZR z) = IZR z).
  { intros z Z1. apply rnd_id. apply generic_format_FLT. exists (Float radix2 z 0); cbn [Fnum Fexp]; [unfold F2R; cbn [Fnum Fexp bpow]; lra| |].
    - change (Zpower radix2 fprec) with (2 ^ 53)%Z. lia. - unfold emin, fprec, femax. lia. }
  rewrite In in Vn by lia. rewrite In in Vw by lia.
  assert (W1 : 1 <= IZR w) by (apply IZR_le; lia).
  assert (H2 : Rabs (fval (f_of_Z (i - Z.quot w 2)) / fval (f_of_Z w)) <= bpow radix2 (-1)).
  { rewrite Vn, Vw. unfold Rdiv. rewrite Rabs_mult, Rabs_inv, (Rabs_pos_eq (IZR w)) by lra. apply Rmult_le_reg_r with (IZR w); [lra|]. rewrite Rmult_assoc, Rinv_l, Rmult_1_r by lra.
    change (bpow radix2 (-1)) with (/ 2). rewrite <- abs_IZR. assert (K : IZR (2 * Z.abs (i - Z.quot w 2)) <= IZR w) by (apply IZR_le; lia). rewrite mult_IZR in K. lra. }
  assert (B : Rabs (rnd (fval (f_of_Z (i - Z.quot w 2)) / fval (f_of_Z w))) <= bpow radix2 (-1)) by (apply rnd_abs; [lia|exact H2]).
  destruct (fdiv_ok _ _ Fn Fw) as [Fd Vd]; [lra|eapply small_max; [|exact B]; lia|].
  assert (D : bnd (-1) (fdiv (f_of_Z (i - Z.quot w 2)) (f_of_Z w))) by (split; auto; now rewrite Vd).
  destruct (bnd_mul (-1) 1 _ _ ltac:(lia) D bnd_2) as [R _]. exact R.
Qed.

(** the two numbers that the exponential and the cosine are taken of *)
Definition rotX (c s : f64 -> f64) (phi x y : f64) : f64 := fadd (fmul x (c phi)) (fmul y (s phi)).
Lemma rot_bnd : forall p q x y, bnd 0 p -> bnd 0 q -> bnd 0 x -> bnd 0 y -> bnd 1 (fadd (fmul x p) (fmul y q)).
Proof.
  intros p q x y P Q X Y. destruct (bnd_mul 0 0 x p ltac:(lia) X P) as [A _]. destruct (bnd_mul 0 0 y q ltac:(lia) Y Q) as [B _]. destruct (bnd_add 0 _ _ ltac:(lia) A B) as [C _]. exact C.
Qed.
Lemma den_ok : forall lam, sane lam -> let sigma := fmul (f_frac 56 100) lam in ffin (fmul (fmul f2 sigma) sigma) /\ bpow radix2 (-201) <= fval (fmul (fmul f2 sigma) sigma).
Proof.
  intros lam [Fl [L1 L2]] sigma.
  destruct val_56 as [Fk K].
  assert (Bk : bnd 0 (f_frac 56 100)) by (split; auto; rewrite Rabs_pos_eq by lra; cbn; lra).
  destruct (bnd_mul 0 100 _ lam ltac:(lia) Bk (conj Fl L2)) as [Bs Vs]. fold sigma in Bs, Vs.
  assert (S1 : bpow radix2 (-101) <= Rabs (fval sigma)).
  { rewrite Vs. apply rnd_abs_ge; [lia|]. rewrite Rabs_mult, (Rabs_pos_eq (fval (f_frac 56 100))) by lra. change (-101)%Z with (-1 + -100)%Z. rewrite bpow_plus. change (bpow radix2 (-1)) with (/ 2).
    apply Rmult_le_compat; try lra. apply bpow_ge_0. }
  destruct (bnd_mul 1 100 f2 sigma ltac:(lia) bnd_2 Bs) as [B2 V2].
  assert (E2 : fval (fmul f2 sigma) = 2 * fval sigma).
  { rewrite V2, f2_val. replace (2 * fval sigma) with (fval sigma * bpow radix2 1) by (change (bpow radix2 1) with 2; lra). apply rnd_id.
    apply mult_bpow_pos_exact_FLT; [apply ffin_fmt; apply Bs|lia]. }
  destruct (bnd_mul (1 + 100) 100 _ sigma ltac:(lia) B2 Bs) as [Bd Vd]. rewrite E2 in Vd.
  assert (D1 : bpow radix2 (-201) <= fval (fmul (fmul f2 sigma) sigma)).
  { rewrite Vd. apply rnd_ge; [apply fmt_bpow; lia|]. replace (2 * fval sigma * fval sigma) with (2 * (Rabs (fval sigma) * Rabs (fval sigma))).
    - change (-201)%Z with (1 + (-101 + -101))%Z. rewrite !bpow_plus. change (bpow radix2 1) with 2. apply Rmult_le_compat_l; [lra|]. apply Rmult_le_compat; auto using bpow_ge_0.
    - rewrite <- Rabs_mult, Rabs_pos_eq; [ring|]. apply Rle_0_sqr. }
  split; [apply Bd|exact D1].
Qed.
Lemma exp_arg : forall lam asp u v, sane lam -> notHuge asp -> bnd 1 u -> bnd 1 v ->
  let sigma := fmul (f_frac 56 100) lam in
  let a := fdiv (fneg (fadd (fmul u u) (fmul (fmul (fmul asp asp) v) v))) (fmul (fmul f2 sigma) sigma) in
  ffin a /\ fval a <= 0.
Proof.
  intros lam asp u v L A U V sigma a. destruct (den_ok lam L) as [Fd D1]. fold sigma in Fd, D1.
  destruct (bnd_mul 1 1 u u ltac:(lia) U U) as [Bu Vu].
  destruct (bnd_mul 100 100 asp asp ltac:(lia) A A) as [Ba Va].
  destruct (bnd_mul (100 + 100) 1 _ v ltac:(lia) Ba V) as [Bb Vb].
  destruct (bnd_mul (100 + 100 + 1) 1 _ v ltac:(lia) Bb V) as [Bc Vc].
  destruct (bnd_add (100 + 100 + 1 + 1) (fmul u u) _ ltac:(lia) (bnd_le (1 + 1) (100 + 100 + 1 + 1) _ ltac:(lia) Bu) Bc) as [Bn Vn].
  destruct (bnd_neg _ _ Bn) as [Bm Vm].
  assert (NN : 0 <= fval (fadd (fmul u u) (fmul (fmul (fmul asp asp) v) v))).
  { rewrite Vn. apply rnd_nonneg. apply Rplus_le_le_0_compat.
    - rewrite Vu. apply rnd_nonneg. apply Rle_0_sqr.
    - rewrite Vc. apply rnd_nonneg. rewrite Vb. assert (P : 0 <= fval (fmul asp asp)) by (rewrite Va; apply rnd_nonneg, Rle_0_sqr).
      destruct (Rle_or_lt 0 (fval v)) as [S|S].
      + apply Rmult_le_pos; auto. apply rnd_nonneg. now apply Rmult_le_pos.
      + assert (X : rnd (fval (fmul asp asp) * fval v) <= 0). { rewrite <- rnd_0. apply rnd_mono. nra. } nra. }
  destruct (bnd_div (100 + 100 + 1 + 1 + 1) (-201) _ (fmul (fmul f2 sigma) sigma) ltac:(lia) Bm Fd) as [R Vr].
  { rewrite Rabs_pos_eq; auto. pose proof (bpow_gt_0 radix2 (-201)). lra. }
  fold a in R, Vr. split; [apply R|]. rewrite Vr, Vm. rewrite <- rnd_0. apply rnd_mono. pose proof (bpow_gt_0 radix2 (-201)).
  unfold Rdiv. rewrite Ropp_mult_distr_l_reverse. assert (0 <= fval (fadd (fmul u u) (fmul (fmul (fmul asp asp) v) v)) * / fval (fmul (fmul f2 sigma) sigma)); [|lra].
  apply Rmult_le_pos; auto. left. apply Rinv_0_lt_compat. lra.
Qed.
Lemma cos_arg : forall lam off u, sane lam -> notHuge off -> bnd 1 u -> ffin (fadd (fmul (fmul f2 fpi) (fdiv u lam)) off).
Proof.
  intros lam off u [Fl [L1 L2]] O U.
  destruct (bnd_div 1 (-100) u lam ltac:(lia) U Fl L1) as [B1 _].
  destruct (bnd_mul 1 2 f2 fpi ltac:(lia) bnd_2 bnd_pi) as [B2 _].
  destruct (bnd_mul (1 + 2) (1 - -100) _ _ ltac:(lia) B2 B1) as [B3 _].
  destruct (bnd_add (1 + 2 + (1 - -100)) _ off ltac:(lia) B3 (bnd_le 100 (1 + 2 + (1 - -100)) _ ltac:(lia) O)) as [B4 _]. apply B4.
Qed.
Theorem kernel_range : forall c s e w phi lam off asp y x, wave c -> wave s -> decay e -> ffin phi -> sane lam -> notHuge off -> notHuge asp ->
  (0 <= y < w)%Z -> (0 <= x < w)%Z -> (w <= 2 ^ 31)%Z -> unitBall (gaborAt c s e w phi lam off asp y x).
Proof.
  intros c s e w phi lam off asp y x C S E P L O A Y X W. unfold gaborAt. cbv zeta.
  pose proof (coord_bnd w x X W) as Bx. pose proof (coord_bnd w y Y W) as By.
  pose proof (C phi P) as Bc. pose proof (S phi P) as Bs.
  pose proof (rot_bnd _ _ _ _ Bc Bs Bx By) as U. destruct (bnd_neg _ _ Bx) as [Bnx _]. pose proof (rot_bnd _ _ _ _ Bs Bc Bnx By) as V.
  destruct (exp_arg lam asp _ _ L A U V) as [Fe Ve]. pose proof (cos_arg lam off _ L O U) as Fc.
  pose proof (E _ Fe Ve) as Ie. apply in01_iff in Ie. destruct Ie as [I1 I2]. destruct (C _ Fc) as [J1 J2].
  apply (bnd_mul 0 0); [lia|split; auto; rewrite Rabs_pos_eq by lra; cbn; lra|split; auto].
Qed.

(** * The centre *)
Lemma zero_val : forall a, isZero a = true -> bnd 0 a /\ fval a = 0.
Proof. intros [s|s| |s m e] H; try discriminate. split; [|reflexivity]. split; [split; [reflexivity|exact I]|]. cbn. rewrite Rabs_R0. lra. Qed.
Lemma zero_mul_fin : forall a b, isZero a = true -> ffin b -> isZero (fmul a b) = true.
Proof. intros a b A [_ F]. unfold fmul. destruct a as [s|s| |s m e], b as [t|t| |t n g]; cbn in *; try easy. Qed.
Lemma mul_zero_fin : forall a b, ffin a -> isZero b = true -> isZero (fmul a b) = true.
Proof. intros a b [_ F] B. unfold fmul. destruct a as [s|s| |s m e], b as [t|t| |t n g]; cbn in *; try easy. Qed.
Lemma zero_div_fin : forall a b, isZero a = true -> ffin b -> fval b <> 0 -> isZero (fdiv a b) = true.
Proof. intros a b A [_ F] N. unfold fdiv. destruct a as [s|s| |s m e], b as [t|t| |t n g]; cbn in *; try easy. Qed.
Lemma coord_mid : forall w, (0 < w <= 2 ^ 31)%Z -> isZero (coord w (Z.quot w 2)) = true.
Proof.
  intros w W. unfold coord. rewrite Z.sub_diag. destruct (f_of_Z_ok w) as [Fw _]; [lia|]. pose proof (f_of_Z_pos w ltac:(lia) ltac:(lia)).
  apply zero_mul_fin; [|apply bnd_2]. apply zero_div_fin; auto. lra.
Qed.
Theorem kernel_centre : forall c s e w phi lam off asp, wave c -> wave s -> (forall z, isZero z = true -> e z = f1) -> ffin phi -> sane lam -> ffin off -> off <> S754_zero true -> notHuge asp ->
  (0 < w <= 2 ^ 31)%Z -> fval (gaborAt c s e w phi lam off asp (Z.quot w 2) (Z.quot w 2)) = fval (c off).
Proof.
  intros c s e w phi lam off asp C S E P [Fl [L1 L2]] O O' A W. unfold gaborAt. cbv zeta. pose proof (coord_mid w W) as M. set (z := coord w (Z.quot w 2)) in *.
  destruct (C phi P) as [Fc _]. destruct (S phi P) as [Fs _].
  assert (U : isZero (fadd (fmul z (c phi)) (fmul z (s phi))) = true) by (apply zeros_add; now apply zero_mul_fin).
  assert (V : isZero (fadd (fmul (fneg z) (s phi)) (fmul z (c phi))) = true) by (apply zeros_add; apply zero_mul_fin; rewrite ?isZero_neg; auto).
  set (u := fadd (fmul z (c phi)) (fmul z (s phi))) in *. set (v := fadd (fmul (fneg z) (s phi)) (fmul z (c phi))) in *.
  pose proof (bpow_gt_0 radix2 (-100)) as G.
  assert (N : fval lam <> 0). { intros Q. rewrite Q, Rabs_R0 in L1. lra. }
  assert (X : fadd (fmul (fmul f2 fpi) (fdiv u lam)) off = off).
  { assert (Y : isZero (fmul (fmul f2 fpi) (fdiv u lam)) = true). { apply mul_zero_fin; [apply (bnd_mul 1 2); [lia|apply bnd_2|apply bnd_pi]|]. now apply zero_div_fin. }
    destruct (isZero off) eqn:Zo; [|now apply zero_add]. destruct off as [[|]|b| |b m g]; try discriminate; [congruence|].
    destruct (fmul (fmul f2 fpi) (fdiv u lam)) as [[|]|b| |b m g]; try discriminate; reflexivity. }
  rewrite X. rewrite E.
  - destruct f1_ok as [F1 V1]. destruct (C off O) as [Fo Bo].
    assert (Bf : bnd 0 f1) by (split; auto; rewrite V1, Rabs_R1; cbn; lra).
    destruct (bnd_mul 0 0 f1 (c off) ltac:(lia) Bf (conj Fo Bo)) as [_ R]. rewrite R, V1, Rmult_1_l. apply rnd_id. now apply ffin_fmt.
  - destruct (den_ok lam (conj Fl (conj L1 L2))) as [Fd D1]. pose proof (bpow_gt_0 radix2 (-201)).
    assert (Fb : ffin (fmul (fmul asp asp) v)).
    { destruct (bnd_mul 100 100 asp asp ltac:(lia) A A) as [Ba _]. apply (bnd_mul (100 + 100) 0); [lia|exact Ba|]. now apply zero_val. }
    apply zero_div_fin; auto; [|lra]. rewrite isZero_neg. apply zeros_add; [apply zero_mul_fin; auto; now apply zero_val|]. now apply mul_zero_fin.
Qed.

(** * Lengths and similarity *)
Lemma aux_sign : forall m e l, match binary_round_aux fprec femax false m e l with S754_finite true _ _ | S754_infinity true => False | _ => True end.
Proof.
  intros m e l. unfold binary_round_aux. destruct (shr_fexp _ _ _ _ _) as [mrs' e']. destruct (shr_fexp _ _ _ _ _) as [mrs'' e'']. destruct (shr_m mrs'') as [|p|p]; cbn; auto. destruct (_ <=? _)%Z; cbn; auto.
Qed.
Theorem length_sign : forall pow2 v, notNegative (vecLen pow2 v).
Proof.
  intros pow2 v. unfold notNegative, vecLen, fsqrt. destruct (fold_left _ v f0) as [s|[|]| |[|] m e]; cbn [SFsqrt]; try reflexivity.
  destruct (SFsqrt_core_binary _ _ _ _) as [[mz ez] lz]. pose proof (aux_sign mz ez lz) as A. destruct (binary_round_aux _ _ _ _ _ _) as [s|[|]| |[|] p g]; try easy.
Qed.
Lemma fold_map : forall A B S (f : S -> B -> S) (g : A -> B) l s, fold_left f (map g l) s = fold_left (fun s a => f s (g a)) l s.
Proof. induction l as [|a l IH]; intros s; cbn; auto. Qed.
Theorem length_mirror : forall pow2 v, evenFun pow2 -> vecLen pow2 (map fneg v) = vecLen pow2 v.
Proof. intros pow2 v E. unfold vecLen. rewrite fold_map. f_equal. apply fold_ext. intros s a _. now rewrite E. Qed.
Theorem sim_panic : forall pow2 a b, calcCosineSim pow2 a b = Panic <-> (length b < length a)%nat.
Proof.
  intros pow2 a b. unfold calcCosineSim. rewrite vecDot_spec. destruct (Nat.ltb_spec (length b) (length a)) as [H|H]; cbn [rbind]; split; auto; try discriminate. intros K. lia.
Qed.
Lemma fmul_comm' : forall a b, fmul a b = fmul b a.
Proof. unfold fmul. intros [s|s| |s m e] [t|t| |t n g]; cbn [SFmul]; auto; rewrite ?(xorb_comm s t); auto. now rewrite (Pos.mul_comm m n), (Z.add_comm e g). Qed.
Theorem sim_comm : forall pow2 a b, length a = length b -> calcCosineSim pow2 a b = calcCosineSim pow2 b a.
Proof. intros pow2 a b L. unfold calcCosineSim. rewrite (vecDot_comm a b L). destruct (vecDot b a); cbn [rbind]; auto. now rewrite fmul_comm'. Qed.
Lemma fold_mirror : forall l t t', mirror t t' -> mirror (fold_left (fun acc '(x, y) => fadd acc (fmul x y)) l t) (fold_left (fun acc '(x, y) => fadd acc (fmul (fneg x) y)) l t').
Proof. induction l as [|[x y] l IH]; intros t t' M; cbn [fold_left]; auto. apply IH. apply mirror_add; auto. left. apply fmul_negl. Qed.
Lemma combine_map : forall (l m : list f64), combine (map fneg l) m = map (fun '(x, y) => (fneg x, y)) (combine l m).
Proof. induction l as [|x l IH]; intros [|y m]; cbn; auto. now rewrite IH. Qed.
Theorem sim_mirror : forall pow2 a b r, evenFun pow2 -> calcCosineSim pow2 a b = Ok r -> exists r', calcCosineSim pow2 (map fneg a) b = Ok r' /\ mirror r r'.
Proof.
  intros pow2 a b r E. unfold calcCosineSim. rewrite !vecDot_spec, map_length. destruct (Nat.ltb (length b) (length a)); cbn [rbind]; [discriminate|]. intros K. injection K as K. eexists. split; [reflexivity|].
  rewrite length_mirror, combine_map, fold_map by auto. rewrite <- K. apply mirror_div.
  erewrite (fold_ext _ _ (fun s a0 => (let '(x, y) := let '(x, y) := a0 in (fneg x, y) in fadd s (fmul x y)))); [apply fold_mirror; right; split; reflexivity|]. now intros s [x y] _.
Qed.
Lemma dot_zeros : forall n b, Forall ffin b -> forall t, isZero t = true -> isZero (fold_left (fun acc '(x, y) => fadd acc (fmul x y)) (combine (repeat f0 n) b) t) = true.
Proof.
  induction n as [|n IH]; intros b F t T; cbn [repeat combine fold_left]; auto. destruct F as [|y b Fy F]; cbn [fold_left]; auto. apply IH; auto. apply zeros_add; auto. now apply zero_mul_fin.
Qed.
Lemma len_zeros : forall pow2 n t, isZero (pow2 f0) = true -> isZero t = true -> isZero (fold_left (fun acc x => fadd acc (pow2 x)) (repeat f0 n) t) = true.
Proof. induction n as [|n IH]; intros t P T; cbn [repeat fold_left]; auto. apply IH; auto. now apply zeros_add. Qed.
Theorem sim_zero : forall pow2 n b, isZero (pow2 f0) = true -> Forall ffin b -> (n <= length b)%nat -> calcCosineSim pow2 (repeat f0 n) b = Ok S754_nan.
Proof.
  intros pow2 n b P F L. unfold calcCosineSim. rewrite vecDot_spec, repeat_length. destruct (Nat.ltb_spec (length b) n) as [H|H]; [lia|]. cbn [rbind]. f_equal.
  pose proof (dot_zeros n b F f0 eq_refl) as D. pose proof (len_zeros pow2 n f0 P eq_refl) as Z0. unfold vecLen at 1. destruct (fold_left (fun acc x => fadd acc (pow2 x)) (repeat f0 n) f0) as [s|s| |s m e]; try discriminate.
  destruct (fold_left _ (combine _ _) f0) as [t|t| |t m e]; try discriminate. unfold fsqrt. cbn [SFsqrt]. destruct (vecLen pow2 b) as [q|q| |q m e]; reflexivity.
Qed.
