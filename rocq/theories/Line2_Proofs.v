(** Lines in any direction, with the rounding of every operation. *)
From Coq Require Import ZArith Reals Bool Lia Lra List Psatz.
From Flocq Require Import Core.Core IEEE754.BinarySingleNaN Relative.
From Coq Require Import Floats.SpecFloat.
From Verif Require Import Base F64_Model F64_Proofs Tv_Proofs Sentence_Proofs Tries_Proofs Gabor_Proofs Map_Model Map_Spec Map_Proofs Line_Proofs.
Local Open Scope R_scope.

(** * Rounding *)
Lemma rnd_err_p : forall x p, (-1000 <= p)%Z -> Rabs x <= bpow radix2 p -> Rabs (rnd x - x) <= bpow radix2 (p - 53).
Proof.
  intros x p Hp H. unfold rnd. eapply Rle_trans; [apply (error_le_half_ulp radix2 fexp64)|].
  replace (bpow radix2 (p - 53)) with (/ 2 * bpow radix2 (p - 52)).
  2:{ change (/ 2) with (bpow radix2 (-1)). rewrite <- bpow_plus. f_equal. lia. }
  apply Rmult_le_compat_l; [lra|]. assert (M : Monotone_exp fexp64) by (intros a b Hab; unfold SpecFloat.fexp; lia).
  eapply Rle_trans; [apply (ulp_le radix2 fexp64 x (bpow radix2 p)); rewrite (Rabs_pos_eq (bpow radix2 p)) by apply bpow_ge_0; exact H|].
  rewrite ulp_bpow. apply bpow_le. unfold SpecFloat.fexp, SpecFloat.emin, fprec, femax. lia.
Qed.
Lemma rnd_rel : forall x, 1 <= Rabs x -> Rabs (rnd x - x) <= / 9007199254740992 * Rabs x.
Proof.
  intros x H. assert (K := relative_error_N_FLT radix2 (-1074) 53 eq_refl (fun n => negb (Z.even n)) x).
  assert (B : bpow radix2 (-1074 + 53 - 1) <= Rabs x) by (apply Rle_trans with (bpow radix2 0); [apply bpow_le; lia|exact H]).
  specialize (K B). change (/ 2 * bpow radix2 (- (53) + 1)) with (/ 2 * / 4503599627370496) in K. unfold rnd. change fexp64 with (FLT_exp (-1074) 53). change ZnearestE with (Znearest (fun n => negb (Z.even n))).
  eapply Rle_trans; [exact K|]. apply Rmult_le_compat_r; [apply Rabs_pos|]. lra.
Qed.
(** [x] is [r] up to an error of [e] *)
Definition close (e : R) (x : f64) (r : R) : Prop := ffin x /\ Rabs (fval x - r) <= e.
Lemma close_le : forall e f x r, e <= f -> close e x r -> close f x r.
Proof. intros e f x r L (F & H). split; [exact F|lra]. Qed.
Lemma close_int : forall x z, holds x z -> close 0 x (IZR z).
Proof. intros x z (F & V). split; [exact F|]. rewrite V, Rminus_diag_eq, Rabs_R0; lra. Qed.
Lemma rounds : forall r p, (-1000 <= p <= 1000)%Z -> Rabs r <= bpow radix2 p -> Rabs (rnd r) < fmaxR.
Proof. intros r p Hp H. apply (small_max _ p); [lia|]. apply rnd_abs; [lia|exact H]. Qed.
Lemma close_add : forall p e f x y r s, (-1000 <= p <= 1000)%Z -> close e x r -> close f y s -> Rabs (r + s) + e + f <= bpow radix2 p -> close (e + f + bpow radix2 (p - 53)) (fadd x y) (r + s).
Proof.
  intros p e f x y r s Hp (F1 & E1) (F2 & E2) B.
  assert (D : Rabs (fval x + fval y - (r + s)) <= e + f) by (apply Rabs_le; apply Rabs_le_inv in E1; apply Rabs_le_inv in E2; lra).
  assert (A : Rabs (fval x + fval y) <= bpow radix2 p).
  { replace (fval x + fval y) with ((r + s) + (fval x + fval y - (r + s))) by ring. eapply Rle_trans; [apply Rabs_triang|]. lra. }
  destruct (fadd_ok x y F1 F2 (rounds _ p Hp A)) as (F & V). split; [exact F|]. rewrite V. assert (K := rnd_err_p _ p ltac:(lia) A).
  apply Rabs_le. apply Rabs_le_inv in K. apply Rabs_le_inv in D. lra.
Qed.
Lemma close_sub : forall p e f x y r s, (-1000 <= p <= 1000)%Z -> close e x r -> close f y s -> Rabs (r - s) + e + f <= bpow radix2 p -> close (e + f + bpow radix2 (p - 53)) (fsub x y) (r - s).
Proof.
  intros p e f x y r s Hp (F1 & E1) (F2 & E2) B.
  assert (D : Rabs (fval x - fval y - (r - s)) <= e + f) by (apply Rabs_le; apply Rabs_le_inv in E1; apply Rabs_le_inv in E2; lra).
  assert (A : Rabs (fval x - fval y) <= bpow radix2 p).
  { replace (fval x - fval y) with ((r - s) + (fval x - fval y - (r - s))) by ring. eapply Rle_trans; [apply Rabs_triang|]. lra. }
  destruct (fsub_ok x y F1 F2 (rounds _ p Hp A)) as (F & V). split; [exact F|]. rewrite V. assert (K := rnd_err_p _ p ltac:(lia) A).
  apply Rabs_le. apply Rabs_le_inv in K. apply Rabs_le_inv in D. lra.
Qed.
Lemma close_mul : forall p e f a b x y r s, (-1000 <= p <= 1000)%Z -> close e x r -> close f y s -> Rabs r <= a -> Rabs s <= b -> (a + e) * (b + f) <= bpow radix2 p ->
  close (e * (b + f) + a * f + bpow radix2 (p - 53)) (fmul x y) (r * s).
Proof.
  intros p e f a b x y r s Hp (F1 & E1) (F2 & E2) Ba Bb B.
  assert (X : Rabs (fval x) <= a + e) by (replace (fval x) with (r + (fval x - r)) by ring; eapply Rle_trans; [apply Rabs_triang|]; lra).
  assert (Y : Rabs (fval y) <= b + f) by (replace (fval y) with (s + (fval y - s)) by ring; eapply Rle_trans; [apply Rabs_triang|]; lra).
  assert (P1 := Rabs_pos (fval x)). assert (P2 := Rabs_pos (fval y)). assert (P3 := Rabs_pos (fval x - r)). assert (P4 := Rabs_pos (fval y - s)). assert (P5 := Rabs_pos r).
  assert (D : Rabs (fval x * fval y - r * s) <= e * (b + f) + a * f).
  { replace (fval x * fval y - r * s) with ((fval x - r) * fval y + r * (fval y - s)) by ring. eapply Rle_trans; [apply Rabs_triang|]. rewrite !Rabs_mult.
    apply Rplus_le_compat; apply Rmult_le_compat; auto. }
  assert (A : Rabs (fval x * fval y) <= bpow radix2 p) by (rewrite Rabs_mult; eapply Rle_trans; [apply Rmult_le_compat; [auto|auto|exact X|exact Y]|exact B]).
  destruct (fmul_ok x y F1 F2 (rounds _ p Hp A)) as (F & V). split; [exact F|]. rewrite V. assert (K := rnd_err_p _ p ltac:(lia) A).
  apply Rabs_le. apply Rabs_le_inv in K. apply Rabs_le_inv in D. lra.
Qed.

(** * Distances *)
Lemma fmt_195 : fmt (195 / 128).
Proof.
  replace (195 / 128) with (F2R (Float radix2 195 (-7))) by (unfold F2R; cbn [Fnum Fexp]; change (bpow radix2 (-7)) with (/ 128); lra).
  apply generic_format_F2R. intros _. unfold cexp, SpecFloat.fexp, SpecFloat.emin, fprec, femax. cbn [Fexp].
  assert (M : (mag radix2 (F2R (Float radix2 195 (-7))) <= 1)%Z).
  { apply mag_le_bpow; [now apply F2R_neq_0|]. unfold F2R. cbn [Fnum Fexp]. change (bpow radix2 (-7)) with (/ 128). change (bpow radix2 1) with 2. rewrite Rabs_pos_eq; lra. }
  lia.
Qed.
Lemma square_of : forall x q, close (/ 8192) x q -> Rabs q <= 549755813888 -> ffin (fmul x x) /\ 0 <= fval (fmul x x) <= bpow radix2 80 /\
  (Rabs q <= 3 -> fval (fmul x x) >= q * q - / 1000) /\ (3 <= Rabs q -> 4 <= fval (fmul x x)).
Proof.
  intros x q (F & E) B. assert (X : bnd 40 x).
  { split; [exact F|]. change (bpow radix2 40) with 1099511627776. replace (fval x) with (q + (fval x - q)) by ring. eapply Rle_trans; [apply Rabs_triang|]. lra. }
  destruct (bnd_mul 40 40 x x ltac:(lia) X X) as ((F1 & B1) & V1). change (40 + 40)%Z with 80%Z in B1. split; [exact F1|]. apply Rabs_le_inv in E.
  assert (P : 0 <= fval (fmul x x)) by (rewrite V1; apply rnd_nonneg; nra). split; [split; [exact P|revert B1; rewrite Rabs_pos_eq by exact P; auto]|]. split.
  - intros S0. assert (S := S0). apply Rabs_le_inv in S. assert (A : Rabs (fval x * fval x) <= bpow radix2 4) by (change (bpow radix2 4) with 16; rewrite Rabs_pos_eq by nra; nra).
    assert (K := rnd_err_p _ 4 ltac:(lia) A). change (bpow radix2 (4 - 53)) with (/ 562949953421312) in K. apply Rabs_le_inv in K. rewrite V1.
    set (w := fval x - q) in *. assert (Qw : Rabs (q * w) <= 3 * / 8192) by (rewrite Rabs_mult; apply Rmult_le_compat; auto using Rabs_pos; apply Rabs_le; lra). apply Rabs_le_inv in Qw.
    assert (L : fval x * fval x = q * q + 2 * (q * w) + w * w) by (unfold w; ring). assert (W0 : 0 <= w * w) by nra. lra.
  - intros S. rewrite V1. change 4 with (IZR 4). apply rnd_ge; [apply fmt_int; now vm_compute|]. change (IZR 4) with 4. unfold Rabs in S. destruct (Rcase_abs q); nra.
Qed.
Lemma far : forall x y q r, close (/ 8192) x q -> close (/ 8192) y r -> Rabs q <= 549755813888 -> Rabs r <= 549755813888 -> 234 / 100 <= q * q + r * r ->
  fgtb (fsqrt (fadd (fmul x x) (fmul y y))) (f_frac 3 2) = true.
Proof.
  intros x y q r Cx Cy Bq Br G. destruct (square_of x q Cx Bq) as (Fx & (Px & Bx) & Sx & Lx). destruct (square_of y r Cy Br) as (Fy & (Py & By) & Sy & Ly).
  assert (Bx' : bnd 80 (fmul x x)) by (split; [exact Fx|rewrite Rabs_pos_eq by exact Px; exact Bx]).
  assert (By' : bnd 80 (fmul y y)) by (split; [exact Fy|rewrite Rabs_pos_eq by exact Py; exact By]).
  destruct (bnd_add 80 _ _ ltac:(lia) Bx' By') as ((Fs & _) & Vs). set (s := fadd (fmul x x) (fmul y y)) in *.
  assert (Sum : 233 / 100 <= fval (fmul x x) + fval (fmul y y)).
  { destruct (Rle_dec (Rabs q) 3) as [Q|Q]; [|assert (K := Lx ltac:(lra)); lra]. destruct (Rle_dec (Rabs r) 3) as [R|R]; [|assert (K := Ly ltac:(lra)); lra].
    assert (K1 := Sx Q). assert (K2 := Sy R). lra. }
  assert (F29 : fmt (149 / 64)).
  { replace (149 / 64) with (F2R (Float radix2 149 (-6))) by (unfold F2R; cbn [Fnum Fexp]; change (bpow radix2 (-6)) with (/ 64); lra).
    apply generic_format_F2R. intros _. unfold cexp, SpecFloat.fexp, SpecFloat.emin, fprec, femax. cbn [Fexp].
    assert (M : (mag radix2 (F2R (Float radix2 149 (-6))) <= 2)%Z).
    { apply mag_le_bpow; [now apply F2R_neq_0|]. unfold F2R. cbn [Fnum Fexp]. change (bpow radix2 (-6)) with (/ 64). change (bpow radix2 2) with 4. rewrite Rabs_pos_eq; lra. }
    lia. }
  assert (S3 : 149 / 64 <= fval s) by (rewrite Vs; apply rnd_ge; [exact F29|lra]).
  assert (Ps : 0 <= fval s) by lra. destruct (fsqrt_ok s Fs Ps) as (Fr & Vr). destruct val_32 as (F3 & V3).
  change (fgtb (fsqrt s) (f_frac 3 2)) with (fltb (f_frac 3 2) (fsqrt s)). apply (fltb_ok _ _ F3 Fr). rewrite V3, Vr.
  assert (U : 195 / 128 <= sqrt (fval s)) by (apply Rsqr_incr_0_var; [|apply sqrt_pos]; rewrite Rsqr_sqrt by exact Ps; unfold Rsqr; lra).
  assert (U2 := rnd_ge (195 / 128) _ fmt_195 U). lra.
Qed.

(** * Lines *)
Definition side : Z := 32768.
Lemma sq_range : forall z, (Z.abs z <= 65536 -> 0 <= z * z <= 4294967296 /\ (z <> 0 -> 1 <= z * z))%Z.
Proof. clear. intros z H. split; [nia|intros; nia]. Qed.
Lemma P53 : (2 ^ 53 = 9007199254740992)%Z. Proof. now vm_compute. Qed.
Lemma small_holds : forall a b, lim side a -> lim side b -> holds (fsub (f_of_Z a) (f_of_Z b)) (a - b).
Proof. unfold side. intros a b A B. assert (E := P53). apply holds_sub; [apply holds_of| apply holds_of|]; unfold lim in *; lia. Qed.
Lemma Rabs_int : forall z b, (Z.abs z <= b)%Z -> Rabs (IZR z) <= IZR b.
Proof. intros z b H. rewrite <- abs_IZR. now apply IZR_le. Qed.
Section Line_.
  Variables ax ay bx by_ y x : Z.
  Hypothesis La : lim side ax. Hypothesis Lay : lim side ay. Hypothesis Lb : lim side bx. Hypothesis Lby : lim side by_. Hypothesis Ly : lim side y. Hypothesis Lx : lim side x.
  Hypothesis Ne : bx <> ax \/ by_ <> ay.
  Let dx : Z := (bx - ax)%Z. Let dy : Z := (by_ - ay)%Z. Let ox : Z := (x - ax)%Z. Let oy : Z := (y - ay)%Z.
  Let N : Z := (dx * dx + dy * dy)%Z. Let D : Z := (ox * dx + oy * dy)%Z.
  Let root : R := sqrt (IZR N). Let t : R := IZR D / root.
  Let fdx := fsub (f_of_Z bx) (f_of_Z ax). Let fdy := fsub (f_of_Z by_) (f_of_Z ay).
  Let len := fsqrt (fadd (fmul fdx fdx) (fmul fdy fdy)).
  Let fox := fsub (f_of_Z x) (f_of_Z ax). Let foy := fsub (f_of_Z y) (f_of_Z ay).
  Let dot := fadd (fmul fox (fdiv fdx len)) (fmul foy (fdiv fdy len)).
  Let qx := fsub (f_of_Z x) (fadd (f_of_Z ax) (fmul dot fdx)). Let qy := fsub (f_of_Z y) (fadd (f_of_Z ay) (fmul dot fdy)).

  Lemma unfolded : onLine ax ay bx by_ y x = (fgeb dot f0 && fleb dot len) && negb (fgtb (fsqrt (fadd (fmul qx qx) (fmul qy qy))) (f_frac 3 2)).
  Proof. unfold onLine. cbv zeta. fold fdx fdy. fold len. fold fox foy. fold dot. fold qx qy. destruct (fgeb dot f0 && fleb dot len); reflexivity. Qed.

  Lemma bounds : (Z.abs dx <= 65536 /\ Z.abs dy <= 65536 /\ Z.abs ox <= 65536 /\ Z.abs oy <= 65536 /\ 1 <= N <= 8589934592)%Z.
  Proof.
    unfold lim, side in *. assert (B1 : (Z.abs dx <= 65536)%Z) by (unfold dx; lia). assert (B2 : (Z.abs dy <= 65536)%Z) by (unfold dy; lia).
    split; [exact B1|]. split; [exact B2|]. split; [unfold ox; lia|]. split; [unfold oy; lia|].
    destruct (sq_range _ B1) as (Q1 & O1). destruct (sq_range _ B2) as (Q2 & O2). unfold N. destruct Ne as [A|A]; [assert (K := O1 ltac:(unfold dx; lia))|assert (K := O2 ltac:(unfold dy; lia))]; revert Q1 Q2 K; generalize (dx * dx)%Z (dy * dy)%Z; clear; lia.
  Qed.
  Lemma Hdx : holds fdx dx. Proof. now apply small_holds. Qed.
  Lemma Hdy : holds fdy dy. Proof. now apply small_holds. Qed.
  Lemma Hox : holds fox ox. Proof. now apply small_holds. Qed.
  Lemma Hoy : holds foy oy. Proof. now apply small_holds. Qed.
  Lemma root_pos : 1 <= root <= 92682.
  Proof.
    destruct bounds as (_ & _ & _ & _ & N1 & N2). apply IZR_le in N1, N2. unfold root. split.
    - rewrite <- sqrt_1. apply sqrt_le_1_alt. exact N1.
    - apply Rsqr_incr_0_var; [|lra]. rewrite Rsqr_sqrt by lra. unfold Rsqr. lra.
  Qed.
  Lemma root_sq : root * root = IZR N.
  Proof. unfold root. apply sqrt_sqrt. destruct bounds as (_ & _ & _ & _ & N1 & _). apply IZR_le in N1. lra. Qed.
  Lemma len_close : ffin len /\ Rabs (fval len - root) <= / 9007199254740992 * root.
  Proof.
    destruct bounds as (Bx & By & _ & _ & N1 & N2). assert (E := P53). assert (Hs : holds (fadd (fmul fdx fdx) (fmul fdy fdy)) N).
    { destruct (sq_range _ Bx) as (Q1 & _). destruct (sq_range _ By) as (Q2 & _). apply holds_add; [apply holds_mul; try exact Hdx; unfold lim; lia|apply holds_mul; try exact Hdy; unfold lim; lia|unfold lim; fold N; lia]. }
    destruct Hs as (F & V). destruct (fsqrt_ok _ F) as (F1 & V1); [rewrite V; apply IZR_le in N1; lra|]. fold len in F1, V1. split; [exact F1|]. rewrite V1, V. fold root.
    assert (R1 := root_pos). assert (K := rnd_rel root). rewrite (Rabs_pos_eq root) in K by lra. apply K. lra.
  Qed.
  Lemma len_range : / 2 * root <= fval len <= 2 * root /\ 0 < fval len.
  Proof. destruct len_close as (_ & E). apply Rabs_le_inv in E. assert (R1 := root_pos). lra. Qed.
  Lemma unit_close : forall f d, holds f d -> (Z.abs d * Z.abs d <= N)%Z -> close (/ 1125899906842624) (fdiv f len) (IZR d / root) /\ Rabs (IZR d / root) <= 1.
  Proof.
    intros f d (F & V) Q. destruct len_close as (Fl & El). assert (Rg := len_range). assert (R1 := root_pos).
    assert (Dr : Rabs (IZR d) <= root).
    { apply Rsqr_incr_0_var; [|lra]. unfold Rsqr. rewrite root_sq, <- abs_IZR, <- mult_IZR. apply IZR_le, Q. }
    assert (U : Rabs (IZR d / root) <= 1). { unfold Rdiv. rewrite Rabs_mult, (Rabs_pos_eq (/ root)) by (left; apply Rinv_0_lt_compat; lra). apply Rmult_le_reg_r with root; [lra|]. rewrite Rmult_assoc, Rinv_l by lra. lra. }
    split; [|exact U].
    assert (Df : Rabs (IZR d / fval len - IZR d / root) <= / 4503599627370496).
    { replace (IZR d / fval len - IZR d / root) with ((IZR d / root) * ((root - fval len) / fval len)) by (field; lra). rewrite Rabs_mult.
      assert (W : Rabs ((root - fval len) / fval len) <= / 4503599627370496).
      { unfold Rdiv. rewrite Rabs_mult, (Rabs_pos_eq (/ fval len)) by (left; apply Rinv_0_lt_compat; lra). rewrite Rabs_minus_sym. apply Rmult_le_reg_r with (fval len); [lra|]. rewrite Rmult_assoc, Rinv_l by lra. lra. }
      replace (/ 4503599627370496) with (1 * / 4503599627370496) by ring. apply Rmult_le_compat; auto using Rabs_pos. }
    assert (A : Rabs (IZR d / fval len) <= bpow radix2 1).
    { change (bpow radix2 1) with 2. replace (IZR d / fval len) with (IZR d / root + (IZR d / fval len - IZR d / root)) by ring. eapply Rle_trans; [apply Rabs_triang|]. lra. }
    destruct (fdiv_ok f len F Fl) as (F1 & V1); [lra|rewrite V; apply (rounds _ 1 ltac:(lia) A)|]. split; [exact F1|]. rewrite V1, V.
    assert (K := rnd_err_p _ 1 ltac:(lia) A). change (bpow radix2 (1 - 53)) with (/ 4503599627370496) in K. apply Rabs_le. apply Rabs_le_inv in K. apply Rabs_le_inv in Df. lra.
  Qed.
  Lemma dot_close : close (/ 4294967296) dot t /\ Rabs t <= 131072.
  Proof.
    destruct bounds as (Bdx & Bdy & Box & Boy & _). assert (R1 := root_pos).
    destruct (unit_close fdx dx Hdx ltac:(rewrite <- Z.abs_mul; destruct (sq_range _ Bdx), (sq_range _ Bdy); unfold N; lia)) as (Cx & Ux). destruct (unit_close fdy dy Hdy ltac:(rewrite <- Z.abs_mul; destruct (sq_range _ Bdx), (sq_range _ Bdy); unfold N; lia)) as (Cy & Uy).
    assert (Mx := Rabs_int _ _ Box). assert (My := Rabs_int _ _ Boy).
    assert (C1 := close_mul 17 0 (/ 1125899906842624) 65536 1 fox (fdiv fdx len) (IZR ox) (IZR dx / root) ltac:(lia) (close_int _ _ Hox) Cx Mx Ux ltac:(change (bpow radix2 17) with 131072; lra)).
    assert (C2 := close_mul 17 0 (/ 1125899906842624) 65536 1 foy (fdiv fdy len) (IZR oy) (IZR dy / root) ltac:(lia) (close_int _ _ Hoy) Cy My Uy ltac:(change (bpow radix2 17) with 131072; lra)).
    change (bpow radix2 (17 - 53)) with (/ 68719476736) in C1, C2.
    assert (T : IZR ox * (IZR dx / root) + IZR oy * (IZR dy / root) = t) by (unfold t, D; rewrite plus_IZR, !mult_IZR; field; lra).
    assert (B : Rabs t <= 131072).
    { rewrite <- T. eapply Rle_trans; [apply Rabs_triang|]. rewrite !Rabs_mult. assert (P1 := Rabs_pos (IZR ox)). assert (P2 := Rabs_pos (IZR oy)). assert (P3 := Rabs_pos (IZR dx / root)). assert (P4 := Rabs_pos (IZR dy / root)). nra. }
    split; [|exact B]. rewrite <- T. assert (C := close_add 18 _ _ _ _ _ _ ltac:(lia) C1 C2). rewrite T in C. specialize (C ltac:(change (bpow radix2 18) with 262144; lra)). rewrite T. change (bpow radix2 (18 - 53)) with (/ 34359738368) in C. eapply close_le; [|exact C]. lra.
  Qed.
  Lemma off_close : forall c a f d, lim side c -> lim side a -> holds f d -> (Z.abs d <= 65536)%Z -> close (/ 8192) (fsub (f_of_Z c) (fadd (f_of_Z a) (fmul dot f))) (IZR (c - a) - t * IZR d) /\ Rabs (IZR (c - a) - t * IZR d) <= 549755813888.
  Proof.
    intros c a f d Lc Laa Hf Bd. destruct dot_close as (Cd & Bt). assert (Md := Rabs_int _ _ Bd). unfold lim, side in *. assert (Mc := Rabs_int _ _ Lc). assert (Ma := Rabs_int _ _ Laa).
    assert (Hc : holds (f_of_Z c) c) by (apply holds_of; unfold lim; rewrite P53; lia). assert (Ha : holds (f_of_Z a) a) by (apply holds_of; unfold lim; rewrite P53; lia).
    assert (C1 := close_mul 34 _ 0 131072 65536 dot f t (IZR d) ltac:(lia) Cd (close_int _ _ Hf) Bt Md ltac:(change (bpow radix2 34) with 17179869184; lra)). change (bpow radix2 (34 - 53)) with (/ 524288) in C1.
    assert (Bp : Rabs (t * IZR d) <= 8589934592). { rewrite Rabs_mult. assert (P1 := Rabs_pos t). assert (P2 := Rabs_pos (IZR d)). nra. }
    assert (C2 := close_add 34 0 _ _ _ _ _ ltac:(lia) (close_int _ _ Ha) C1). assert (B2 : Rabs (IZR a + t * IZR d) <= 8590000000) by (eapply Rle_trans; [apply Rabs_triang|]; lra).
    specialize (C2 ltac:(change (bpow radix2 34) with 17179869184; lra)). change (bpow radix2 (34 - 53)) with (/ 524288) in C2.
    assert (C3 := close_sub 34 0 _ _ _ _ _ ltac:(lia) (close_int _ _ Hc) C2). assert (B3 : Rabs (IZR c - (IZR a + t * IZR d)) <= 8600000000). { eapply Rle_trans; [apply Rabs_triang|]. rewrite Rabs_Ropp. lra. }
    specialize (C3 ltac:(change (bpow radix2 34) with 17179869184; lra)). change (bpow radix2 (34 - 53)) with (/ 524288) in C3.
    replace (IZR (c - a) - t * IZR d) with (IZR c - (IZR a + t * IZR d)) by (rewrite minus_IZR; ring). split; [eapply close_le; [|exact C3]; lra|lra].
  Qed.
  Lemma spread : (IZR ox - t * IZR dx) * (IZR ox - t * IZR dx) + (IZR oy - t * IZR dy) * (IZR oy - t * IZR dy) = IZR (ox * ox + oy * oy) + t * t * (root * (root - 2)).
  Proof.
    assert (R1 := root_pos). assert (T : t * root = IZR D) by (unfold t; field; lra). assert (Q := root_sq).
    transitivity (IZR (ox * ox + oy * oy) - 2 * t * IZR D + t * t * IZR N).
    - unfold D, N. rewrite !plus_IZR, !mult_IZR. ring.
    - rewrite <- T, <- Q. ring.
  Qed.
  Lemma only_near : onLine ax ay bx by_ y x = true -> (N <> 1)%Z -> (ox * ox + oy * oy <= 2)%Z.
  Proof.
    rewrite unfolded, andb_true_iff, andb_true_iff, negb_true_iff. intros ((G1 & G2) & G3) N1. destruct bounds as (Bdx & Bdy & Box & Boy & Nb).
    destruct (off_close x ax fdx dx Lx La Hdx Bdx) as (Cx & Mx). destruct (off_close y ay fdy dy Ly Lay Hdy Bdy) as (Cy & My). fold qx in Cx. fold qy in Cy. fold ox in Cx, Mx. fold oy in Cy, My.
    assert (R1 := root_pos). assert (Q := root_sq). assert (T : t * root = IZR D) by (unfold t; field; lra). assert (S := spread).
    assert (Small : (IZR ox - t * IZR dx) * (IZR ox - t * IZR dx) + (IZR oy - t * IZR dy) * (IZR oy - t * IZR dy) < 234 / 100).
    { apply Rnot_le_lt. intros K. assert (W := far qx qy _ _ Cx Cy Mx My K). rewrite W in G3. discriminate G3. }
    destruct (Z_le_gt_dec 4 N) as [Big|Sm].
    - assert (Rt : 2 <= root). { unfold root. replace 2 with (sqrt 4) by (replace 4 with (2 * 2) by lra; apply sqrt_square; lra). apply sqrt_le_1_alt. apply IZR_le in Big. exact Big. }
      assert (W : IZR (ox * ox + oy * oy) < 3) by nra. apply lt_IZR in W. lia.
    - assert (N2 : N = 2%Z).
      { assert (H : forall z, (z * z = 0 \/ z * z = 1 \/ 4 <= z * z)%Z) by (intros z; destruct (Z.eq_dec z 0); [left; subst; lia|]; destruct (Z.eq_dec (Z.abs z) 1); [right; left; nia|right; right; nia]).
        unfold N in *. destruct (H dx) as [?|[?|?]], (H dy) as [?|[?|?]]; lia. }
      assert (Q2 : root * root = 2) by (rewrite Q, N2; reflexivity). assert (Rr : 1414 / 1000 <= root <= 1415 / 1000) by (split; nra).
      destruct dot_close as ((Fd & Ed) & _). apply Rabs_le_inv in Ed. destruct len_close as (Fl & El). apply Rabs_le_inv in El.
      assert (D0 : (0 <= D)%Z).
      { apply (proj1 (fleb_ok f0 dot (proj1 f0_ok) Fd)) in G1. rewrite (proj2 f0_ok) in G1. assert (W : IZR (-1) < IZR D) by (rewrite <- T; change (IZR (-1)) with (-1); nra). apply lt_IZR in W. lia. }
      assert (D2 : (D <= 2)%Z).
      { apply (proj1 (fleb_ok dot len Fd Fl)) in G2. assert (W : IZR D < IZR 3) by (rewrite <- T; change (IZR 3) with 3; nra). apply lt_IZR in W. lia. }
      assert (Tt : t * t <= 2). { assert (H0 : 0 <= IZR D <= 2) by (split; apply IZR_le; lia). assert (t * t * 2 <= 4) by (rewrite <- Q2; replace (t * t * (root * root)) with ((t * root) * (t * root)) by ring; rewrite T; nra). lra. }
      assert (W : IZR (ox * ox + oy * oy) < 4).
      { assert (root * (root - 2) >= - (832 / 1000)) by nra. assert (0 <= t * t) by nra. nra. }
      apply lt_IZR in W. assert (H : forall z, (z * z = 0 \/ z * z = 1 \/ 4 <= z * z)%Z) by (intros z; destruct (Z.eq_dec z 0); [left; subst; lia|]; destruct (Z.eq_dec (Z.abs z) 1); [right; left; nia|right; right; nia]).
      destruct (H ox) as [?|[?|?]], (H oy) as [?|[?|?]]; lia.
  Qed.
End Line_.

(** the first end is painted *)
Lemma holds_0_mul : forall a b, holds a 0 -> ffin b -> holds (fmul a b) 0.
Proof.
  intros a b (F & V) Fb. assert (E : fval a * fval b = 0) by (rewrite V; ring). destruct (fmul_ok a b F Fb) as (F1 & V1); [rewrite E, rnd_0, Rabs_R0; apply bpow_gt_0|]. split; [exact F1|]. rewrite V1, E. apply rnd_0.
Qed.
Lemma first_end : forall ax ay bx by_, lim side ax -> lim side ay -> lim side bx -> lim side by_ -> bx <> ax \/ by_ <> ay -> onLine ax ay bx by_ ay ax = true.
Proof.
  intros ax ay bx by_ La Lay Lb Lby Ne. rewrite unfolded. set (fdx := fsub (f_of_Z bx) (f_of_Z ax)). set (fdy := fsub (f_of_Z by_) (f_of_Z ay)). set (len := fsqrt (fadd (fmul fdx fdx) (fmul fdy fdy))).
  destruct (bounds ax ay bx by_ ay ax La Lay Lb Lby Lay La Ne) as (Bdx & Bdy & _). assert (Hx := small_holds bx ax Lb La). assert (Hy := small_holds by_ ay Lby Lay). fold fdx in Hx. fold fdy in Hy.
  assert (Lf : ffin len /\ 0 <= fval len). { destruct (len_close ax ay bx by_ ay ax La Lay Lb Lby Lay La Ne) as (F & _). destruct (len_range ax ay bx by_ ay ax La Lay Lb Lby Lay La Ne) as (_ & P). fold fdx fdy in F, P. fold len in F, P. split; [exact F|lra]. }
  destruct (sq_range _ Bdx) as (Sx & _). destruct (sq_range _ Bdy) as (Sy & _).
  assert (Ux : ffin (fdiv fdx len)) by (apply (unit_close ax ay bx by_ ay ax La Lay Lb Lby Lay La Ne fdx (bx - ax) Hx); rewrite <- Z.abs_mul; lia).
  assert (Uy : ffin (fdiv fdy len)) by (apply (unit_close ax ay bx by_ ay ax La Lay Lb Lby Lay La Ne fdy (by_ - ay) Hy); rewrite <- Z.abs_mul; lia).
  assert (Ox : holds (fsub (f_of_Z ax) (f_of_Z ax)) 0) by (assert (K := small_holds ax ax La La); now rewrite Z.sub_diag in K).
  assert (Oy : holds (fsub (f_of_Z ay) (f_of_Z ay)) 0) by (assert (K := small_holds ay ay Lay Lay); now rewrite Z.sub_diag in K).
  assert (Z0 : lim (2 ^ 53) 0) by (unfold lim; now vm_compute).
  assert (Hd : holds (fadd (fmul (fsub (f_of_Z ax) (f_of_Z ax)) (fdiv fdx len)) (fmul (fsub (f_of_Z ay) (f_of_Z ay)) (fdiv fdy len))) 0).
  { change 0%Z with (0 + 0)%Z. apply holds_add; [now apply holds_0_mul|now apply holds_0_mul|exact Z0]. }
  set (dot := fadd (fmul _ (fdiv fdx len)) _) in *. unfold fgeb. fold (fleb f0 dot). rewrite (holds_le f0 dot 0 0 f0_ok Hd).
  assert (L1 : fleb dot len = true) by (destruct Hd as (F & V); apply fleb_ok; [exact F|apply Lf|rewrite V; apply Lf]). rewrite L1.
  assert (Q : forall c f, lim side c -> ffin f -> holds (fsub (f_of_Z c) (fadd (f_of_Z c) (fmul dot f))) 0).
  { intros c f Lc Ff. unfold lim, side in Lc. assert (Hc : holds (f_of_Z c) c) by (apply holds_of; unfold lim; rewrite P53; lia).
    replace 0%Z with (c - (c + 0))%Z by lia. apply holds_sub; [exact Hc| |unfold lim; rewrite P53; lia]. apply holds_add; [exact Hc|now apply holds_0_mul|unfold lim; rewrite P53; lia]. }
  rewrite (distance _ _ 0 0 (Q ax fdx La (proj1 Hx)) (Q ay fdy Lay (proj1 Hy)) Z0 Z0). reflexivity.
Qed.

(** nothing but the nine cells around the first end *)
Lemma lim_le : forall z, lim side z -> lim mega z.
Proof. unfold lim, side, mega. lia. Qed.
Lemma nine : forall ax ay bx by_ y x, lim side ax -> lim side ay -> lim side bx -> lim side by_ -> lim side y -> lim side x -> bx <> ax \/ by_ <> ay ->
  onLine ax ay bx by_ y x = true -> (Z.abs (x - ax) <= 1 /\ Z.abs (y - ay) <= 1)%Z.
Proof.
  intros ax ay bx by_ y x La Lay Lb Lby Ly Lx Ne H.
  assert (Abs : forall z, (z * z <= 2 -> Z.abs z <= 1)%Z) by (clear; intros; nia). assert (Pos : forall z, (0 <= z * z)%Z) by (clear; intros; nia).
  assert (Sq : forall z, (z * z = 0 \/ z * z = 1 \/ 4 <= z * z)%Z) by (clear; intros z; destruct (Z.eq_dec z 0); [left; subst; lia|]; destruct (Z.eq_dec (Z.abs z) 1); [right; left; nia|right; right; nia]).
  destruct (Z.eq_dec ((bx - ax) * (bx - ax) + (by_ - ay) * (by_ - ay)) 1) as [E|E].
  - destruct (Z.eq_dec (by_ - ay) 0) as [Ey|Ey].
    + assert (by_ = ay) by lia. subst by_. assert (U : Z.abs (bx - ax) = 1%Z). { rewrite Z.sub_diag in E. destruct (Sq (bx - ax)%Z) as [?|[K|?]]; [lia| |lia]. clear - K. nia. }
      rewrite along in H by (auto using lim_le; lia). rewrite !andb_true_iff, !Z.leb_le, U in H. destruct H as ((H1 & H2) & H3).
      assert (Sg : (bx - ax = 1 \/ bx - ax = -1)%Z) by lia. split; [destruct Sg as [Sg|Sg]; rewrite Sg in H1, H2; cbn [Z.sgn] in H1, H2; lia|apply Abs]. replace ((x - ax) * (1 - 1))%Z with 0%Z in H3 by lia. lia.
    + assert (Ex : bx = ax). { destruct (Sq (bx - ax)%Z) as [K|[K|K]]; destruct (Sq (by_ - ay)%Z) as [K2|[K2|K2]]; try lia; [clear - K; nia|clear - K2 Ey; nia]. }
      subst bx. assert (U : Z.abs (by_ - ay) = 1%Z). { rewrite Z.sub_diag in E. destruct (Sq (by_ - ay)%Z) as [?|[K|?]]; [lia| |lia]. clear - K. nia. }
      rewrite turned, along in H by (auto using lim_le; lia). rewrite !andb_true_iff, !Z.leb_le, U in H. destruct H as ((H1 & H2) & H3).
      assert (Sg : (by_ - ay = 1 \/ by_ - ay = -1)%Z) by lia. split; [apply Abs|destruct Sg as [Sg|Sg]; rewrite Sg in H1, H2; cbn [Z.sgn] in H1, H2; lia]. replace ((y - ay) * (1 - 1))%Z with 0%Z in H3 by lia. lia.
  - assert (K := only_near ax ay bx by_ y x La Lay Lb Lby Ly Lx Ne H E). assert (P1 := Pos (x - ax)%Z). assert (P2 := Pos (y - ay)%Z). split; apply Abs; lia.
Qed.
(** along a row *)
Lemma row_cells : forall ax ay bx y x, lim mega ax -> lim mega ay -> lim mega bx -> lim mega y -> lim mega x -> bx <> ax ->
  (onLine ax ay bx ay y x = true <-> (Z.abs (y - ay) <= 1 /\ (x = ax \/ (Z.abs (bx - ax) <= 2 /\ x = ax + Z.sgn (bx - ax)))))%Z.
Proof.
  intros ax ay bx y x La Lay Lb Ly Lx Ne. rewrite along by assumption. rewrite !andb_true_iff, !Z.leb_le. clear La Lay Lb Ly Lx.
  set (d := (bx - ax)%Z). assert (Nd : d <> 0%Z) by (unfold d; lia). clearbody d. clear Ne bx. set (l := Z.abs d) in *. assert (L1 : (1 <= l)%Z) by lia.
  assert (Sg : (Z.sgn d = 1 \/ Z.sgn d = -1)%Z) by lia. set (g := Z.sgn d) in *. clearbody g l. clear d Nd. replace x with (ax + (x - ax))%Z at 5 6 by lia. set (u := (x - ax)%Z). clearbody u. set (w := (y - ay)%Z). clearbody w. clear x y.
  assert (Abs : forall z, (z * z <= 2 -> Z.abs z <= 1)%Z) by (clear; intros; nia). assert (Pos : forall z, (0 <= z * z)%Z) by (clear; intros; nia).
  split.
  - intros ((H1 & H2) & H3). assert (P1 := Pos (u * (l - 1))%Z). split; [apply Abs; lia|].
    destruct (Z.eq_dec u 0) as [U|U]; [left; lia|right]. assert (W : (0 <= w * w)%Z) by (clear; nia).
    assert (V : (Z.abs (u * (l - 1)) <= 1)%Z) by (apply Abs; lia). assert (l <= 2)%Z by (clear - V U L1; nia). split; [assumption|].
    destruct (Z.eq_dec l 1) as [L2|L2]; [clear - Sg H1 H2 L2 U; nia|]. assert (l = 2)%Z by lia. subst l. clear - V U H1 Sg. nia.
  - intros (Hw & [U|(L2 & U)]).
    + assert (u = 0)%Z by lia. subst u. clear - Hw L1. nia.
    + assert (u = g) by lia. subst u. assert (l = 1 \/ l = 2)%Z by lia. clear - Hw H Sg. destruct H; subst l; destruct Sg; subst g; split; try split; nia.
Qed.
