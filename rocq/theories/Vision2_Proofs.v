(** Histories, recognition and quantisation. *)
From Coq Require Import List ZArith Reals Lra Bool Lia Floats.SpecFloat.
From Flocq Require Import Core BinarySingleNaN.
From Verif Require Import Base F64_Model F64_Proofs Sort_Proofs Tv_Model Tv_Spec Tv_Proofs TvQ_Proofs Sentence_Proofs Map_Model Map_Spec Map_Proofs Vision_Model Vision_Spec Vision_Proofs.
Import ListNotations.
Local Open Scope list_scope.
Local Open Scope nat_scope.

(** * Histories *)
(** what every classification keeps of a prototype *)
Section Keep.
  Context {P St : Type} (classify : list P -> St -> Z -> bool -> res (option nat * list P)) (keep : P -> P -> Prop) (okC : list P -> Prop) (okS : St -> Prop).
  Hypothesis keep_refl : forall p, keep p p.
  Hypothesis keep_trans : forall p q r, keep p q -> keep q r -> keep p r.
  Hypothesis step : forall cls stim now add r cls', okC cls -> okS stim -> classify cls stim now add = Ok (r, cls') ->
    okC cls' /\ length cls <= length cls' /\ forall i p, nth_error cls i = Some p -> exists p', nth_error cls' i = Some p' /\ keep p p'.
  Theorem history_keeps : forall steps cls cls', okC cls -> (forall s n a, In (s, n, a) steps -> okS s) -> history classify steps cls = Ok cls' ->
    okC cls' /\ length cls <= length cls' /\ forall i p, nth_error cls i = Some p -> exists p', nth_error cls' i = Some p' /\ keep p p'.
  Proof.
    unfold history. induction steps as [|[[s n] a] steps IH]; intros cls cls' K KS H; cbn [rfold] in H.
    - injection H as <-. split; auto. split; auto. intros i p Hp. eauto.
    - destruct (classify cls s n a) as [[r c1]|] eqn:E; [|discriminate]. cbn [rbind] in H. destruct (step _ _ _ _ _ _ K (KS s n a (or_introl eq_refl)) E) as (K1 & L1 & S1).
      destruct (IH c1 cls' K1 (fun s n a Hs => KS s n a (or_intror Hs)) H) as (K2 & L2 & S2). split; auto. split; [lia|]. intros i p Hp. destruct (S1 i p Hp) as (p1 & Hp1 & X1). destruct (S2 i p1 Hp1) as (p2 & Hp2 & X2). eauto.
  Qed.
  Hypothesis runs : forall cls stim now add, okC cls -> okS stim -> classify cls stim now add <> Panic.
  Theorem history_runs : forall steps cls, okC cls -> (forall s n a, In (s, n, a) steps -> okS s) -> exists cls', history classify steps cls = Ok cls' /\ okC cls'.
  Proof.
    unfold history. induction steps as [|[[s n] a] steps IH]; intros cls K KS; cbn [rfold]; [eauto|]. assert (R := runs cls s n a K (KS s n a (or_introl eq_refl))).
    destruct (classify cls s n a) as [[r c1]|] eqn:E; [|contradiction]. cbn [rbind]. destruct (step _ _ _ _ _ _ K (KS s n a (or_introl eq_refl)) E) as (K1 & _). apply IH; auto. intros s' n' a' H. eapply KS. right. eauto.
  Qed.
End Keep.
Lemma replaced_nth : forall P (cls cls' : list P) i p' j q, replaced cls cls' i p' -> nth_error cls' j = Some q -> (j = i /\ q = p') \/ nth_error cls j = Some q.
Proof. intros P cls cls' i p' j q (L & R & O) H. destruct (Nat.eq_dec j i) as [->|N]; [left; split; congruence|right; rewrite <- O; auto]. Qed.
Lemma outcome_nth : forall F P St (A : arith F) (revised : P -> St -> Z -> P -> Prop) (fresh : St -> Z -> P) (keep : P -> P -> Prop), (forall p, keep p p) -> (forall p s n p', revised p s n p' -> keep p p') ->
  forall cls sims stim now add r cls', outcome A revised fresh cls sims stim now add r cls' -> forall i p, nth_error cls i = Some p -> exists p', nth_error cls' i = Some p' /\ keep p p'.
Proof.
  intros F P St A revised fresh keep KR KV cls sims stim now add r cls' H i p Hp. unfold outcome in H. destruct r as [k|].
  - destruct H as [(s & q & _ & _ & Hq & H)|(_ & _ & _ & ->)].
    + destruct add; [|subst; eauto]. destruct H as (p' & Hr & L & R & O). destruct (Nat.eq_dec i k) as [->|N].
      * exists p'. split; auto. assert (q = p) by congruence. subst. eauto.
      * exists p. rewrite O by auto. auto.
    + exists p. split; auto. rewrite nth_error_app1; auto. apply nth_error_Some. congruence.
  - destruct H as (_ & _ & ->). eauto.
Qed.
Lemma outcome_all : forall F P St (A : arith F) (revised : P -> St -> Z -> P -> Prop) (fresh : St -> Z -> P) (good : P -> Prop), (forall p s n p', good p -> revised p s n p' -> good p') ->
  forall cls sims stim now add r cls', outcome A revised fresh cls sims stim now add r cls' -> good (fresh stim now) -> Forall good cls -> Forall good cls'.
Proof.
  intros F P St A revised fresh good KV cls sims stim now add r cls' H G K. unfold outcome in H. destruct r as [k|].
  - destruct H as [(s & q & _ & _ & Hq & H)|(_ & _ & _ & ->)].
    + destruct add; [|now subst]. destruct H as (p' & Hr & R). apply Forall_forall. intros x Hx. apply In_nth_error in Hx. destruct Hx as (j & Hj). destruct (replaced_nth _ _ _ _ _ _ _ R Hj) as [(_ & ->)|N]; [|eapply nth_Forall; eauto].
      exact (KV _ _ _ _ (nth_Forall _ _ _ _ _ K Hq) Hr).
    + apply Forall_app. auto.
  - destruct H as (_ & _ & ->). auto.
Qed.

(** B *)
Definition keepB (p p' : protoB f64) : Prop := length (pb_ch p') = length (pb_ch p).
Lemma revB_keep : forall p s n p', revisedB f64_arith p s n p' -> keepB p p'.
Proof. intros p s n p' (_ & L & _). exact L. Qed.
Theorem historyB_keeps : forall steps cls cls', history classifyB steps cls = Ok cls' -> length cls <= length cls' /\
  forall i p, nth_error cls i = Some p -> exists p', nth_error cls' i = Some p' /\ length (pb_ch p') = length (pb_ch p).
Proof.
  intros steps cls cls' H. eapply (history_keeps classifyB keepB (fun _ => True) (fun _ => True)) in H; unfold keepB; auto; try tauto; try congruence.
  intros c stim now add r c' _ _ E. destruct (classifyB_spec _ _ _ _ _ _ E) as (sims & Hs & O). split; auto. split.
  - eapply outcome_valid in O; [lia|]. symmetry. eapply Forall2_len; eauto.
  - eapply outcome_nth; eauto. exact revB_keep.
Qed.
Definition chansB (k : nat) (p : protoB f64) : Prop := length (pb_ch p) = k.
Theorem historyB_runs : forall k steps cls, Forall (chansB k) cls -> (forall s n a, In (s, n, a) steps -> length s = k) -> exists cls', history classifyB steps cls = Ok cls' /\ Forall (chansB k) cls'.
Proof.
  intros k steps cls K KS. apply (history_runs classifyB keepB (Forall (chansB k)) (fun s => length s = k)); auto.
  - intros c stim now add r c' Kc Ks E. destruct (classifyB_spec _ _ _ _ _ _ E) as (sims & Hs & O). split; [|split].
    + eapply outcome_all; eauto. intros p s n p' G R. apply revB_keep in R. unfold chansB, keepB in *. congruence.
    + eapply outcome_valid in O; [lia|]. symmetry. eapply Forall2_len; eauto.
    + eapply outcome_nth; eauto; [reflexivity|exact revB_keep].
  - intros c stim now add Kc Ks E. apply classifyB_panic in E. rewrite Forall_forall in Kc. unfold chansB in Kc. destruct E as [(p & Hp & L)|(_ & _ & i & _ & p & _ & _ & Hp & L)].
    + specialize (Kc p Hp). lia.
    + apply nth_error_In in Hp. specialize (Kc p Hp). lia.
Qed.
(** D *)
Definition keepD (p p' : protoD) : Prop := length (pd_ch p') = length (pd_ch p) /\ (pd_count p <= pd_count p')%Z /\
  forall i c, nth_error (pd_ch p) i = Some c -> exists c', nth_error (pd_ch p') i = Some c' /\ m_w c' = m_w c /\ m_h c' = m_h c.
Lemma keepD_refl : forall p, keepD p p.
Proof. intros p. split; auto. split; [lia|]. eauto. Qed.
Lemma keepD_trans : forall p q r, keepD p q -> keepD q r -> keepD p r.
Proof.
  intros p q r (A1 & A2 & A3) (B1 & B2 & B3). split; [congruence|]. split; [lia|]. intros i c Hc. destruct (A3 i c Hc) as (c1 & H1 & W1 & X1). destruct (B3 i c1 H1) as (c2 & H2 & W2 & X2).
  exists c2. split; auto. split; congruence.
Qed.
Lemma revD_keep : forall p s n p', revisedD p s n p' -> keepD p p'.
Proof.
  intros p s n p' (_ & C & L & H). split; auto. split; [lia|]. intros i c Hc. destruct (H i c Hc) as (st & _ & c' & Hc' & (W & X & _) & _). eauto.
Qed.
Definition goodD (k : nat) (p : protoD) : Prop := okD p /\ length (pd_ch p) = k.
Lemma stepD : forall expf k cls stim now add r cls', Forall (goodD k) cls -> okStim stim /\ length stim = k -> classifyD expf cls stim now add = Ok (r, cls') ->
  Forall (goodD k) cls' /\ length cls <= length cls' /\ forall i p, nth_error cls i = Some p -> exists p', nth_error cls' i = Some p' /\ keepD p p'.
Proof.
  intros expf k cls stim now add r cls' K (KS & KL) E. destruct (classifyD_spec expf cls stim now add r cls') as (sims & Hs & O); auto.
  { eapply Forall_impl; [|exact K]. intros p (Hp & _). exact Hp. }
  split; [|split].
  - eapply outcome_all; eauto.
    + intros p s n p' (G1 & G2) R. split; [eapply revisedD_wf; eauto|]. apply revD_keep in R. destruct R as (R & _). congruence.
    + split; auto.
  - eapply outcome_valid in O; [lia|]. symmetry. eapply Forall2_len; eauto.
  - eapply outcome_nth; eauto; [exact keepD_refl|exact revD_keep].
Qed.
Lemma classifyD_runs : forall expf k cls stim now add, Forall (goodD k) cls -> okStim stim /\ length stim = k -> classifyD expf cls stim now add <> Panic.
Proof.
  intros expf k cls stim now add K (KS & KL) E. unfold classifyD, g_classify, g_calcSims in E. rewrite Forall_forall in K. destruct (rmapM (simD expf stim) cls) as [sims|] eqn:R.
  - cbn [rbind] in E. apply rmapM_spec in R. assert (M := classifyMax_f64 sims). unfold classifyMax in M. destruct (g_classifyMax f64_arith sims) as [[i s]|]; [|destruct add; discriminate]. destruct add; [|discriminate].
    destruct M as ((B & _) & _). assert (L : i < length cls) by (rewrite (Forall2_len _ _ _ _ _ R); apply nth_error_Some; congruence).
    unfold idx in E. destruct (nth_error cls i) as [p|] eqn:Hp; [|apply nth_error_None in Hp; lia]. cbn [unwrap rbind] in E. destruct (K p (nth_error_In _ _ Hp)) as (G1 & G2).
    destruct (reviseD_runs p stim now G1 KS) as (p' & E'); [lia|]. rewrite E' in E. discriminate.
  - apply rmapM_panic in R. destruct R as (p & Hp & R). destruct (K p Hp) as (G1 & G2). destruct (simD_runs expf stim p G1 KS) as (s & E'); [lia|]. congruence.
Qed.
Theorem historyD : forall expf k steps cls, Forall (goodD k) cls -> (forall s n a, In (s, n, a) steps -> okStim s /\ length s = k) ->
  exists cls', history (classifyD expf) steps cls = Ok cls' /\ Forall (goodD k) cls' /\ length cls <= length cls' /\
    forall i p, nth_error cls i = Some p -> exists p', nth_error cls' i = Some p' /\ keepD p p'.
Proof.
  intros expf k steps cls K KS.
  destruct (history_runs (classifyD expf) keepD (Forall (goodD k)) (fun s => okStim s /\ length s = k) (stepD expf k) (classifyD_runs expf k) steps cls K KS) as (cls' & E & K').
  exists cls'. split; auto. apply (history_keeps (classifyD expf) keepD (Forall (goodD k)) (fun s => okStim s /\ length s = k) keepD_refl keepD_trans (stepD expf k) steps cls cls' K KS E).
Qed.

(** * A stimulus of finite numbers is recognised by D *)
Lemma zero_val : forall x, ffin x -> fval x = 0%R -> exists s, x = S754_zero s.
Proof.
  intros [s|s| |s m e] (V & F) H; try contradiction; [eauto|]. exfalso. unfold fval in H. cbn in H. apply eq_0_F2R in H. destruct s; discriminate.
Qed.
Lemma fdiv_1 : forall x, ffin x -> ffin (fdiv x f1) /\ fval (fdiv x f1) = fval x.
Proof.
  intros x F. destruct f1_ok as (F1 & V1). destruct (fdiv_ok x f1 F F1) as (A & B).
  - rewrite V1. lra.
  - rewrite V1. unfold Rdiv. rewrite Rinv_1, Rmult_1_r, rnd_id by now apply ffin_fmt. now apply ffin_lt.
  - split; auto. rewrite B, V1. unfold Rdiv. rewrite Rinv_1, Rmult_1_r. apply rnd_id. now apply ffin_fmt.
Qed.
Lemma fsub_same : forall x y, ffin x -> ffin y -> fval x = fval y -> exists s, fsub x y = S754_zero s.
Proof.
  intros x y Fx Fy E. destruct (fsub_ok x y Fx Fy) as (A & B).
  - rewrite E, Rminus_diag_eq by auto. rewrite rnd_0, Rabs_R0. apply bpow_gt_0.
  - apply zero_val; auto. rewrite B, E, Rminus_diag_eq by auto. apply rnd_0.
Qed.
Lemma arr_val : forall (m : map2d f64) (Q : f64 -> Prop), wfMap m -> (forall y x, within m y x -> Q (val f0 m y x)) -> Forall Q (m_arr m).
Proof.
  intros m Q (W & H & L) V. apply Forall_forall. intros v Hv. apply (In_nth _ _ f0) in Hv. destruct Hv as (n & Hn & <-).
  assert (W0 : (0 < m_w m)%Z) by nia. specialize (V (Z.of_nat n / m_w m)%Z (Z.of_nat n mod m_w m)%Z). assert (D := Z.div_mod (Z.of_nat n) (m_w m) ltac:(lia)). assert (M := Z.mod_pos_bound (Z.of_nat n) (m_w m) W0).
  assert (I : within m (Z.of_nat n / m_w m) (Z.of_nat n mod m_w m)).
  { split; [|lia]. split; [apply Z.div_pos; lia|]. apply Z.div_lt_upper_bound; lia. }
  specialize (V I). unfold val in V. assert (I' := proj2 (inb_iff _ _ _ _) I). rewrite I' in V. replace (Z.to_nat (Z.of_nat n / m_w m * m_w m + Z.of_nat n mod m_w m)) with n in V by lia. exact V.
Qed.
Definition finMap (m : map2d f64) : Prop := wfMap m /\ Forall ffin (m_arr m).
Lemma val_fin : forall m y x, finMap m -> ffin (val f0 m y x).
Proof.
  intros m y x (W & F). unfold val. destruct (inb m y x) eqn:I; [|apply f0_ok]. rewrite Forall_forall in F. apply F, nth_In. apply inb_iff in I. now apply cell_lt.
Qed.
Lemma zeros_dist : forall l, Forall (fun v => exists s, v = S754_zero s) l -> fold_left (fun s v => fadd s (fmul v v)) l f0 = f0.
Proof. intros l H. induction H as [|v l (s & ->) H IH]; cbn [fold_left]; auto. replace (fadd f0 (fmul (S754_zero s) (S754_zero s))) with f0 by (destruct s; reflexivity). exact IH. Qed.
Lemma simD_self : forall expf stim now, Forall finMap stim -> simD expf stim (freshD stim now) = Ok (expf (S754_zero true)).
Proof.
  intros expf stim now W. unfold simD. cbn [freshD pd_ch pd_count].
  enough (G : forall n k, k + n <= length stim -> rfold (fun dist i => do c <- idx stim i; do cp <- divScalar c (f_of_Z 1); do s <- idx stim i; do df <- msub s cp; do cd <- distPow2 df; Ok (fadd dist cd)) (seq k n) f0 = Ok f0).
  { rewrite G by lia. reflexivity. }
  induction n as [|n IH]; intros k L; cbn [seq rfold]; auto. unfold idx at 1 2. destruct (nth_error stim k) as [c|] eqn:C0; [|apply nth_error_None in C0; lia]. cbn [unwrap rbind].
  assert (Fc := nth_Forall _ _ _ _ _ W C0). destruct (div_spec c (f_of_Z 1) (proj1 Fc)) as (cp & E1 & (S1 & S2 & S3) & V1). rewrite E1. cbn [rbind].
  destruct (sub_spec c cp (proj1 Fc) S3) as (df & E2 & (S4 & S5 & S6) & V2). rewrite E2. cbn [rbind]. rewrite dist_spec by auto. cbn [rbind].
  rewrite zeros_dist; [apply IH; lia|]. apply arr_val; auto. intros y x I. rewrite V2. assert (I' : inb c y x = true) by (apply inb_iff; unfold within in *; lia). rewrite I'.
  rewrite V1, I'. change (f_of_Z 1) with f1. destruct (fdiv_1 (val f0 c y x) (val_fin c y x Fc)) as (A & B). apply fsub_same; auto. now apply val_fin.
Qed.
Theorem recognisedD : forall expf cls stim now cls' now', expf (S754_zero true) = f1 -> Forall finMap stim -> classifyD expf cls stim now true = Ok (Some (length cls), cls') ->
  classifyD expf cls' stim now' false = Ok (Some (length cls), cls').
Proof.
  intros expf cls stim now cls' now' X F H. eapply (recognised f64_arith (simD expf) reviseD freshD classifyMax_f64 classifyMax_new_f64); eauto; [now apply simD_self|].
  rewrite X. reflexivity.
Qed.

(** * Quantisation *)
Local Open Scope R_scope.
Lemma f_to_i64_ok : forall x, ffin x -> 0 <= fval x < IZR (2 ^ 63) -> (0 <= f_to_i64 x < 2 ^ 63)%Z /\ IZR (f_to_i64 x) <= fval x < IZR (f_to_i64 x) + 1.
Proof.
  intros [s|s| |s m e] (V & Fx) H; try contradiction.
  - cbn. split; [lia|]. unfold fval. cbn. lra.
  - unfold fval in *. cbn [SF2R] in H |- *. destruct s; cbn [cond_Zopp] in *.
    { exfalso. assert (F2R (Float radix2 (Zneg m) e) < 0) by (apply F2R_lt_0; reflexivity). change (- Z.pos m)%Z with (Z.neg m) in H. lra. }
    assert (G : exists a, (0 <= a)%Z /\ IZR a <= F2R (Float radix2 (Zpos m) e) < IZR a + 1 /\ match e with Zneg k => Z.shiftr (Zpos m) (Zpos k) | _ => Z.shiftl (Zpos m) e end = a).
    { destruct e as [|k|k].
      - exists (Z.pos m). split; [lia|]. split; [|now rewrite Z.shiftl_0_r]. unfold F2R. cbn [Fnum Fexp bpow]. lra.
      - exists (Z.shiftl (Z.pos m) (Z.pos k)). split; [apply Z.shiftl_nonneg; lia|]. split; auto. rewrite Z.shiftl_mul_pow2 by lia. rewrite mult_IZR. unfold F2R. cbn [Fnum Fexp]. replace (IZR (2 ^ Z.pos k)) with (bpow radix2 (Z.pos k)) by (rewrite <- (IZR_Zpower radix2) by lia; reflexivity). lra.
      - exists (Z.shiftr (Z.pos m) (Z.pos k)). split; [apply Z.shiftr_nonneg; lia|]. split; auto. rewrite Z.shiftr_div_pow2 by lia. unfold F2R. cbn [Fnum Fexp].
        assert (P : (0 < 2 ^ Z.pos k)%Z) by (apply Z.pow_pos_nonneg; lia). assert (B : bpow radix2 (Z.neg k) = / IZR (2 ^ Z.pos k)) by (rewrite (IZR_Zpower radix2) by lia; rewrite <- bpow_opp; reflexivity). rewrite B.
        assert (P' : 0 < IZR (2 ^ Z.pos k)) by now apply IZR_lt. assert (D := Z.div_mod (Z.pos m) (2 ^ Z.pos k) ltac:(lia)). assert (M := Z.mod_pos_bound (Z.pos m) (2 ^ Z.pos k) P).
        assert (D' : IZR (Z.pos m) = IZR (2 ^ Z.pos k) * IZR (Z.pos m / 2 ^ Z.pos k) + IZR (Z.pos m mod 2 ^ Z.pos k)) by (rewrite <- mult_IZR, <- plus_IZR; now f_equal).
        assert (M1 : 0 <= IZR (Z.pos m mod 2 ^ Z.pos k)) by (apply IZR_le; lia). assert (M2 : IZR (Z.pos m mod 2 ^ Z.pos k) < IZR (2 ^ Z.pos k)) by (apply IZR_lt; lia).
        split.
        + apply (Rmult_le_reg_r (IZR (2 ^ Z.pos k))); auto. rewrite Rmult_assoc, Rinv_l, Rmult_1_r by lra. lra.
        + apply (Rmult_lt_reg_r (IZR (2 ^ Z.pos k))); auto. rewrite Rmult_assoc, Rinv_l, Rmult_1_r by lra. lra. }
    destruct G as (a & A0 & A1 & A2). unfold f_to_i64. rewrite A2. assert (A3 : (a < 2 ^ 63)%Z) by (apply lt_IZR; lra).
    replace (Z.max (- 2 ^ 63) (Z.min (2 ^ 63 - 1) a)) with a by lia. split; [lia|auto].
Qed.
Lemma scaled : forall v n, unit64 v -> (1 <= n <= 2 ^ 53)%Z -> ffin (fmul v (f_of_Z (n - 1))) /\ fval (fmul v (f_of_Z (n - 1))) = rnd (fval v * IZR (n - 1)) /\ 0 <= fval (fmul v (f_of_Z (n - 1))) <= IZR (n - 1).
Proof.
  intros v n U N. apply unit64_R01 in U. destruct U as (Fv & V). destruct (f_of_Z_ok (n - 1)) as (Fn & Vn); [lia|].
  assert (FI : fmt (IZR (n - 1))). { apply (generic_format_FLT radix2 (SpecFloat.emin fprec femax) fprec). apply (FLT_spec _ _ _ _ (Float radix2 (n - 1) 0)); [unfold F2R; cbn; ring|change (Zpower radix2 fprec) with (2 ^ 53)%Z; cbn [Fnum]; lia|cbn [Fexp]; unfold SpecFloat.emin, fprec, femax; lia]. }
  rewrite rnd_id in Vn by auto. assert (P : 0 <= IZR (n - 1)) by (apply IZR_le; lia). assert (B : 0 <= fval v * IZR (n - 1) <= IZR (n - 1)) by nra.
  assert (R : 0 <= rnd (fval v * IZR (n - 1)) <= IZR (n - 1)) by (apply rnd_between; auto; apply fmt_0).
  destruct (fmul_ok v (f_of_Z (n - 1)) Fv Fn) as (A & C).
  - rewrite Vn. rewrite Rabs_pos_eq by lra. apply Rle_lt_trans with (IZR (2 ^ 53)); [apply Rle_trans with (IZR (n - 1)); [lra|apply IZR_le; lia]|]. change (IZR (2 ^ 53)) with (bpow radix2 53). apply bpow_lt. reflexivity.
  - rewrite Vn in C. rewrite C. auto.
Qed.
Theorem quantise_range : forall v n, unit64 v -> (1 <= n <= 2 ^ 53)%Z -> (0 <= quantisize v n <= n - 1)%Z.
Proof.
  intros v n U N. destruct (scaled v n U N) as (A & B & C). assert (K : IZR (n - 1) < IZR (2 ^ 63)) by (apply IZR_lt; lia). destruct (f_to_i64_ok _ A) as (D & E); [lra|].
  unfold quantisize. split; [lia|]. apply le_IZR. lra.
Qed.
Theorem quantise_mono : forall v v' n, unit64 v -> unit64 v' -> (1 <= n <= 2 ^ 53)%Z -> fleb v v' = true -> (quantisize v n <= quantisize v' n)%Z.
Proof.
  intros v v' n U U' N L. destruct (scaled v n U N) as (A & B & C). destruct (scaled v' n U' N) as (A' & B' & C'). assert (K : IZR (n - 1) < IZR (2 ^ 63)) by (apply IZR_lt; lia).
  apply unit64_R01 in U. apply unit64_R01 in U'. apply fleb_ok in L; try apply U; try apply U'. assert (P : 0 <= IZR (n - 1)) by (apply IZR_le; lia).
  assert (M : rnd (fval v * IZR (n - 1)) <= rnd (fval v' * IZR (n - 1))) by (apply rnd_mono; nra).
  destruct (f_to_i64_ok _ A) as (D & E); [lra|]. destruct (f_to_i64_ok _ A') as (D' & E'); [lra|]. unfold quantisize. apply Zlt_succ_le. apply lt_IZR. rewrite succ_IZR. lra.
Qed.
Theorem quantise_ends : forall n, (1 <= n <= 2 ^ 53)%Z -> quantisize f0 n = 0%Z /\ quantisize f1 n = (n - 1)%Z.
Proof.
  intros n N. assert (K : IZR (n - 1) < IZR (2 ^ 63)) by (apply IZR_lt; lia). destruct f0_ok as (F0 & V0). destruct f1_ok as (F1 & V1).
  assert (U0 : unit64 f0) by (apply unit64_R01; split; auto; lra). assert (U1 : unit64 f1) by (apply unit64_R01; split; auto; lra).
  split.
  - destruct (scaled f0 n U0 N) as (A & B & C). rewrite V0, Rmult_0_l, rnd_0 in B. destruct (f_to_i64_ok _ A) as (D & E); [lra|]. unfold quantisize. apply Z.le_antisymm; [|lia]. apply le_IZR. lra.
  - destruct (scaled f1 n U1 N) as (A & B & C). assert (R := quantise_range f1 n U1 N). destruct (f_to_i64_ok _ A) as (D & E); [lra|]. unfold quantisize in *.
    assert (FI : fmt (IZR (n - 1))). { apply (generic_format_FLT radix2 (SpecFloat.emin fprec femax) fprec). apply (FLT_spec _ _ _ _ (Float radix2 (n - 1) 0)); [unfold F2R; cbn; ring|change (Zpower radix2 fprec) with (2 ^ 53)%Z; cbn [Fnum]; lia|cbn [Fexp]; unfold SpecFloat.emin, fprec, femax; lia]. }
    rewrite V1, Rmult_1_l, rnd_id in B by auto. rewrite B in E. apply Z.le_antisymm; [lia|]. apply Zlt_succ_le. apply lt_IZR. rewrite succ_IZR. lra.
Qed.
Local Close Scope R_scope.
(** one entry of the vector is positive *)
Theorem toTvVec_spec : forall v n conf, unit64 v -> (1 <= n <= 2 ^ 53)%Z -> exists l, convToTvVec v n conf = Ok l /\ length l = Z.to_nat n /\
  forall i, (i < Z.to_nat n) -> nth_error l i = Some (mkTv (if (Z.of_nat i =? quantisize v n)%Z then f1 else f0) conf).
Proof.
  intros v n conf U N. assert (R := quantise_range v n U N). unfold convToTvVec, alloc. destruct (Z.ltb_spec n 0); [lia|]. cbn [rbind]. destruct (Z.ltb_spec (quantisize v n) 0); [lia|].
  assert (L : Z.to_nat (quantisize v n) < length (repeat (mkTv f0 conf) (Z.to_nat n))) by (rewrite repeat_length; lia).
  unfold idx. rewrite (nth_error_nth' _ (mkTv f0 conf) L). cbn [unwrap rbind]. eexists. split; [reflexivity|]. split; [rewrite put_length; apply repeat_length|]. intros i Hi.
  rewrite (nth_error_nth' _ (mkTv f0 conf)) by (rewrite put_length, repeat_length; auto). rewrite put_nth by auto. rewrite nth_repeat.
  destruct (Nat.eqb_spec i (Z.to_nat (quantisize v n))), (Z.eqb_spec (Z.of_nat i) (quantisize v n)); auto; lia.
Qed.
Lemma grid_length : forall w h, (0 <= w)%Z -> (0 <= h)%Z -> length (grid 0 h 0 w) = Z.to_nat (w * h).
Proof. intros w h W H. rewrite <- (map_length (fun '(y, x) => Z.to_nat (y * w + x))), grid_cells by auto. apply seq_length. Qed.
Theorem imgToTvVec_spec : forall m n conf, wfMap m -> (forall y x, within m y x -> unit64 (val f0 m y x)) -> (1 <= n <= 2 ^ 53)%Z ->
  exists l, convImgToTvVec m n conf = Ok l /\ length l = Z.to_nat (m_w m * m_h m) * Z.to_nat n.
Proof.
  intros m n conf W U N. unfold convImgToTvVec.
  assert (G : forall ps acc, (forall y x, In (y, x) ps -> within m y x) -> exists l, rfold (fun acc '(iy, ix) => do v <- readAt f0 m iy ix; do t <- convToTvVec v n conf; Ok (acc ++ t)) ps acc = Ok l /\ length l = length acc + length ps * Z.to_nat n).
  { induction ps as [|[y x] ps IH]; intros acc H; cbn [rfold].
    - exists acc. split; auto.
    - rewrite read_spec by auto. cbn [rbind]. destruct (toTvVec_spec (val f0 m y x) n conf) as (t & E & L & _); auto; [apply U, H; now left|]. rewrite E. cbn [rbind].
      destruct (IH (acc ++ t)) as (l & E' & L'); [intros; apply H; now right|]. exists l. split; auto. rewrite L', app_length, L. cbn [length]. lia. }
  destruct (G (grid 0 (m_h m) 0 (m_w m)) []) as (l & E & L); [intros y x H; apply grid_in in H; exact H|]. exists l. split; auto. rewrite L, grid_length; try apply W. cbn [length]. lia.
Qed.
