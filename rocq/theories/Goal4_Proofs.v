(** Which level a sample comes from, and the look-ups by term. *)
From Coq Require Import String ZArith Reals Bool Lia Lra List SpecFloat.
From Flocq Require Import Core BinarySingleNaN.
From Verif Require Import Base F64_Model Term_Model Term_Spec Term_Proofs Stamp_Model Tv_Model Sentence_Model Sort_Proofs F64_Proofs Sentence_Proofs Mem_Model Mem_Spec Mem_Proofs PMem_Model Goal_Model Goal_Spec Goal_Proofs Goal2_Proofs Goal3_Proofs GoalW_Proofs.
Import ListNotations.
Local Open Scope list_scope.

(** * Small integers are exact *)
Lemma fmt_F2R : forall m e, (Z.abs m < 2 ^ 53)%Z -> (-1074 <= e)%Z -> fmt (IZR m * bpow radix2 e)%R.
Proof.
  intros m e H E. apply (generic_format_FLT radix2 (SpecFloat.emin fprec femax) fprec).
  apply (FLT_spec _ _ _ _ (Float radix2 m e)); auto.
Qed.
Lemma fmt_int : forall z, (Z.abs z < 2 ^ 53)%Z -> fmt (IZR z).
Proof. intros z H. replace (IZR z) with (IZR z * bpow radix2 0)%R by (simpl; ring). apply fmt_F2R; lia. Qed.
Lemma big53 : forall z, (Z.abs z <= 2 ^ 53)%Z -> (Rabs (IZR z) < fmaxR)%R.
Proof.
  intros z H. rewrite <- abs_IZR. apply Rle_lt_trans with (IZR (2 ^ 53)); [now apply IZR_le|].
  change (IZR (2 ^ 53)) with (bpow radix2 53). apply bpow_lt. reflexivity.
Qed.
Definition isInt (x : f64) (z : Z) : Prop := ffin x /\ fval x = IZR z.
Lemma isInt_succ : forall x z, isInt x z -> (0 <= z < 2 ^ 53 - 1)%Z -> isInt (fadd x f1) (z + 1).
Proof.
  intros x z (F & V) H. destruct f1_ok as (F1 & V1). destruct (fadd_ok x f1 F F1) as (A & B).
  - rewrite V, V1, <- plus_IZR, rnd_id by (apply fmt_int; lia). apply big53. lia.
  - split; auto. rewrite B, V, V1, <- plus_IZR. apply rnd_id, fmt_int. lia.
Qed.
Lemma isInt_same : forall x z, isInt x z -> (0 <= z < 2 ^ 53)%Z -> isInt (fadd x f0) z.
Proof.
  intros x z (F & V) H. destruct f0_ok as (F1 & V1). destruct (fadd_ok x f0 F F1) as (A & B).
  - rewrite V, V1, <- plus_IZR, rnd_id by (apply fmt_int; lia). apply big53. lia.
  - split; auto. rewrite B, V, V1, <- plus_IZR. rewrite Z.add_0_r. apply rnd_id, fmt_int. lia.
Qed.
Lemma isInt_of_Z : forall z, (Z.abs z < 2 ^ 53)%Z -> isInt (f_of_Z z) z.
Proof. intros z H. destruct (f_of_Z_ok z) as (F & V); [lia|]. split; auto. rewrite V. apply rnd_id, fmt_int, H. Qed.

(** * Levels *)
Definition filled (b : list group) : bool := match b with [] => false | _ => true end.
Definition nFilled (bs : list (list group)) : Z := Z.of_nat (length (filter filled bs)).
Definition weightOf (b : list group) : f64 := match b with [] => f0 | _ => f1 end.

Lemma sum_filled : forall bs x z, isInt x z -> (0 <= z)%Z -> (z + nFilled bs < 2 ^ 53)%Z ->
  isInt (fold_left fadd (map weightOf bs) x) (z + nFilled bs).
Proof.
  induction bs as [|b bs IH]; intros x z H Z0 L; unfold nFilled in *; simpl in *.
  - now rewrite Z.add_0_r.
  - destruct b as [|gr b]; cbn [filled length] in *.
    + apply IH; auto. apply isInt_same; auto. lia.
    + rewrite Nat2Z.inj_succ in *. replace (z + Z.succ (Z.of_nat (length (filter filled bs))))%Z with ((z + 1) + Z.of_nat (length (filter filled bs)))%Z by lia.
      apply IH; [apply isInt_succ; auto; lia|lia|lia].
Qed.
Lemma sel_done : forall P bs sum sel, fgeb sum P = true -> fold_left (selBatchStep P) bs (sum, sel) = (sum, sel).
Proof. induction bs as [|b bs IH]; intros sum sel H; cbn [fold_left]; auto. replace (selBatchStep P (sum, sel) b) with (sum, sel) by (unfold selBatchStep; now rewrite H). auto. Qed.
Lemma fgeb_ok : forall x y, ffin x -> ffin y -> (fgeb x y = true <-> (fval y <= fval x)%R).
Proof. intros x y Hx Hy. unfold fgeb. now apply fleb_ok. Qed.

Lemma sel_level : forall P bs sum sel z j, ffin P -> isInt sum z -> (0 <= z)%Z -> (z + nFilled bs < 2 ^ 53)%Z ->
  (IZR j < fval P <= IZR (j + 1))%R -> (z <= j < z + nFilled bs)%Z ->
  exists pre b post, bs = pre ++ b :: post /\ filled b = true /\ (z + nFilled pre = j)%Z /\
    snd (fold_left (selBatchStep P) bs (sum, sel)) = b.
Proof.
  intros P. induction bs as [|b bs IH]; intros sum sel z j FP Hs Z0 L HP Hj; unfold nFilled in *; simpl in Hj; [lia|].
  cbn [fold_left].
  assert (G : fgeb sum P = false).
  { destruct (fgeb sum P) eqn:E; auto. apply fgeb_ok in E; [|apply Hs|assumption]. destruct Hs as (_ & V). rewrite V in E.
    assert (IZR z <= IZR j)%R by (apply IZR_le; lia). lra. }
  replace (selBatchStep P (sum, sel) b) with (match b with [] => (sum, sel) | _ => (fadd sum f1, b) end) by (unfold selBatchStep; now rewrite G).
  destruct b as [|gr b].
  - cbn [filter filled length] in *. destruct (IH sum sel z j) as (pre & b & post & E1 & E2 & E3 & E4); auto.
    exists ([] :: pre), b, post. split; [now rewrite E1|]. auto.
  - cbn [filter filled length] in L, Hj. rewrite Nat2Z.inj_succ in *. destruct (Z.eq_dec z j) as [->|N].
    + exists [], (gr :: b), bs. split; auto. split; auto. split; [simpl; lia|]. rewrite sel_done; [reflexivity|].
      apply fgeb_ok; auto; [apply (isInt_succ _ _ Hs); lia|]. destruct (isInt_succ _ _ Hs ltac:(lia)) as (_ & ->). lra.
    + destruct (IH (fadd sum f1) (gr :: b) (z + 1)%Z j) as (pre & b' & post & E1 & E2 & E3 & E4); auto; try lia.
      { apply isInt_succ; auto. lia. }
      exists ((gr :: b) :: pre), b', post. split; [now rewrite E1|]. split; auto. cbn [filter filled length]. split; [lia|auto].
Qed.

(** the drawn number decides the level: [j] levels before it are filled *)
Theorem level_drawn : forall g r1 r2 j s d, ffin r1 -> (nFilled (g_batches g) < 2 ^ 50)%Z -> (0 <= j < nFilled (g_batches g))%Z ->
  (IZR j + / 4 <= fval r1 * IZR (nFilled (g_batches g)) <= IZR (j + 1))%R ->
  sample g r1 r2 = Ok (Some (s, d)) ->
  exists pre b post gr e, g_batches g = pre ++ b :: post /\ b <> [] /\ nFilled pre = j /\ In gr b /\ In e (snd gr) /\ e_sentence e = s /\ e_depth e = d.
Proof.
  intros g r1 r2 j s d F1 L Hj HP H. unfold sample in H.
  change (map (fun b : list group => match b with [] => f0 | _ => f1 end) (g_batches g)) with (map weightOf (g_batches g)) in H.
  destruct (sum_filled (g_batches g) f0 0) as (Fs & Vs); [apply f0_ok|lia|lia|].
  unfold fsum in H. set (sb := fold_left fadd (map weightOf (g_batches g)) f0) in *. rewrite Z.add_0_l in Vs.
  assert (Q : fmt (IZR j + / 4)).
  { replace (IZR j + / 4)%R with (IZR (4 * j + 1) * bpow radix2 (-2))%R; [apply fmt_F2R; lia|]. change (bpow radix2 (-2)) with (/ 4)%R. rewrite plus_IZR, mult_IZR. lra. }
  assert (Q2 : fmt (IZR (j + 1))) by (apply fmt_int; lia).
  assert (J0 : (0 <= IZR j)%R) by (apply IZR_le; lia).
  destruct (rnd_between _ _ _ Q Q2 HP) as (B1 & B2).
  destruct (fmul_ok r1 sb F1 Fs) as (Fp & Vp).
  { rewrite Vs. rewrite Rabs_pos_eq by lra. eapply Rle_lt_trans; [exact B2|]. eapply Rle_lt_trans; [apply Rle_abs|]. apply big53. lia. }
  rewrite Vs in Vp. destruct (idx (g_batches g) 0) as [dflt|] eqn:D; [|discriminate]. cbn [rbind] in H.
  destruct (sel_level (fmul r1 sb) (g_batches g) f0 dflt 0 j) as (pre & b & post & E1 & E2 & E3 & E4); auto; try lia.
  { apply f0_ok. }
  { rewrite Vp. lra. }
  rewrite E4 in H. destruct b as [|gr0 b]; [discriminate|]. destruct (rmapM groupWeight _) as [ws|]; [|discriminate]. cbn [rbind] in H.
  apply selInBatch_in in H. destruct H as (gr & e & A & B & C).
  exists pre, (gr0 :: b), post, gr, e. split; auto. split; [discriminate|]. split; [lia|]. auto.
Qed.
(** and every filled level can be drawn *)
Theorem level_drawable : forall n j, (0 <= j < n)%Z -> (n < 2 ^ 50)%Z ->
  exists r1, in01 r1 /\ (fval r1 < 1)%R /\ (IZR j + / 4 <= fval r1 * IZR n <= IZR (j + 1))%R.
Proof.
  intros n j Hj L. destruct (isInt_of_Z (2 * j + 1)) as (Fa & Va); [lia|]. destruct (isInt_of_Z (2 * n)) as (Fb & Vb); [lia|].
  assert (N0 : (1 <= IZR n)%R) by (apply IZR_le; lia). assert (J0 : (0 <= IZR j)%R) by (apply IZR_le; lia).
  assert (N1 : (IZR j + 1 <= IZR n)%R) by (rewrite <- plus_IZR; apply IZR_le; lia).
  assert (N2 : (IZR n <= bpow radix2 50)%R) by (change (bpow radix2 50) with (IZR (2 ^ 50)); apply IZR_le; lia).
  rewrite mult_IZR in Vb. rewrite plus_IZR, mult_IZR in Va.
  set (x := ((2 * IZR j + 1) / (2 * IZR n))%R).
  assert (X : (0 <= x <= 1)%R).
  { split; unfold x; [apply Rmult_le_reg_r with (2 * IZR n)%R; [lra|]; unfold Rdiv; rewrite Rmult_assoc, Rinv_l by lra; lra|].
    apply Rmult_le_reg_r with (2 * IZR n)%R; [lra|]. unfold Rdiv. rewrite Rmult_assoc, Rinv_l by lra. lra. }
  assert (XN : (x * IZR n = IZR j + / 2)%R) by (unfold x; field; lra).
  destruct (rnd_between 0 1 x fmt_0 fmt_1 X) as (R0 & R1).
  destruct (fdiv_ok (f_of_Z (2 * j + 1)) (f_of_Z (2 * n)) Fa Fb) as (Fd & Vd).
  { rewrite Vb. lra. }
  { rewrite Va, Vb. fold x. rewrite Rabs_pos_eq by lra. pose proof fmaxR_1. lra. }
  rewrite Va, Vb in Vd. fold x in Vd.
  assert (Er : (Rabs (rnd x - x) <= / 2 * bpow radix2 (-52))%R).
  { eapply Rle_trans; [apply error_le_half_ulp; typeclasses eauto|]. apply Rmult_le_compat_l; [lra|].
    eapply Rle_trans; [apply (ulp_le _ _ x 1); rewrite !Rabs_pos_eq; lra|]. change 1%R with (bpow radix2 0). rewrite ulp_bpow. apply Rle_refl. }
  apply Rabs_le_inv in Er.
  assert (K : (bpow radix2 (-52) * bpow radix2 50 = / 4)%R) by (rewrite <- bpow_plus; reflexivity).
  assert (P0 : (0 < bpow radix2 (-52))%R) by apply bpow_gt_0.
  assert (K2 : (bpow radix2 (-52) * IZR n <= / 4)%R) by (rewrite <- K; apply Rmult_le_compat_l; lra).
  assert (U : (rnd x * IZR n <= IZR j + / 2 + / 8)%R).
  { rewrite <- XN. replace (rnd x * IZR n)%R with (x * IZR n + (rnd x - x) * IZR n)%R by ring. apply Rplus_le_compat_l.
    apply Rle_trans with ((/ 2 * bpow radix2 (-52)) * IZR n)%R; [apply Rmult_le_compat_r; lra|]. lra. }
  assert (W : (IZR j + / 2 - / 8 <= rnd x * IZR n)%R).
  { rewrite <- XN. replace (rnd x * IZR n)%R with (x * IZR n + (rnd x - x) * IZR n)%R by ring. apply Rplus_le_compat_l.
    apply Rle_trans with (- (/ 2 * bpow radix2 (-52)) * IZR n)%R; [lra|apply Rmult_le_compat_r; lra]. }
  exists (fdiv (f_of_Z (2 * j + 1)) (f_of_Z (2 * n))). rewrite Vd. split; [apply in01_iff; split; auto; rewrite Vd; lra|]. split.
  - apply Rmult_lt_reg_r with (IZR n); [lra|]. lra.
  - rewrite plus_IZR. lra.
Qed.

(** * Look-ups by term *)
Theorem query_spec : forall g t,
  match query g t with
  | Some e => In e (retEntries g ++ g_active g) /\ s_term (e_sentence e) = t
  | None => forall e, In e (retEntries g ++ g_active g) -> s_term (e_sentence e) <> t
  end.
Proof.
  intros g t. unfold query. destruct (find _ _) as [e|] eqn:E.
  - apply find_some in E. destruct E as (A & B). apply checkEqTerm_eq in B. auto.
  - intros e He Q. apply (find_none _ _ E) in He. rewrite Q in He. assert (checkEqTerm t t = true) by now apply checkEqTerm_eq. congruence.
Qed.
(** condition of a stored belief *)
Definition hasAntecedent (s : sentence) (t : term) : Prop := exists rest p, s_term s = Stmt PREDIMPL (Seq (t :: rest)) p.
Theorem antecedent_spec : forall m t l, query_by_antecedent t m = Ok l ->
  forall a, In a l <-> In a (pBeliefs m [t]) /\ hasAntecedent (rd (cells m) a) t.
Proof.
  intros m t l H. unfold query_by_antecedent in H. rewrite term_clone_id in H.
  set (f := fun (acc : list nat) (a : nat) => _) in H.
  assert (G : forall bs acc l, rfold f bs acc = Ok l -> forall a, In a l <-> In a acc \/ In a bs /\ hasAntecedent (rd (cells m) a) t).
  { induction bs as [|b bs IH]; intros acc l0 R a; cbn [rfold] in R.
    - assert (acc = l0) by congruence. subst. split; [auto|intros [A|([] & _)]; auto].
    - destruct (f acc b) as [acc'|] eqn:E; [|discriminate]. cbn [rbind] in R. rewrite (IH _ _ R a).
      assert (X : In a acc' <-> In a acc \/ a = b /\ hasAntecedent (rd (cells m) a) t).
      { unfold f in E. unfold hasAntecedent. destruct (s_term (rd (cells m) b)) as [c x y| | | | | | | | | | | | | |] eqn:T;
          try (assert (acc = acc') by congruence; subst; split; [auto|intros [A|(-> & r & p & Q)]; [auto|congruence]]).
        destruct c; try (assert (acc = acc') by congruence; subst; split; [auto|intros [A|(-> & r & p & Q)]; [auto|congruence]]).
        destruct x; try (assert (acc = acc') by congruence; subst; split; [auto|intros [A|(-> & r & p & Q)]; [auto|congruence]]).
        destruct l1 as [|c0 l1]; [discriminate|]. cbn [idx nth_error unwrap rbind] in E. destruct (checkEqTerm t c0) eqn:K.
        - apply checkEqTerm_eq in K. subst c0. assert (acc ++ [b] = acc') by congruence. subst acc'. rewrite in_app_iff. simpl. split.
          + intros [A|[<-|[]]]; auto. right. split; auto. eauto.
          + intros [A|(-> & _)]; auto.
        - assert (acc = acc') by congruence. subst. split; auto. intros [A|(-> & r & p & Q)]; auto. exfalso.
          assert (c0 = t) by congruence. subst. assert (checkEqTerm t t = true) by now apply checkEqTerm_eq. congruence. }
      rewrite X. simpl. split.
      + intros [[A|(-> & A)]|(A & B)]; auto.
      + intros [A|([->|A] & B)]; auto. }
  intros a. rewrite (G _ _ _ H a). simpl. tauto.
Qed.
Theorem consequence_spec : forall m t a,
  In a (query_by_consequence t m) <-> In a (pBeliefs m [t]) /\ exists q, s_term (rd (cells m) a) = Stmt PREDIMPL q t.
Proof.
  intros m t a. unfold query_by_consequence. rewrite term_clone_id, filter_In. split; intros (A & B); split; auto.
  - destruct (s_term (rd (cells m) a)) as [c x y| | | | | | | | | | | | | |]; try discriminate. destruct c; try discriminate.
    apply checkEqTerm_eq in B. subst y. eauto.
  - destruct B as (q & ->). now apply checkEqTerm_eq.
Qed.
