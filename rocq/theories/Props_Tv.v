(** Final statements for truth values: C11 - C14, C51, C52. *)
From Coq Require Import ZArith QArith Bool List Lia.
From Coq Require Import Floats.SpecFloat.
From Verif Require Import Base F64_Model Tv_Model Tv_Spec Tv_Proofs TvQ_Proofs Sentence_Model Sentence_Proofs.
Import ListNotations.
Local Open Scope Z_scope.

(** C11. All truth functions stay in range in IEEE arithmetic. *)
Theorem c11_ded_range : forall a b, tvInRange a -> tvInRange b -> tvInRange (ded a b).
Proof. exact ded_range. Qed.
Theorem c11_dedGoal_range : forall a b, tvInRange a -> tvInRange b -> tvInRange (dedGoal a b).
Proof. exact dedGoal_range. Qed.
Theorem c11_abd_range : forall a b, tvInRange a -> tvInRange b -> tvInRange (abd a b).
Proof. exact abd_range. Qed.
Theorem c11_ind_range : forall a b, tvInRange a -> tvInRange b -> tvInRange (ind a b).
Proof. exact ind_range. Qed.
Theorem c11_comp_range : forall a b, tvInRange a -> tvInRange b -> tvInRange (comp a b).
Proof. exact comp_range. Qed.
Theorem c11_int_range : forall a b, tvInRange a -> tvInRange b -> tvInRange (int a b).
Proof. exact int_range. Qed.
Theorem c11_neg_range : forall a, tvInRange a -> tvInRange (neg a).
Proof. exact neg_range. Qed.
Theorem c11_rev_range : forall a b, tvInRange a -> tvInRange b -> uncertain a -> uncertain b -> tvInRange (rev a b).
Proof. exact rev_range. Qed.

Definition tv_a : tv := mkTv (f_frac 7 10) (f_frac 9 10).
Definition tv_b : tv := mkTv (f_frac 1 3) (f_frac 98 100).
Example c11_ex : tvInRange tv_a /\ tvInRange tv_b /\ uncertain tv_a /\ uncertain tv_b /\
  fltb (tvf tv_b) (tvf (rev tv_a tv_b)) = true.
Proof. repeat split; vm_compute; reflexivity. Qed.

(** C12. Exact laws of revision. *)
Local Open Scope Q_scope.
Definition qcertain_free (t : qtv) : Prop := qInRange t /\ tvc t < 1.

Theorem c12_rev_comm : forall a b, qeqv (g_rev Q_arith a b) (g_rev Q_arith b a).
Proof. exact qrev_comm. Qed.
Theorem c12_rev_assoc : forall a b c, qcertain_free a -> qcertain_free b -> qcertain_free c ->
  qeqv (g_rev Q_arith a (g_rev Q_arith b c)) (g_rev Q_arith (g_rev Q_arith a b) c).
Proof. exact qrev_assoc. Qed.
Theorem c12_rev_between : forall a b lo hi, qcertain_free a -> qcertain_free b -> 0 < tvc a \/ 0 < tvc b ->
  lo <= tvf a <= hi -> lo <= tvf b <= hi -> lo <= tvf (g_rev Q_arith a b) <= hi.
Proof. exact qrev_freq. Qed.
Theorem c12_rev_confidence : forall a b, qcertain_free a -> qcertain_free b ->
  tvc a <= tvc (g_rev Q_arith a b) /\ tvc b <= tvc (g_rev Q_arith a b) /\ tvc (g_rev Q_arith a b) < 1.
Proof. exact qrev_conf. Qed.
Theorem c12_rev_neutral : forall a b, qcertain_free a -> 0 < tvc a -> tvc b == 0 -> qeqv (g_rev Q_arith a b) a.
Proof. exact qrev_neutral. Qed.
(** bit-exact commutativity in IEEE arithmetic, for all floats *)
Theorem c12_rev_comm_ieee : forall a b : tv, rev a b = rev b a.
Proof. exact rev_comm. Qed.

Example c12_ex : qcertain_free (mkTv (7 # 10) (9 # 10)) /\
  qeqv (g_rev Q_arith (mkTv 1 (1 # 2)) (mkTv 0 (1 # 2))) (mkTv (1 # 2) (2 # 3)).
Proof. unfold qcertain_free, qInRange, unitQ, qeqv. vm_compute. intuition discriminate. Qed.
Local Close Scope Q_scope.

(** C13. *)
Theorem c13_full_confidence_nan : forall a b : tv, tvInRange a -> tvInRange b -> tvc a = f1 \/ tvc b = f1 ->
  fis_nan (tvf (rev a b)) = true /\ fis_nan (tvc (rev a b)) = true /\ fis_nan (calcExp (rev a b)) = true.
Proof.
  intros a b Ha Hb H. destruct (rev_full a b Ha Hb H) as [E1 E2].
  assert (E3 := nan_exp (rev a b) E1). rewrite E1, E2, E3. auto.
Qed.
Theorem c13_nan_sort_panics : forall (A : Type) (key : A -> f64) l x,
  In x l -> fis_nan (key x) = true -> (2 <= length l)%nat -> fsort_desc key l = Panic.
Proof. exact nan_sort_panics. Qed.
(** Full confidence is reachable from premises that are not fully confident,
    by rounding alone. *)
Definition almost_one : f64 := fsub f1 (f_frac 1 9007199254740992).
Theorem c13_rounds_to_full_refuted : exists a b : tv,
  tvInRange a /\ tvInRange b /\ uncertain a /\ uncertain b /\ ~ uncertain (rev a b).
Proof.
  exists (mkTv f1 almost_one), (mkTv f1 f05).
  assert (E : fltb (tvc (rev (mkTv f1 almost_one) (mkTv f1 f05))) f1 = false) by (vm_compute; reflexivity).
  unfold uncertain at 3. rewrite E.
  repeat split; try (vm_compute; reflexivity). discriminate.
Qed.
Example c13_ex : tvInRange (mkTv f1 f1) /\ fis_nan (tvf (rev (mkTv f1 f1) tv_a)) = true.
Proof. repeat split; vm_compute; reflexivity. Qed.

(** C14. *)
Theorem c14_exp_range_ieee : forall t, tvInRange t -> unit64 (calcExp t).
Proof. exact calcExp_range. Qed.
Theorem c14_exp_range : forall t, qInRange t -> unitQ (g_calcExp Q_arith t).
Proof. exact qexp_range. Qed.
Theorem c14_neg_involution : forall t, qeqv (g_neg Q_arith (g_neg Q_arith t)) t.
Proof. exact qneg_inv. Qed.
Theorem c14_neg_mirrors : forall t, (g_calcExp Q_arith (g_neg Q_arith t) == 1 - g_calcExp Q_arith t)%Q.
Proof. exact qneg_exp. Qed.
Theorem c14_exp_monotone_f : forall t t', (0 <= tvc t)%Q -> (tvc t == tvc t')%Q -> (tvf t <= tvf t')%Q ->
  (g_calcExp Q_arith t <= g_calcExp Q_arith t')%Q.
Proof. exact qexp_mono_f. Qed.
Theorem c14_exp_monotone_c : forall t t', (1 # 2 <= tvf t)%Q -> (tvf t == tvf t')%Q -> (tvc t <= tvc t')%Q ->
  (g_calcExp Q_arith t <= g_calcExp Q_arith t')%Q.
Proof. exact qexp_mono_c. Qed.
(** in IEEE arithmetic negation is not an exact involution *)
Theorem c14_neg_involution_ieee_refuted : exists t : tv, tvInRange t /\ tvf (neg (neg t)) <> tvf t.
Proof.
  exists (mkTv (f_frac 1 10) f1). split; [repeat split; vm_compute; reflexivity|].
  vm_compute. discriminate.
Qed.
Example c14_ex : fltb f05 (calcExp tv_a) = true /\ fltb (calcExp (neg tv_a)) f05 = true.
Proof. split; vm_compute; reflexivity. Qed.

(** C51. Strength and symmetry of the truth functions, bit-exact. *)
Theorem c51_ded_symmetric : forall a b : tv, ded a b = ded b a.
Proof. exact ded_comm. Qed.
Theorem c51_int_symmetric : forall a b : tv, int a b = int b a.
Proof. exact int_comm. Qed.
Theorem c51_comp_freq_symmetric : forall a b : tv, tvf (comp a b) = tvf (comp b a).
Proof. exact comp_freq_comm. Qed.
Theorem c51_ded_not_stronger : forall a b, tvInRange a -> tvInRange b ->
  fleb (tvc (ded a b)) (tvc a) = true /\ fleb (tvc (ded a b)) (tvc b) = true.
Proof. exact ded_conf. Qed.
Theorem c51_abd_weak : forall a b, tvInRange a -> tvInRange b -> fleb (tvc (abd a b)) f05 = true.
Proof. exact abd_weak. Qed.
Theorem c51_ind_weak : forall a b, tvInRange a -> tvInRange b -> fleb (tvc (ind a b)) f05 = true.
Proof. intros a b Ha Hb. exact (abd_weak b a Hb Ha). Qed.
Example c51_ex : fltb f0 (tvc (abd tv_a tv_b)) = true /\ abd tv_a tv_b <> abd tv_b tv_a.
Proof. split; [vm_compute; reflexivity|vm_compute; discriminate]. Qed.

(** C52. Derived quantities of evidence counters and usage are in range. *)
Theorem c52_counts_range : forall p c, 0 <= p <= c -> 1 <= c < 2 ^ 63 -> tvInRange (evidenceTv (CNT p c)).
Proof. exact cnt_range. Qed.
Theorem c52_usefulness_range : forall u now, 0 <= useCount u < 2 ^ 63 -> now - lastUsed u < 2 ^ 63 ->
  unit64 (calcUsageUsefulness u now).
Proof. exact useful_range. Qed.
Example c52_ex : fltb f0 (calcUsageUsefulness (mkUsage 3 7) 10) = true /\ tvInRange (evidenceTv (CNT 2 3)).
Proof. split; [vm_compute; reflexivity|apply c52_counts_range; lia]. Qed.

Local Open Scope Q_scope.
(** C54. The truth functions are the published NAL formulas (horizon 1). *)
Theorem c54_ded : forall a b, qeqv (g_ded Q_arith a b) (mkTv (tvf a * tvf b) (tvf a * tvf b * tvc a * tvc b)).
Proof. exact qded_formula. Qed.
Theorem c54_abd : forall a b, qeqv (g_abd Q_arith a b) (mkTv (tvf a) (tvf b * tvc a * tvc b / (tvf b * tvc a * tvc b + 1))).
Proof. exact qabd_formula. Qed.
Theorem c54_ind : forall a b, qeqv (g_ind Q_arith a b) (mkTv (tvf b) (tvf a * tvc a * tvc b / (tvf a * tvc a * tvc b + 1))).
Proof. exact qind_formula. Qed.
Theorem c54_int : forall a b, qeqv (g_int Q_arith a b) (mkTv (tvf a * tvf b) (tvc a * tvc b)).
Proof. exact qint_formula. Qed.
Theorem c54_neg : forall a, qeqv (g_neg Q_arith a) (mkTv (1 - tvf a) (tvc a)).
Proof. exact qneg_formula. Qed.
Theorem c54_comp : forall a b, let o := tvf a + tvf b - tvf a * tvf b in
  tvc (g_comp Q_arith a b) == o * tvc a * tvc b / (o * tvc a * tvc b + 1) /\
  (1 # 100000000 <= o -> tvf (g_comp Q_arith a b) == tvf a * tvf b / o).
Proof. exact qcomp_formula. Qed.
Theorem c54_rev : forall a b, qok a -> qok b -> 0 < tvc a + tvc b ->
  let wa := tvc a * (1 - tvc b) in let wb := tvc b * (1 - tvc a) in
  qeqv (g_rev Q_arith a b) (mkTv ((wa * tvf a + wb * tvf b) / (wa + wb)) ((wa + wb) / (wa + wb + (1 - tvc a) * (1 - tvc b)))).
Proof. exact qrev_formula. Qed.
Theorem c54_dedGoal : forall a b, qInRange a -> qInRange b ->
  let hi := tvf a * tvf b * tvc a * tvc b in let lo := (1 - tvf a) * tvf b * tvc a * tvc b in
  (lo <= hi -> qeqv (g_dedGoal Q_arith a b) (mkTv (tvf a * tvf b) hi)) /\
  (hi < lo -> qeqv (g_dedGoal Q_arith a b) (mkTv (1 - (1 - tvf a) * tvf b) lo)).
Proof. exact qdedGoal_formula. Qed.
Example c54_ex : qeqv (g_abd Q_arith (mkTv 1 (9 # 10)) (mkTv (1 # 2) (9 # 10))) (mkTv 1 (81 # 281)).
Proof. split; vm_compute; reflexivity. Qed.
Local Close Scope Q_scope.

(** C50 for sentences. *)
Theorem c50_sentence_copy : forall s, shallowCopySentence s = s.
Proof. exact shallowCopy_id. Qed.

Print Assumptions c11_ded_range.
Print Assumptions c11_dedGoal_range.
Print Assumptions c11_abd_range.
Print Assumptions c11_ind_range.
Print Assumptions c11_comp_range.
Print Assumptions c11_int_range.
Print Assumptions c11_neg_range.
Print Assumptions c11_rev_range.
Print Assumptions c12_rev_comm.
Print Assumptions c12_rev_assoc.
Print Assumptions c12_rev_between.
Print Assumptions c12_rev_confidence.
Print Assumptions c12_rev_neutral.
Print Assumptions c12_rev_comm_ieee.
Print Assumptions c13_full_confidence_nan.
Print Assumptions c13_nan_sort_panics.
Print Assumptions c13_rounds_to_full_refuted.
Print Assumptions c14_exp_range_ieee.
Print Assumptions c14_exp_range.
Print Assumptions c14_neg_involution.
Print Assumptions c14_neg_mirrors.
Print Assumptions c14_exp_monotone_f.
Print Assumptions c14_exp_monotone_c.
Print Assumptions c14_neg_involution_ieee_refuted.
Print Assumptions c51_ded_symmetric.
Print Assumptions c51_int_symmetric.
Print Assumptions c51_comp_freq_symmetric.
Print Assumptions c51_ded_not_stronger.
Print Assumptions c51_abd_weak.
Print Assumptions c51_ind_weak.
Print Assumptions c52_counts_range.
Print Assumptions c52_usefulness_range.
Print Assumptions c54_rev.
Print Assumptions c54_comp.
Print Assumptions c50_sentence_copy.
