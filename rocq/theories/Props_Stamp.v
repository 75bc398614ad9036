(** Final statements for stamps: C09, C10. *)
From Coq Require Import ZArith Bool List Permutation Lia.
From Verif Require Import Base Stamp_Model Stamp_Proofs.
Import ListNotations.
Local Open Scope Z_scope.

(** C09. *)
Theorem c09_overlap_exact : forall a b, checkOverlap a b = true <-> exists i, In i a /\ In i b.
Proof. exact checkOverlap_iff. Qed.
Theorem c09_overlap_symmetric : forall a b, checkOverlap a b = checkOverlap b a.
Proof. exact checkOverlap_sym. Qed.
Theorem c09_same_exact : forall a b, checkSame a b = true <-> a = b.
Proof. exact checkSame_iff. Qed.
Example c09_ex : checkOverlap [4; 7; 2] [9; 2] = true /\ checkOverlap [4; 7] [9; 2] = false /\
  checkSame [1; 2] [2; 1] = false /\ checkSame [1; 2] [1; 2] = true.
Proof. repeat split. Qed.

(** C10. *)
Theorem c10_merge_length : forall a b, length (merge a b) = Nat.min 120 (length a + length b).
Proof. exact merge_length. Qed.
Theorem c10_merge_from_premises : forall a b i, In i (merge a b) -> In i a \/ In i b.
Proof. exact merge_from. Qed.
Theorem c10_merge_keeps_all : forall a b, (length a + length b <= 120)%nat -> Permutation (merge a b) (a ++ b).
Proof. exact merge_small. Qed.
Theorem c10_merge_overlap : forall a b s, (length a + length b <= 120)%nat ->
  checkOverlap (merge a b) s = checkOverlap a s || checkOverlap b s.
Proof. exact merge_small_overlap. Qed.
(** beyond the bound the first 60 ids of both premises still survive *)
Theorem c10_merge_keeps_first : forall a b i, (i < 60)%nat -> (i < length a)%nat -> (i < length b)%nat ->
  (exists x, nth_error a i = Some x /\ In x (merge a b)) /\
  (exists y, nth_error b i = Some y /\ In y (merge a b)).
Proof. exact merge_keeps_newest. Qed.
Theorem c10_merge_nodup : forall a b, NoDup a -> NoDup b -> checkOverlap a b = false -> NoDup (merge a b).
Proof. exact merge_nodup. Qed.

(** The unconditional claim is false: two full stamps lose evidence, and an
    overlap with a premise is then missed. *)
Definition upto (a n : nat) : stamp := map Z.of_nat (seq a n).
Theorem c10_merge_overlap_all_refuted : exists a b s,
  checkOverlap a b = false /\ checkOverlap a s = true /\ checkOverlap (merge a b) s = false.
Proof. exists (upto 0 100), (upto 200 100), [99]. repeat split; vm_compute; reflexivity. Qed.

Example c10_ex : merge [1; 2; 3] [10; 20] = [1; 10; 2; 20; 3].
Proof. reflexivity. Qed.

Print Assumptions c09_overlap_exact.
Print Assumptions c09_overlap_symmetric.
Print Assumptions c09_same_exact.
Print Assumptions c10_merge_length.
Print Assumptions c10_merge_from_premises.
Print Assumptions c10_merge_keeps_all.
Print Assumptions c10_merge_overlap.
Print Assumptions c10_merge_keeps_first.
Print Assumptions c10_merge_nodup.
Print Assumptions c10_merge_overlap_all_refuted.
