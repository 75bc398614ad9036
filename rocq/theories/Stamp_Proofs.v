From Coq Require Import ZArith Bool Lia List Permutation.
From Verif Require Import Base Stamp_Model.
Import ListNotations.
Local Open Scope Z_scope.

Lemma checkOverlap_iff : forall a b, checkOverlap a b = true <-> exists i, In i a /\ In i b.
Proof.
  intros a b. unfold checkOverlap. rewrite existsb_exists. split.
  - intros (i & Ha & H). apply existsb_exists in H. destruct H as (j & Hj & E).
    apply Z.eqb_eq in E. subst. eauto.
  - intros (i & Ha & Hb). exists i. split; auto. apply existsb_exists. exists i. split; auto. apply Z.eqb_refl.
Qed.

Lemma bool_iff : forall a b : bool, (a = true <-> b = true) -> a = b.
Proof. intros [] []; intros [H1 H2]; auto; symmetry; auto. Qed.

Lemma checkOverlap_sym : forall a b, checkOverlap a b = checkOverlap b a.
Proof.
  intros a b. apply bool_iff. rewrite !checkOverlap_iff. split; intros (i & ? & ?); eauto.
Qed.

Lemma checkOverlap_false : forall a b, checkOverlap a b = false <-> (forall i, In i a -> ~ In i b).
Proof.
  intros a b. rewrite <- not_true_iff_false, checkOverlap_iff. firstorder.
Qed.

Lemma checkSame_iff : forall a b, checkSame a b = true <-> a = b.
Proof.
  unfold checkSame. induction a as [|x a IH]; intros [|y b]; simpl; try (split; congruence).
  specialize (IH b). destruct (Nat.eqb (length a) (length b)); simpl in *.
  - rewrite andb_true_iff, Z.eqb_eq, IH. split; [intros [-> ->]|intros [= -> ->]]; auto.
  - split; [discriminate|]. intros [= -> ->]. now apply IH.
Qed.

Lemma interleave_perm : forall a b, Permutation (interleave a b) (a ++ b).
Proof.
  induction a as [|x a IH]; intros [|y b]; simpl; auto.
  constructor. rewrite IH. apply Permutation_middle.
Qed.

Lemma interleave_length : forall a b, length (interleave a b) = (length a + length b)%nat.
Proof. intros. rewrite (Permutation_length (interleave_perm a b)). apply app_length. Qed.

Lemma merge_length : forall a b, length (merge a b) = Nat.min 120 (length a + length b).
Proof. intros. unfold merge. rewrite firstn_length, interleave_length. lia. Qed.

Lemma firstn_In : forall (A : Type) n (l : list A) x, In x (firstn n l) -> In x l.
Proof. intros A n l x H. rewrite <- (firstn_skipn n l). apply in_or_app. auto. Qed.

Lemma merge_from : forall a b i, In i (merge a b) -> In i a \/ In i b.
Proof.
  intros a b i H. apply firstn_In in H. apply (Permutation_in _ (interleave_perm a b)) in H. now apply in_app_iff.
Qed.

Lemma merge_small : forall a b, (length a + length b <= 120)%nat -> Permutation (merge a b) (a ++ b).
Proof.
  intros a b H. unfold merge. rewrite firstn_all2; [apply interleave_perm|]. rewrite interleave_length. lia.
Qed.

Lemma merge_small_overlap : forall a b s, (length a + length b <= 120)%nat ->
  checkOverlap (merge a b) s = checkOverlap a s || checkOverlap b s.
Proof.
  intros a b s H. apply bool_iff. rewrite orb_true_iff, !checkOverlap_iff.
  assert (P := merge_small a b H). split.
  - intros (i & Hi & Hs). apply (Permutation_in _ P), in_app_iff in Hi. destruct Hi; eauto.
  - intros [(i & Hi & Hs)|(i & Hi & Hs)]; exists i; split; auto;
      apply (Permutation_in _ (Permutation_sym P)), in_app_iff; auto.
Qed.

Lemma merge_overlap_sound : forall a b s, checkOverlap (merge a b) s = true ->
  checkOverlap a s = true \/ checkOverlap b s = true.
Proof.
  intros a b s H. apply checkOverlap_iff in H. destruct H as (i & Hi & Hs).
  apply merge_from in Hi. rewrite !checkOverlap_iff. destruct Hi; eauto.
Qed.

Lemma NoDup_firstn : forall (A : Type) n (l : list A), NoDup l -> NoDup (firstn n l).
Proof.
  intros A n l H. rewrite <- (firstn_skipn n l) in H. revert H. generalize (skipn n l). generalize (firstn n l).
  induction l0 as [|x l0 IH]; intros r Hr; [constructor|]. simpl in Hr. inversion Hr; subst.
  constructor; [|eapply IH; eauto]. intros Hin. apply H1. apply in_or_app. auto.
Qed.

Lemma NoDup_app2 : forall (A : Type) (a b : list A), NoDup a -> NoDup b -> (forall x, In x a -> ~ In x b) -> NoDup (a ++ b).
Proof.
  induction a as [|x a IH]; simpl; auto. intros b Ha Hb H. inversion Ha; subst. constructor.
  - rewrite in_app_iff. intros [?|?]; [tauto|]. apply (H x); auto.
  - apply IH; auto.
Qed.

Lemma merge_nodup : forall a b, NoDup a -> NoDup b -> checkOverlap a b = false -> NoDup (merge a b).
Proof.
  intros a b Ha Hb H. apply NoDup_firstn. eapply Permutation_NoDup; [apply Permutation_sym, interleave_perm|].
  apply NoDup_app2; auto. now apply checkOverlap_false.
Qed.

(** which ids survive: with n = min 120 of the total, the first [k] ids of each *)
Lemma interleave_nth_a : forall a b i, (i < length a)%nat -> (i < length b)%nat -> 
  nth_error (interleave a b) (2 * i) = nth_error a i /\ nth_error (interleave a b) (2 * i + 1) = nth_error b i.
Proof.
  induction a as [|x a IH]; intros [|y b] i; simpl; try lia. intros Ha Hb. destruct i as [|i]; [auto|].
  destruct (IH b i) as [H1 H2]; try lia.
  replace (S i + (S i + 0))%nat with (S (S (2 * i))) by lia.
  replace (S (S (2 * i)) + 1)%nat with (S (S (2 * i + 1))) by lia. simpl nth_error. auto.
Qed.

Lemma merge_keeps_newest : forall a b i, (i < 60)%nat ->  (i < length a)%nat -> (i < length b)%nat ->
  (exists x, nth_error a i = Some x /\ In x (merge a b)) /\ (exists y, nth_error b i = Some y /\ In y (merge a b)).
Proof.
  intros a b i Hi Ha Hb. destruct (interleave_nth_a a b i Ha Hb) as [H1 H2].
  assert (Hm : forall n x, (n < 120)%nat -> nth_error (interleave a b) n = Some x -> In x (merge a b)).
  { intros n x Hn Hx. unfold merge. eapply nth_error_In with (n := n).
    assert (n < length (interleave a b))%nat by (apply nth_error_Some; congruence).
    rewrite <- (firstn_skipn (Nat.min (length (interleave a b)) 120) (interleave a b)) in Hx.
    rewrite nth_error_app1 in Hx; [exact Hx|]. rewrite firstn_length. lia. }
  split.
  - destruct (nth_error a i) as [x|] eqn:E; [|apply nth_error_None in E; lia].
    exists x. split; auto. eapply Hm; [|exact H1]. lia.
  - destruct (nth_error b i) as [x|] eqn:E; [|apply nth_error_None in E; lia].
    exists x. split; auto. eapply Hm; [|exact H2]. lia.
Qed.
