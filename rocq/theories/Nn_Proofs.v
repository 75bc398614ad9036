(** The network built from a vector of parameters. *)
From Coq Require Import ZArith Reals Lra Lia List Bool.
From Verif Require Import Base F64_Model Tv_Model Ad_Model Ad_Spec Ad_Proofs.
Import ListNotations.
Local Open Scope nat_scope.

Section Build.
  Context {F : Type} (A : arith F).

  Definition markAt (diffIdx : option nat) (i : nat) : F := mark A diffIdx (Z.of_nat i).

  Lemma param_nat : forall (params : list F) i, param params (Z.of_nat i) = unwrap (nth_error params i).
  Proof.
    intros. unfold param, idx. destruct (Z.ltb_spec (Z.of_nat i) 0); [lia|].
    rewrite Nat2Z.id. reflexivity.
  Qed.

  Definition weightStep (params : list F) (diffIdx : option nat) (st : list (ad F) * Z) (_ : nat)
    : res (list (ad F) * Z) :=
    let '(ws, i) := st in
    do v <- param params i; Ok (ws ++ [mkAd v (mark A diffIdx i)], (i + 1)%Z).

  Lemma rfold_eq : forall (S X : Type) (f g : S -> X -> res S) l s, (forall s x, f s x = g s x) ->
    rfold f l s = rfold g l s.
  Proof.
    intros S X f g l s H. revert s. induction l; intros s; [reflexivity|].
    cbn [rfold]. rewrite H. destruct (g s a); cbn [rbind]; [apply IHl | reflexivity].
  Qed.

  Definition adsAt (params : list F) (diffIdx : option nat) (i k : nat) : list (ad F) :=
    map (fun '(v, d) => mkAd v d)
        (combine (firstn k (skipn i params)) (map (markAt diffIdx) (seq i k))).

  Lemma skipn_nth : forall (X : Type) (l : list X) i x, nth_error l i = Some x -> skipn i l = x :: skipn (S i) l.
  Proof.
    induction l; destruct i; simpl; intros; try discriminate; [congruence|]. apply IHl. exact H.
  Qed.

  Lemma weights_ok : forall params diffIdx k s i ws, i + k <= length params ->
    rfold (weightStep params diffIdx) (seq s k) (ws, Z.of_nat i) =
    Ok (ws ++ adsAt params diffIdx i k, Z.of_nat (i + k)).
  Proof.
    intros params diffIdx. induction k; intros s i ws H.
    - unfold adsAt. simpl. rewrite app_nil_r, Nat.add_0_r. reflexivity.
    - cbn [seq rfold]. unfold weightStep at 1. rewrite param_nat.
      destruct (nth_error params i) as [v|] eqn:E; [|apply nth_error_None in E; lia].
      cbn [unwrap rbind]. replace (Z.of_nat i + 1)%Z with (Z.of_nat (S i)) by lia.
      rewrite IHk by lia. replace (S i + k) with (i + S k) by lia. f_equal. f_equal.
      rewrite <- app_assoc. f_equal. unfold adsAt. rewrite (skipn_nth _ _ _ _ E). cbn. reflexivity.
  Qed.

  Lemma weights_panic : forall params diffIdx k s i ws, length params < i + k -> i <= length params ->
    rfold (weightStep params diffIdx) (seq s k) (ws, Z.of_nat i) = Panic.
  Proof.
    intros params diffIdx. induction k; intros s i ws H Hi; [lia|].
    cbn [seq rfold]. unfold weightStep at 1. rewrite param_nat.
    destruct (nth_error params i) as [v|] eqn:E.
    - cbn [unwrap rbind]. replace (Z.of_nat i + 1)%Z with (Z.of_nat (S i)) by lia.
      apply IHk; [lia|]. assert (i < length params) by (apply nth_error_Some; congruence). lia.
    - reflexivity.
  Qed.

  Lemma weights_panic0 : forall params diffIdx k s i ws, length params < i -> 0 < k ->
    rfold (weightStep params diffIdx) (seq s k) (ws, Z.of_nat i) = Panic.
  Proof.
    intros params diffIdx [|k] s i ws H Hk; [lia|].
    cbn [seq rfold]. unfold weightStep at 1. rewrite param_nat.
    replace (nth_error params i) with (@None F) by (symmetry; apply nth_error_None; lia). reflexivity.
  Qed.

  Definition neuronAt (boost : F) (params : list F) (diffIdx : option nat) (act : Z) (i k : nat) (b : F) : neuron F :=
    mkNeuron (adsAt params diffIdx i k) (mkAd (Amul A b boost) (markAt diffIdx (i + k))) act.

  Lemma neuron_unfold : forall boost params k act diffIdx i,
    buildNeuron A boost params (Z.of_nat k) act diffIdx (Z.of_nat i) =
    (do st <- rfold (weightStep params diffIdx) (seq 0 k) ([], Z.of_nat i);
     let '(weights, i) := st in
     do b <- param params i;
     Ok (mkNeuron weights (mkAd (Amul A b boost) (mark A diffIdx i)) act, (i + 1)%Z)).
  Proof.
    intros. unfold buildNeuron. rewrite Nat2Z.id.
    rewrite (rfold_eq _ _ _ (weightStep params diffIdx)); [reflexivity | intros [ws j] x; reflexivity].
  Qed.

  Lemma neuron_ok : forall boost params k act diffIdx i b, nth_error params (i + k) = Some b ->
    buildNeuron A boost params (Z.of_nat k) act diffIdx (Z.of_nat i) =
    Ok (neuronAt boost params diffIdx act i k b, Z.of_nat (i + (k + 1))).
  Proof.
    intros boost params k act diffIdx i b E. rewrite neuron_unfold.
    assert (i + k < length params) by (apply nth_error_Some; congruence).
    rewrite weights_ok by lia. cbn [rbind]. rewrite param_nat, E. cbn [unwrap rbind].
    unfold neuronAt, markAt. simpl. f_equal. f_equal. lia.
  Qed.

  Lemma neuron_panic : forall boost params k act diffIdx i, length params <= i + k ->
    buildNeuron A boost params (Z.of_nat k) act diffIdx (Z.of_nat i) = Panic.
  Proof.
    intros boost params k act diffIdx i H. rewrite neuron_unfold.
    destruct (Nat.le_gt_cases i (length params)) as [L|L].
    - destruct (Nat.eq_dec (i + k) (length params)) as [E|E].
      + rewrite weights_ok by lia. cbn [rbind]. rewrite param_nat.
        replace (nth_error params (i + k)) with (@None F) by (symmetry; apply nth_error_None; lia). reflexivity.
      + rewrite weights_panic by lia. reflexivity.
    - destruct k.
      + simpl. rewrite param_nat.
        replace (nth_error params i) with (@None F) by (symmetry; apply nth_error_None; lia). reflexivity.
      + rewrite weights_panic0 by lia. reflexivity.
  Qed.

  Definition neuronStep boost params k act diffIdx (st : list (neuron F) * Z) (_ : nat) : res (list (neuron F) * Z) :=
    let '(ns, i) := st in
    do xi <- buildNeuron A boost params (Z.of_nat k) act diffIdx i;
    let '(x, i') := xi in Ok (ns ++ [x], i').

  (** the neurons of a layer starting at [i] *)
  Fixpoint neuronsAt (boost : F) (params : list F) (diffIdx : option nat) (act : Z) (k n i : nat) : list (neuron F) :=
    match n with
    | O => []
    | S n' => neuronAt boost params diffIdx act i k (nth (i + k) params (A0 A))
                :: neuronsAt boost params diffIdx act k n' (i + (k + 1))
    end.

  Lemma layer_ok : forall boost params k act diffIdx n s i ns, i + n * (k + 1) <= length params ->
    rfold (neuronStep boost params k act diffIdx) (seq s n) (ns, Z.of_nat i) =
    Ok (ns ++ neuronsAt boost params diffIdx act k n i, Z.of_nat (i + n * (k + 1))).
  Proof.
    intros boost params k act diffIdx. induction n; intros s i ns H.
    - simpl. rewrite app_nil_r, Nat.add_0_r. reflexivity.
    - cbn [seq rfold]. unfold neuronStep at 1.
      assert (E : nth_error params (i + k) = Some (nth (i + k) params (A0 A))) by (apply nth_error_nth'; lia).
      rewrite (neuron_ok _ _ _ _ _ _ _ E). cbn [rbind]. rewrite IHn by lia.
      rewrite <- app_assoc. cbn [neuronsAt app]. f_equal. f_equal. f_equal. lia.
  Qed.

  Lemma layer_panic : forall boost params k act diffIdx n s i ns, 0 < n -> length params < i + n * (k + 1) ->
    rfold (neuronStep boost params k act diffIdx) (seq s n) (ns, Z.of_nat i) = Panic.
  Proof.
    intros boost params k act diffIdx. induction n; intros s i ns Hn H; [lia|].
    cbn [seq rfold]. unfold neuronStep at 1.
    destruct (Nat.le_gt_cases (length params) (i + k)) as [L|L].
    - rewrite neuron_panic by lia. reflexivity.
    - assert (E : nth_error params (i + k) = Some (nth (i + k) params (A0 A))) by (apply nth_error_nth'; lia).
      rewrite (neuron_ok _ _ _ _ _ _ _ E). cbn [rbind]. apply IHn; [|lia].
      destruct n; [simpl in H; lia | lia].
  Qed.

  Lemma build_unfold : forall c15 c8 i params nIn act0 n0 n1 diffIdx,
    buildNn A c15 c8 (Z.of_nat i) params (Z.of_nat nIn) act0 (Z.of_nat n0) (Z.of_nat n1) diffIdx =
    (do st0 <- rfold (neuronStep c15 params nIn act0 diffIdx) (seq 0 n0) ([], Z.of_nat i);
     let '(l0, i0) := st0 in
     do st1 <- rfold (neuronStep c8 params n0 1 diffIdx) (seq 0 n1) ([], i0);
     let '(l1, i1) := st1 in
     Ok (mkNetwork l0 l1, i1)).
  Proof.
    intros. unfold buildNn, buildLayer. rewrite !Nat2Z.id.
    rewrite (rfold_eq _ _ _ (neuronStep c15 params nIn act0 diffIdx)) by (intros [ws j] x; reflexivity).
    destruct (rfold (neuronStep c15 params nIn act0 diffIdx) (seq 0 n0) ([], Z.of_nat i)) as [[l0 i0]|]; [|reflexivity].
    cbn [rbind].
    rewrite (rfold_eq _ _ _ (neuronStep c8 params n0 1 diffIdx)) by (intros [ws j] x; reflexivity).
    reflexivity.
  Qed.

  Lemma build_ok : forall c15 c8 i params nIn act0 n0 n1 diffIdx,
    i + paramCount nIn n0 n1 <= length params ->
    buildNn A c15 c8 (Z.of_nat i) params (Z.of_nat nIn) act0 (Z.of_nat n0) (Z.of_nat n1) diffIdx =
    Ok (mkNetwork (neuronsAt c15 params diffIdx act0 nIn n0 i)
                  (neuronsAt c8 params diffIdx 1 n0 n1 (i + n0 * (nIn + 1))),
        Z.of_nat (i + paramCount nIn n0 n1)).
  Proof.
    intros. unfold paramCount in *. rewrite build_unfold, layer_ok by lia. cbn [rbind].
    rewrite layer_ok by lia. cbn [rbind app]. f_equal. f_equal. lia.
  Qed.

  Lemma build_panic : forall c15 c8 i params nIn act0 n0 n1 diffIdx,
    length params < i + paramCount nIn n0 n1 -> 0 < paramCount nIn n0 n1 ->
    buildNn A c15 c8 (Z.of_nat i) params (Z.of_nat nIn) act0 (Z.of_nat n0) (Z.of_nat n1) diffIdx = Panic.
  Proof.
    intros. unfold paramCount in *. rewrite build_unfold.
    destruct (Nat.eq_dec n0 0) as [->|Hn].
    - simpl. rewrite layer_panic; [reflexivity | lia | lia].
    - destruct (Nat.lt_ge_cases (length params) (i + n0 * (nIn + 1))) as [L|L].
      + rewrite layer_panic by lia. reflexivity.
      + rewrite layer_ok by lia. cbn [rbind]. rewrite layer_panic; [reflexivity | | lia].
        destruct n1; [simpl in H; lia | lia].
  Qed.

  Lemma build_iff : forall c15 c8 i params nIn act0 n0 n1 diffIdx,
    buildNn A c15 c8 (Z.of_nat i) params (Z.of_nat nIn) act0 (Z.of_nat n0) (Z.of_nat n1) diffIdx = Panic <->
    length params < i + paramCount nIn n0 n1 /\ 0 < paramCount nIn n0 n1.
  Proof.
    intros. split.
    - intros H. destruct (Nat.eq_dec (paramCount nIn n0 n1) 0) as [E|E].
      + unfold paramCount in E.
        assert (n0 = 0) by nia. subst. assert (n1 = 0) by nia. subst.
        rewrite build_unfold in H. discriminate.
      + split; [|lia].
        destruct (Nat.lt_ge_cases (length params) (i + paramCount nIn n0 n1)) as [L|L]; [exact L|].
        rewrite build_ok in H by lia. discriminate.
    - intros [H1 H2]. apply build_panic; assumption.
  Qed.

  (* what the built neurons contain *)
  Lemma neuronsAt_length : forall boost params diffIdx act k n i,
    length (neuronsAt boost params diffIdx act k n i) = n.
  Proof. induction n; intros; simpl; [reflexivity | rewrite IHn; reflexivity]. Qed.

  Lemma map_r_combine : forall (vs ds : list F), length vs = length ds ->
    map (@ad_r F) (map (fun '(v, d) => mkAd v d) (combine vs ds)) = vs.
  Proof.
    induction vs; destruct ds; simpl; intros; try discriminate; [reflexivity|]. f_equal. auto.
  Qed.

  Lemma map_d_combine : forall (vs ds : list F), length vs = length ds ->
    map (@ad_d F) (map (fun '(v, d) => mkAd v d) (combine vs ds)) = ds.
  Proof.
    induction vs; destruct ds; simpl; intros; try discriminate; [reflexivity|]. f_equal. auto.
  Qed.

  Lemma neuronsAt_layer : forall boost params diffIdx act k n i, i + n * (k + 1) <= length params ->
    layerOf (Amul A) boost params i k act (neuronsAt boost params diffIdx act k n i).
  Proof.
    intros boost params diffIdx act k. induction n; intros i H j x Hj.
    - destruct j; discriminate.
    - destruct j; cbn [neuronsAt nth_error] in Hj.
      + injection Hj as <-. rewrite Nat.mul_0_l, Nat.add_0_r. simpl. unfold adsAt.
        assert (L : length (firstn k (skipn i params)) = length (map (markAt diffIdx) (seq i k)))
          by (rewrite firstn_length, skipn_length, map_length, seq_length; lia).
        split; [reflexivity|]. split; [apply map_r_combine; exact L|]. split.
        * rewrite map_length, combine_length, <- L, firstn_length, skipn_length. lia.
        * exists (nth (i + k) params (A0 A)). split; [apply nth_error_nth'; lia | reflexivity].
      + destruct (IHn (i + (k + 1)) ltac:(lia) j x Hj) as (H1 & H2 & H3 & b & H4 & H5).
        replace (i + S j * (k + 1)) with (i + (k + 1) + j * (k + 1)) by lia.
        split; [exact H1|]. split; [exact H2|]. split; [exact H3|]. exists b. split; assumption.
  Qed.

  Lemma neuronsAt_marks : forall boost params diffIdx act k n i, i + n * (k + 1) <= length params ->
    map (@ad_d F) (flat_map neuronAds (neuronsAt boost params diffIdx act k n i)) =
    map (markAt diffIdx) (seq i (n * (k + 1))).
  Proof.
    intros boost params diffIdx act k. induction n; intros i H; [reflexivity|].
    cbn [neuronsAt flat_map]. rewrite map_app, IHn by lia.
    replace (S n * (k + 1)) with (k + 1 + n * (k + 1)) by lia. rewrite seq_app, map_app. f_equal.
    unfold neuronAds, neuronAt, adsAt. cbn [n_weights n_bias]. rewrite map_app, map_d_combine
      by (rewrite firstn_length, skipn_length, map_length, seq_length; lia).
    rewrite seq_app, map_app. reflexivity.
  Qed.

  Lemma build_layout : forall c15 c8 i params nIn act0 n0 n1 diffIdx net i',
    buildNn A c15 c8 (Z.of_nat i) params (Z.of_nat nIn) act0 (Z.of_nat n0) (Z.of_nat n1) diffIdx = Ok (net, i') ->
    length (layer0 net) = n0 /\ length (layer1 net) = n1 /\
    layerOf (Amul A) c15 params i nIn act0 (layer0 net) /\
    layerOf (Amul A) c8 params (i + n0 * (nIn + 1)) n0 1 (layer1 net) /\
    i' = Z.of_nat (i + paramCount nIn n0 n1).
  Proof.
    intros c15 c8 i params nIn act0 n0 n1 diffIdx net i' H.
    destruct (Nat.le_gt_cases (i + paramCount nIn n0 n1) (length params)) as [L|L].
    - rewrite build_ok in H by exact L. injection H as <- <-. cbn [layer0 layer1].
      unfold paramCount in L. rewrite !neuronsAt_length.
      split; [reflexivity|]. split; [reflexivity|].
      split; [apply neuronsAt_layer; lia|]. split; [apply neuronsAt_layer; lia | reflexivity].
    - destruct (Nat.eq_dec (paramCount nIn n0 n1) 0) as [E|E].
      + pose proof E as E'. unfold paramCount in E.
        assert (n0 = 0) by nia. subst. assert (n1 = 0) by nia. subst.
        rewrite build_unfold in H. simpl in H. injection H as <- <-. simpl.
        split; [reflexivity|]. split; [reflexivity|].
        split; [intros [|j] x Hj; discriminate|]. split; [intros [|j] x Hj; discriminate|].
        f_equal. lia.
      + rewrite build_panic in H by lia. discriminate.
  Qed.

  Lemma build_marks : forall c15 c8 i params nIn act0 n0 n1 diffIdx net i',
    buildNn A c15 c8 (Z.of_nat i) params (Z.of_nat nIn) act0 (Z.of_nat n0) (Z.of_nat n1) diffIdx = Ok (net, i') ->
    map (@ad_d F) (networkAds net) = map (markAt diffIdx) (seq i (paramCount nIn n0 n1)).
  Proof.
    intros c15 c8 i params nIn act0 n0 n1 diffIdx net i' H.
    destruct (Nat.le_gt_cases (i + paramCount nIn n0 n1) (length params)) as [L|L].
    - rewrite build_ok in H by exact L. injection H as <- <-.
      unfold networkAds, paramCount in *. cbn [layer0 layer1].
      rewrite flat_map_app, map_app, !neuronsAt_marks, seq_app, map_app by lia. reflexivity.
    - destruct (Nat.eq_dec (paramCount nIn n0 n1) 0) as [E|E].
      + rewrite E. unfold paramCount in E.
        assert (n0 = 0) by nia. subst. assert (n1 = 0) by nia. subst.
        rewrite build_unfold in H. simpl in H. injection H as <- <-. reflexivity.
      + rewrite build_panic in H by lia. discriminate.
  Qed.

  (** exactly one number is marked *)
  Lemma marks_once : forall k i n, i <= k < i + n ->
    map (markAt (Some k)) (seq i n) = repeat (A0 A) (k - i) ++ A1 A :: repeat (A0 A) (i + n - k - 1).
  Proof.
    intros k i n. revert i. induction n; intros i H; [lia|].
    cbn [seq map]. destruct (Nat.eq_dec i k) as [->|Hne].
    - rewrite Nat.sub_diag. cbn [repeat app]. f_equal.
      + unfold markAt, mark. rewrite Z.eqb_refl. reflexivity.
      + replace (k + S n - k - 1) with n by lia. clear IHn H.
        assert (G : forall m j, k < j -> map (markAt (Some k)) (seq j m) = repeat (A0 A) m).
        { induction m; intros j Hj; [reflexivity|]. cbn [seq map repeat]. rewrite IHm by lia. f_equal.
          unfold markAt, mark. destruct (Z.eqb_spec (Z.of_nat k) (Z.of_nat j)); [lia | reflexivity]. }
        apply G. lia.
    - rewrite IHn by lia. replace (k - i) with (S (k - S i)) by lia. cbn [repeat app]. f_equal.
      + unfold markAt, mark. destruct (Z.eqb_spec (Z.of_nat k) (Z.of_nat i)); [lia | reflexivity].
      + f_equal. f_equal. f_equal. lia.
  Qed.

  Lemma marks_none : forall i n, map (markAt None) (seq i n) = repeat (A0 A) n.
  Proof. intros i n. revert i. induction n; intros; simpl; [reflexivity | rewrite IHn; reflexivity]. Qed.

  Lemma build_one_mark : forall c15 c8 i params nIn act0 n0 n1 k net i',
    buildNn A c15 c8 (Z.of_nat i) params (Z.of_nat nIn) act0 (Z.of_nat n0) (Z.of_nat n1) (Some k) = Ok (net, i') ->
    i <= k < i + paramCount nIn n0 n1 ->
    map (@ad_d F) (networkAds net) =
      repeat (A0 A) (k - i) ++ A1 A :: repeat (A0 A) (i + paramCount nIn n0 n1 - k - 1).
  Proof. intros. rewrite (build_marks _ _ _ _ _ _ _ _ _ _ _ H). apply marks_once. assumption. Qed.

  Lemma build_no_mark : forall c15 c8 i params nIn act0 n0 n1 net i',
    buildNn A c15 c8 (Z.of_nat i) params (Z.of_nat nIn) act0 (Z.of_nat n0) (Z.of_nat n1) None = Ok (net, i') ->
    map (@ad_d F) (networkAds net) = repeat (A0 A) (paramCount nIn n0 n1).
  Proof. intros. rewrite (build_marks _ _ _ _ _ _ _ _ _ _ _ H). apply marks_none. Qed.
End Build.

(** the marks as derivatives: over the reals, in the parameter [k] *)
Lemma replace_at_length : forall (X : Type) (l : list X) i v, length (replace_at i v l) = length l.
Proof. induction l; destruct i; simpl; intros; congruence. Qed.

Lemma replace_at_nth : forall (X : Type) (l : list X) i v j,
  nth_error (replace_at i v l) j = if Nat.eqb i j then (if Nat.ltb j (length l) then Some v else None) else nth_error l j.
Proof.
  induction l; destruct i, j; simpl; intros; try reflexivity.
  - destruct (Nat.eqb i j); reflexivity.
  - rewrite IHl. reflexivity.
Qed.

Lemma adsAt_nth : forall (F : Type) (A : arith F) params d i k q, i + k <= length params -> q < k ->
  nth_error (adsAt A params d i k) q = Some (mkAd (nth (i + q) params (A0 A)) (markAt A d (i + q))).
Proof.
  intros F A params d i k. revert i. induction k; intros i q H Hq; [lia|].
  assert (E : nth_error params i = Some (nth i params (A0 A))) by (apply nth_error_nth'; lia).
  unfold adsAt. rewrite (skipn_nth _ _ _ _ E). cbn [firstn seq map combine].
  destruct q.
  - rewrite Nat.add_0_r. reflexivity.
  - cbn [nth_error]. replace (i + S q) with (S i + q) by lia. apply IHk; lia.
Qed.

Lemma neuronsAt_nth : forall (F : Type) (A : arith F) boost params d act k n i p, p < n ->
  nth_error (neuronsAt A boost params d act k n i) p =
  Some (neuronAt A boost params d act (i + p * (k + 1)) k (nth (i + p * (k + 1) + k) params (A0 A))).
Proof.
  intros F A boost params d act k. induction n; intros i p H; [lia|].
  destruct p; cbn [neuronsAt nth_error].
  - rewrite Nat.mul_0_l, Nat.add_0_r. reflexivity.
  - rewrite IHn by lia. replace (i + (k + 1) + p * (k + 1)) with (i + S p * (k + 1)) by lia. reflexivity.
Qed.

Definition pval (params : list R) (k pos : nat) (t : R) : R :=
  nth pos (replace_at k t params) 0%R.

Lemma pval_id : forall (X : Type) (params : list X) k x, nth_error params k = Some x -> replace_at k x params = params.
Proof.
  induction params; destruct k; simpl; intros; try discriminate; [congruence|]. f_equal. auto.
Qed.

Lemma pval_carries : forall params k pos x, nth_error params k = Some x -> pos < length params ->
  carries (pval params k pos) x (mkAd (nth pos params 0%R) (markAt R_arith (Some k) pos)).
Proof.
  intros params k pos x E Hp.
  assert (V : forall t, pval params k pos t = if Nat.eqb k pos then t else nth pos params 0%R).
  { intros t. unfold pval. destruct (Nat.eqb_spec k pos) as [<-|Hne].
    - apply nth_error_nth. rewrite replace_at_nth, Nat.eqb_refl.
      destruct (Nat.ltb_spec k (length params)); [reflexivity | lia].
    - apply nth_error_nth. rewrite replace_at_nth. apply Nat.eqb_neq in Hne. rewrite Hne.
      apply nth_error_nth'. exact Hp. }
  eapply carries_ext; [intros t; symmetry; apply V|].
  unfold markAt, mark. destruct (Nat.eqb_spec k pos) as [<-|Hne].
  - rewrite Z.eqb_refl, (nth_error_nth _ _ _ E). apply carries_var.
  - destruct (Z.eqb_spec (Z.of_nat k) (Z.of_nat pos)); [lia|]. apply carries_const.
Qed.

(** the parameter [k] as a variable, all others fixed *)
Section Vary.
  Context (params : list R) (i nIn n0 n1 k : nat) (act0 : Z) (x : R) (net : R -> network R) (i' : Z).
  Context (Ek : nth_error params k = Some x).
  Context (Hnet : forall t, buildNnR (Z.of_nat i) (replace_at k t params) (Z.of_nat nIn) act0
                       (Z.of_nat n0) (Z.of_nat n1) (Some k) = Ok (net t, i')).

  Lemma vary_count : (i + paramCount nIn n0 n1 <= length params) \/ paramCount nIn n0 n1 = 0.
  Proof.
    destruct (Nat.le_gt_cases (i + paramCount nIn n0 n1) (length params)) as [L|L]; [auto|].
    destruct (Nat.eq_dec (paramCount nIn n0 n1) 0) as [E|E]; [auto|].
    exfalso. specialize (Hnet x). unfold buildNnR in Hnet. rewrite build_panic in Hnet; [discriminate | | lia].
    rewrite replace_at_length. exact L.
  Qed.

  Lemma vary_net : i + paramCount nIn n0 n1 <= length params -> forall t,
    net t = mkNetwork (neuronsAt R_arith 15%R (replace_at k t params) (Some k) act0 nIn n0 i)
                      (neuronsAt R_arith 8%R (replace_at k t params) (Some k) 1 n0 n1 (i + n0 * (nIn + 1))).
  Proof.
    intros L t. pose proof (Hnet t) as H. unfold buildNnR in H. rewrite build_ok in H
      by (rewrite replace_at_length; exact L). congruence.
  Qed.

  Lemma vary_layer : forall boost act start w n p q nn a,
    start + n * (w + 1) <= length params ->
    nth_error (neuronsAt R_arith boost params (Some k) act w n start) p = Some nn ->
    nth_error (neuronAds nn) q = Some a ->
    exists pos, pos < length params /\
    (forall t, exists nn' a',
       nth_error (neuronsAt R_arith boost (replace_at k t params) (Some k) act w n start) p = Some nn' /\
       nth_error (neuronAds nn') q = Some a' /\
       ad_r a' = (if Nat.eqb q w then pval params k pos t * boost else pval params k pos t)%R) /\
    (if Nat.eqb q w then q = length (n_weights nn) else q < length (n_weights nn)) /\
    carries (pval params k pos) x (mkAd (nth pos params 0%R) (ad_d a)).
  Proof.
    intros boost act start w n p q nn a L Hn Ha.
    assert (Hp : p < n).
    { rewrite <- (neuronsAt_length R_arith boost params (Some k) act w n start).
      apply nth_error_Some. congruence. }
    rewrite neuronsAt_nth in Hn by exact Hp.
    match type of Hn with Some ?v = _ => assert (Enn : v = nn) by congruence end. subst nn. clear Hn.
    assert (B : start + p * (w + 1) + w < length params) by nia.
    set (s := start + p * (w + 1)) in *.
    assert (La : forall ps, s + w <= length ps -> length (adsAt R_arith ps (Some k) s w) = w).
    { intros ps H. unfold adsAt. rewrite map_length, combine_length, firstn_length, skipn_length, map_length, seq_length. lia. }
    assert (Hq : q <= w).
    { assert (q < length (neuronAds (neuronAt R_arith boost params (Some k) act s w (nth (s + w) params (A0 R_arith)))))
        by (apply nth_error_Some; intros C; rewrite C in Ha; discriminate).
      unfold neuronAds, neuronAt in H. cbn [n_weights n_bias] in H. rewrite app_length, La in H by lia. simpl in H. lia. }
    exists (s + q). split; [lia|]. split; [|split].
    - intros t. pose proof (replace_at_length _ params k t) as Lr.
      assert (Lr' : s + w <= length (replace_at k t params)) by lia.
      rewrite neuronsAt_nth by exact Hp. fold s.
      unfold neuronAds, neuronAt. cbn [n_weights n_bias].
      destruct (Nat.eqb_spec q w) as [->|Hne].
      + eexists. eexists. split; [reflexivity|]. cbn [n_weights n_bias]. rewrite nth_error_app2 by (rewrite La by lia; lia).
        rewrite La by lia. rewrite Nat.sub_diag. split; [reflexivity|]. reflexivity.
      + eexists. eexists. split; [reflexivity|]. cbn [n_weights n_bias]. rewrite nth_error_app1 by (rewrite La by lia; lia).
        rewrite adsAt_nth by lia. split; reflexivity.
    - unfold neuronAt; cbn [n_weights]. rewrite La by lia.
      destruct (Nat.eqb_spec q w); lia.
    - unfold neuronAds, neuronAt in Ha. cbn [n_weights n_bias] in Ha.
      destruct (Nat.eq_dec q w) as [->|Hne].
      + rewrite nth_error_app2, La, Nat.sub_diag in Ha by (rewrite ?La by lia; lia).
        injection Ha as <-. apply pval_carries; [exact Ek | lia].
      + rewrite nth_error_app1 in Ha by (rewrite La by lia; lia). rewrite adsAt_nth in Ha by lia.
        injection Ha as <-. apply pval_carries; [exact Ek | lia].
  Qed.

  Definition varies (layer : network R -> list (neuron R)) (boost : R) : Prop :=
    forall p q nn a, nth_error (layer (net x)) p = Some nn -> nth_error (neuronAds nn) q = Some a ->
    exists u,
      (forall t, exists nn' a', nth_error (layer (net t)) p = Some nn' /\
                                nth_error (neuronAds nn') q = Some a' /\ ad_r a' = u t) /\
      (q < length (n_weights nn) -> carries u x a) /\
      (q = length (n_weights nn) -> ad_r a = u x /\ derivable_pt_lim u x (boost * ad_d a)%R).

  Lemma vary_gen : forall (layer : network R -> list (neuron R)) boost act w n start,
    start + n * (w + 1) <= length params ->
    (forall t, layer (net t) = neuronsAt R_arith boost (replace_at k t params) (Some k) act w n start) ->
    varies layer boost.
  Proof.
    intros layer boost act w n start L El p q nn a Hn Ha.
    rewrite El, (pval_id _ _ _ _ Ek) in Hn.
    destruct (vary_layer boost act start w n p q nn a L Hn Ha) as (pos & Hpos & Hall & Hq & C).
    exists (fun t => if Nat.eqb q w then pval params k pos t * boost else pval params k pos t)%R.
    split; [intros t; rewrite El; apply Hall|].
    destruct (Hall x) as (nn' & a' & E1 & E2 & E3). rewrite (pval_id _ _ _ _ Ek), Hn in E1.
    injection E1 as <-. rewrite Ha in E2. injection E2 as <-.
    split; intros Hl.
    - destruct (Nat.eqb q w); [lia|]. split; [exact E3|]. destruct C as [_ C]. exact C.
    - destruct (Nat.eqb q w); [|lia]. split; [exact E3|].
      destruct C as [_ C]. cbn [ad_d] in C.
      pose proof (derivable_pt_lim_scal _ boost _ _ C) as D.
      eapply dlim_ext; [|exact D]. intros t. unfold mult_real_fct. ring.
  Qed.

  Lemma vary_both : varies (@layer0 R) 15%R /\ varies (@layer1 R) 8%R.
  Proof.
    destruct vary_count as [L|E].
    - pose proof (vary_net L) as V. unfold paramCount in L. split.
      + apply (vary_gen _ _ act0 nIn n0 i); [lia|]. intros t. rewrite V. reflexivity.
      + apply (vary_gen _ _ 1%Z n0 n1 (i + n0 * (nIn + 1))); [lia|]. intros t. rewrite V. reflexivity.
    - unfold paramCount in E. assert (n0 = 0) by nia. assert (n1 = 0) by nia.
      assert (V : layer0 (net x) = [] /\ layer1 (net x) = []).
      { destruct (build_layout _ _ _ _ _ _ _ _ _ _ _ _ (Hnet x)) as (H1 & H2 & _).
        subst. split; [destruct (layer0 (net x)) | destruct (layer1 (net x))]; try reflexivity; discriminate. }
      destruct V as [V0 V1]. split; intros p q nn a Hn; rewrite ?V0, ?V1 in Hn; destruct p; discriminate.
  Qed.
End Vary.

(** a marked bias has the wrong derivative, in either layer *)
Lemma bias_wrong : forall u x (boost d : R), boost <> 1%R -> d <> 0%R ->
  derivable_pt_lim u x (boost * d)%R -> ~ derivable_pt_lim u x d.
Proof.
  intros u x boost d Hb Hd H C. pose proof (uniqueness_limite _ _ _ _ H C) as E.
  apply Hb. apply (Rmult_eq_reg_r d); [lra | exact Hd].
Qed.
