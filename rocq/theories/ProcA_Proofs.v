(** Lemmas about the procedural reasoner: terms, intervals, trace, perception. *)
From Coq Require Import String ZArith Bool Lia List Sorted Permutation.
From Verif Require Import Base F64_Model Sort_Proofs Term_Model Term_Spec Term_Proofs Stamp_Model Tv_Model Sentence_Model Mem_Model PMem_Model Goal_Model Goal_Spec Proc_Model Proc_Spec.
Import ListNotations.
Local Open Scope list_scope.
Local Open Scope Z_scope.

(** * Operations *)
Lemma decodeOp_some : forall t args name, decodeOp t = Some (args, name) <-> opCall t args name.
Proof.
  intros t args name. unfold opCall, decodeOp. split.
  - destruct t as [c s p|n|l|l|l|n|n|n|l|l|r i l|l|l|l|x]; try discriminate.
    destruct c; try discriminate. destruct p as [c' s' p'|n|l|l|l|n|n|n|l|l|r i l|l|l|l|x]; try discriminate.
    destruct s as [c' s' p'|n'|l|l|l|n'|n'|n'|l|l|r i l|l|l|l|x]; try discriminate.
    destruct l as [|a l]; try discriminate. destruct a as [c' s' p'|n'|l'|l'|l'|n'|n'|n'|l'|l'|r i l'|l'|l'|l'|x]; try discriminate.
    destruct l as [|b l]; try discriminate. destruct l' as [|a l']; try discriminate. cbn [Nat.leb length].
    intros H. assert (E : map term_clone (a :: l') = args /\ n = name) by (split; congruence). destruct E as (<- & <-).
    rewrite map_ext with (g := fun x => x) by apply term_clone_id. rewrite map_id. split; [discriminate|reflexivity].
  - intros (Ha & ->). destruct args as [|a args]; [easy|]. cbn [Nat.leb length].
    rewrite map_ext with (g := fun x => x) by apply term_clone_id. now rewrite map_id.
Qed.
Lemma decodeOp_op : forall t, decodeOp t <> None <-> exists args name, opCall t args name.
Proof.
  intros t. split.
  - intros H. destruct (decodeOp t) as [[a n]|] eqn:E; [|easy]. exists a, n. now apply decodeOp_some.
  - intros (a & n & H). apply decodeOp_some in H. congruence.
Qed.
Lemma callable_iff : forall ops t, checkIsCallableOp ops t = true <-> callable ops t.
Proof.
  intros ops t. unfold checkIsCallableOp, callable. destruct (decodeOp t) as [[a n]|] eqn:E.
  - apply decodeOp_some in E. rewrite existsb_exists. split.
    + intros (o & Ho & Hn). apply String.eqb_eq in Hn. exists a, n, o. auto.
    + intros (a' & n' & o & (_ & Ht) & Ho & Hn). exists o. split; auto. apply String.eqb_eq. destruct E as (_ & E). congruence.
  - split; [discriminate|]. intros (a & n & o & H & _). apply decodeOp_some in H. congruence.
Qed.
Lemma callable_false : forall ops t, checkIsCallableOp ops t = false <-> ~ callable ops t.
Proof. intros. rewrite <- callable_iff. destruct (checkIsCallableOp ops t); split; intros; try easy; congruence. Qed.
Lemma ret_op_some : forall ops name o, ret_op_by_name ops name = Some o <-> firstNamed ops name o.
Proof.
  intros ops name o. unfold ret_op_by_name, firstNamed. induction ops as [|x ops IH]; simpl.
  - split; [discriminate|]. intros ([|? ?] & post & H & _); discriminate.
  - destruct (String.eqb_spec (op_name x) name) as [E|E].
    + split.
      * intros H. assert (x = o) by congruence. subst. exists [], ops. split; [reflexivity|]. split; [auto|]. now intros y [].
      * intros ([|y pre] & post & H & Hn & Hp); simpl in H; [congruence|]. exfalso. apply (Hp y); [now left|]. congruence.
    + rewrite IH. split.
      * intros (pre & post & -> & Hn & Hp). exists (x :: pre), post. split; auto. split; auto. intros y [<-|Hy]; auto.
      * intros ([|y pre] & post & H & Hn & Hp); simpl in H.
        -- exfalso. apply E. congruence.
        -- exists pre, post. split; [congruence|]. split; auto. intros z Hz. apply Hp. now right.
Qed.
Lemma ret_op_none : forall ops name, ret_op_by_name ops name = None <-> forall o, In o ops -> op_name o <> name.
Proof.
  intros ops name. unfold ret_op_by_name. split.
  - intros H o Ho E. apply find_none with (x := o) in H; auto. apply String.eqb_neq in H. auto.
  - intros H. destruct (find _ ops) as [o|] eqn:E; auto. apply find_some in E. destruct E as (Ho & E). apply String.eqb_eq in E. now apply H in E.
Qed.
Lemma callable_named : forall ops t, callable ops t -> exists args name o, opCall t args name /\ firstNamed ops name o.
Proof.
  intros ops t (a & n & o & H & Ho & Hn). exists a, n. destruct (ret_op_by_name ops n) as [o'|] eqn:E.
  - exists o'. split; auto. now apply ret_op_some.
  - rewrite ret_op_none in E. now apply E in Ho.
Qed.
Lemma opCall_inj : forall t a n a' n', opCall t a n -> opCall t a' n' -> a = a' /\ n = n'.
Proof. intros t a n a' n' (_ & ->) (_ & H). split; congruence. Qed.

(** * Decomposition of an implication *)
Lemma decompose : forall c o rest e, let t := Stmt PREDIMPL (Seq (c :: o :: rest)) e in
  retSeqCond t = Ok c /\ retImplSeqOp t = Ok o /\ retPred t = Ok e /\ retSubj t = Ok (Seq (c :: o :: rest)) /\ retSeqCond2 (Seq (c :: o :: rest)) = Ok c.
Proof. intros. unfold retSeqCond, retImplSeqOp, retPred, retSubj, retSeqCond2, t. rewrite !term_clone_id. repeat split; reflexivity. Qed.
Lemma recompose : forall t c o e, retSeqCond t = Ok c -> retImplSeqOp t = Ok o -> retPred t = Ok e ->
  exists rest, t = Stmt PREDIMPL (Seq (c :: o :: rest)) e.
Proof.
  intros t c o e. unfold retSeqCond, retImplSeqOp, retPred. destruct t as [cp s p|n|l|l|l|n|n|n|l|l|r i l|l|l|l|x]; try discriminate.
  destruct cp; try discriminate. destruct s as [c' s' p'|n'|l|l|l|n'|n'|n'|l|l|r i l|l|l|l|x]; try discriminate.
  destruct l as [|a [|b l]]; try discriminate. unfold idx. cbn [nth_error unwrap]. rewrite term_clone_id. intros A B C. exists l. congruence.
Qed.
Lemma retPred_ok : forall t p, retPred t = Ok p <-> exists s, t = Stmt PREDIMPL s p.
Proof.
  intros t p. unfold retPred. split.
  - destruct t as [cp s q|n|l|l|l|n|n|n|l|l|r i l|l|l|l|x]; try discriminate. destruct cp; try discriminate. rewrite term_clone_id. intros H. exists s. congruence.
  - intros (s & ->). now rewrite term_clone_id.
Qed.
Lemma retSeqCond_ok : forall t c, retSeqCond t = Ok c <-> exists rest e, t = Stmt PREDIMPL (Seq (c :: rest)) e.
Proof.
  intros t c. unfold retSeqCond. split.
  - destruct t as [cp s q|n|l|l|l|n|n|n|l|l|r i l|l|l|l|x]; try discriminate. destruct cp; try discriminate.
    destruct s as [c' s' p'|n'|l|l|l|n'|n'|n'|l|l|r i l|l|l|l|x]; try discriminate. destruct l as [|a l]; try discriminate.
    unfold idx. cbn [nth_error unwrap]. intros H. exists l, q. congruence.
  - intros (rest & e & ->). reflexivity.
Qed.
Lemma seqLast_ok : forall pre x, retSeqLast (Seq (pre ++ [x])) = Ok x.
Proof.
  intros pre x. unfold retSeqLast. destruct (pre ++ [x]) as [|y l] eqn:E; [now destruct pre|]. rewrite <- E.
  unfold idx. rewrite app_length. simpl. replace (length pre + 1 - 1)%nat with (length pre) by lia. rewrite nth_error_app2 by lia.
  now rewrite Nat.sub_diag.
Qed.

(** * Intervals *)
Lemma findFrom_spec : forall v rest i, 
  match findFrom v i rest with
  | Some r => exists pre x post, rest = pre ++ x :: post /\ (forall y, In y pre -> y <= v) /\ v < x /\ r = Z.of_nat (i + length pre) - 1
  | None => forall y, In y rest -> y <= v
  end.
Proof.
  intros v rest. induction rest as [|x rest IH]; intros i; simpl; [easy|].
  destruct (Z.gtb_spec x v).
  - exists [], x, rest. split; auto. split; [now intros y []|]. split; auto. rewrite Nat.add_0_r. reflexivity.
  - specialize (IH (S i)). destruct (findFrom v (S i) rest) as [r|].
    + destruct IH as (pre & y & post & -> & A & B & ->). exists (x :: pre), y, post. split; auto. split; [|split; auto].
      * intros z [<-|Hz]; auto. 
      * simpl. f_equal. f_equal. lia.
    + intros y [<-|Hy]; auto.
Qed.
Lemma find_range : forall v tab, tab <> [] -> 0 <= findMinTableIdx v tab < Z.of_nat (length tab).
Proof.
  intros v tab H. unfold findMinTableIdx. pose proof (findFrom_spec v (skipn 1 tab) 1) as S. destruct (findFrom v 1 (skipn 1 tab)) as [r|].
  - destruct S as (pre & x & post & E & _ & _ & ->). destruct tab as [|y tab]; [easy|]. simpl in E. subst. cbn [length].
    rewrite app_length. cbn [length]. lia.
  - destruct tab; [easy|]. simpl. lia.
Qed.
Lemma sorted_nth : forall l i j x y, StronglySorted Z.lt l -> nth_error l i = Some x -> nth_error l j = Some y -> (i < j)%nat -> x < y.
Proof.
  induction l as [|a l IH]; intros i j x y S Hi Hj L; [now destruct i|]. apply StronglySorted_inv in S. destruct S as (S & F).
  destruct j; [lia|]. simpl in Hj. destruct i; simpl in Hi.
  - assert (a = x) by congruence. subst. rewrite Forall_forall in F. apply F. eapply nth_error_In; eauto.
  - apply (IH i j); auto. lia.
Qed.
Theorem find_quantised : forall v tab, StronglySorted Z.lt tab -> tab <> [] -> quantised v tab (findMinTableIdx v tab).
Proof.
  intros v tab Hs H. split; [now apply find_range|]. unfold findMinTableIdx. pose proof (findFrom_spec v (skipn 1 tab) 1) as P.
  destruct tab as [|y tab]; [easy|]. change (skipn 1 (y :: tab)) with tab in *. destruct (findFrom v 1 tab) as [r|].
  - destruct P as (pre & x & post & E & A & B & ->). split.
    + destruct pre as [|z pre] using rev_ind; [left; simpl; lia|]. right. exists z. split.
      * rewrite app_length. simpl. replace (Z.to_nat _) with (S (length pre)) by lia. subst. simpl. rewrite <- app_assoc. rewrite nth_error_app2 by lia.
        now rewrite Nat.sub_diag.
      * apply A. apply in_app_iff. right. now left.
    + intros j w Hj Hw. destruct (Z_le_gt_dec (Z.of_nat j) (Z.of_nat (1 + length pre) - 1)); auto. exfalso.
      assert (X : nth_error (y :: tab) (S (length pre)) = Some x). { subst. simpl. rewrite nth_error_app2 by lia. now rewrite Nat.sub_diag. }
      destruct (Nat.eq_dec j (S (length pre))) as [->|N]; [assert (w = x) by congruence; lia|].
      pose proof (sorted_nth _ _ _ _ _ Hs X Hj ltac:(lia)). lia.
  - split.
    + destruct tab as [|z tab] using rev_ind; [left; reflexivity|]. right. exists z. split.
      * simpl length. rewrite app_length. simpl. replace (Z.to_nat _) with (S (length tab)) by lia. simpl. rewrite nth_error_app2 by lia. now rewrite Nat.sub_diag.
      * apply P. apply in_app_iff. right. now left.
    + intros j x Hj _. assert (nth_error (y :: tab) j <> None) by congruence. apply nth_error_Some in H0. lia.
Qed.
Lemma quantised_unique : forall v tab a b, quantised v tab a -> quantised v tab b -> a = b.
Proof.
  intros v tab a b (Ra & Ha & Ma) (Rb & Hb & Mb).
  assert (forall r r', 0 <= r -> (r = 0 \/ exists x, nth_error tab (Z.to_nat r) = Some x /\ x <= v) ->
    0 <= r' -> (forall j x, nth_error tab j = Some x -> x <= v -> Z.of_nat j <= r') -> r <= r') as G.
  { intros r r' R [->|(x & Hx & L)] R' M; auto. apply M in Hx; auto. lia. }
  pose proof (G a b ltac:(lia) Ha ltac:(lia) Mb). pose proof (G b a ltac:(lia) Hb ltac:(lia) Ma). lia.
Qed.
Lemma quantised_mono : forall v w tab a b, v <= w -> quantised v tab a -> quantised w tab b -> a <= b.
Proof.
  intros v w tab a b L (Ra & Ha & Ma) (Rb & Hb & Mb). destruct Ha as [->|(x & Hx & Lx)]; [lia|].
  apply Mb in Hx; lia.
Qed.
Lemma build_gt : forall fuel pw max i last x, In x (buildTable fuel pw max i last) -> last < x <= max.
Proof.
  induction fuel as [|f IH]; intros pw max i last x H; simpl in H; [easy|].
  destruct (Z.gtb_spec (pw i) max); [easy|]. destruct (Z.gtb_spec (pw i) last).
  - destruct H as [<-|H]; [lia|]. apply IH in H. lia.
  - now apply IH in H.
Qed.
Theorem build_sorted : forall fuel pw max i last, StronglySorted Z.lt (buildTable fuel pw max i last).
Proof.
  induction fuel as [|f IH]; intros pw max i last; simpl; [constructor|].
  destruct (pw i >? max); [constructor|]. destruct (Z.gtb_spec (pw i) last); [|apply IH].
  constructor; [apply IH|]. apply Forall_forall. intros x Hx. apply build_gt in Hx. lia.
Qed.
(** more fuel does not change a table that is finished *)
Lemma build_fuel : forall fuel pw max i last k, (k <= fuel)%nat -> pw (i + k)%nat > max ->
  forall fuel', (k <= fuel')%nat -> buildTable (S fuel) pw max i last = buildTable (S fuel') pw max i last.
Proof.
  intros fuel pw max i last k. revert fuel i last. induction k as [|k IH]; intros fuel i last Hk Hp fuel' Hf.
  - rewrite Nat.add_0_r in Hp. simpl. destruct (Z.gtb_spec (pw i) max) as [G|G]; [reflexivity|lia].
  - destruct fuel as [|f]; [lia|]. destruct fuel' as [|f']; [lia|].
    assert (Q : forall l, buildTable (S f) pw max (S i) l = buildTable (S f') pw max (S i) l).
    { intros l. apply IH; try lia. now replace (S i + k)%nat with (i + S k)%nat by lia. }
    cbn [buildTable] in *. destruct (pw i >? max); [reflexivity|]. destruct (pw i >? last); [f_equal|]; apply Q.
Qed.
