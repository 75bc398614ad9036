(** Proofs about the goal system. *)
From Coq Require Import String ZArith Bool Lia List Permutation.
From Verif Require Import Base F64_Model Term_Model Term_Spec Term_Proofs Unify_Model Stamp_Model Stamp_Proofs Tv_Model Sentence_Model Sort_Proofs Mem_Model Mem_Spec Mem_Proofs PMem_Model PMem_Proofs Goal_Model Goal_Spec.
Import ListNotations.
Local Open Scope Z_scope.

(** * Lists *)
Lemma replace_at_length : forall A i (v : A) l, length (replace_at i v l) = length l.
Proof. induction i; intros v [|x l]; simpl; auto. Qed.
Lemma nth_error_replace : forall A i j (v : A) l, nth_error (replace_at i v l) j =
  if Nat.eqb i j then (if Nat.ltb j (length l) then Some v else None) else nth_error l j.
Proof.
  intros A i j v l. revert i j. induction l as [|x l IH]; intros [|i] [|j]; simpl; auto.
  - destruct (Nat.eqb i j); reflexivity.
  - rewrite IH. reflexivity.
Qed.
Lemma replace_split : forall A i (v x : A) l, nth_error l i = Some x ->
  exists a b, l = a ++ x :: b /\ length a = i /\ replace_at i v l = a ++ v :: b.
Proof.
  intros A i v x l. revert i. induction l as [|y l IH]; intros [|i] H; simpl in *; try discriminate.
  - injection H as ->. exists [], l. auto.
  - destruct (IH i H) as (a & b & E1 & E2 & E3). exists (y :: a), b. simpl. rewrite E3. subst. auto.
Qed.
Lemma remove_at_in : forall A i (l : list A) x, In x (remove_at i l) -> In x l.
Proof. induction i; intros [|y l] x; simpl; auto. intros [->|H]; auto. Qed.
Lemma remove_at_pairs : forall A (R : A -> A -> Prop) i l, ForallOrdPairs R l -> ForallOrdPairs R (remove_at i l).
Proof.
  induction i; intros [|y l] H; simpl; auto; inversion H; subst; auto.
  constructor; auto. rewrite Forall_forall in *. intros z Hz. apply H2. eapply remove_at_in; eauto.
Qed.
Lemma map_pairs : forall A B (R : A -> A -> Prop) (R' : B -> B -> Prop) (f : A -> B), (forall a b, R a b -> R' (f a) (f b)) ->
  forall l, ForallOrdPairs R l -> ForallOrdPairs R' (map f l).
Proof.
  intros A B R R' f H l. induction 1; simpl; constructor; auto. rewrite Forall_forall in *. intros x Hx.
  apply in_map_iff in Hx. destruct Hx as (y & <- & Hy). auto.
Qed.
Lemma rfold_ind : forall A S (f : S -> A -> res S) (P : S -> Prop) l s s',
  (forall s a s', P s -> In a l -> f s a = Ok s' -> P s') -> P s -> rfold f l s = Ok s' -> P s'.
Proof.
  intros A S f P l. induction l as [|a l IH]; simpl; intros s s' H Hs E.
  - now injection E as <-.
  - destruct (f s a) as [s1|] eqn:E1; simpl in E; [|discriminate]. apply (IH s1); auto.
    + intros x b x' Hx Hb. apply H; auto.
    + apply (H s a); auto.
Qed.
Lemma rfold_app : forall A S (f : S -> A -> res S) l1 l2 s, rfold f (l1 ++ l2) s = do s' <- rfold f l1 s; rfold f l2 s'.
Proof. intros A S f l1. induction l1 as [|a l1 IH]; intros; simpl; auto. destruct (f s a); simpl; auto. Qed.

(** * Operator terms *)
Lemma decodeOp_iff : forall t, (exists r, decodeOp t = Some r) <-> opTerm t.
Proof.
  intros t. split.
  - intros (r & H). unfold decodeOp in H. destruct t; try discriminate. destruct c; try discriminate.
    destruct t2; try discriminate. destruct t1; try discriminate. destruct l as [|[] [|? ?]]; try discriminate.
    destruct l; try discriminate. eexists _, _. split; [|reflexivity]. discriminate.
  - intros (args & name & H & ->). destruct args; [easy|]. eexists. reflexivity.
Qed.
Lemma decodeOp_none : forall t, decodeOp t = None <-> ~ opTerm t.
Proof.
  intros t. rewrite <- decodeOp_iff. destruct (decodeOp t); split; try discriminate; auto; intros H.
  - exfalso. eauto.
  - intros (r & E). discriminate.
Qed.

(** * Adding to the groups *)
Lemma lastEntry_ok : forall l e, lastEntry l = Ok e <-> exists l', l = l' ++ [e].
Proof.
  intros l e. unfold lastEntry. split.
  - intros H. destruct (nth_error l (length l - 1)) as [x|] eqn:E; [|discriminate]. injection H as ->.
    destruct l as [|y l] using rev_ind; [discriminate|]. exists l. rewrite app_length in E. simpl in E.
    replace (length l + 1 - 1)%nat with (length l) in E by lia. rewrite nth_error_app2 in E by lia.
    rewrite Nat.sub_diag in E. simpl in E. congruence.
  - intros (l' & ->). rewrite app_length. simpl. replace (length l' + 1 - 1)%nat with (length l') by lia.
    rewrite nth_error_app2 by lia. now rewrite Nat.sub_diag.
Qed.
Lemma lastEntry_total : forall l, l <> [] -> exists e, lastEntry l = Ok e.
Proof.
  intros l H. destruct (exists_last H) as (l' & e & ->). exists e. apply lastEntry_ok. eauto.
Qed.

Lemma addToGroups_ok : forall e gs r, addToGroups e gs = Ok r ->
  match r with
  | None => ~ In (e_term e) (map fst gs)
  | Some gs' => exists pre es post l, gs = pre ++ (e_term e, es) :: post /\ ~ In (e_term e) (map fst pre) /\
      lastEntry es = Ok l /\
      gs' = pre ++ (e_term e, es ++ [setAcc e (fadd (e_acc l) (fmax (e_des l) f0))]) :: post
  end.
Proof.
  intros e gs. induction gs as [|[t es] gs IH]; intros r H; simpl in H.
  - injection H as <-. simpl. tauto.
  - destruct (checkEqTerm t (s_term (e_sentence e))) eqn:E.
    + apply checkEqTerm_eq in E. destruct (lastEntry es) as [l|] eqn:E2; simpl in H; [|discriminate].
      injection H as <-. exists [], es, gs, l. unfold e_term. subst t. simpl. tauto.
    + destruct (addToGroups e gs) as [r'|]; simpl in H; [|discriminate]. specialize (IH r' eq_refl).
      assert (N : t <> e_term e) by (intros ->; unfold e_term in E; rewrite checkEqTerm_refl in E; discriminate).
      destruct r' as [gs'|]; injection H as <-.
      * destruct IH as (pre & es' & post & l & -> & H1 & H2 & ->). exists ((t, es) :: pre), es', post, l. simpl.
        split; auto. split; auto. intros [H|H]; auto.
      * simpl. intros [H|H]; auto.
Qed.
Lemma addToGroups_total : forall e gs, (forall gr, In gr gs -> snd gr <> []) -> exists r, addToGroups e gs = Ok r.
Proof.
  intros e gs. induction gs as [|[t es] gs IH]; intros H; simpl; [eauto|].
  destruct (checkEqTerm t _).
  - destruct (lastEntry_total es) as (l & ->); [apply (H (t, es)); now left|]. simpl. eauto.
  - destruct IH as (r & ->); [intros; apply H; now right|]. simpl. eauto.
Qed.

(** * What adding an entry does *)
Lemma batches_entries : forall g, retEntries g = flat_map (fun b => flat_map snd b) (g_batches g) ++ g_active g.
Proof. reflexivity. Qed.

Lemma idxZ_ok : forall A (l : list A) z x, idxZ l z = Ok x <-> 0 <= z /\ nth_error l (Z.to_nat z) = Some x.
Proof.
  intros. unfold idxZ, idx. destruct (Z.ltb_spec z 0).
  - split; [discriminate|lia].
  - destruct (nth_error l (Z.to_nat z)); simpl; split; try discriminate; intros; try (split; [lia|congruence]); destruct H0; congruence.
Qed.

Inductive addedAs (g : gsys) (e : entry) (g' : gsys) : Prop :=
| aa_dupop : opTerm (e_term e) -> (exists x, In x (g_active g) /\ sameGoal x e) -> g' = g -> addedAs g e g'
| aa_op : opTerm (e_term e) -> (forall x, In x (g_active g) -> ~ sameGoal x e) ->
    g' = setActive g (g_active g ++ [e]) -> addedAs g e g'
| aa_group : forall i a b pre es post l, ~ opTerm (e_term e) -> 0 <= i -> i = Z.min (e_depth e) (g_maxDepth g - 1) ->
    length a = Z.to_nat i ->
    g_batches g = a ++ (pre ++ (e_term e, es) :: post) :: b -> ~ In (e_term e) (map fst pre) -> lastEntry es = Ok l ->
    g' = setBatches g (a ++ (pre ++ (e_term e, es ++ [setAcc e (fadd (e_acc l) (fmax (e_des l) f0))]) :: post) :: b) ->
    addedAs g e g'
| aa_new : forall i a b batch, ~ opTerm (e_term e) -> 0 <= i -> i = Z.min (e_depth e) (g_maxDepth g - 1) ->
    length a = Z.to_nat i -> g_batches g = a ++ batch :: b -> ~ In (e_term e) (map fst batch) ->
    g' = setByTerm (setBatches g (a ++ (batch ++ [(e_term e, [e])]) :: b)) (indexEntry (e_sentence e) (g_byTerm g)) ->
    addedAs g e g'.

Lemma contains_iff : forall l s, checkSetContains l s = true <-> exists x, In x l /\ e_term x = s_term s /\ e_stamp x = s_stamp s.
Proof.
  intros. unfold checkSetContains. rewrite existsb_exists. split; intros (x & H & H2); exists x; split; auto.
  - apply andb_true_iff in H2. now rewrite checkEqTerm_eq, checkSame_iff in H2.
  - apply andb_true_iff. now rewrite checkEqTerm_eq, checkSame_iff.
Qed.

Lemma addEntry2_as : forall g e g', addEntry2 g e = Ok g' -> addedAs g e g'.
Proof.
  intros g e g' H. unfold addEntry2 in H. destruct (decodeOp (s_term (e_sentence e))) eqn:D.
  - assert (O : opTerm (e_term e)) by (apply decodeOp_iff; eauto).
    destruct (checkSetContains (g_active g) (e_sentence e)) eqn:C; injection H as <-.
    + apply aa_dupop; auto. apply contains_iff in C. destruct C as (x & H1 & H2). exists x. split; auto.
    + apply aa_op; auto. intros x Hx Hs. assert (T : checkSetContains (g_active g) (e_sentence e) = true).
      { apply contains_iff. exists x. split; auto. }
      congruence.
  - apply decodeOp_none in D. set (i := Z.min (e_depth e) (g_maxDepth g - 1)) in *.
    destruct (idxZ (g_batches g) i) as [batch|] eqn:E1; simpl in H; [|discriminate].
    apply idxZ_ok in E1. destruct E1 as (Hi & E1).
    destruct (addToGroups e batch) as [r|] eqn:E2; simpl in H; [|discriminate]. apply addToGroups_ok in E2.
    destruct r as [gs'|]; injection H as <-.
    + destruct E2 as (pre & es & post & l & -> & P1 & P2 & ->).
      destruct (replace_split _ _ (pre ++ (e_term e, es ++ [setAcc e (fadd (e_acc l) (fmax (e_des l) f0))]) :: post) _ _ E1) as (a & b & E0 & L & R).
      eapply (aa_group g e _ i a b); eauto. exact (f_equal (setBatches g) R).
    + rewrite term_clone_id. destruct (replace_split _ _ (batch ++ [(e_term e, [e])]) _ _ E1) as (a & b & E0 & L & R).
      eapply (aa_new g e _ i a b batch); eauto. unfold e_term in R |- *.
      exact (f_equal (fun x => setByTerm (setBatches g x) (indexEntry (e_sentence e) (g_byTerm g))) R).
Qed.

Lemma perm_push : forall A (x : A) l m m', Permutation (x :: m) m' -> Permutation (x :: l ++ m) (l ++ m').
Proof. intros A x l m m' H. rewrite <- H. apply Permutation_middle. Qed.

(** the entries after an addition *)
Lemma added_entries : forall g e g', addEntry2 g e = Ok g' ->
  (retEntries g' = retEntries g /\ exists x, In x (retEntries g) /\ sameGoal x e) \/
  exists acc, Permutation (retEntries g') (setAcc e acc :: retEntries g).
Proof.
  intros g e g' H. apply addEntry2_as in H. destruct H.
  - left. subst. split; auto. destruct H0 as (x & H1 & H2). exists x. split; auto. apply in_app_iff. auto.
  - right. exists (e_acc e). subst. unfold retEntries. simpl. rewrite app_assoc. destruct e. apply Permutation_sym, Permutation_cons_append.
  - right. exists (fadd (e_acc l) (fmax (e_des l) f0)). subst. unfold retEntries. simpl. rewrite H3, !flat_map_app. simpl. rewrite !flat_map_app. simpl.
    repeat (rewrite <- app_assoc; simpl). apply Permutation_sym. repeat apply perm_push. reflexivity.
  - right. exists (e_acc e). subst. unfold retEntries. simpl. rewrite H3, !flat_map_app. simpl. rewrite !flat_map_app. simpl.
    repeat (rewrite <- app_assoc; simpl). apply Permutation_sym. destruct e. repeat apply perm_push. reflexivity.
Qed.

Lemma stored_iff : forall g e, stored g e <-> In e (retEntries g).
Proof.
  intros g e. unfold stored, retEntries, atLevel. rewrite in_app_iff. split; intros [H|H]; auto; left.
  - destruct H as (i & b & gr & H1 & H2 & H3). apply nth_error_In in H1. apply in_flat_map. exists b. split; auto. apply in_flat_map. eauto.
  - apply in_flat_map in H. destruct H as (b & H1 & H2). apply in_flat_map in H2. destruct H2 as (gr & H2 & H3).
    apply In_nth_error in H1. destruct H1 as (i & H1). exists i, b, gr. auto.
Qed.

(** * The structural invariant *)
Record gOk (g : gsys) : Prop := mkOk {
  ok_len : length (g_batches g) = Z.to_nat (g_maxDepth g);
  ok_groups : forall i b t es, nth_error (g_batches g) i = Some b -> In (t, es) b ->
    es <> [] /\ ~ opTerm t /\ forall e, In e es -> e_term e = t /\ Z.min (e_depth e) (g_maxDepth g - 1) = Z.of_nat i;
  ok_nodup : forall b, In b (g_batches g) -> NoDup (map fst b);
  ok_active : forall e, In e (g_active g) -> opTerm (e_term e);
  ok_distinct : ForallOrdPairs (fun a b => ~ sameGoal a b) (g_active g);
  ok_keys : NoDup (map fst (g_byTerm g));
  ok_index : forall t l s, mget t (g_byTerm g) = Some l -> In s l -> s_term s = t /\ exists i e, atLevel g i e /\ e_sentence e = s;
  ok_heads : forall i b t es, nth_error (g_batches g) i = Some b -> In (t, es) b -> mget t (g_byTerm g) <> None
}.

Lemma nth_mid : forall A (a b : list A) x y i, nth_error (a ++ y :: b) i = Some x -> (i = length a /\ x = y) \/ (i <> length a /\ forall z, nth_error (a ++ z :: b) i = Some x).
Proof.
  intros A a b x y i H. destruct (Nat.lt_trichotomy i (length a)) as [L|[->|L]].
  - right. split; [lia|]. intros. rewrite nth_error_app1 in H by lia. rewrite nth_error_app1 by lia. auto.
  - left. split; auto. rewrite nth_error_app2 in H by lia. rewrite Nat.sub_diag in H. simpl in H. congruence.
  - right. split; [lia|]. intros. rewrite nth_error_app2 in H by lia. rewrite nth_error_app2 by lia. destruct (i - length a)%nat eqn:E2; [lia|]. auto.
Qed.
Lemma nth_at : forall A (a b : list A) y, nth_error (a ++ y :: b) (length a) = Some y.
Proof. intros. rewrite nth_error_app2 by lia. now rewrite Nat.sub_diag. Qed.

Lemma atLevel_replace : forall g a b0 b1 b i e, g_batches g = a ++ b0 :: b ->
  (forall gr e, In gr b0 -> In e (snd gr) -> exists gr', In gr' b1 /\ In e (snd gr')) ->
  atLevel g i e -> atLevel (setBatches g (a ++ b1 :: b)) i e.
Proof.
  intros g a b0 b1 b i e E H (bb & gr & H1 & H2 & H3). unfold atLevel. simpl. rewrite E in H1.
  apply nth_mid in H1. destruct H1 as [[-> ->]|[_ H1]].
  - destruct (H gr e H2 H3) as (gr' & A & B). exists b1, gr'. split; auto. apply nth_at.
  - exists bb, gr. auto.
Qed.

Lemma indexEntry_get : forall s i t, mget t (indexEntry s i) =
  if checkEqTerm (s_term s) t then
    match mget (s_term s) i with
    | Some arr => if existsb (fun it => checkEqTerm (s_term it) (s_term s) && checkOverlap (s_stamp it) (s_stamp s)) arr then Some arr else Some (arr ++ [s])
    | None => Some [s]
    end
  else mget t i.
Proof.
  intros. unfold indexEntry. destruct (mget (s_term s) i) as [arr|] eqn:E.
  - destruct (existsb _ arr).
    + destruct (checkEqTerm (s_term s) t) eqn:C; auto. apply checkEqTerm_eq in C. now subst.
    + rewrite mget_mset. destruct (checkEqTerm (s_term s) t); auto.
  - rewrite mget_mset, term_clone_id. destruct (checkEqTerm (s_term s) t); auto.
Qed.
Lemma indexEntry_keys : forall s i, NoDup (map fst i) -> NoDup (map fst (indexEntry s i)).
Proof.
  intros. unfold indexEntry. destruct (mget (s_term s) i); [destruct (existsb _ l); auto|]; apply mset_nodup; auto.
Qed.

Lemma e_term_setAcc : forall e a, e_term (setAcc e a) = e_term e.
Proof. reflexivity. Qed.

Lemma addEntry2_inv : forall g e g', gOk g -> addEntry2 g e = Ok g' -> gOk g'.
Proof.
  intros g e g' G H. apply addEntry2_as in H.
  destruct H as [_ _ ->|O N ->|i a b pre es post l O I0 I L B P Q ->|i a b batch O I0 I L B P ->]; auto.
  - destruct G. constructor; simpl; auto.
    + intros x Hx. apply in_app_iff in Hx. destruct Hx as [Hx|[<-|[]]]; auto.
    + apply pairs_snoc; auto. apply Forall_forall. auto.
  - assert (Lz : i = Z.of_nat (length a)) by (rewrite L; symmetry; apply Z2Nat.id; exact I0). destruct G.
    assert (Hin : nth_error (g_batches g) (length a) = Some (pre ++ (e_term e, es) :: post))
      by (rewrite B; apply nth_at).
    assert (Hnew : nth_error (a ++ (pre ++ (e_term e, es ++ [setAcc e (fadd (e_acc l) (fmax (e_des l) f0))]) :: post) :: b) (length a) =
      Some (pre ++ (e_term e, es ++ [setAcc e (fadd (e_acc l) (fmax (e_des l) f0))]) :: post))
      by apply nth_at.
    assert (K : map fst (pre ++ (e_term e, es ++ [setAcc e (fadd (e_acc l) (fmax (e_des l) f0))]) :: post) = map fst (pre ++ (e_term e, es) :: post))
      by (rewrite !map_app; reflexivity).
    constructor; simpl; auto.
    + rewrite <- ok_len0, B, !app_length. reflexivity.
    + intros j bb t ess Hj Ht. apply nth_mid in Hj. destruct Hj as [[-> ->]|[_ Hj]].
      * apply in_app_iff in Ht. assert (Ht' : In (t, ess) (pre ++ (e_term e, es) :: post) \/ (t, ess) = (e_term e, es ++ [setAcc e (fadd (e_acc l) (fmax (e_des l) f0))])).
        { rewrite in_app_iff. simpl. simpl in Ht. intuition. }
        destruct Ht' as [Ht'|Ht'].
        -- eapply ok_groups0; eauto.
        -- injection Ht' as -> ->. destruct (ok_groups0 (length a) _ (e_term e) es Hin) as (A1 & A2 & A3).
           { apply in_app_iff. right. now left. }
           split; [destruct es; discriminate|]. split; auto. intros x Hx. apply in_app_iff in Hx. destruct Hx as [Hx|[<-|[]]]; auto.
           split; auto. simpl. rewrite <- I. exact Lz.
      * eapply ok_groups0; eauto. rewrite B. auto.
    + intros bb Hb. apply in_app_iff in Hb. destruct Hb as [Hb|[<-|Hb]].
      * apply ok_nodup0. rewrite B. apply in_app_iff. auto.
      * rewrite K. apply ok_nodup0. rewrite B. apply in_app_iff. right. now left.
      * apply ok_nodup0. rewrite B. apply in_app_iff. right. now right.
    + intros t ll s H1 H2. destruct (ok_index0 t ll s H1 H2) as (A1 & j & x & A2 & A3). split; auto. exists j, x. split; auto.
      eapply atLevel_replace; eauto. intros gr y Hg Hy. apply in_app_iff in Hg. simpl in Hg. destruct Hg as [Hg|[<-|Hg]].
      * exists gr. rewrite in_app_iff. auto.
      * exists (e_term e, es ++ [setAcc e (fadd (e_acc l) (fmax (e_des l) f0))]). rewrite in_app_iff. simpl in *. rewrite in_app_iff. auto.
      * exists gr. rewrite in_app_iff. simpl. auto.
    + intros j bb t ess Hj Ht. apply nth_mid in Hj. destruct Hj as [[-> ->]|[_ Hj]].
      * apply in_app_iff in Ht. simpl in Ht. destruct Ht as [Ht|[Ht|Ht]].
        -- apply (ok_heads0 (length a) _ t ess Hin). apply in_app_iff; auto.
        -- injection Ht as <- <-. apply (ok_heads0 (length a) _ (e_term e) es Hin). apply in_app_iff. right. left. reflexivity.
        -- apply (ok_heads0 (length a) _ t ess Hin). apply in_app_iff. right. right. auto.
      * apply (ok_heads0 j bb t ess); auto. rewrite B. apply Hj.
  - assert (Lz : i = Z.of_nat (length a)) by (rewrite L; symmetry; apply Z2Nat.id; exact I0). destruct G.
    assert (Hin : nth_error (g_batches g) (length a) = Some batch)
      by (rewrite B; apply nth_at).
    assert (At : atLevel (setBatches g (a ++ (batch ++ [(e_term e, [e])]) :: b)) (length a) e).
    { exists (batch ++ [(e_term e, [e])]), (e_term e, [e]). split; [apply nth_at|]. split; [apply in_app_iff; right; now left|now left]. }
    constructor; simpl; auto.
    + rewrite <- ok_len0, B, !app_length. reflexivity.
    + intros j bb t ess Hj Ht. apply nth_mid in Hj. destruct Hj as [[-> ->]|[_ Hj]].
      * apply in_app_iff in Ht. destruct Ht as [Ht|[Ht|[]]].
        -- eapply ok_groups0; eauto.
        -- injection Ht as <- <-. split; [discriminate|]. split; auto. intros x [<-|[]]. split; auto. rewrite <- I. exact Lz.
      * eapply ok_groups0; eauto. rewrite B. auto.
    + intros bb Hb. apply in_app_iff in Hb. destruct Hb as [Hb|[<-|Hb]].
      * apply ok_nodup0. rewrite B. apply in_app_iff. auto.
      * rewrite map_app. simpl. apply NoDup_rev in P || idtac. assert (ND : NoDup (map fst batch)) by (apply ok_nodup0; rewrite B; apply in_app_iff; right; now left).
        apply (Permutation_NoDup (Permutation_cons_append (map fst batch) (e_term e))). constructor; auto.
      * apply ok_nodup0. rewrite B. apply in_app_iff. right. now right.
    + apply indexEntry_keys. auto.
    + assert (Keep : forall j x, atLevel g j x -> atLevel (setByTerm (setBatches g (a ++ (batch ++ [(e_term e, [e])]) :: b)) (indexEntry (e_sentence e) (g_byTerm g))) j x).
      { intros j x Hx. apply (atLevel_replace g a batch (batch ++ [(e_term e, [e])]) b j x B) in Hx; auto.
        intros gr y Hg Hy. exists gr. rewrite in_app_iff. auto. }
      intros t ll s H1 H2. rewrite indexEntry_get in H1. destruct (checkEqTerm (s_term (e_sentence e)) t) eqn:C.
      * apply checkEqTerm_eq in C. destruct (mget (s_term (e_sentence e)) (g_byTerm g)) as [arr|] eqn:M.
        -- destruct (existsb _ arr).
           ++ injection H1 as <-. rewrite <- C. destruct (ok_index0 _ _ _ M H2) as (A1 & j & x & A2 & A3). split; auto. exists j, x. auto.
           ++ injection H1 as <-. apply in_app_iff in H2. rewrite <- C. destruct H2 as [H2|[<-|[]]].
              ** destruct (ok_index0 _ _ _ M H2) as (A1 & j & x & A2 & A3). split; auto. exists j, x. auto.
              ** split; auto. exists (length a), e. split; auto.
        -- injection H1 as <-. destruct H2 as [<-|[]]. split; auto. exists (length a), e. split; auto.
      * destruct (ok_index0 _ _ _ H1 H2) as (A1 & j & x & A2 & A3). split; auto. exists j, x. auto.
    + intros j bb t ess Hj Ht. rewrite indexEntry_get. destruct (checkEqTerm (s_term (e_sentence e)) t) eqn:C.
      * destruct (mget (s_term (e_sentence e)) (g_byTerm g)); [destruct (existsb _ l)|]; discriminate.
      * apply nth_mid in Hj. destruct Hj as [[-> ->]|[_ Hj]].
        -- apply in_app_iff in Ht. destruct Ht as [Ht|[Ht|[]]].
           ++ eapply ok_heads0; eauto.
           ++ injection Ht as <- _. unfold e_term in C. rewrite checkEqTerm_refl in C. discriminate.
        -- apply (ok_heads0 j bb t ess); auto. rewrite B. apply Hj.
Qed.
