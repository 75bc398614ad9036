(** Proofs about concept memory. *)
From Coq Require Import ZArith Bool Lia List Permutation Sorted.
From Verif Require Import Base F64_Model Sort_Proofs Term_Model Term_Spec Term_Proofs Stamp_Model Stamp_Proofs
  Tv_Model Sentence_Model Sentence_Proofs Mem_Model Mem_Spec.
Import ListNotations.

(** * Maps *)
Lemma mget_in : forall A t (m : list (term * A)) a, mget t m = Some a -> In (t, a) m.
Proof.
  induction m as [|[k b] m IH]; simpl; intros a H; [discriminate|].
  destruct (checkEqTerm k t) eqn:E; [|auto]. apply checkEqTerm_eq in E. injection H as ->. subst. auto.
Qed.
Lemma in_mget : forall A t (m : list (term * A)) a, NoDup (map fst m) -> In (t, a) m -> mget t m = Some a.
Proof.
  induction m as [|[k b] m IH]; simpl; intros a N H; [contradiction|]. inversion N as [|? ? N1 N2]; subst.
  destruct H as [[= -> ->]|H]; [now rewrite checkEqTerm_refl|].
  destruct (checkEqTerm k t) eqn:E; [|auto]. apply checkEqTerm_eq in E. subst. destruct N1.
  apply in_map_iff. exists (t, a). auto.
Qed.
Lemma mget_none : forall A t (m : list (term * A)), mget t m = None <-> ~ In t (map fst m).
Proof.
  induction m as [|[k b] m IH]; simpl; [tauto|]. destruct (checkEqTerm k t) eqn:E.
  - apply checkEqTerm_eq in E. subst. split; [discriminate|tauto].
  - rewrite IH. apply checkEqTerm_neq in E. tauto.
Qed.
Lemma mget_mset : forall A t t' (a : A) m, mget t' (mset t a m) = if checkEqTerm t t' then Some a else mget t' m.
Proof.
  induction m as [|[k b] m IH]; simpl; [reflexivity|]. destruct (checkEqTerm k t) eqn:E; simpl.
  - apply checkEqTerm_eq in E. subst. destruct (checkEqTerm t t'); reflexivity.
  - destruct (checkEqTerm k t') eqn:E2; [|exact IH].
    apply checkEqTerm_eq in E2. subst. rewrite checkEqTerm_sym, E. reflexivity.
Qed.
Lemma mset_keys : forall A t (a : A) m, map fst (mset t a m) = map fst m \/ (~ In t (map fst m) /\ map fst (mset t a m) = map fst m ++ [t]).
Proof.
  induction m as [|[k b] m IH]; simpl; [right; auto|]. destruct (checkEqTerm k t) eqn:E; simpl.
  - left. reflexivity.
  - apply checkEqTerm_neq in E. destruct IH as [->|[N ->]]; [left; auto|right]. split; [tauto|reflexivity].
Qed.
Lemma mset_keys_in : forall A t (a : A) m k, In k (map fst (mset t a m)) <-> k = t \/ In k (map fst m).
Proof.
  induction m as [|[k b] m IH]; simpl; intros k'.
  - intuition.
  - destruct (checkEqTerm k t) eqn:E; simpl.
    + apply checkEqTerm_eq in E. subst. intuition.
    + rewrite IH. intuition.
Qed.
Lemma mset_nodup : forall A t (a : A) m, NoDup (map fst m) -> NoDup (map fst (mset t a m)).
Proof.
  intros A t a m N. destruct (mset_keys A t a m) as [->|[H ->]]; [auto|]. apply NoDup_snoc; auto.
Qed.
Lemma in_mset : forall A t (a : A) m k b, NoDup (map fst m) -> In (k, b) (mset t a m) ->
  (k = t /\ b = a) \/ (k <> t /\ In (k, b) m).
Proof.
  intros A t a m k b N H. apply in_mget in H; [|now apply mset_nodup]. rewrite mget_mset in H.
  destruct (checkEqTerm t k) eqn:E.
  - apply checkEqTerm_eq in E. injection H as ->. left. auto.
  - apply checkEqTerm_neq in E. right. split; [congruence|]. now apply mget_in.
Qed.
Lemma mset_length : forall A t (a : A) m, length m <= length (mset t a m).
Proof.
  induction m as [|[k b] m IH]; simpl; [lia|]. destruct (checkEqTerm k t); simpl; lia.
Qed.
Lemma mset_in : forall A t (a : A) m, In (t, a) (mset t a m).
Proof. intros. apply mget_in. now rewrite mget_mset, checkEqTerm_refl. Qed.
Lemma mset_other : forall A t (a : A) m k b, NoDup (map fst m) -> In (k, b) m -> k <> t -> In (k, b) (mset t a m).
Proof.
  intros A t a m k b N H Hk. apply mget_in. rewrite mget_mset.
  destruct (checkEqTerm t k) eqn:E; [apply checkEqTerm_eq in E; congruence|]. now apply in_mget.
Qed.

(** * Tables *)
Lemma rmapM_ok : forall A B (f : A -> res B) l l', rmapM f l = Ok l' -> Forall2 (fun a b => f a = Ok b) l l'.
Proof.
  induction l as [|x l IH]; simpl; intros l' H; [injection H as <-; constructor|].
  destruct (f x) as [b|] eqn:E; [|discriminate]. cbn [rbind] in H.
  destruct (rmapM f l) as [bs|]; [|discriminate]. injection H as <-. constructor; auto.
Qed.
Lemma rmapM_total : forall A B (f : A -> res B) l, (forall x, In x l -> exists y, f x = Ok y) -> exists l', rmapM f l = Ok l'.
Proof.
  induction l as [|x l IH]; intros H; [eexists; reflexivity|]. simpl.
  destruct (H x) as [y Hy]; [now left|]. rewrite Hy. cbn [rbind].
  destruct IH as [l' Hl']; [intros; apply H; now right|]. rewrite Hl'. eexists. reflexivity.
Qed.

Definition keyLe (key : sentence -> res f64) (a b : sentence) : Prop :=
  exists ka kb, key a = Ok ka /\ key b = Ok kb /\ fleb kb ka = true.

Lemma keyed_facts : forall (key : sentence -> res f64) l temp,
  rmapM (fun iv => do k <- key iv; Ok (k, iv)) l = Ok temp ->
  map snd temp = l /\ forall k x, In (k, x) temp -> key x = Ok k.
Proof.
  intros key l temp H. apply rmapM_ok in H. induction H as [|x [k y] l temp H1 H2 [IH1 IH2]]; [split; [reflexivity|intros k x []]|].
  destruct (key x) as [k'|] eqn:E; [|discriminate]. cbn [rbind] in H1. injection H1 as -> ->.
  simpl. rewrite IH1. split; [reflexivity|]. intros k0 x0 [[= <- <-]|Hin]; auto.
Qed.

Lemma rankTable_ok : forall key n l l', rankTable key n l = Ok l' ->
  exists full, Permutation l full /\ StronglySorted (keyLe key) full /\ l' = firstn n full /\
  (forall x, In x l -> exists k, key x = Ok k).
Proof.
  intros key n l l' H. unfold rankTable in H.
  destruct (rmapM _ l) as [temp|] eqn:E; [|discriminate]. cbn [rbind] in H.
  destruct (fsort_desc fst temp) as [srt|] eqn:F; [|discriminate]. cbn [rbind] in H. injection H as <-.
  apply keyed_facts in E. destruct E as [E1 E2]. apply fsort_desc_ok in F. destruct F as (P & S & _).
  exists (map snd srt). split; [|split; [|split]].
  - rewrite <- E1. now apply Permutation_map.
  - assert (K : forall k x, In (k, x) srt -> key x = Ok k) by (intros; apply E2; apply (Permutation_in _ (Permutation_sym P)); auto).
    clear - S K. induction S as [|[k x] srt S IH F]; simpl; [constructor|]. constructor.
    + apply IH. intros; apply K; now right.
    + apply Forall_forall. intros y Hy. apply in_map_iff in Hy. destruct Hy as ([k' y'] & <- & Hin).
      rewrite Forall_forall in F. specialize (F _ Hin). unfold keyGe in F. simpl in *.
      exists k, k'. repeat split; auto.
  - rewrite <- (map_length snd srt). destruct (Nat.min_spec (length (map snd srt)) n) as [[L ->]|[L ->]]; [|reflexivity].
    rewrite firstn_all. symmetry. apply firstn_all2. lia.
  - intros x Hx. rewrite <- E1 in Hx. apply in_map_iff in Hx. destruct Hx as ([k y] & <- & Hin). eauto.
Qed.

Lemma beliefExists_iff : forall s l, beliefExists s l = true <-> exists b, In b l /\ s_term b = s_term s /\ shareEvidence b s.
Proof.
  intros s l. unfold beliefExists. rewrite existsb_exists. split; intros (b & Hin & H); exists b; split; auto.
  - apply andb_true_iff in H. destruct H as [H1 H2]. apply checkEqTerm_eq in H1. apply checkOverlap_iff in H2. auto.
  - destruct H as [H1 H2]. apply andb_true_iff. split; [now apply checkEqTerm_eq|now apply checkOverlap_iff].
Qed.

Lemma shallow_id : forall s, shallowCopySentence s = s.
Proof. exact shallowCopy_id. Qed.

(** pairwise properties are independent of the order *)
Lemma pairs_perm : forall A (R : A -> A -> Prop), (forall a b, R a b -> R b a) ->
  forall l l', Permutation l l' -> ForallOrdPairs R l -> ForallOrdPairs R l'.
Proof.
  intros A R Sy l l' P. induction P as [|x l l' P IH|x y l|l l' l'' P1 IH1 P2 IH2]; intros H; auto.
  - inversion H as [|? ? H1 H2]; subst. constructor; auto. rewrite Forall_forall in *. intros z Hz. apply H1.
    apply (Permutation_in _ (Permutation_sym P)). auto.
  - inversion H as [|? ? H1 H2]; subst. inversion H2 as [|? ? H3 H4]; subst. inversion H1 as [|? ? H5 H6]; subst.
    constructor; [constructor; auto|constructor; auto].
Qed.
Lemma pairs_firstn : forall A (R : A -> A -> Prop) n l, ForallOrdPairs R l -> ForallOrdPairs R (firstn n l).
Proof.
  intros A R n l. revert n. induction l as [|x l IH]; intros [|n] H; simpl; try constructor; inversion H as [|? ? H1 H2]; subst; auto.
  rewrite Forall_forall in *. intros z Hz. apply H1. rewrite <- (firstn_skipn n l). apply in_or_app. now left.
Qed.
Lemma pairs_snoc : forall A (R : A -> A -> Prop) l x, ForallOrdPairs R l -> Forall (fun a => R a x) l -> ForallOrdPairs R (l ++ [x]).
Proof.
  induction 1 as [|y l H1 H2 IH]; simpl; intros F.
  - constructor; [constructor|constructor].
  - inversion F as [|? ? F1 F2]; subst. constructor; [apply Forall_app; auto|auto].
Qed.

Definition disj (a b : sentence) : Prop := s_term a = s_term b -> ~ shareEvidence a b.
Lemma disj_sym : forall a b, disj a b -> disj b a.
Proof. intros a b H E (i & H1 & H2). apply H; [congruence|]. exists i. auto. Qed.

(** What one table insertion does. *)
Lemma storeTable_ok : forall key n s l l', storeTable key n s l = Ok l' ->
  (l' = l /\ exists b, In b l /\ s_term b = s_term s /\ shareEvidence b s) \/
  (~ (exists b, In b l /\ s_term b = s_term s /\ shareEvidence b s) /\
   exists full, Permutation (l ++ [s]) full /\ StronglySorted (keyLe key) full /\ l' = firstn n full).
Proof.
  intros key n s l l' H. unfold storeTable in H. destruct (beliefExists s l) eqn:E.
  - injection H as <-. left. split; auto. now apply beliefExists_iff.
  - right. split.
    + intros K. apply beliefExists_iff in K. congruence.
    + rewrite shallow_id in H. apply rankTable_ok in H. destruct H as (full & P & S & -> & _). eauto.
Qed.

Lemma firstn_in : forall A n (l : list A) x, In x (firstn n l) -> In x l.
Proof. intros A n l x H. rewrite <- (firstn_skipn n l). apply in_or_app. now left. Qed.

Lemma storeTable_in : forall key n s l l' x, storeTable key n s l = Ok l' -> In x l' -> In x l \/ x = s.
Proof.
  intros key n s l l' x H Hin. apply storeTable_ok in H. destruct H as [[-> _]|(_ & full & P & _ & ->)]; auto.
  apply firstn_in in Hin. apply (Permutation_in _ (Permutation_sym P)) in Hin. apply in_app_iff in Hin.
  destruct Hin as [H|[<-|[]]]; auto.
Qed.
Lemma storeTable_len : forall key n s l l', storeTable key n s l = Ok l' -> 1 <= n ->
  1 <= length l <= n -> 1 <= length l' <= n.
Proof.
  intros key n s l l' H Hn Hl. apply storeTable_ok in H. destruct H as [[-> _]|(_ & full & P & _ & ->)]; auto.
  rewrite firstn_length. apply Permutation_length in P. rewrite app_length in P. simpl in P. lia.
Qed.
Lemma storeTable_disj : forall key n s l l', storeTable key n s l = Ok l' ->
  ForallOrdPairs disj l -> ForallOrdPairs disj l'.
Proof.
  intros key n s l l' H D. apply storeTable_ok in H. destruct H as [[-> _]|(N & full & P & _ & ->)]; auto.
  apply pairs_firstn. apply (pairs_perm _ _ disj_sym _ _ P). apply pairs_snoc; auto.
  apply Forall_forall. intros b Hb E K. apply N. eauto.
Qed.
Lemma storeTable_sorted : forall key n s l l', storeTable key n s l = Ok l' ->
  StronglySorted (keyLe key) l -> StronglySorted (keyLe key) l'.
Proof.
  intros key n s l l' H D. apply storeTable_ok in H. destruct H as [[-> _]|(N & full & P & S & ->)]; auto.
  now apply sorted_firstn.
Qed.

Lemma storeTable_present : forall key n s l l', storeTable key n s l = Ok l' -> presentOrBeaten (keyLe key) n s l'.
Proof.
  intros key n s l l' H. apply storeTable_ok in H. destruct H as [[-> B]|(N & full & P & S & ->)]; [right; left; auto|].
  assert (Hin : In s full) by (apply (Permutation_in _ P), in_or_app; right; now left).
  rewrite <- (firstn_skipn n full) in Hin. apply in_app_iff in Hin. destruct Hin as [Hin|Hin]; [left; auto|].
  right. right. split.
  - rewrite firstn_length. assert (length (skipn n full) <> 0) by (destruct (skipn n full); [contradiction|discriminate]).
    rewrite skipn_length in H. lia.
  - intros b Hb. exact (sorted_firstn_best _ _ _ _ S _ _ Hb Hin).
Qed.
(** Nothing is dropped unless the table is full of beliefs at least as good. *)
Lemma storeTable_kept : forall key n s l l' b, storeTable key n s l = Ok l' -> In b l ->
  In b l' \/ (length l' = n /\ Forall (fun x => keyLe key x b) l').
Proof.
  intros key n s l l' b H Hb. apply storeTable_ok in H. destruct H as [[-> B]|(N & full & P & S & ->)]; [left; auto|].
  assert (Hin : In b full) by (apply (Permutation_in _ P), in_or_app; now left).
  rewrite <- (firstn_skipn n full) in Hin. apply in_app_iff in Hin. destruct Hin as [Hin|Hin]; [left; auto|].
  right. split.
  - rewrite firstn_length. assert (length (skipn n full) <> 0) by (destruct (skipn n full); [contradiction|discriminate]).
    rewrite skipn_length in H. lia.
  - apply Forall_forall. intros x Hx. exact (sorted_firstn_best _ _ _ _ S _ _ Hx Hin).
Qed.

(** * Storing *)
Lemma storeInConcept_ok : forall us s n now m t m', storeInConcept us s n now m t = Ok m' ->
  (exists c e u, mget t m = Some c /\ storeTable expKey n s (byExp c) = Ok e /\
     storeTable (usageKey us now) n s (byUsage c) = Ok u /\ m' = mset t (mkConcept (c_name c) e u) m) \/
  (mget t m = None /\ m' = mset t (mkConcept t [s] [s]) m).
Proof.
  intros us s n now m t m' H. unfold storeInConcept in H. rewrite term_clone_id in H.
  destruct (mget t m) as [c|] eqn:E.
  - destruct (storeTable expKey n s (byExp c)) as [e|] eqn:E1; [|discriminate]. cbn [rbind] in H.
    destruct (storeTable (usageKey us now) n s (byUsage c)) as [u|] eqn:E2; [|discriminate]. cbn [rbind] in H.
    injection H as <-. left. eauto 10.
  - injection H as <-. right. rewrite shallow_id. auto.
Qed.

(** invariant of concepts that survives every single store *)
Section StoreInv.
  Variables (n : nat) (I : concept -> Prop).
  Variable s : sentence.
  Hypothesis new_ok : forall t, I (mkConcept t [s] [s]).
  Hypothesis upd_ok : forall us now c e u, I c -> storeTable expKey n s (byExp c) = Ok e ->
    storeTable (usageKey us now) n s (byUsage c) = Ok u -> I (mkConcept (c_name c) e u).
  Definition memInv (m : mem) : Prop := mapOk m /\ forall t c, holds m t c -> I c.
  Lemma store1_inv : forall us now m t m', memInv m -> storeInConcept us s n now m t = Ok m' -> memInv m'.
  Proof.
    intros us now m t m' [[N Nm] HI] H. apply storeInConcept_ok in H.
    destruct H as [(c & e & u & G & E1 & E2 & ->)|[G ->]].
    - assert (Hc : holds m t c) by now apply mget_in.
      split; [split; [now apply mset_nodup|]|].
      + intros t' c' H. apply in_mset in H; auto. destruct H as [[-> ->]|[_ H]]; simpl; auto.
      + intros t' c' H. apply in_mset in H; auto. destruct H as [[-> ->]|[_ H]]; eauto.
    - split; [split; [now apply mset_nodup|]|].
      + intros t' c' H. apply in_mset in H; auto. destruct H as [[-> ->]|[_ H]]; simpl; auto.
      + intros t' c' H. apply in_mset in H; auto. destruct H as [[-> ->]|[_ H]]; eauto.
  Qed.
  Lemma store_fold_inv : forall us now ts m m', memInv m -> rfold (storeInConcept us s n now) ts m = Ok m' -> memInv m'.
  Proof.
    induction ts as [|t ts IH]; simpl; intros m m' HI H; [injection H as <-; auto|].
    destruct (storeInConcept us s n now m t) as [m1|] eqn:E; [|discriminate]. cbn [rbind] in H.
    eapply IH; [|exact H]. eapply store1_inv; eauto.
  Qed.
End StoreInv.

Lemma store2_cases : forall us m s ts n now m', storeInConcepts2 us m s ts n now = Ok m' ->
  (s_punct s <> JUGEMENT /\ m' = m) \/ (s_punct s = JUGEMENT /\ rfold (storeInConcept us s n now) ts m = Ok m').
Proof.
  intros us m s ts n now m' H. unfold storeInConcepts2 in H. destruct (punct_eqb (s_punct s) JUGEMENT) eqn:E; cbn [negb] in H.
  - right. apply punct_eqb_eq in E. auto.
  - left. injection H as <-. split; auto. intros K. apply punct_eqb_eq in K. congruence.
Qed.

(** * Limiting *)
Lemma limit_ok : forall m k m', limitMemory m k = Ok m' -> mapOk m ->
  (length m <= k /\ m' = m) \/
  (k < length m /\ exists rs srt, rmapM (fun kc => do r <- conceptRating (snd kc); Ok (snd kc, r)) m = Ok rs /\
     fsort_desc snd rs = Ok srt /\
     m' = map (fun cr => (c_name (fst cr), fst cr)) (firstn k srt)).
Proof.
  intros m k m' H [N Nm]. unfold limitMemory in H. destruct (Nat.leb (length m) k) eqn:E.
  - injection H as <-. left. apply Nat.leb_le in E. auto.
  - right. apply Nat.leb_gt in E. split; auto.
    destruct (rmapM _ m) as [rs|] eqn:R; [|discriminate]. cbn [rbind] in H.
    destruct (fsort_desc snd rs) as [srt|] eqn:F; [|discriminate]. cbn [rbind] in H.
    exists rs, srt. split; [auto|split; [auto|]].
    assert (L : forall q, Nat.min (length q) k = k \/ (Nat.min (length q) k = length (q : list (concept * f64)) /\ length q <= k)) by (intros; lia).
    assert (E2 : firstn (Nat.min (length srt) k) srt = firstn k srt).
    { destruct (L srt) as [->|[-> L']]; [auto|]. rewrite firstn_all. symmetry. now apply firstn_all2. }
    rewrite E2 in H. clear E2 L.
    assert (ND : NoDup (map (fun cr => c_name (fst cr)) srt)).
    { assert (Hn : map (fun cr => c_name (fst cr)) rs = map fst m).
      { apply rmapM_ok in R. clear - R Nm. induction R as [|[t c] [c' r] l l' H1 H2 IH]; [auto|]. simpl in *.
        destruct (conceptRating c); [|discriminate]. injection H1 as -> ->. f_equal.
        - apply Nm. now left.
        - apply IH. intros t0 c0 H0. apply Nm. now right. }
      apply fsort_desc_ok in F. destruct F as (P & _). eapply Permutation_NoDup; [apply Permutation_map; exact P|]. now rewrite Hn. }
    assert (G : forall l acc, NoDup (map fst acc ++ map (fun cr : concept * f64 => c_name (fst cr)) l) ->
       fold_left (fun acc cr => mset (c_name (fst cr)) (fst cr) acc) l acc = acc ++ map (fun cr => (c_name (fst cr), fst cr)) l).
    { clear. induction l as [|[c r] l IH]; intros acc H; simpl; [now rewrite app_nil_r|].
      simpl in H. assert (Hn : ~ In (c_name c) (map fst acc)).
      { intros K. apply NoDup_remove_2 in H. apply H, in_or_app. now left. }
      assert (Hm : mset (c_name c) c acc = acc ++ [(c_name c, c)]).
      { clear - Hn. induction acc as [|[k' a] acc IH]; simpl; [auto|]. simpl in Hn.
        destruct (checkEqTerm k' (c_name c)) eqn:E; [apply checkEqTerm_eq in E; tauto|]. rewrite IH; tauto. }
      rewrite Hm, IH.
      - rewrite <- app_assoc. reflexivity.
      - rewrite map_app, <- app_assoc. simpl. exact H. }
    rewrite G in H; [injection H as <-; reflexivity|]. simpl.
    rewrite <- firstn_map. now apply NoDup_firstn.
Qed.

Lemma conceptRating_spec : forall c r, conceptRating c = Ok r -> isRating c r.
Proof.
  intros c r H. unfold conceptRating in H. unfold isRating.
  assert (G : forall l r0 r, rfold (fun r b => do e <- expKey b; Ok (fmax r e)) l r0 = Ok r -> fis_nan r0 = false ->
     (r = r0 \/ exists b, In b l /\ hasExp b r) /\ fis_nan r = false /\ fleb r0 r = true /\
     forall b e, In b l -> hasExp b e -> fis_nan e = false -> fleb e r = true).
  { induction l as [|b l IH]; simpl; intros r0 r1 H1 N.
    - injection H1 as <-. split; [now left|]. split; [auto|]. split; [now apply fleb_refl|intros b e []].
    - unfold expKey in H1 at 1. destruct (retTv b) as [v|] eqn:T; [|discriminate]. cbn [rbind unwrap] in H1.
      assert (N1 : fis_nan (fmax r0 (calcExp v)) = false).
      { unfold fmax. rewrite N. destruct (fis_nan (calcExp v)) eqn:K; [auto|]. destruct (fltb r0 (calcExp v)); auto. }
      assert (L1 : fleb r0 (fmax r0 (calcExp v)) = true).
      { unfold fmax. rewrite N. destruct (fis_nan (calcExp v)) eqn:K; [now apply fleb_refl|]. destruct (fltb r0 (calcExp v)) eqn:Q; [now apply fltb_leb|now apply fleb_refl]. }
      assert (L2 : fis_nan (calcExp v) = false -> fleb (calcExp v) (fmax r0 (calcExp v)) = true).
      { intros K. unfold fmax. rewrite N, K. destruct (fltb r0 (calcExp v)) eqn:Q; [now apply fleb_refl|]. rewrite fleb_not_lt; auto. now rewrite Q. }
      destruct (IH _ _ H1 N1) as (A1 & A2 & A3 & A4). split; [|split; [|split]].
      + destruct A1 as [->|(b' & Hb & He)]; [|right; eauto].
        unfold fmax. rewrite N. destruct (fis_nan (calcExp v)) eqn:K; [auto|]. destruct (fltb r0 (calcExp v)); [|auto].
        right. exists b. split; [auto|]. exists v. auto.
      + exact A2.
      + eapply fleb_trans; eauto.
      + intros b' e [<-|Hb] (v' & T' & ->) K; [|apply (A4 b'); auto; exists v'; auto].
        assert (v' = v) by congruence. subst v'. eapply fleb_trans; [apply L2; auto|auto]. }
  destruct (G _ _ _ H eq_refl) as (A1 & A2 & A3 & A4). auto.
Qed.

Theorem limit_spec : forall m k m', mapOk m -> limitMemory m k = Ok m' ->
  length m' = Nat.min (length m) k /\ mapOk m' /\
  (forall t c, holds m' t c -> holds m t c) /\
  (length m <= k -> m' = m) /\
  (forall t c t' c', holds m' t c -> holds m t' c' -> ~ holds m' t' c' ->
     exists r r', isRating c r /\ isRating c' r' /\ fleb r' r = true).
Proof.
  intros m k m' OK H. destruct (limit_ok _ _ _ H OK) as [[L ->]|(L & rs & srt & R & F & ->)].
  - split; [lia|]. repeat split; auto; try apply OK. intros t c t' c' _ H1 H2. contradiction.
  - assert (OK' := OK). destruct OK' as [N Nm]. apply fsort_desc_ok in F. destruct F as (P & S & _).
    assert (Hrs : forall c r, In (c, r) rs -> holds m (c_name c) c /\ conceptRating c = Ok r).
    { apply rmapM_ok in R. clear - R Nm. induction R as [|[t c] [c' r] l l' H1 H2 IH]; [intros c r []|].
      simpl in H1. destruct (conceptRating c) as [r0|] eqn:E; [|discriminate]. injection H1 as -> ->.
      intros c0 r1 [[= <- <-]|Hin].
      - split; [|auto]. left. f_equal. symmetry. apply Nm. now left.
      - destruct (IH) with (c := c0) (r := r1) as [A B]; auto; [intros; apply Nm; now right|]. split; [now right|auto]. }
    assert (Hm : forall t c, holds m t c -> exists r, In (c, r) rs).
    { apply rmapM_ok in R. clear - R. induction R as [|[t c] [c' r] l l' H1 H2 IH]; [intros t c []|].
      simpl in H1. destruct (conceptRating c) as [r0|] eqn:E; [|discriminate]. injection H1 as -> ->.
      intros t0 c0 [[= <- <-]|Hin]; [exists r; now left|]. destruct (IH _ _ Hin) as [r1 K]. exists r1. now right. }
    assert (Hlen : length rs = length m).
    { apply rmapM_ok in R. clear - R. induction R; simpl; congruence. }
    assert (Hk : forall t c, holds (map (fun cr : concept * f64 => (c_name (fst cr), fst cr)) (firstn k srt)) t c <->
       t = c_name c /\ exists r, In (c, r) (firstn k srt)).
    { intros t c. unfold holds. rewrite in_map_iff. split.
      - intros ([c' r] & [= <- <-] & Hin). eauto.
      - intros (-> & r & Hin). exists (c, r). auto. }
    assert (Hsub : forall t c, holds (map (fun cr : concept * f64 => (c_name (fst cr), fst cr)) (firstn k srt)) t c -> holds m t c).
    { intros t c Hc. apply Hk in Hc. destruct Hc as (-> & r & Hin). apply firstn_in in Hin.
      apply (Permutation_in _ (Permutation_sym P)) in Hin. apply Hrs in Hin. apply Hin. }
    split; [|split; [|split; [|split]]]; auto.
    + rewrite map_length, firstn_length. apply Permutation_length in P. lia.
    + split; [|intros t c Hc; apply Hk in Hc; symmetry; apply Hc].
      rewrite map_map. cbn [fst]. rewrite <- firstn_map. apply NoDup_firstn.
      assert (Hn : map (fun cr => c_name (fst cr)) rs = map fst m).
      { apply rmapM_ok in R. clear - R Nm. induction R as [|[t c] [c' r] l l' H1 H2 IH]; [auto|]. simpl in *.
        destruct (conceptRating c); [|discriminate]. injection H1 as -> ->. f_equal.
        - apply Nm. now left.
        - apply IH. intros t0 c0 H0. apply Nm. now right. }
      eapply Permutation_NoDup; [apply Permutation_map; exact P|]. now rewrite Hn.
    + intros K. lia.
    + intros t c t' c' H1 H2 H3. apply Hk in H1. destruct H1 as (-> & r & Hin).
      destruct (Hm _ _ H2) as [r' Hr'].
      assert (Hs : In (c', r') srt) by (apply (Permutation_in _ P); auto).
      rewrite <- (firstn_skipn k srt) in Hs. apply in_app_iff in Hs. destruct Hs as [Hs|Hs].
      * destruct H3. apply Hk. split; [symmetry; now apply Nm|eauto].
      * assert (G := sorted_firstn_best _ _ _ _ S _ _ Hin Hs). unfold keyGe in G. simpl in G.
        exists r, r'. split; [|split; [|exact G]].
        -- apply conceptRating_spec. apply firstn_in in Hin. apply (Permutation_in _ (Permutation_sym P)) in Hin. now apply Hrs in Hin.
        -- apply conceptRating_spec. now apply Hrs in Hr'.
Qed.

(** * Histories *)
Lemma keyLe_exp : forall a b, keyLe expKey a b <-> expGe a b.
Proof.
  intros a b. unfold keyLe, expGe, hasExp, expKey. split.
  - intros (ka & kb & H1 & H2 & H3). destruct (retTv a) as [va|]; [|discriminate]. destruct (retTv b) as [vb|]; [|discriminate].
    cbn [unwrap rbind] in *. injection H1 as <-. injection H2 as <-. eauto 10.
  - intros (ea & eb & (va & -> & ->) & (vb & -> & ->) & H). eexists _, _. split; [reflexivity|]. split; [reflexivity|auto].
Qed.
Lemma keyLe_use : forall us now a b, keyLe (usageKey us now) a b <-> useGe us now a b.
Proof.
  intros us now a b. unfold keyLe, useGe, usageKey. split.
  - intros (ka & kb & [= <-] & [= <-] & H). exact H.
  - intros H. eexists _, _. split; [reflexivity|]. split; [reflexivity|auto].
Qed.
Lemma sorted_weaken : forall A (R R' : A -> A -> Prop) l, (forall a b, R a b -> R' a b) -> StronglySorted R l -> StronglySorted R' l.
Proof.
  intros A R R' l H S. induction S as [|x l S IH F]; constructor; auto. rewrite Forall_forall in *. auto.
Qed.

Lemma mapOk_perm : forall m m', Permutation m m' -> mapOk m -> mapOk m'.
Proof.
  intros m m' P [N Nm]. split.
  - eapply Permutation_NoDup; [apply Permutation_map; exact P|auto].
  - intros t c H. apply Nm. apply (Permutation_in _ (Permutation_sym P)). exact H.
Qed.
Lemma memInv_perm : forall I m m', Permutation m m' -> memInv I m -> memInv I m'.
Proof.
  intros I m m' P [OK H]. split; [eapply mapOk_perm; eauto|]. intros t c K. apply (H t).
  apply (Permutation_in _ (Permutation_sym P)). exact K.
Qed.
Lemma memInv_limit : forall I m k m', limitMemory m k = Ok m' -> memInv I m -> memInv I m'.
Proof.
  intros I m k m' H [OK K]. destruct (limit_spec _ _ _ OK H) as (_ & OK' & Sub & _). split; auto. eauto.
Qed.

Section HistInv.
  Variables (n : nat) (I : concept -> Prop) (P : (nat -> usage) -> Z -> sentence -> Prop).
  Hypothesis new_ok : forall us now t s, P us now s -> s_punct s = JUGEMENT -> occurs t (s_term s) -> I (mkConcept t [s] [s]).
  Hypothesis upd_ok : forall us now t s c e u, P us now s -> s_punct s = JUGEMENT -> occurs t (s_term s) -> c_name c = t -> I c ->
    storeTable expKey n s (byExp c) = Ok e ->
    storeTable (usageKey us now) n s (byUsage c) = Ok u -> I (mkConcept t e u).
  Lemma store_fold_inv2 : forall us now s, P us now s -> s_punct s = JUGEMENT ->
    forall ts m m', (forall t, In t ts -> occurs t (s_term s)) -> memInv I m ->
    rfold (storeInConcept us s n now) ts m = Ok m' -> memInv I m'.
  Proof.
    intros us now s Ps Js. induction ts as [|t ts IH]; simpl; intros m m' Hts HI H; [injection H as <-; auto|].
    destruct (storeInConcept us s n now m t) as [m1|] eqn:E; [|discriminate]. cbn [rbind] in H.
    apply (IH m1 m'); auto. clear IH H. destruct HI as [[N Nm] HI]. apply storeInConcept_ok in E.
    destruct E as [(c & e & u & G & E1 & E2 & ->)|[G ->]].
    - assert (Hc : holds m t c) by now apply mget_in. assert (Hn := Nm _ _ Hc).
      split; [split; [now apply mset_nodup|]|]; intros t' c' H; apply in_mset in H; auto;
        (destruct H as [[-> ->]|[_ H]]; simpl; [|eauto]).
      + auto.
      + rewrite Hn. eapply upd_ok; eauto.
    - split; [split; [now apply mset_nodup|]|]; intros t' c' H; apply in_mset in H; auto;
        (destruct H as [[-> ->]|[_ H]]; simpl; [|eauto]).
      + auto.
      + eapply new_ok; eauto.
  Qed.
  Lemma historyOf_inv : forall m, historyOf P n m -> memInv I m.
  Proof.
    induction 1 as [|m us s now m' H IH Ps E|m k m' H IH E|m m' H IH E].
    - split; [split; [constructor|]|]; intros t c [].
    - apply store2_cases in E. destruct E as [[_ ->]|[J E]]; auto.
      apply (store_fold_inv2 us now s Ps J _ _ _ (fun t Ht => proj1 (retSubterms_iff _ _) Ht) IH E).
    - eapply memInv_limit; eauto.
    - eapply memInv_perm; eauto.
  Qed.
End HistInv.

Section HistInvAll.
  Variables (n : nat) (I : concept -> Prop).
  Hypothesis new_ok : forall t s, s_punct s = JUGEMENT -> I (mkConcept t [s] [s]).
  Hypothesis upd_ok : forall us now s c e u, s_punct s = JUGEMENT -> I c -> storeTable expKey n s (byExp c) = Ok e ->
    storeTable (usageKey us now) n s (byUsage c) = Ok u -> I (mkConcept (c_name c) e u).
  Lemma history_inv : forall m, history n m -> memInv I m.
  Proof.
    assert (G : forall us s now ts m m', memInv I m -> storeInConcepts2 us m s ts n now = Ok m' -> memInv I m').
    { intros us s now ts m m' H E. apply store2_cases in E. destruct E as [[_ ->]|[J E]]; auto.
      eapply store_fold_inv; [| |exact H|exact E]; eauto. }
    induction 1 as [|m us s now m' H IH E|m us s ts now m' H IH E|m k m' H IH E|m m' H IH E].
    - split; [split; [constructor|]|]; intros t c [].
    - eapply G; eauto.
    - eapply G; eauto.
    - eapply memInv_limit; eauto.
    - eapply memInv_perm; eauto.
  Qed.
End HistInvAll.

Theorem hist_mapOk : forall n m, history n m -> mapOk m.
Proof. intros n m H. apply (history_inv n (fun _ => True)) in H; auto. apply H. Qed.

Theorem hist_bounded : forall n m, 1 <= n -> history n m -> forall t c, holds m t c ->
  1 <= length (byExp c) <= n /\ 1 <= length (byUsage c) <= n.
Proof.
  intros n m Hn H. apply (history_inv n (fun c => 1 <= length (byExp c) <= n /\ 1 <= length (byUsage c) <= n)) in H.
  - intros t c K. now apply (proj2 H t).
  - intros t s _. simpl. lia.
  - intros us now s c e u _ [A B] E U. simpl. split; eapply storeTable_len; eauto.
Qed.

Theorem hist_sorted : forall n m, history n m -> forall t c, holds m t c -> expSorted (byExp c).
Proof.
  intros n m H. apply (history_inv n (fun c => StronglySorted (keyLe expKey) (byExp c))) in H.
  - intros t c K. apply (proj2 H t) in K. eapply sorted_weaken; [|exact K]. intros a b. apply keyLe_exp.
  - intros t s _. simpl. constructor; constructor.
  - intros us now s c e u _ A E U. simpl. eapply storeTable_sorted; eauto.
Qed.

Theorem hist_judgements : forall n m, history n m -> forall t c b, holds m t c ->
  In b (byExp c) \/ In b (byUsage c) -> s_punct b = JUGEMENT.
Proof.
  intros n m H. apply (history_inv n (fun c => forall b, In b (byExp c) \/ In b (byUsage c) -> s_punct b = JUGEMENT)) in H.
  - intros t c b K. apply (proj2 H t _ K).
  - intros t s J b. simpl. intros [[<-|[]]|[<-|[]]]; auto.
  - intros us now s c e u J A E U b. simpl. intros [B|B].
    + eapply storeTable_in in B; eauto. destruct B as [B| ->]; auto.
    + eapply storeTable_in in B; eauto. destruct B as [B| ->]; auto.
Qed.

Theorem hist_noDouble : forall n m, history n m -> forall t c, holds m t c ->
  noDoubleEvidence (byExp c) /\ noDoubleEvidence (byUsage c).
Proof.
  intros n m H. apply (history_inv n (fun c => noDoubleEvidence (byExp c) /\ noDoubleEvidence (byUsage c))) in H.
  - intros t c K. now apply (proj2 H t).
  - intros t s _. split; constructor; constructor.
  - intros us now s c e u _ [A B] E U. simpl. split; eapply storeTable_disj; eauto.
Qed.

(** every belief of a concept mentions the concept's name *)
Theorem hist_about : forall P n m, historyOf P n m -> forall t c b, holds m t c ->
  In b (byExp c) \/ In b (byUsage c) -> occurs t (s_term b).
Proof.
  intros P n m H. apply (historyOf_inv n (fun c => forall b, In b (byExp c) \/ In b (byUsage c) -> occurs (c_name c) (s_term b))) in H.
  - intros t c b K B. rewrite <- (proj2 (proj1 H) _ _ K). apply (proj2 H t _ K _ B).
  - intros us now t s _ _ O b. simpl. intros [[<-|[]]|[<-|[]]]; auto.
  - intros us now t s c e u _ _ O Hn A E U b. simpl. subst t. intros [B|B].
    + eapply storeTable_in in B; eauto. destruct B as [B| ->]; auto.
    + eapply storeTable_in in B; eauto. destruct B as [B| ->]; auto.
Qed.

(** every stored belief satisfies whatever the stored sentences satisfied *)
Theorem hist_from : forall (Q : sentence -> Prop) n m, historyOf (fun _ _ s => Q s) n m -> forall t c b, holds m t c ->
  In b (byExp c) \/ In b (byUsage c) -> Q b.
Proof.
  intros Q n m H. apply (historyOf_inv n (fun c => forall b, In b (byExp c) \/ In b (byUsage c) -> Q b)) in H.
  - intros t c b K B. apply (proj2 H t _ K _ B).
  - intros us now t s Hs _ O b. simpl. intros [[<-|[]]|[<-|[]]]; auto.
  - intros us now t s c e u Hs _ O Hn A E U b. simpl. subst t. intros [B|B].
    + eapply storeTable_in in B; eauto. destruct B as [B| ->]; auto.
    + eapply storeTable_in in B; eauto. destruct B as [B| ->]; auto.
Qed.

(** * What one store does *)
Definition storedWell us now n s (m : mem) t : Prop :=
  exists c, mget t m = Some c /\ c_name c = t /\
    presentOrBeaten (keyLe expKey) n s (byExp c) /\ presentOrBeaten (keyLe (usageKey us now)) n s (byUsage c).

Lemma store1_well : forall us now n s m t m', mapOk m -> storeInConcept us s n now m t = Ok m' ->
  mapOk m' /\ storedWell us now n s m' t /\
  (forall t', t' <> t -> mget t' m' = mget t' m).
Proof.
  intros us now n s m t m' OK H.
  assert (OK' : mapOk m').
  { apply (store1_inv n (fun _ => True) s (fun _ => I) (fun _ _ _ _ _ _ _ _ => I) us now m t m'); [split; auto|auto]. }
  split; auto. apply storeInConcept_ok in H.
  assert (Fr : forall c t', t' <> t -> mget t' (mset t c m) = mget t' m).
  { intros c t' Ht. rewrite mget_mset. destruct (checkEqTerm t t') eqn:E; auto. apply checkEqTerm_eq in E. congruence. }
  destruct H as [(c & e & u & G & E1 & E2 & ->)|[G ->]].
  - split; auto. exists (mkConcept (c_name c) e u). rewrite mget_mset, checkEqTerm_refl. simpl. repeat split.
    + apply (proj2 OK). now apply mget_in.
    + eapply storeTable_present; eauto.
    + eapply storeTable_present; eauto.
  - split; auto. exists (mkConcept t [s] [s]). rewrite mget_mset, checkEqTerm_refl. simpl. repeat split; left; now left.
Qed.

Lemma store_fold_well : forall us now n s ts m m', mapOk m -> rfold (storeInConcept us s n now) ts m = Ok m' ->
  mapOk m' /\ (forall t, In t ts -> storedWell us now n s m' t) /\ (forall t, ~ In t ts -> mget t m' = mget t m).
Proof.
  induction ts as [|t ts IH]; simpl; intros m m' OK H.
  - injection H as <-. repeat split; try apply OK; auto. contradiction.
  - destruct (storeInConcept us s n now m t) as [m1|] eqn:E; [|discriminate]. cbn [rbind] in H.
    apply store1_well in E; auto. destruct E as (OK1 & W1 & F1).
    destruct (IH _ _ OK1 H) as (OK2 & W2 & F2). split; auto. split.
    + intros t' [<-|Hin]; auto. destruct (in_dec term_eq_dec t ts) as [Hin|Hn]; auto.
      unfold storedWell. rewrite (F2 _ Hn). exact W1.
    + intros t' Hn. rewrite F2 by tauto. apply F1. intros ->. tauto.
Qed.

Theorem store_reachable : forall us m s n now m', mapOk m -> s_punct s = JUGEMENT ->
  storeInConcepts us m s n now = Ok m' -> forall t, occurs t (s_term s) ->
  exists c, holds m' t c /\ presentOrBeaten expGe n s (byExp c) /\ presentOrBeaten (useGe us now) n s (byUsage c).
Proof.
  intros us m s n now m' OK J H t O. apply store2_cases in H. destruct H as [[K _]|[_ H]]; [contradiction|].
  apply store_fold_well in H; auto. destruct H as (OK' & W & _). apply retSubterms_iff in O.
  destruct (W _ O) as (c & G & _ & P1 & P2). exists c. split; [now apply mget_in|]. split.
  - destruct P1 as [P1|[P1|[P1 P1']]]; [left|right; left|right; right]; auto. split; auto. intros b Hb. now apply keyLe_exp, P1'.
  - destruct P2 as [Q|[Q|[Q Q']]]; [left|right; left|right; right]; auto. split; auto. intros b Hb. now apply keyLe_use, Q'.
Qed.

Lemma storeTable_single : forall key n s, s_stamp s <> [] -> storeTable key n s [s] = Ok [s].
Proof.
  intros key n s H. unfold storeTable. assert (E : beliefExists s [s] = true).
  { apply beliefExists_iff. exists s. split; [now left|]. split; auto. destruct (s_stamp s) as [|i st] eqn:E; [congruence|].
    exists i. rewrite E. split; now left. }
  now rewrite E.
Qed.

Theorem store_new : forall us m s n now m', mapOk m -> s_punct s = JUGEMENT -> s_stamp s <> [] ->
  storeInConcepts us m s n now = Ok m' -> forall t, occurs t (s_term s) -> (forall c, ~ holds m t c) ->
  holds m' t (mkConcept t [s] [s]).
Proof.
  intros us m s n now m' OK J St H t O Hno. apply store2_cases in H. destruct H as [[K _]|[_ H]]; [contradiction|].
  apply mget_in. apply retSubterms_iff in O. revert m m' OK H Hno O.
  assert (G : forall ts m m', rfold (storeInConcept us s n now) ts m = Ok m' ->
    (mget t m = Some (mkConcept t [s] [s]) -> mget t m' = Some (mkConcept t [s] [s])) /\
    (mget t m = None -> In t ts -> mget t m' = Some (mkConcept t [s] [s]))).
  { induction ts as [|t1 ts IH]; simpl; intros m m' H; [injection H as <-; split; [auto|intros _ []]|].
    destruct (storeInConcept us s n now m t1) as [m1|] eqn:E; [|discriminate]. cbn [rbind] in H.
    destruct (IH _ _ H) as [I1 I2]. apply storeInConcept_ok in E.
    destruct (term_eq_dec t1 t) as [->|Ht].
    - destruct E as [(c & e & u & G & E1 & E2 & ->)|[G ->]].
      + split; [|congruence]. intros K. rewrite K in G. injection G as <-. simpl in E1, E2.
        rewrite storeTable_single in E1, E2 by auto. injection E1 as <-. injection E2 as <-. apply I1.
        now rewrite mget_mset, checkEqTerm_refl.
      + split; [congruence|]. intros _ _. apply I1. now rewrite mget_mset, checkEqTerm_refl.
    - assert (Em : mget t m1 = mget t m).
      { destruct E as [(c & e & u & G & E1 & E2 & ->)|[G ->]]; rewrite mget_mset;
        (destruct (checkEqTerm t1 t) eqn:Q; [apply checkEqTerm_eq in Q; congruence|auto]). }
      split; [intros K; apply I1; congruence|]. intros K [K1|K1]; [congruence|]. apply I2; [congruence|auto]. }
  intros m m' OK H Hno O. apply (G _ _ _ H); auto. destruct (mget t m) as [c|] eqn:E; [|auto].
  destruct (Hno c). now apply mget_in.
Qed.

Theorem store_frame : forall us m s n now m', mapOk m -> storeInConcepts us m s n now = Ok m' ->
  (forall t c, ~ occurs t (s_term s) -> holds m' t c <-> holds m t c) /\
  (forall t c, holds m t c -> exists c', holds m' t c').
Proof.
  intros us m s n now m' OK H. apply store2_cases in H. destruct H as [[K ->]|[_ H]].
  - split; [tauto|eauto].
  - apply store_fold_well in H; auto. destruct H as (OK' & W & F). split.
    + intros t c O. assert (N : ~ In t (retSubterms (s_term s))) by (rewrite retSubterms_iff; auto).
      specialize (F _ N). split; intros K; apply mget_in; [rewrite <- F|rewrite F]; apply in_mget; auto; [apply OK'|apply OK].
    + intros t c K. destruct (in_dec term_eq_dec t (retSubterms (s_term s))) as [Hin|Hn].
      * destruct (W _ Hin) as (c' & G & _). exists c'. now apply mget_in.
      * exists c. apply mget_in. rewrite F by auto. apply in_mget; auto. apply OK.
Qed.

(** * Retrieval *)
Theorem retrieve_one : forall m t l, mapOk m ->
  (ret_beliefs_of_concept m t = Some l <-> exists c, holds m t c /\ l = byExp c ++ byUsage c) /\
  (ret_beliefs_of_concept m t = None <-> forall c, ~ holds m t c).
Proof.
  intros m t l [N _]. unfold ret_beliefs_of_concept. destruct (mget t m) as [c|] eqn:E.
  - split.
    + split; [intros [= <-]; exists c; split; auto; now apply mget_in|]. intros (c' & H & ->).
      apply in_mget in H; auto. congruence.
    + split; [discriminate|]. intros H. destruct (H c). now apply mget_in.
  - split.
    + split; [discriminate|]. intros (c' & H & _). apply in_mget in H; auto. congruence.
    + split; auto. intros _ c H. apply in_mget in H; auto. congruence.
Qed.
Theorem retrieve_many : forall m ts b, mapOk m ->
  (In b (ret_beliefs_by_terms_nonunique m ts) <->
   exists t st c, In t ts /\ occurs st t /\ holds m st c /\ (In b (byExp c) \/ In b (byUsage c))).
Proof.
  intros m ts b OK. unfold ret_beliefs_by_terms_nonunique. rewrite in_flat_map. split.
  - intros (t & Ht & H). apply in_flat_map in H. destruct H as (st & Hst & H). apply retSubterms_iff in Hst.
    destruct (ret_beliefs_of_concept m st) as [l|] eqn:E; [|contradiction].
    apply (proj1 (retrieve_one m st l OK)) in E. destruct E as (c & Hc & ->). apply in_app_iff in H. eauto 10.
  - intros (t & st & c & Ht & O & Hc & Hb). exists t. split; auto. apply in_flat_map. exists st.
    split; [now apply retSubterms_iff|].
    assert (E : ret_beliefs_of_concept m st = Some (byExp c ++ byUsage c)) by (apply retrieve_one; eauto).
    rewrite E. now apply in_app_iff.
Qed.

(** * Absence of panics *)
Lemma rankTable_total : forall key n l, (forall x, In x l -> exists k, key x = Ok k /\ fis_nan k = false) ->
  exists l', rankTable key n l = Ok l'.
Proof.
  intros key n l H. unfold rankTable.
  destruct (rmapM_total _ _ (fun iv => do k <- key iv; Ok (k, iv)) l) as [temp E].
  { intros x Hx. destruct (H _ Hx) as (k & -> & _). eexists; reflexivity. }
  rewrite E. cbn [rbind]. destruct (fsort_desc fst temp) as [srt|] eqn:F; [eexists; reflexivity|].
  apply fsort_desc_panic in F. destruct F as (_ & [k x] & Hin & Nn). apply keyed_facts in E. destruct E as [E1 E2].
  assert (Hx : In x l) by (rewrite <- E1; apply in_map_iff; exists (k, x); auto).
  destruct (H _ Hx) as (k' & K1 & K2). apply E2 in Hin. simpl in Nn. congruence.
Qed.
Lemma storeTable_total : forall key n s l, (forall x, In x l \/ x = s -> exists k, key x = Ok k /\ fis_nan k = false) ->
  exists l', storeTable key n s l = Ok l'.
Proof.
  intros key n s l H. unfold storeTable. destruct (beliefExists s l); [eexists; reflexivity|].
  rewrite shallow_id. apply rankTable_total. intros x Hx. apply in_app_iff in Hx. apply H.
  destruct Hx as [Hx|[<-|[]]]; auto.
Qed.

Theorem store_total : forall us m s n now, mapOk m -> usableUs us now -> allStorable m ->
  (s_punct s = JUGEMENT -> storable s) -> exists m', storeInConcepts us m s n now = Ok m'.
Proof.
  intros us m s n now OK U A S. unfold storeInConcepts, storeInConcepts2.
  destruct (punct_eqb (s_punct s) JUGEMENT) eqn:J; cbn [negb]; [|eexists; reflexivity].
  apply punct_eqb_eq in J. specialize (S J). generalize (retSubterms (s_term s)) as ts. intros ts. revert m OK A.
  assert (Hk : forall b, storable b -> exists k, expKey b = Ok k /\ fis_nan k = false).
  { intros b (e & (v & T & ->) & Nn). unfold expKey. rewrite T. cbn [unwrap rbind]. eauto. }
  induction ts as [|t ts IH]; simpl; intros m OK A; [eexists; reflexivity|].
  destruct (storeInConcept us s n now m t) as [m1|] eqn:E.
  - cbn [rbind]. apply IH.
    + eapply store1_well; eauto.
    + apply storeInConcept_ok in E. destruct OK as [N Nm].
      destruct E as [(c & e & u & G & E1 & E2 & ->)|[G ->]]; intros t' c' b H Hb; apply in_mset in H; auto;
        (destruct H as [[-> ->]|[_ H]]; simpl in Hb; [|eauto]).
      * eapply storeTable_in in Hb; eauto. destruct Hb as [Hb| ->]; [eapply A; [apply mget_in; exact G|auto]|exact S].
      * destruct Hb as [<-|[]]. exact S.
  - exfalso. unfold storeInConcept in E. rewrite term_clone_id in E. destruct (mget t m) as [c|] eqn:G; [|discriminate].
    apply mget_in in G.
    destruct (storeTable_total expKey n s (byExp c)) as [e E1].
    { intros x [Hx| ->]; apply Hk; auto. exact (A _ _ _ G Hx). }
    destruct (storeTable_total (usageKey us now) n s (byUsage c)) as [u E2].
    { intros x _. eexists. split; [reflexivity|apply U]. }
    rewrite E1, E2 in E. discriminate.
Qed.

Theorem limit_total : forall m k, mapOk m -> allStorable m -> exists m', limitMemory m k = Ok m'.
Proof.
  intros m k [N Nm] A. unfold limitMemory. destruct (Nat.leb (length m) k); [eexists; reflexivity|].
  assert (R : forall t c, holds m t c -> exists r, conceptRating c = Ok r).
  { intros t c H. unfold conceptRating. assert (Q : forall l r0, (forall b, In b l -> In b (byExp c)) ->
      exists r, rfold (fun r b => do e <- expKey b; Ok (fmax r e)) l r0 = Ok r).
    { induction l as [|b l IH]; simpl; intros r0 Hl; [eexists; reflexivity|].
      destruct (A t c b H (Hl _ (or_introl eq_refl))) as (e & (v & T & ->) & _). unfold expKey at 1. rewrite T.
      cbn [unwrap rbind]. apply IH. auto. }
    apply Q. auto. }
  destruct (rmapM_total _ _ (fun kc => do r <- conceptRating (snd kc); Ok (snd kc, r)) m) as [rs E].
  { intros [t c] H. destruct (R _ _ H) as [r Hr]. simpl. rewrite Hr. eexists; reflexivity. }
  rewrite E. cbn [rbind]. destruct (fsort_desc snd rs) as [srt|] eqn:F; [eexists; reflexivity|].
  exfalso. apply fsort_desc_panic in F. destruct F as (_ & [c r] & Hin & Nn).
  assert (exists t, In (t, c) m /\ conceptRating c = Ok r) as (t & _ & Hr).
  { apply rmapM_ok in E. clear - E Hin. induction E as [|[t c'] [c2 r2] l l' H1 H2 IH]; [contradiction|].
    simpl in H1. destruct (conceptRating c') eqn:Q; [|discriminate]. injection H1 as -> ->.
    destruct Hin as [[= -> ->]|Hin]; [exists t; split; [now left|auto]|]. destruct (IH Hin) as (t' & H & H'). exists t'. split; [now right|auto]. }
  apply conceptRating_spec in Hr. destruct Hr as (_ & Hr & _). simpl in Nn. congruence.
Qed.

Theorem history_total : forall n m, historyOf (fun _ _ s => storable s) n m -> mapOk m /\ allStorable m.
Proof.
  intros n m H. split.
  - apply (historyOf_inv n (fun _ => True)) in H; auto. apply H.
  - intros t c b K B. apply (hist_from storable n m H t c b K). auto.
Qed.

(** * Order of the usage table *)
Theorem store_usage : forall us m s n now m', mapOk m -> storeInConcepts us m s n now = Ok m' ->
  forall t c', holds m' t c' ->
  (exists c, holds m t c /\ byUsage c' = byUsage c) \/ StronglySorted (useGe us now) (byUsage c').
Proof.
  intros us m s n now m' OK H. apply store2_cases in H. destruct H as [[_ ->]|[_ H]]; [eauto|].
  set (Q := fun m1 : mem => forall t c', holds m1 t c' ->
     (exists c, holds m t c /\ byUsage c' = byUsage c) \/ StronglySorted (keyLe (usageKey us now)) (byUsage c')).
  assert (G : Q m').
  { assert (Q0 : Q m) by (intros t c K; eauto).
    enough (G : forall ts m0, rfold (storeInConcept us s n now) ts m0 = Ok m' -> mapOk m0 -> Q m0 -> Q m') by (exact (G _ _ H OK Q0)).
    clear H Q0. induction ts as [|t ts IH]; simpl; intros m0 H OK0 Q0; [injection H as <-; auto|].
    destruct (storeInConcept us s n now m0 t) as [m1|] eqn:E; [|discriminate]. cbn [rbind] in H.
    apply (IH _ H); [eapply store1_well; eauto|]. apply storeInConcept_ok in E. destruct OK0 as [N _].
    destruct E as [(c & e & u & G & E1 & E2 & ->)|[G ->]]; intros t' c' K; apply in_mset in K; auto;
      (destruct K as [[-> ->]|[_ K]]; simpl; [|apply Q0 in K; auto]).
    - apply mget_in in G. apply Q0 in G. apply storeTable_ok in E2. destruct E2 as [[-> _]|(_ & full & _ & S & ->)]; auto.
      right. now apply sorted_firstn.
    - right. constructor; constructor. }
  intros t c' K. destruct (G _ _ K) as [L|R]; [left; auto|right]. eapply sorted_weaken; [|exact R]. intros a b. apply keyLe_use.
Qed.
