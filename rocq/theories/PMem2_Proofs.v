(** Ownership of the cells of the procedural memory. *)
From Coq Require Import ZArith Bool Lia List Permutation.
From Verif Require Import Base F64_Model Term_Model Term_Spec Term_Proofs Stamp_Model Tv_Model Sentence_Model Sort_Proofs Mem_Model Mem_Spec Mem_Proofs PMem_Model PMem_Proofs.
Import ListNotations.

(** * Spec vocabulary *)
(** all addresses held by tables, with multiplicity *)
Definition slots (m : pmem) : list nat := flat_map (fun kc => pExp (snd kc) ++ pUse (snd kc)) (pcs m).
(** everything that happens to a procedural memory: storing, forgetting, and
    writing a belief through a shared pointer *)
Inductive pReach : pmem -> Prop :=
| pr_make : pReach pmemMake
| pr_store : forall m us s ts n now m', pReach m -> pStoreInConcepts2 us m s ts n now = Ok m' -> pReach m'
| pr_limit : forall m k m', pReach m -> pLimit m k = Ok m' -> pReach m'
| pr_write : forall m a s, pReach m -> pReach (mkPmem (wr (cells m) a s) (pcs m)).

(** * Lemmas *)
Definition pOk (m : pmem) : Prop :=
  wfP m /\ NoDup (map fst (pcs m)) /\ (forall t c, In (t, c) (pcs m) -> pc_name c = t) /\ NoDup (slots m).

Lemma nodup_app_iff : forall A (a b : list A), NoDup (a ++ b) <-> NoDup a /\ NoDup b /\ forall x, In x a -> ~ In x b.
Proof.
  intros A a b. induction a as [|x a IH]; simpl.
  - split; [intros H; split; [constructor|split; [auto|intros y []]]|tauto].
  - split.
    + intros H. inversion H as [|? ? H1 H2]; subst. apply IH in H2. destruct H2 as (A1 & A2 & A3). rewrite in_app_iff in H1.
      split; [constructor; tauto|]. split; auto. intros y [<-|Hy]; auto.
    + intros (H1 & H2 & H3). inversion H1 as [|? ? H4 H5]; subst. constructor.
      * rewrite in_app_iff. intros [H|H]; auto. apply (H3 x); auto.
      * apply IH. split; auto.
Qed.
Lemma nodup_mid : forall A (a x x' b : list A), NoDup (a ++ x ++ b) -> NoDup x' ->
  (forall y, In y x' -> In y x \/ (~ In y a /\ ~ In y b)) -> NoDup (a ++ x' ++ b).
Proof.
  intros A a x x' b H H' Hx. apply nodup_app_iff in H. destruct H as (H1 & H2 & H3). apply nodup_app_iff in H2. destruct H2 as (H4 & H5 & H6).
  apply nodup_app_iff. split; auto. split.
  - apply nodup_app_iff. split; auto. split; auto. intros y Hy Hb. destruct (Hx y Hy) as [Hy2|(_ & Hy2)]; [apply (H6 y); auto|auto].
  - intros y Hy Hb. apply in_app_iff in Hb. destruct Hb as [Hb|Hb].
    + destruct (Hx y Hb) as [Hy2|(Hy2 & _)]; auto. apply (H3 y); auto. apply in_app_iff. auto.
    + apply (H3 y); auto. apply in_app_iff. auto.
Qed.
Lemma pRank_nodup : forall h key n l l', pRank h key n l = Ok l' -> NoDup l -> NoDup l'.
Proof.
  intros h key n l l' H N. unfold pRank in H. destruct (rmapM _ l) as [temp|] eqn:E; cbn [rbind] in H; [|discriminate].
  destruct (fsort_desc fst temp) as [srt|] eqn:E2; cbn [rbind] in H; [|discriminate]. injection H as <-.
  assert (M : map snd temp = l).
  { apply rmapM_ok in E. clear -E. induction E as [|a b l l' Hab _ IH]; simpl; auto. f_equal; auto.
    destruct (key (rd h a)); simpl in Hab; [|discriminate]. injection Hab as <-. reflexivity. }
  assert (P : Permutation (map snd srt) l).
  { apply fsort_desc_ok in E2. destruct E2 as (Q & _). rewrite <- M. apply Permutation_map. now apply Permutation_sym. }
  assert (N2 : NoDup (map snd srt)) by (eapply Permutation_NoDup; [apply Permutation_sym; exact P|exact N]).
  rewrite <- (firstn_skipn (Nat.min (length srt) n) (map snd srt)) in N2. now apply nodup_app_iff in N2.
Qed.
Lemma pStoreTable_nodup : forall key n s h l h' l', pStoreTable key n s h l = Ok (h', l') -> NoDup l -> (forall a, In a l -> a < length h) ->
  NoDup l' /\ (forall a, In a l' -> In a l \/ a = length h) /\ length h <= length h' /\ (forall a, In a l' -> a < length h').
Proof.
  intros key n s h l h' l' H N W. unfold pStoreTable in H. destruct (pExists h s l).
  - injection H as <- <-. auto.
  - destruct (pRank _ key n _) as [l1|] eqn:E; cbn [rbind] in H; [|discriminate]. injection H as <- <-.
    assert (I : forall a, In a l1 -> In a l \/ a = length h).
    { intros a Ha. apply (pRank_in _ _ _ _ _ _ E) in Ha. apply in_app_iff in Ha. destruct Ha as [Ha|[<-|[]]]; auto. }
    split; [|split; [auto|split; [rewrite app_length; lia|]]].
    + eapply pRank_nodup; eauto. apply nodup_app_iff. split; auto. split; [constructor; [easy|constructor]|]. intros x Hx [<-|[]]. apply W in Hx. lia.
    + intros a Ha. rewrite app_length. simpl. destruct (I a Ha) as [H|H]; [apply W in H; lia|lia].
Qed.
Lemma mset_split : forall A t (c c' : A) m, NoDup (map fst m) -> mget t m = Some c ->
  exists a b, m = a ++ (t, c) :: b /\ mset t c' m = a ++ (t, c') :: b.
Proof.
  intros A t c c' m N H. induction m as [|[k x] m IH]; simpl in *; [discriminate|]. inversion N as [|? ? N1 N2]; subst.
  destruct (checkEqTerm k t) eqn:E.
  - apply checkEqTerm_eq in E. subst k. injection H as ->. exists [], m. auto.
  - destruct (IH N2 H) as (a & b & E1 & E2). exists ((k, x) :: a), b. simpl. rewrite E2. split; [now rewrite E1|reflexivity].
Qed.
Lemma mset_fresh : forall A t (c : A) m, mget t m = None -> mset t c m = m ++ [(t, c)].
Proof.
  intros A t c m. induction m as [|[k x] m IH]; simpl; intros H; auto. destruct (checkEqTerm k t); [discriminate|]. now rewrite IH.
Qed.
Lemma slot_in : forall m a, In a (slots m) <-> exists t c, In (t, c) (pcs m) /\ (In a (pExp c) \/ In a (pUse c)).
Proof.
  intros m a. unfold slots. rewrite in_flat_map. split.
  - intros ([t c] & H1 & H2). simpl in H2. apply in_app_iff in H2. eauto.
  - intros (t & c & H1 & H2). exists (t, c). split; auto. simpl. now apply in_app_iff.
Qed.
Lemma slots_lt : forall m a, wfP m -> In a (slots m) -> a < length (cells m).
Proof. intros m a W H. apply slot_in in H. destruct H as (t & c & H1 & H2). eapply W; eauto. Qed.

Lemma pStoreIn_ok : forall us s n now m t m', pOk m -> pStoreIn us s n now m t = Ok m' -> pOk m'.
Proof.
  intros us s n now m t m' (W & K & Nm & S) H. pose proof (pStoreIn_refines us s n now m t W) as Rf. rewrite H in Rf. destruct Rf as (_ & W' & _).
  unfold pStoreIn in H. rewrite term_clone_id in H. destruct (mget t (pcs m)) as [c|] eqn:G.
  - assert (Hc := mget_in _ _ _ _ G).
    destruct (pStoreTable expKey n s (cells m) (pExp c)) as [[h1 e]|] eqn:E1; cbn [rbind] in H; [|discriminate].
    destruct (pStoreTable (usageKey us now) n s h1 (pUse c)) as [[h2 u]|] eqn:E2; cbn [rbind] in H; [|discriminate].
    destruct (mset_split _ t c (mkPC (pc_name c) e u) (pcs m) K G) as (a & b & Q1 & Q2).
    unfold slots in S. rewrite Q1, flat_map_app in S. simpl in S.
    set (A := flat_map (fun kc : term * pconcept => pExp (snd kc) ++ pUse (snd kc)) a) in *.
    set (B := flat_map (fun kc : term * pconcept => pExp (snd kc) ++ pUse (snd kc)) b) in *.
    assert (Sp := S). apply nodup_app_iff in Sp. destruct Sp as (_ & Sp & _). apply nodup_app_iff in Sp. destruct Sp as (Sp & _ & _).
    apply nodup_app_iff in Sp. destruct Sp as (N1 & N2 & N3).
    assert (W1 : forall x, In x (pExp c) -> x < length (cells m)) by (intros x Hx; eapply W; eauto).
    assert (W2 : forall x, In x (pUse c) -> x < length (cells m)) by (intros x Hx; eapply W; eauto).
    destruct (pStoreTable_nodup _ _ _ _ _ _ _ E1 N1 W1) as (A1 & A2 & A3 & A4).
    destruct (pStoreTable_nodup _ _ _ _ _ _ _ E2 N2) as (B1 & B2 & B3 & B4); [intros x Hx; apply W2 in Hx; lia|].
    assert (Lt : forall x, In x A \/ In x B -> x < length (cells m)).
    { intros x Hx. apply (slots_lt m x W). unfold slots. rewrite Q1, flat_map_app. simpl. fold A B. repeat rewrite in_app_iff. tauto. }
    assert (Hm : m' = mkPmem h2 (mset t (mkPC (pc_name c) e u) (pcs m))) by congruence. clear H. subst m'.
    split; auto. split; [simpl; now apply mset_nodup|]. split.
    { simpl. intros k x Hx. apply in_mset_weak in Hx. destruct Hx as [[-> ->]|Hx]; simpl; eauto. }
    unfold slots. simpl. rewrite Q2, flat_map_app. simpl. fold A B. apply (nodup_mid _ A (pExp c ++ pUse c) (e ++ u) B); auto.
    + apply nodup_app_iff. split; auto. split; auto. intros x Hx Hy. destruct (A2 x Hx) as [X|X]; destruct (B2 x Hy) as [Y|Y].
      * apply (N3 x); auto.
      * apply W1 in X. lia.
      * subst x. apply W2 in Y. lia.
      * assert (length h1 = length (cells m)) by lia.
        assert (length (cells m) < length h1) by (rewrite <- X; apply A4; auto). lia.
    + intros x Hx. apply in_app_iff in Hx. destruct Hx as [Hx|Hx].
      * destruct (A2 x Hx) as [X| ->]; [left; apply in_app_iff; auto|]. right. split; intros Y; assert (length (cells m) < length (cells m)) by (apply Lt; auto); lia.
      * destruct (B2 x Hx) as [X| ->]; [left; apply in_app_iff; auto|]. right. split; intros Y; assert (length h1 < length (cells m)) by (apply Lt; auto); lia.
  - assert (Hm : m' = mkPmem (cells m ++ [shallowCopySentence s; shallowCopySentence s])
                 (mset t (mkPC t [length (cells m)] [Datatypes.S (length (cells m))]) (pcs m))) by congruence. clear H. subst m'.
    split; auto. split; [simpl; now apply mset_nodup|]. split.
    { simpl. intros k x Hx. apply in_mset_weak in Hx. destruct Hx as [[-> ->]|Hx]; simpl; eauto. }
    unfold slots. simpl. rewrite mset_fresh by auto. rewrite flat_map_app. simpl. apply nodup_app_iff. split; [exact S|]. split.
    + constructor; [intros [X|[]]; lia|]. constructor; [easy|constructor].
    + intros x Hx Hy. apply (slots_lt m x W) in Hx. destruct Hy as [<-|[<-|[]]]; lia.
Qed.
Lemma pLimit_ok : forall m k m', pOk m -> pLimit m k = Ok m' -> pOk m'.
Proof.
  intros m k m' (W & K & Nm & S) H. pose proof (pLimit_refines m k W) as Rf. rewrite H in Rf. destruct Rf as (_ & W' & _).
  unfold pLimit in H. destruct (Nat.leb _ k).
  { assert (m = m') by congruence. subst. split; auto. }
  destruct (rmapM _ (pcs m)) as [rated|] eqn:E; cbn [rbind] in H; [|discriminate].
  destruct (fsort_desc snd rated) as [srt|] eqn:E2; cbn [rbind] in H; [|discriminate].
  assert (Hm : m' = mkPmem (cells m) (fold_left (fun acc cr => mset (pc_name (fst cr)) (fst cr) acc) (firstn (Nat.min (length srt) k) srt) [])) by congruence.
  clear H. assert (M : map fst rated = map snd (pcs m)).
  { apply rmapM_ok in E. clear -E. induction E as [|[t c] b l l' Hab _ IH]; simpl; auto. f_equal; auto. simpl in Hab.
    destruct (pRating (cells m) c); simpl in Hab; [|discriminate]. injection Hab as <-. reflexivity. }
  assert (P : Permutation (map fst srt) (map snd (pcs m))).
  { apply fsort_desc_ok in E2. destruct E2 as (Q & _). rewrite <- M. apply Permutation_map. now apply Permutation_sym. }
  set (kept := firstn (Nat.min (length srt) k) srt) in *.
  assert (NmL : map pc_name (map snd (pcs m)) = map fst (pcs m)).
  { rewrite map_map. apply map_ext_in. intros [t c] Hi. simpl. eauto. }
  assert (Nk : NoDup (map (fun cr : pconcept * f64 => pc_name (fst cr)) srt)).
  { rewrite <- map_map. eapply Permutation_NoDup; [apply Permutation_sym, Permutation_map, P|]. now rewrite NmL. }
  assert (Nk2 : NoDup (map (fun cr : pconcept * f64 => pc_name (fst cr)) kept)).
  { rewrite <- (firstn_skipn (Nat.min (length srt) k) srt), map_app in Nk. now apply nodup_app_iff in Nk. }
  assert (Fm : pcs m' = map (fun cr => (pc_name (fst cr), fst cr)) kept).
  { subst m'. simpl. assert (G : forall l acc, NoDup (map fst acc ++ map (fun cr : pconcept * f64 => pc_name (fst cr)) l) ->
       fold_left (fun acc (cr : pconcept * f64) => mset (pc_name (fst cr)) (fst cr) acc) l acc = acc ++ map (fun cr => (pc_name (fst cr), fst cr)) l).
    { induction l as [|x l IH]; intros acc Hd; simpl; [now rewrite app_nil_r|]. simpl in Hd. rewrite mset_fresh.
      - rewrite IH; [now rewrite <- app_assoc|]. rewrite map_app. simpl. now rewrite <- app_assoc.
      - apply mget_none. intros Hi. apply nodup_app_iff in Hd. destruct Hd as (_ & _ & Hd). apply (Hd _ Hi). now left. }
    now rewrite G. }
  assert (Sl : NoDup (flat_map (fun c => pExp c ++ pUse c) (map fst srt))).
  { eapply Permutation_NoDup; [|exact S]. unfold slots. replace (flat_map (fun kc : term * pconcept => pExp (snd kc) ++ pUse (snd kc)) (pcs m)) with
      (flat_map (fun c => pExp c ++ pUse c) (map snd (pcs m))).
    - apply Permutation_flat_map. now apply Permutation_sym.
    - clear. induction (pcs m) as [|[t c] l IH]; simpl; auto. now rewrite IH. }
  split; auto. split; [rewrite Fm, map_map; exact Nk2|]. split.
  - rewrite Fm. intros t c Hi. apply in_map_iff in Hi. destruct Hi as (x & Hx & _). congruence.
  - unfold slots. rewrite Fm. replace (flat_map (fun kc : term * pconcept => pExp (snd kc) ++ pUse (snd kc)) (map (fun cr : pconcept * f64 => (pc_name (fst cr), fst cr)) kept)) with
      (flat_map (fun c => pExp c ++ pUse c) (map fst kept)).
    + rewrite <- (firstn_skipn (Nat.min (length srt) k) srt), map_app, flat_map_app in Sl. now apply nodup_app_iff in Sl.
    + clear. induction kept as [|x l IH]; simpl; auto. now rewrite IH.
Qed.
Lemma wr_length : forall h a s, length (wr h a s) = length h.
Proof. intros h a s. unfold wr. revert a. induction h as [|x h IH]; intros [|a]; simpl; auto. Qed.
Lemma rd_wr : forall h a s b, a < length h -> rd (wr h a s) b = if Nat.eqb b a then s else rd h b.
Proof.
  intros h a s b. unfold rd, wr. revert a b. induction h as [|x h IH]; intros [|a] [|b] H; simpl in *; try lia; auto.
  apply IH. lia.
Qed.
Lemma rd_wr_other : forall h a s b, b <> a -> rd (wr h a s) b = rd h b.
Proof.
  intros h a s b. unfold rd, wr. revert a b. induction h as [|x h IH]; intros [|a] [|b] H; simpl in *; try lia; auto.
Qed.
Theorem pReach_ok : forall m, pReach m -> pOk m.
Proof.
  induction 1.
  - split; [intros t c a []|]. split; [constructor|]. split; [intros t c []|constructor].
  - unfold pStoreInConcepts2 in H0. destruct (negb _); [congruence|].
    clear H. revert m IHpReach H0. induction ts as [|t ts IH]; intros m P H; cbn [rfold] in H; [congruence|].
    destruct (pStoreIn us s n now m t) as [m1|] eqn:E; cbn [rbind] in H; [|discriminate]. apply (IH m1); auto. eapply pStoreIn_ok; eauto.
  - eapply pLimit_ok; eauto.
  - destruct IHpReach as (W & K & Nm & S). split; [|split; [exact K|split; [exact Nm|exact S]]]. intros t c b Hi Hb. simpl. rewrite wr_length. eapply W; eauto.
Qed.
Theorem write_local : forall m a s b, pReach m -> In b (slots m) -> In a (slots m) ->
  rd (wr (cells m) a s) b = if Nat.eqb b a then s else rd (cells m) b.
Proof. intros m a s b R Hb Ha. apply rd_wr. apply slots_lt; auto. now apply pReach_ok. Qed.

(** without writes the cells hold what the value model holds *)
Inductive pHist (n : nat) : pmem -> Prop :=
| ph_make : pHist n pmemMake
| ph_store : forall m us s ts now m', pHist n m -> pStoreInConcepts2 us m s ts n now = Ok m' -> pHist n m'
| ph_limit : forall m k m', pHist n m -> pLimit m k = Ok m' -> pHist n m'.
Theorem pHist_history : forall n m, pHist n m -> wfP m /\ history n (deref m).
Proof.
  induction 1.
  - split; [intros t c a []|constructor].
  - destruct IHpHist as (W & Hi). pose proof (pStore_refines us m s ts n now W) as R. rewrite H0 in R. destruct R as (R1 & R2 & _).
    split; auto. eapply h_store2; eauto.
  - destruct IHpHist as (W & Hi). pose proof (pLimit_refines m k W) as R. rewrite H0 in R. destruct R as (R1 & R2 & _).
    split; auto. eapply h_limit; eauto.
Qed.
