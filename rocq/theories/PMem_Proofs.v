(** Reading the cells of the procedural memory gives the value model. *)
From Coq Require Import ZArith Bool Lia List Permutation.
From Verif Require Import Base F64_Model Term_Model Term_Spec Term_Proofs Stamp_Model Tv_Model Sentence_Model Sort_Proofs Mem_Model Mem_Spec Mem_Proofs PMem_Model.
Import ListNotations.

(** * Spec vocabulary *)
Definition derefC (h : list sentence) (c : pconcept) : concept :=
  mkConcept (pc_name c) (map (rd h) (pExp c)) (map (rd h) (pUse c)).
(** the memory as seen by reading every cell *)
Definition deref (m : pmem) : mem := map (fun kc => (fst kc, derefC (cells m) (snd kc))) (pcs m).
(** every address in a table is allocated *)
Definition wfP (m : pmem) : Prop :=
  forall t c a, In (t, c) (pcs m) -> In a (pExp c) \/ In a (pUse c) -> a < length (cells m).
(** addresses of [m] still mean the same in [m'] *)
Definition stable (m m' : pmem) : Prop := exists x, cells m' = cells m ++ x.

(** * Lemmas *)
Lemma rd_app : forall h x a, a < length h -> rd (h ++ x) a = rd h a.
Proof. intros. unfold rd. now apply app_nth1. Qed.
Lemma map_rd_app : forall h x l, (forall a, In a l -> a < length h) -> map (rd (h ++ x)) l = map (rd h) l.
Proof. intros h x l H. apply map_ext_in. intros a Ha. apply rd_app. auto. Qed.

Lemma mget_map : forall A B (f : A -> B) t (m : list (term * A)),
  mget t (map (fun kc => (fst kc, f (snd kc))) m) = option_map f (mget t m).
Proof. intros A B f t m. induction m as [|[k a] m IH]; simpl; auto. destruct (checkEqTerm k t); auto. Qed.
Lemma mset_map : forall A B (f : A -> B) t a (m : list (term * A)),
  map (fun kc => (fst kc, f (snd kc))) (mset t a m) = mset t (f a) (map (fun kc => (fst kc, f (snd kc))) m).
Proof. intros A B f t a m. induction m as [|[k b] m IH]; simpl; auto. destruct (checkEqTerm k t); simpl; congruence. Qed.

Lemma insert_map : forall A B (f : A -> B) (lt : A -> A -> bool) (lt' : B -> B -> bool),
  (forall a b, lt' (f a) (f b) = lt a b) -> forall x l, map f (insert_by lt x l) = insert_by lt' (f x) (map f l).
Proof. intros A B f lt lt' H x l. induction l as [|y l IH]; simpl; auto. rewrite H. destruct (lt y x); simpl; congruence. Qed.
Lemma sort_map : forall A B (f : A -> B) (lt : A -> A -> bool) (lt' : B -> B -> bool),
  (forall a b, lt' (f a) (f b) = lt a b) -> forall l, map f (sort_by lt l) = sort_by lt' (map f l).
Proof. intros A B f lt lt' H l. induction l as [|y l IH]; simpl; auto. rewrite <- IH. now apply insert_map. Qed.
Lemma fsort_map : forall A B (f : A -> B) (key : B -> f64) l,
  fsort_desc key (map f l) = rmap (map f) (fsort_desc (fun a => key (f a)) l).
Proof.
  intros. unfold fsort_desc. rewrite map_length.
  replace (existsb (fun a => fis_nan (key a)) (map f l)) with (existsb (fun a => fis_nan (key (f a))) l)
    by (induction l; simpl; congruence).
  destruct ((2 <=? Z.of_nat (length l))%Z && _); simpl; auto. f_equal. symmetry. now apply sort_map.
Qed.

Lemma rmapM_map : forall A B C D (g : A -> B) (k : C -> D) (f : B -> res D) (f' : A -> res C) l,
  (forall a, In a l -> f (g a) = rmap k (f' a)) -> rmapM f (map g l) = rmap (map k) (rmapM f' l).
Proof.
  intros A B C D g k f f' l H. induction l as [|a l IH]; simpl; auto.
  rewrite H by now left. destruct (f' a); simpl; auto. rewrite IH by (intros; apply H; now right).
  destruct (rmapM f' l); reflexivity.
Qed.

Lemma pRank_refines : forall h key n l, rankTable key n (map (rd h) l) = rmap (map (rd h)) (pRank h key n l).
Proof.
  intros h key n l. unfold rankTable, pRank.
  rewrite (rmapM_map _ _ (f64 * nat) _ (rd h) (fun ka => (fst ka, rd h (snd ka))) _ (fun a => do k <- key (rd h a); Ok (k, a)))
    by (intros a _; destruct (key (rd h a)); reflexivity).
  destruct (rmapM _ l) as [temp|]; simpl; auto.
  rewrite fsort_map. simpl. destruct (fsort_desc fst temp) as [srt|]; simpl; auto.
  f_equal. rewrite map_length, <- firstn_map, !map_map. reflexivity.
Qed.
Lemma pRank_in : forall h key n l l' a, pRank h key n l = Ok l' -> In a l' -> In a l.
Proof.
  intros h key n l l' a H Ha. unfold pRank in H. destruct (rmapM _ l) as [temp|] eqn:E; simpl in H; [|discriminate].
  destruct (fsort_desc fst temp) as [srt|] eqn:E2; simpl in H; [|discriminate]. injection H as <-.
  apply firstn_in in Ha. apply in_map_iff in Ha. destruct Ha as ((k, x) & <- & Hx).
  apply fsort_desc_ok in E2. destruct E2 as (P & _). apply (Permutation_in _ (Permutation_sym P)) in Hx.
  apply rmapM_ok in E. clear -E Hx. induction E as [|y z l temp Hy _ IH]; [easy|]. destruct Hx as [->|Hx]; [|right; auto].
  left. destruct (key (rd h y)); simpl in Hy; [now injection Hy|discriminate].
Qed.

Lemma pStoreTable_refines : forall key n s h l, (forall a, In a l -> a < length h) ->
  match pStoreTable key n s h l with
  | Ok (h', l') => storeTable key n s (map (rd h) l) = Ok (map (rd h') l') /\
      (exists x, h' = h ++ x) /\ (forall a, In a l' -> a < length h')
  | Panic => storeTable key n s (map (rd h) l) = Panic
  end.
Proof.
  intros key n s h l Hl. unfold pStoreTable, storeTable, pExists.
  destruct (beliefExists s (map (rd h) l)).
  - split; auto. split; auto. exists []. now rewrite app_nil_r.
  - replace (map (rd h) l ++ [shallowCopySentence s]) with (map (rd (h ++ [shallowCopySentence s])) (l ++ [length h])).
    + rewrite pRank_refines. destruct (pRank _ key n _) as [l'|] eqn:E; simpl; auto.
      split; auto. split; [eauto|]. intros a Ha. eapply pRank_in in Ha; eauto. rewrite app_length. simpl.
      apply in_app_iff in Ha. destruct Ha as [Ha|[<-|[]]]; [apply Hl in Ha|]; lia.
    + rewrite map_app. simpl. rewrite map_rd_app by auto. f_equal. unfold rd. rewrite app_nth2 by lia.
      now rewrite Nat.sub_diag.
Qed.

Lemma derefC_app : forall h x c, (forall a, In a (pExp c) \/ In a (pUse c) -> a < length h) -> derefC (h ++ x) c = derefC h c.
Proof. intros. unfold derefC. rewrite !map_rd_app; auto. Qed.
Lemma deref_app : forall h x cs, (forall t c a, In (t, c) cs -> In a (pExp c) \/ In a (pUse c) -> a < length h) ->
  deref (mkPmem (h ++ x) cs) = deref (mkPmem h cs).
Proof.
  intros h x cs H. unfold deref. simpl. apply map_ext_in. intros [t c] Hi. simpl. f_equal.
  apply derefC_app. intros a. eapply H; eauto.
Qed.
Lemma deref_get : forall m t, mget t (deref m) = option_map (derefC (cells m)) (mget t (pcs m)).
Proof. intros. unfold deref. apply mget_map. Qed.

Lemma in_mset_weak : forall A t (a : A) m k b, In (k, b) (mset t a m) -> (k = t /\ b = a) \/ In (k, b) m.
Proof.
  intros A t a m k b. induction m as [|[k' b'] m IH]; simpl.
  - intros [H|[]]. injection H as <- <-. auto.
  - destruct (checkEqTerm k' t) eqn:E; simpl.
    + apply checkEqTerm_eq in E. subst. intros [H|H]; [injection H as <- <-|]; auto.
    + intros [H|H]; auto. apply IH in H. tauto.
Qed.

Lemma pStoreIn_refines : forall us s n now m t, wfP m ->
  match pStoreIn us s n now m t with
  | Ok m' => storeInConcept us s n now (deref m) t = Ok (deref m') /\ wfP m' /\ stable m m'
  | Panic => storeInConcept us s n now (deref m) t = Panic
  end.
Proof.
  intros us s n now m t Hw. unfold pStoreIn, storeInConcept. rewrite term_clone_id, deref_get.
  destruct (mget t (pcs m)) as [c|] eqn:E; simpl.
  - assert (Hin := mget_in _ _ _ _ E).
    assert (H1 : forall a, In a (pExp c) -> a < length (cells m)) by (intros a Ha; apply (Hw t c a Hin); auto).
    assert (H2 : forall a, In a (pUse c) -> a < length (cells m)) by (intros a Ha; apply (Hw t c a Hin); auto).
    pose proof (pStoreTable_refines expKey n s (cells m) (pExp c) H1) as A.
    destruct (pStoreTable expKey n s (cells m) (pExp c)) as [[h1 e]|]; simpl; [|now rewrite A].
    destruct A as (A1 & (x1 & ->) & A3). rewrite A1. simpl.
    assert (H2' : forall a, In a (pUse c) -> a < length (cells m ++ x1)) by (intros a Ha; rewrite app_length; apply H2 in Ha; lia).
    pose proof (pStoreTable_refines (usageKey us now) n s (cells m ++ x1) (pUse c) H2') as B.
    rewrite map_rd_app in B by auto.
    destruct (pStoreTable (usageKey us now) n s (cells m ++ x1) (pUse c)) as [[h2 u]|]; simpl; [|now rewrite B].
    destruct B as (B1 & (x2 & ->) & B3). rewrite B1. simpl.
    assert (He : forall a, In a e -> a < length (cells m ++ x1)) by auto.
    split; [|split].
    + f_equal. unfold deref. simpl. rewrite mset_map. unfold derefC at 2. simpl.
      rewrite (map_rd_app (cells m ++ x1) x2 e) by auto. f_equal.
      apply map_ext_in. intros [k c'] Hi. simpl. f_equal. rewrite <- app_assoc. symmetry. apply derefC_app.
      intros a. eapply Hw; eauto.
    + intros k c' a Hi Ha. simpl in *. rewrite !app_length. apply in_mset_weak in Hi. destruct Hi as [[-> ->]|Hi].
      * simpl in Ha. destruct Ha as [Ha|Ha].
        -- apply He in Ha. rewrite app_length in Ha. lia.
        -- apply B3 in Ha. rewrite !app_length in Ha. lia.
      * pose proof (Hw k c' a Hi Ha). lia.
    + exists (x1 ++ x2). simpl. now rewrite app_assoc.
  - split; [|split].
    + f_equal. unfold deref. simpl. rewrite mset_map. unfold derefC at 2. simpl. rewrite !shallow_id.
      replace (rd (cells m ++ [s; s]) (length (cells m))) with s.
      replace (rd (cells m ++ [s; s]) (S (length (cells m)))) with s.
      * f_equal. apply map_ext_in. intros [k c'] Hi. simpl. f_equal. symmetry. apply derefC_app. intros a. eapply Hw; eauto.
      * unfold rd. rewrite app_nth2 by lia. replace (S (length (cells m)) - length (cells m)) with 1 by lia. reflexivity.
      * unfold rd. rewrite app_nth2 by lia. now rewrite Nat.sub_diag.
    + intros k c' a Hi Ha. simpl in *. rewrite app_length. simpl. apply in_mset_weak in Hi. destruct Hi as [[-> ->]|Hi].
      * simpl in Ha. lia.
      * pose proof (Hw k c' a Hi Ha). lia.
    + eexists; reflexivity.
Qed.

Lemma stable_refl : forall m, stable m m.
Proof. intros. exists []. now rewrite app_nil_r. Qed.
Lemma stable_trans : forall a b c, stable a b -> stable b c -> stable a c.
Proof. intros a b c (x & H) (y & H2). exists (x ++ y). rewrite H2, H. now rewrite app_assoc. Qed.

Theorem pStore_refines : forall us m s ts n now, wfP m ->
  match pStoreInConcepts2 us m s ts n now with
  | Ok m' => storeInConcepts2 us (deref m) s ts n now = Ok (deref m') /\ wfP m' /\ stable m m'
  | Panic => storeInConcepts2 us (deref m) s ts n now = Panic
  end.
Proof.
  intros us m s ts n now Hw. unfold pStoreInConcepts2, storeInConcepts2.
  destruct (negb (punct_eqb (s_punct s) JUGEMENT)); [split; [reflexivity|split; [assumption|apply stable_refl]]|].
  revert m Hw. induction ts as [|t ts IH]; intros m Hw; simpl.
  - split; [reflexivity|split; [assumption|apply stable_refl]].
  - pose proof (pStoreIn_refines us s n now m t Hw) as A. destruct (pStoreIn us s n now m t) as [m1|]; simpl.
    + destruct A as (A1 & A2 & A3). rewrite A1. simpl. specialize (IH m1 A2). destruct (rfold _ ts m1) as [m2|]; auto.
      destruct IH as (B1 & B2 & B3). split; auto. split; auto. eapply stable_trans; eauto.
    + now rewrite A.
Qed.

Lemma pRating_refines : forall h c, conceptRating (derefC h c) = pRating h c.
Proof.
  intros h c. unfold conceptRating, pRating. simpl. generalize f0. induction (pExp c) as [|a l IH]; intros r; simpl; auto.
  destruct (expKey (rd h a)); simpl; auto.
Qed.

Theorem pLimit_refines : forall m k, wfP m ->
  match pLimit m k with
  | Ok m' => limitMemory (deref m) k = Ok (deref m') /\ wfP m' /\ cells m' = cells m
  | Panic => limitMemory (deref m) k = Panic
  end.
Proof.
  intros m k Hw. unfold pLimit, limitMemory. replace (length (deref m)) with (length (pcs m)) by (unfold deref; now rewrite map_length).
  destruct (Nat.leb (length (pcs m)) k); auto.
  assert (R : rmapM (fun kc : term * concept => do r <- conceptRating (snd kc); Ok (snd kc, r)) (deref m) =
    rmap (map (fun cr => (derefC (cells m) (fst cr), snd cr))) (rmapM (fun kc => do r <- pRating (cells m) (snd kc); Ok (snd kc, r)) (pcs m))).
  { unfold deref. apply rmapM_map. intros [t c] _. simpl. rewrite pRating_refines. destruct (pRating (cells m) c); reflexivity. }
  rewrite !R.
  destruct (rmapM _ (pcs m)) as [rated|] eqn:E; simpl; auto.
  rewrite !fsort_map. simpl. destruct (fsort_desc snd rated) as [srt|] eqn:E2; simpl; auto.
  split; [|split; auto].
  - f_equal. rewrite map_length, firstn_map. unfold deref. simpl.
    change (@nil (term * concept)) with (map (fun kc => (fst kc, derefC (cells m) (snd kc))) (@nil (term * pconcept))) at 1.
    generalize (@nil (term * pconcept)). induction (firstn (Nat.min (length srt) k) srt) as [|[c r] l IH]; intros acc; simpl; auto.
    rewrite <- IH. now rewrite mset_map.
  - intros t c a Hi Ha. simpl in *.
    assert (Hs : In c (map fst (firstn (Nat.min (length srt) k) srt))).
    { clear -Hi. assert (G : forall l acc, In (t, c) (fold_left (fun acc (cr : pconcept * f64) => mset (pc_name (fst cr)) (fst cr) acc) l acc) ->
          In c (map fst l) \/ In (t, c) acc).
      { induction l as [|[c' r] l IH]; simpl; intros acc H; auto. apply IH in H. destruct H as [H|H]; auto.
        apply in_mset_weak in H. destruct H as [[_ ->]|H]; auto. }
      apply G in Hi. now destruct Hi. }
    apply in_map_iff in Hs. destruct Hs as ((c', r) & <- & Hs). simpl in *. apply firstn_in in Hs.
    apply fsort_desc_ok in E2. destruct E2 as (P & _). apply (Permutation_in _ (Permutation_sym P)) in Hs.
    apply rmapM_ok in E. assert (G : exists t', In (t', c') (pcs m)).
    { clear -E Hs. induction E as [|[t0 c0] z l rated Hy _ IH]; [easy|]. destruct Hs as [->|Hs].
      - exists t0. left. simpl in Hy. destruct (pRating _ c0); simpl in Hy; congruence.
      - destruct IH as [t' H]; auto. exists t'. now right. }
    destruct G as (t1 & G). exact (Hw t1 c' a G Ha).
Qed.

Lemma deref_mapOk_keys : forall m, map fst (deref m) = map fst (pcs m).
Proof. intros. unfold deref. rewrite map_map. reflexivity. Qed.

Lemma pBeliefsOf_refines : forall m t, map (rd (cells m)) (pBeliefsOf m t) = match ret_beliefs_of_concept (deref m) t with Some l => l | None => [] end.
Proof.
  intros. unfold pBeliefsOf, ret_beliefs_of_concept. rewrite deref_get. destruct (mget t (pcs m)); simpl; auto. apply map_app.
Qed.
Theorem pBeliefs_refines : forall m ts, map (rd (cells m)) (pBeliefs m ts) = ret_beliefs_by_terms_nonunique (deref m) ts.
Proof.
  intros m ts. unfold pBeliefs, ret_beliefs_by_terms_nonunique. induction ts as [|t ts IH]; simpl; auto.
  rewrite map_app, IH. f_equal. induction (retSubterms t) as [|x l IH2]; simpl; auto.
  rewrite map_app, IH2. f_equal. apply pBeliefsOf_refines.
Qed.
Lemma pBeliefs_wf : forall m ts a, wfP m -> In a (pBeliefs m ts) -> a < length (cells m).
Proof.
  intros m ts a Hw H. unfold pBeliefs in H. apply in_flat_map in H. destruct H as (t & _ & H).
  apply in_flat_map in H. destruct H as (x & _ & H). unfold pBeliefsOf in H. destruct (mget x (pcs m)) as [c|] eqn:E; [|easy].
  apply mget_in in E. apply in_app_iff in H. eapply Hw; eauto.
Qed.
