(** Proofs about the goal system, part 3: duplicates, satisfaction, totality,
    backward planning and choice. *)
From Coq Require Import String ZArith Bool Lia List Permutation Sorted.
From Verif Require Import Base F64_Model Term_Model Term_Spec Term_Proofs Unify_Model Stamp_Model Stamp_Proofs Tv_Model Sentence_Model Sort_Proofs Mem_Model Mem_Spec Mem_Proofs PMem_Model PMem_Proofs Goal_Model Goal_Spec Goal_Proofs Goal2_Proofs.
From Verif Require Run_Proofs.
Import ListNotations.
Local Open Scope Z_scope.

(** * No panic *)
Lemma add2_total : forall g e, gOk g -> 1 <= g_maxDepth g -> 0 <= e_depth e -> exists g', addEntry2 g e = Ok g'.
Proof.
  intros g e G D1 D2. unfold addEntry2. destruct (decodeOp _); [destruct (checkSetContains _ _); eauto|].
  destruct (nth_error (g_batches g) (Z.to_nat (Z.min (e_depth e) (g_maxDepth g - 1)))) as [b|] eqn:E.
  - assert (I : idxZ (g_batches g) (Z.min (e_depth e) (g_maxDepth g - 1)) = Ok b) by (apply idxZ_ok; split; [lia|exact E]).
    rewrite I. cbn [rbind]. destruct (addToGroups_total e b) as (r & R).
    + intros [t es] Hi. simpl. apply (ok_groups _ G _ b t es E Hi).
    + rewrite R. cbn [rbind]. destruct r; eauto.
  - exfalso. apply nth_error_None in E. assert (L := ok_len _ G).
    match type of E with (length ?x <= _)%nat => change (length x) with (length (g_batches g)) in E end. rewrite L in E. lia.
Qed.
Lemma addAll_total : forall l g, gOk g -> 1 <= g_maxDepth g -> (forall e, In e l -> 0 <= e_depth e) -> exists g', rfold addEntry2 l g = Ok g'.
Proof.
  induction l as [|e l IH]; intros g G D H; simpl; [eauto|].
  destruct (add2_total g e G D) as (g1 & E); [apply H; now left|]. rewrite E. cbn [rbind].
  apply IH; [eapply addEntry2_inv; eauto| |intros; apply H; now right]. destruct (added_cfg _ _ _ E) as (_ & -> & _). auto.
Qed.
Lemma add_total : forall g t goal evi depth, gOk g -> 1 <= g_maxDepth g -> s_punct goal = GOAL -> 0 <= depth -> exists g', addEntry g t goal evi depth = Ok g'.
Proof.
  intros g t goal evi depth G D P Dp. unfold addEntry. rewrite P. simpl. destruct (goalKnown g goal); eauto. apply add2_total; auto.
Qed.

Lemma rmapM_total : forall A B (f : A -> res B) l, (forall a, In a l -> exists b, f a = Ok b) -> exists l', rmapM f l = Ok l'.
Proof.
  intros A B f l. induction l as [|a l IH]; intros H; simpl; [eauto|]. destruct (H a) as (b & E); [now left|]. rewrite E. cbn [rbind].
  destruct IH as (l' & ->); [intros; apply H; now right|]. simpl. eauto.
Qed.
Lemma rmapM_back : forall A B (f : A -> res B) l l' b, rmapM f l = Ok l' -> In b l' -> exists a, In a l /\ f a = Ok b.
Proof.
  intros A B f l l' b H Hb. apply rmapM_ok in H. induction H as [|x y l l' Hxy _ IH]; [easy|]. destruct Hb as [->|Hb].
  - exists x. split; auto. now left.
  - destruct (IH Hb) as (a & H1 & H2). exists a. split; auto. now right.
Qed.

Theorem limit_total : forall g decay t, gReach g -> 0 <= g_maxEntries g -> 1 <= g_maxDepth g ->
  (forall e, stored g e -> 0 <= e_depth e /\ exists u, utilOf decay t e u /\ fis_nan u = false) ->
  exists g', limitGoals decay g t = Ok g'.
Proof.
  intros g decay t R N D H. unfold limitGoals.
  assert (In2 : forall e, In e (retEntries g ++ g_active g) -> stored g e).
  { intros e He. apply stored_iff. apply in_app_iff in He. destruct He as [He|He]; auto. unfold retEntries. apply in_app_iff. auto. }
  destruct (rmapM_total _ _ (refreshUtil decay t) (retEntries g ++ g_active g)) as (arr & E).
  { intros e He. destruct (H e (In2 e He)) as (_ & u & (v & V & _) & _). unfold refreshUtil. rewrite V. simpl. eauto. }
  rewrite E. cbn [rbind]. assert (A : forall x, In x arr -> 0 <= e_depth x /\ fis_nan (e_util x) = false).
  { intros x Hx. destruct (rmapM_back _ _ _ _ _ _ E Hx) as (e & He & Hr). apply refresh_spec in Hr. destruct Hr as ((_ & _ & _ & Q & _) & U).
    destruct (H e (In2 e He)) as (Dp & u & Hu & Hn). rewrite (utilOf_fun _ _ _ _ _ U Hu). rewrite Q. auto. }
  destruct (fsort_desc e_util arr) as [srt|] eqn:S.
  - cbn [rbind]. destruct (Z.ltb_spec (g_maxEntries g) 0); [lia|]. apply addAll_total; simpl; auto; [apply emptyOk|].
    intros e He. apply firstn_in in He. apply fsort_desc_ok in S. destruct S as (Q & _). apply A. apply (Permutation_in _ (Permutation_sym Q) He).
  - exfalso. apply fsort_desc_panic in S. destruct S as (_ & x & Hx & Hn). destruct (A x Hx). congruence.
Qed.

(** * Duplicates *)
Lemma known_iff : forall g s, gOk g -> goalKnown g s = true <->
  exists l, mget (s_term s) (g_byTerm g) = Some l /\ exists x, In x l /\ s_stamp x = s_stamp s.
Proof.
  intros g s G. unfold goalKnown. destruct (mget (s_term s) (g_byTerm g)) as [l|] eqn:E.
  - rewrite existsb_exists. split.
    + intros (x & Hx & H). apply andb_true_iff in H. rewrite checkSame_iff in H. exists l. split; auto. exists x. tauto.
    + intros (l' & E' & x & Hx & H). injection E' as <-. exists x. split; auto. apply andb_true_iff. rewrite checkSame_iff, checkEqTerm_eq.
      split; auto. apply (ok_index _ G _ _ _ E Hx).
  - split; [discriminate|]. intros (l & H & _). discriminate.
Qed.

Theorem add_there : forall g t goal evi depth g', gReach g -> addEntry g t goal evi depth = Ok g' ->
  exists x, stored g' x /\ e_term x = s_term goal /\ e_stamp x = s_stamp goal.
Proof.
  intros g t goal evi depth g' R H. apply reach_ok in R. apply addEntry_cases in H. destruct H as (_ & [[K ->]|H]).
  - apply known_iff in K; auto. destruct K as (l & E & s & Hs & St). destruct (ok_index _ R _ _ _ E Hs) as (T & i & e & A & B).
    exists e. split; [left; eauto|]. unfold e_term, e_stamp. rewrite B. auto.
  - destruct (added_there _ _ _ H) as [(x & H1 & H2)|(O & x & H1 & [H2 H3])].
    + exists x. split; [now apply stored_iff|]. apply sameButAcc_fields in H2. destruct H2 as (H2 & _). unfold e_term, e_stamp. rewrite H2. auto.
    + exists x. split; auto. apply stored_iff. eapply added_keep; eauto. unfold retEntries. apply in_app_iff. auto.
Qed.

(** the index only grows *)
Definition idxLe (i j : list (term * list sentence)) : Prop :=
  forall t l, mget t i = Some l -> exists l', mget t j = Some l' /\ forall s, In s l -> In s l'.
Lemma idxLe_refl : forall i, idxLe i i.
Proof. intros i t l H. eauto. Qed.
Lemma idxLe_trans : forall i j k, idxLe i j -> idxLe j k -> idxLe i k.
Proof. intros i j k H1 H2 t l H. destruct (H1 t l H) as (l' & A & B). destruct (H2 t l' A) as (l'' & C & D). exists l''. auto. Qed.
Lemma indexEntry_le : forall s i, idxLe i (indexEntry s i).
Proof.
  intros s i t l H. rewrite indexEntry_get. destruct (checkEqTerm (s_term s) t) eqn:E; [|eauto].
  apply checkEqTerm_eq in E. subst t. rewrite H. destruct (existsb _ l); [eauto|]. exists (l ++ [s]). split; auto. intros. apply in_app_iff. auto.
Qed.
Lemma add2_le : forall g e g', addEntry2 g e = Ok g' -> idxLe (g_byTerm g) (g_byTerm g').
Proof.
  intros g e g' H. apply addEntry2_as in H. destruct H; subst; simpl; try apply idxLe_refl. apply indexEntry_le.
Qed.
Lemma add_le : forall g t goal evi depth g', addEntry g t goal evi depth = Ok g' -> idxLe (g_byTerm g) (g_byTerm g').
Proof.
  intros g t goal evi depth g' H. apply addEntry_cases in H. destruct H as (_ & [[_ ->]|H]); [apply idxLe_refl|]. eapply add2_le; eauto.
Qed.
Lemma grow_le : forall g g', gGrow g g' -> idxLe (g_byTerm g) (g_byTerm g').
Proof.
  induction 1.
  - apply idxLe_refl.
  - eapply idxLe_trans; [eassumption|]. eapply add_le; eassumption.
  - eapply (infer_ind (fun x => idxLe (g_byTerm g) (g_byTerm x))); [|eauto|eauto]. intros ga goal evi dd gb Ha Hb. eapply idxLe_trans; [exact Ha|]. eapply add_le; exact Hb.
  - exact IHgGrow.
Qed.
Lemma grow_reach : forall g g', gGrow g g' -> gReach g -> gReach g'.
Proof.
  induction 1; intros R; auto.
  - eapply gr_add; [apply IHgGrow; auto|eassumption].
  - eapply gr_infer; [apply IHgGrow; auto|eassumption].
  - apply gr_event; auto.
Qed.

Theorem add_first : forall g t goal evi depth g1 g2 t' evi' depth', gReach g ->
  ~ opTerm (s_term goal) -> (forall e, stored g e -> e_term e <> s_term goal) ->
  addEntry g t goal evi depth = Ok g1 -> gGrow g1 g2 -> addEntry g2 t' goal evi' depth' = Ok g2.
Proof.
  intros g t goal evi depth g1 g2 t' evi' depth' R O F H Gr. pose proof (reach_ok _ R) as G.
  assert (R2 : gReach g2) by (eapply grow_reach; eauto; eapply gr_add; eauto).
  pose proof (addEntry_cases _ _ _ _ _ _ H) as (P & Hc).
  assert (K : goalKnown g2 goal = true).
  { apply known_iff; [now apply reach_ok|]. destruct Hc as [[K ->]|H2].
    - exfalso. apply known_iff in K; auto. destruct K as (l & E & s & Hs & _). destruct (ok_index _ G _ _ _ E Hs) as (T & i & e & A & B).
      apply (F e); [left; eauto|]. unfold e_term. now rewrite B.
    - assert (K1 : exists l, mget (s_term goal) (g_byTerm g1) = Some l /\ In goal l).
      { apply addEntry2_as in H2. destruct H2 as [O' _ _|O' _ _|i a b pre es post l O' I0 I L B Q1 Q2 ->|i a b batch O' I0 I L B Q1 ->].
        - now destruct (O O').
        - now destruct (O O').
        - exfalso. apply lastEntry_ok in Q2. destruct Q2 as (l' & ->).
          assert (W : In (e_term (mkEntry goal evi t depth f1 f1 f0), l' ++ [l]) (pre ++ (e_term (mkEntry goal evi t depth f1 f1 f0), l' ++ [l]) :: post)).
          { apply in_app_iff. right. now left. }
          assert (N : nth_error (g_batches g) (length a) = Some (pre ++ (e_term (mkEntry goal evi t depth f1 f1 f0), l' ++ [l]) :: post)).
          { rewrite B. apply nth_at. }
          destruct (ok_groups _ G _ _ _ _ N W) as (_ & _ & C). destruct (C l) as (T & _); [apply in_app_iff; right; now left|].
          apply (F l); [|exact T]. left. exists (length a). red. eexists. eexists. split; [exact N|]. split; [exact W|]. simpl. apply in_app_iff. right. now left.
        - simpl. rewrite indexEntry_get. rewrite (proj2 (checkEqTerm_eq _ _) eq_refl).
          destruct (mget (s_term goal) (g_byTerm g)) as [arr|] eqn:E; [|exists [goal]; simpl; auto].
          assert (Em : arr = []).
          { destruct arr as [|s arr]; auto. exfalso. destruct (ok_index _ G _ _ s E) as (T & j & e & A & Bs); [now left|].
            apply (F e); [left; eauto|]. unfold e_term. now rewrite Bs. }
          subst arr. simpl. exists [goal]. simpl. auto. }
      destruct K1 as (l & E & Hl). destruct (grow_le _ _ Gr _ _ E) as (l' & E' & Hl'). exists l'. split; auto. exists goal. auto. }
  unfold addEntry. rewrite P, K. reflexivity.
Qed.

(** * Satisfaction *)
Theorem event_stored : forall g ev x, stored (event_occurred g ev) x <-> exists e, stored g e /\ x = satisfy (g_sat g) ev e.
Proof.
  intros. rewrite stored_iff, event_entries, in_map_iff. split.
  - intros (e & <- & H). exists e. split; auto. now apply stored_iff.
  - intros (e & H & ->). exists e. split; auto. now apply stored_iff.
Qed.
Lemma satisfy_on : forall ev e, e_term e = ev -> satisfy true ev e = setDes e f0.
Proof. intros ev e <-. unfold satisfy, e_term. rewrite (proj2 (checkEqTerm_eq _ _) eq_refl). reflexivity. Qed.
Lemma satisfy_other : forall sat ev e, e_term e <> ev -> satisfy sat ev e = e.
Proof.
  intros sat ev e H. unfold satisfy. destruct (checkEqTerm (s_term (e_sentence e)) ev) eqn:E; [apply checkEqTerm_eq in E; now destruct H|].
  now rewrite andb_false_r.
Qed.
Theorem event_satisfied : forall g ev e, g_sat g = true -> stored (event_occurred g ev) e -> e_term e = ev -> e_des e = f0 /\ is_desired e = false.
Proof.
  intros g ev e S H T. apply event_stored in H. destruct H as (x & _ & ->). rewrite S in *.
  assert (Tx : e_term x = ev). { unfold e_term in *. destruct (satisfy_sentence true ev x) as (E & _). now rewrite E in T. }
  rewrite (satisfy_on ev x Tx). split; reflexivity.
Qed.
Theorem event_others : forall g ev e, e_term e <> ev -> (stored (event_occurred g ev) e <-> stored g e).
Proof.
  intros g ev e N. rewrite event_stored. split.
  - intros (x & H & ->). rewrite satisfy_other; auto. unfold e_term in *. destruct (satisfy_sentence (g_sat g) ev x) as (E & _). now rewrite E in N.
  - intros H. exists e. split; auto. symmetry. now apply satisfy_other.
Qed.
Theorem event_all : forall g ev e, stored g e -> exists x, stored (event_occurred g ev) x /\ e_sentence x = e_sentence e /\ e_evi x = e_evi e /\
  e_create x = e_create e /\ e_depth x = e_depth e /\ e_util x = e_util e /\ e_acc x = e_acc e.
Proof.
  intros g ev e H. exists (satisfy (g_sat g) ev e). split; [apply event_stored; eauto|]. unfold satisfy. destruct (_ && _); repeat split.
Qed.
Theorem event_off : forall g ev, g_sat g = false -> event_occurred g ev = g.
Proof.
  intros g ev H. unfold event_occurred. rewrite H. destruct g as [a b i n d s r]. simpl in *. subst s. f_equal.
  - rewrite map_map. apply map_id.
  - rewrite <- (map_id b) at 2. apply map_ext. intros l. rewrite <- (map_id l) at 2. apply map_ext. intros [t es]. simpl. f_equal. apply map_id.
Qed.

(** * Backward planning *)
Lemma detach_spec : forall g u,
  match infGoalDetach g u with
  | Ok (Some c) => exists x rest v, s_term g = Seq (x :: rest) /\ retTv g = Some v /\ isGoal c x v (s_stamp g)
  | Ok None => forall x rest, s_term g <> Seq (x :: rest)
  | Panic => retTv g = None
  end.
Proof.
  intros g u. unfold infGoalDetach. destruct (s_term g) eqn:E; try (intros; discriminate).
  destruct l as [|x rest]; [intros; discriminate|]. destruct (retTv g) as [v|] eqn:V; simpl; auto.
  exists x, rest, v. repeat split.
Qed.
Lemma overlap_false : forall a b, checkOverlap a b = false <-> ~ exists i, In i a /\ In i b.
Proof.
  intros a b. destruct (checkOverlap a b) eqn:E; split; try discriminate; auto; intros H.
  - exfalso. apply H. now apply checkOverlap_iff.
  - intros H2. apply checkOverlap_iff in H2. congruence.
Qed.
Lemma belief_spec : forall g b u,
  match infGoalBelief g b u with
  | Ok (Some c) => exists subj vg vb, s_term b = Stmt PREDIMPL subj (s_term g) /\ ~ shareEvidence g b /\
        retTv g = Some vg /\ retTv b = Some vb /\ isGoal c subj (dedGoal vg vb) (merge (s_stamp g) (s_stamp b))
  | Ok None => shareEvidence g b \/ forall subj, s_term b <> Stmt PREDIMPL subj (s_term g)
  | Panic => retTv g = None \/ retTv b = None
  end.
Proof.
  intros g b u. unfold infGoalBelief. destruct (s_term b) as [c subj pred| | | | | | | | | | | | | |] eqn:E; try (right; intros; discriminate).
  destruct c; try (right; intros; discriminate).
  destruct (checkEqTerm (s_term g) pred) eqn:Q; cbn [negb].
  - apply checkEqTerm_eq in Q. subst pred. destruct (checkOverlap (s_stamp g) (s_stamp b)) eqn:O.
    + left. red. now apply checkOverlap_iff in O.
    + destruct (retTv b) as [vb|]; cbn [unwrap rbind]; auto. destruct (retTv g) as [vg|]; cbn [unwrap rbind]; auto.
      exists subj, vg, vb. split; auto. split; [unfold shareEvidence; now apply overlap_false|]. repeat split.
  - right. intros x H. assert (pred = s_term g) by congruence. subst pred. rewrite (proj2 (checkEqTerm_eq _ _) eq_refl) in Q. discriminate.
Qed.

Definition good (m : pmem) (g : sentence) (depth : Z) (h : hgoal) : Prop :=
  goalStep (believed m) g (h_evi h) (h_goal h) /\ h_depth h = depth + 1.

Lemma cand_believed : forall q m a, In a (query_by_consequence q m) -> believed m a (rd (cells m) a).
Proof.
  intros q m a H. unfold query_by_consequence in H. apply filter_In in H. destruct H as (H & _). unfold pBeliefs in H. apply in_flat_map in H.
  destruct H as (t & _ & H). apply in_flat_map in H. destruct H as (x & _ & H). unfold pBeliefsOf in H.
  destruct (mget x (pcs m)) as [c|] eqn:E; [|easy]. split; auto. exists x, c. split; auto. now apply mget_in in E.
Qed.
Lemma tryBelief_spec : forall u m g depth acc a acc', (forall x rest, s_term g <> Seq (x :: rest)) -> In a (query_by_consequence (s_term g) m) ->
  tryBelief u m g depth acc a = Ok acc' -> acc' = acc \/ exists h, acc' = acc ++ [h] /\ good m g depth h.
Proof.
  intros u m g depth acc a acc' N Ha H. unfold tryBelief in H. pose proof (belief_spec g (rd (cells m) a) u) as S.
  destruct (infGoalBelief g (rd (cells m) a) u) as [[c|]|]; cbn [rbind] in H; [| |discriminate]; injection H as <-; auto.
  right. eexists. split; [reflexivity|]. split; [|reflexivity]. destruct S as (subj & vg & vb & S1 & S2 & S3 & S4 & S5). simpl.
  eapply gs_belief; eauto. now apply (cand_believed (s_term g)).
Qed.
Lemma helper_spec : forall u g depth st m hs, deriveGoalsHelper u g depth st m = Ok hs ->
  Forall (good m g depth) hs /\
  (length hs <= match st with ALL_BELIEFS => Nat.max 1 (length (query_by_consequence (s_term g) m)) | SAMPLE_2 _ _ => 2 end)%nat.
Proof.
  intros u g depth st m hs H. unfold deriveGoalsHelper in H. pose proof (detach_spec g u) as D.
  destruct (infGoalDetach g u) as [[c|]|]; cbn [rbind] in H; [| |discriminate].
  - injection H as <-. destruct D as (x & rest & v & D1 & D2 & D3). split; [|destruct st; cbn [length]; lia].
    constructor; [|constructor]. split; [|reflexivity]. simpl. eapply gs_detach; eauto.
  - assert (Gen : forall l, (forall a, In a l -> In a (query_by_consequence (s_term g) m)) -> forall acc hs, rfold (tryBelief u m g depth) l acc = Ok hs ->
       Forall (good m g depth) acc -> Forall (good m g depth) hs /\ (length hs <= length acc + length l)%nat).
    { induction l as [|a l IH]; intros Hl acc hs' E F; simpl in E.
      - injection E as <-. split; auto. simpl. lia.
      - destruct (tryBelief u m g depth acc a) as [acc'|] eqn:T; cbn [rbind] in E; [|discriminate].
        apply tryBelief_spec in T; [|auto|apply Hl; now left].
        destruct T as [->|(h & -> & Hh)].
        + destruct (IH (fun a Ha => Hl a (or_intror Ha)) acc hs' E F). split; auto. simpl. lia.
        + assert (F' : Forall (good m g depth) (acc ++ [h])) by (apply Forall_app; auto).
          destruct (IH (fun a Ha => Hl a (or_intror Ha)) _ hs' E F') as (A & B). split; auto.
          rewrite app_length in B. simpl in *. lia. }
    destruct st as [|i j].
    + destruct (Gen _ (fun a Ha => Ha) [] hs H (Forall_nil _)) as (A & B). split; auto. simpl in B. lia.
    + destruct (query_by_consequence (s_term g) m) as [|a0 cand] eqn:C.
      { simpl in H. injection H as <-. split; [constructor|simpl; lia]. }
      set (l := a0 :: cand) in *. unfold rfold in H.
      destruct (idx l (Nat.modulo i (length l))) as [a1|] eqn:I1; cbn [rbind] in H; [|discriminate].
      destruct (tryBelief u m g depth [] a1) as [acc1|] eqn:T1; cbn [rbind] in H; [|discriminate].
      destruct (idx l (Nat.modulo j (length l))) as [a2|] eqn:I2; cbn [rbind] in H; [|discriminate].
      destruct (tryBelief u m g depth acc1 a2) as [acc2|] eqn:T2; cbn [rbind] in H; [|discriminate]. injection H as <-.
      assert (M : forall k a, idx l k = Ok a -> In a l).
      { intros k a E. unfold idx in E. destruct (nth_error l k) eqn:E2; [|discriminate]. injection E as <-. eapply nth_error_In; eauto. }
      destruct (Gen [a1; a2]) with (acc := @nil hgoal) (hs := acc2) as (A & B).
      * intros a [<-|[<-|[]]]; eapply M; eauto.
      * simpl. rewrite T1. cbn [rbind]. rewrite T2. reflexivity.
      * constructor.
      * simpl in B. auto.
Qed.

(** every belief that fits gives its subgoal *)
Lemma helper_complete : forall u g depth m hs a subj vg vb, deriveGoalsHelper u g depth ALL_BELIEFS m = Ok hs ->
  (forall x rest, s_term g <> Seq (x :: rest)) -> In a (query_by_consequence (s_term g) m) ->
  s_term (rd (cells m) a) = Stmt PREDIMPL subj (s_term g) -> ~ shareEvidence g (rd (cells m) a) ->
  retTv g = Some vg -> retTv (rd (cells m) a) = Some vb ->
  exists h, In h hs /\ h_evi h = Some a /\ h_depth h = depth + 1 /\ isGoal (h_goal h) subj (dedGoal vg vb) (merge (s_stamp g) (s_stamp (rd (cells m) a))).
Proof.
  intros u g depth m hs a subj vg vb H N Ha T S V1 V2. unfold deriveGoalsHelper in H. pose proof (detach_spec g u) as D.
  destruct (infGoalDetach g u) as [[c|]|]; cbn [rbind] in H; [| |discriminate].
  - destruct D as (x & rest & v & D1 & _). now destruct (N x rest).
  - clear D. assert (Grow : forall l acc hs, rfold (tryBelief u m g depth) l acc = Ok hs -> exists more, hs = acc ++ more).
    { induction l as [|b l IH]; intros acc hs' E; simpl in E; [injection E as <-; exists []; now rewrite app_nil_r|].
      destruct (tryBelief u m g depth acc b) as [acc'|] eqn:Tb; cbn [rbind] in E; [|discriminate]. unfold tryBelief in Tb.
      destruct (infGoalBelief g (rd (cells m) b) u) as [[c|]|]; cbn [rbind] in Tb; [| |discriminate]; injection Tb as <-; apply IH in E; auto.
      destruct E as (more & ->). rewrite <- app_assoc. eauto. }
    revert H. generalize (@nil hgoal). revert Ha. generalize (query_by_consequence (s_term g) m). intros l Ha.
    induction l as [|b l IH]; [easy|]. intros acc H. simpl in H.
    destruct (tryBelief u m g depth acc b) as [acc'|] eqn:Tb; cbn [rbind] in H; [|discriminate].
    destruct Ha as [->|Ha]; [|eapply IH; eauto].
    unfold tryBelief in Tb. pose proof (belief_spec g (rd (cells m) a) u) as Sp.
    destruct (infGoalBelief g (rd (cells m) a) u) as [[c|]|]; cbn [rbind] in Tb; [| |discriminate].
    + injection Tb as <-. apply Grow in H. destruct H as (more & ->). destruct Sp as (subj' & vg' & vb' & S1 & _ & S3 & S4 & S5).
      exists (mkH c (Some a) (depth + 1)). split; [apply in_app_iff; left; apply in_app_iff; right; now left|]. split; auto. split; auto. simpl.
      assert (subj' = subj) by congruence. assert (vg' = vg) by congruence. assert (vb' = vb) by congruence. subst. auto.
    + exfalso. destruct Sp as [Sp|Sp]; [auto|]. now destruct (Sp subj).
Qed.

(** the rounds of the sub working cycle *)
Definition chained (m : pmem) (g : sentence) (d : Z) (s : sentence) (ev : option nat) (d' : Z) : Prop :=
  exists n, goalChain (believed m) n g ev s /\ d' = d + Z.of_nat n.
Definition working (m : pmem) (g : sentence) (d : Z) (w : sentence * Z) : Prop :=
  w = (g, d) \/ exists ev, chained m g d (fst w) ev (snd w).
Lemma extend : forall m g d w h, working m g d w -> good m (fst w) (snd w) h -> chained m g d (h_goal h) (h_evi h) (h_depth h).
Proof.
  intros m g d w h [->|(ev & n & C & D)] (S & E).
  - exists 1%nat. split; [now constructor|]. simpl in E. simpl. lia.
  - exists (Datatypes.S n). split; [econstructor; eauto|]. lia.
Qed.
Lemma rounds_spec : forall u m g d rs ws cs ws' cs', rfold (subRound u m) rs (ws, cs) = Ok (ws', cs') ->
  (forall w, In w ws -> working m g d w) -> Forall (fun h => chained m g d (h_goal h) (h_evi h) (h_depth h)) cs ->
  Forall (fun h => chained m g d (h_goal h) (h_evi h) (h_depth h)) cs' /\ (length cs' <= length cs + 2 * length rs)%nat.
Proof.
  intros u m g d rs. induction rs as [|r rs IH]; intros ws cs ws' cs' H W C; cbn [rfold] in H.
  - injection H as <- <-. split; auto. simpl. lia.
  - destruct (subRound u m (ws, cs) r) as [[ws1 cs1]|] eqn:E; cbn [rbind] in H; [|discriminate].
    unfold subRound in E. destruct ws as [|w0 ws0].
    { injection E as <- <-. destruct (IH _ _ _ _ H W C). split; auto. simpl. lia. }
    destruct r as [[k i] j]. cbv beta iota zeta in E. set (ws := w0 :: ws0) in *.
    unfold idx in E. destruct (nth_error ws (Nat.modulo k (length ws))) as [w|] eqn:N; cbn [unwrap rbind] in E; [|discriminate].
    destruct (deriveGoalsHelper u (fst w) (snd w) (SAMPLE_2 i j) m) as [hs|] eqn:D; cbn [rbind] in E; [|discriminate].
    assert (E1 : swap_remove (Nat.modulo k (length ws)) ws ++ map (fun h => (h_goal h, h_depth h)) hs = ws1) by congruence.
    assert (E2 : cs ++ hs = cs1) by congruence. clear E. subst ws1 cs1.
    apply helper_spec in D. destruct D as (G & L).
    assert (Hw : working m g d w) by (apply W; eapply nth_error_In; eauto).
    assert (Hh : Forall (fun h => chained m g d (h_goal h) (h_evi h) (h_depth h)) hs).
    { eapply Forall_impl; [|exact G]. intros h Hg. eapply extend; eauto. }
    destruct (IH _ _ _ _ H) as (A & B).
    + intros x Hx. apply in_app_iff in Hx. destruct Hx as [Hx|Hx].
      * apply W. apply (Permutation_in _ (Run_Proofs.swap_remove_spec _ _ _ _ N)). now right.
      * apply in_map_iff in Hx. destruct Hx as (h & <- & Hh2). right. exists (h_evi h). rewrite Forall_forall in Hh. apply Hh. auto.
    + apply Forall_app; auto.
    + split; auto. rewrite app_length in B. simpl. lia.
Qed.

(** ** the sampled goal *)
Lemma binSearch_in : forall n arr v e, binSearch n arr v = Ok e -> In e arr.
Proof.
  induction n as [|n IH]; intros arr v e H.
  - destruct arr as [|x [|y l]]; simpl in H; try discriminate. injection H as <-. now left.
  - assert (Gen : (do m <- idx arr (Nat.div (length arr) 2);
        binSearch n (if fgtb (e_acc m) v then firstn (Nat.div (length arr) 2) arr else skipn (Nat.div (length arr) 2) arr) v) = Ok e -> In e arr).
    { intros H2. destruct (idx arr _) as [m|]; cbn [rbind] in H2; [|discriminate]. apply IH in H2.
      rewrite <- (firstn_skipn (Nat.div (length arr) 2) arr). apply in_app_iff. destruct (fgtb _ _); auto. }
    destruct arr as [|x [|y l]]; [apply Gen; exact H| |apply Gen; exact H]. simpl in H. injection H as <-. now left.
Qed.
Lemma selInBatch_in : forall sp sel gs sum s d, selInBatch sp sel sum gs = Ok (Some (s, d)) ->
  exists gr e, In gr gs /\ In e (snd gr) /\ e_sentence e = s /\ e_depth e = d.
Proof.
  intros sp sel gs. induction gs as [|gr gs IH]; intros sum s d H; cbn [selInBatch] in H; [discriminate|].
  destruct (negb (fleb sum sp)); [discriminate|]. destruct (groupWeight gr) as [w|]; cbn [rbind] in H; [|discriminate].
  destruct (fgtb (fadd w sum) sel).
  - destruct (binSearch _ _ _) as [e|] eqn:E; cbn [rbind] in H; [|discriminate]. apply binSearch_in in E.
    exists gr, e. assert (e_sentence e = s /\ e_depth e = d) by (split; congruence). split; [now left|]. tauto.
  - destruct (IH _ _ _ H) as (gr' & e & A & B). exists gr', e. split; [now right|auto].
Qed.
Lemma selBatch_in : forall p bs st, In (snd (fold_left (selBatchStep p) bs st)) (snd st :: bs).
Proof.
  intros p bs. induction bs as [|b bs IH]; intros [sum sel]; cbn [fold_left]; [now left|].
  destruct (IH (selBatchStep p (sum, sel) b)) as [H|H]; [|right; now right].
  unfold selBatchStep in *. destruct (fgeb sum p); [simpl in *; auto|]. destruct b as [|x b]; simpl in *; auto.
Qed.
Theorem sample_in : forall g r1 r2 s d, sample g r1 r2 = Ok (Some (s, d)) -> exists e i, atLevel g i e /\ e_sentence e = s /\ e_depth e = d.
Proof.
  intros g r1 r2 s d H. unfold sample in H. unfold idx in H. destruct (nth_error (g_batches g) 0) as [b0|] eqn:N; cbn [unwrap rbind] in H; [|discriminate].
  pose proof (selBatch_in (fmul r1 (fsum (map (fun b : list group => match b with [] => f0 | _ => f1 end) (g_batches g)))) (g_batches g) (f0, b0)) as I.
  revert I H. generalize (snd (fold_left (selBatchStep (fmul r1 (fsum (map (fun b : list group => match b with [] => f0 | _ => f1 end) (g_batches g))))) (g_batches g) (f0, b0))).
  intros b I H. destruct b as [|gr b]; [discriminate|]. destruct (rmapM groupWeight (gr :: b)) as [ws|]; cbn [rbind] in H; [|discriminate].
  apply selInBatch_in in H. destruct H as (gr' & e & H1 & H2 & H3 & H4).
  assert (Ib : In (gr :: b) (g_batches g)). { simpl in I. destruct I as [I|I]; auto. rewrite <- I. eapply nth_error_In; eauto. }
  apply In_nth_error in Ib. destruct Ib as (i & Ib). exists e, i. split; auto. exists (gr :: b), gr'. auto.
Qed.

(** ** all new goals *)
Lemma addHs_from : forall t hs g g', rfold (fun g h => addEntry g t (h_goal h) (h_evi h) (h_depth h)) hs g = Ok g' ->
  (forall x, In x (retEntries g') -> In x (retEntries g) \/
     exists h, In h hs /\ e_sentence x = h_goal h /\ e_evi x = h_evi h /\ e_depth x = h_depth h /\ e_create x = t) /\
  (forall x, In x (retEntries g) -> In x (retEntries g')) /\
  (length (retEntries g') <= length (retEntries g) + length hs)%nat.
Proof.
  intros t hs. induction hs as [|h hs IH]; intros g g' H; cbn [rfold] in H.
  - injection H as <-. split; [auto|]. split; [auto|]. simpl. lia.
  - destruct (addEntry g t (h_goal h) (h_evi h) (h_depth h)) as [g1|] eqn:E; cbn [rbind] in H; [|discriminate].
    destruct (IH _ _ H) as (A & B & C). apply addEntry_cases in E. destruct E as (_ & [[_ ->]|E]).
    + split; [|split; [auto|simpl; lia]]. intros x Hx. destruct (A x Hx) as [Hx2|(h' & H1 & H2)]; auto. right. exists h'. split; [now right|auto].
    + split; [|split].
      * intros x Hx. destruct (A x Hx) as [Hx2|(h' & H1 & H2)].
        -- destruct (added_from _ _ _ _ E Hx2) as [Hx3|Hx3]; auto. right. exists h. split; [now left|].
           apply sameButAcc_fields in Hx3. simpl in Hx3. tauto.
        -- right. exists h'. split; [now right|auto].
      * intros x Hx. apply B. eapply added_keep; eauto.
      * apply added_length in E. simpl. lia.
Qed.
Lemma addHs_there : forall t hs g g', gReach g -> rfold (fun g h => addEntry g t (h_goal h) (h_evi h) (h_depth h)) hs g = Ok g' ->
  forall h, In h hs -> exists x, stored g' x /\ e_term x = s_term (h_goal h) /\ e_stamp x = s_stamp (h_goal h).
Proof.
  intros t hs. induction hs as [|h0 hs IH]; intros g g' R H h Hh; [easy|]. cbn [rfold] in H.
  destruct (addEntry g t (h_goal h0) (h_evi h0) (h_depth h0)) as [g1|] eqn:E; cbn [rbind] in H; [|discriminate].
  assert (R1 : gReach g1) by (eapply gr_add; eauto). destruct Hh as [->|Hh]; [|eapply IH; eauto].
  destruct (add_there _ _ _ _ _ _ R E) as (x & X1 & X2 & X3). exists x. split; auto. apply stored_iff. apply addHs_from in H. destruct H as (_ & B & _). apply B.
  now apply stored_iff.
Qed.

Theorem infer_sound : forall u g t m r1 r2 rnd g' x, sampleAndInference u g t m r1 r2 rnd = Ok g' -> stored g' x -> stored g x \/
  exists e i n, atLevel g i e /\ goalChain (believed m) n (e_sentence e) (e_evi x) (e_sentence x) /\
    e_depth x = e_depth e + Z.of_nat n /\ e_create x = t.
Proof.
  intros u g t m r1 r2 rnd g' x H Hx. apply infer_unfold in H. destruct H as [[_ ->]|(goal & depth & ws & cs & hs & Sm & Rd & Hp & H)]; auto.
  apply stored_iff in Hx. apply addHs_from in H. destruct H as (A & _). destruct (A x Hx) as [Hx2|(h & Hh & E1 & E2 & E3 & E4)]; [left; now apply stored_iff|].
  right. apply sample_in in Sm. destruct Sm as (e & i & At & <- & <-). exists e, i.
  assert (C : chained m (e_sentence e) (e_depth e) (h_goal h) (h_evi h) (h_depth h)).
  { apply in_app_iff in Hh. destruct Hh as [Hh|Hh].
    - destruct (rounds_spec u m (e_sentence e) (e_depth e) _ _ _ _ _ Rd) as (F & _); [intros w [<-|[]]; now left|constructor|].
      rewrite Forall_forall in F. auto.
    - apply helper_spec in Hp. destruct Hp as (F & _). rewrite Forall_forall in F. apply (extend m (e_sentence e) (e_depth e) (e_sentence e, e_depth e)); [now left|].
      simpl. auto. }
  destruct C as (n & C & D). exists n. rewrite E1, E2, E3. auto.
Qed.
Theorem infer_keeps : forall u g t m r1 r2 rnd g' x, sampleAndInference u g t m r1 r2 rnd = Ok g' -> stored g x -> stored g' x.
Proof.
  intros u g t m r1 r2 rnd g' x H Hx. apply infer_unfold in H. destruct H as [[_ ->]|(goal & depth & ws & cs & hs & _ & _ & _ & H)]; auto.
  apply stored_iff in Hx. apply stored_iff. apply addHs_from in H. now apply H.
Qed.
Theorem infer_bounded : forall u g t m r1 r2 rnd g', sampleAndInference u g t m r1 r2 rnd = Ok g' ->
  exists q, (length (retEntries g') <= length (retEntries g) + 2 * Z.to_nat (g_rounds g) + Nat.max 1 (length (query_by_consequence q m)))%nat.
Proof.
  intros u g t m r1 r2 rnd g' H. apply infer_unfold in H. destruct H as [[_ ->]|(goal & depth & ws & cs & hs & _ & Rd & Hp & H)].
  - exists (Name "x"%string). lia.
  - exists (s_term goal). apply addHs_from in H. destruct H as (_ & _ & L). rewrite app_length in L. apply helper_spec in Hp. destruct Hp as (_ & L2). cbv beta iota in L2.
    destruct (rounds_spec u m goal depth _ _ _ _ _ Rd) as (_ & L3); [intros w [<-|[]]; now left|constructor|].
    rewrite map_length, seq_length in L3. simpl in L3. lia.
Qed.
Theorem infer_complete : forall u g t m r1 r2 rnd g' goal depth, gReach g -> sampleAndInference u g t m r1 r2 rnd = Ok g' ->
  sample g r1 r2 = Ok (Some (goal, depth)) -> NoDup (map fst (pcs m)) ->
  (forall x rest v, s_term goal = Seq (x :: rest) -> retTv goal = Some v -> exists e, stored g' e /\ e_term e = x /\ e_stamp e = s_stamp goal) /\
  (forall k c a subj vg vb, (forall x rest, s_term goal <> Seq (x :: rest)) -> In (k, c) (pcs m) -> occurs k (s_term goal) -> In a (pExp c ++ pUse c) ->
     s_term (rd (cells m) a) = Stmt PREDIMPL subj (s_term goal) -> ~ shareEvidence goal (rd (cells m) a) ->
     retTv goal = Some vg -> retTv (rd (cells m) a) = Some vb ->
     exists e, stored g' e /\ e_term e = subj /\ e_stamp e = merge (s_stamp goal) (s_stamp (rd (cells m) a))).
Proof.
  intros u g t m r1 r2 rnd g' goal depth R H Sm Nd. apply infer_unfold in H.
  destruct H as [[Q _]|(goal' & depth' & ws & cs & hs & Sm' & _ & Hp & H)]; [congruence|].
  assert (goal' = goal) by congruence. assert (depth' = depth) by congruence. subst goal' depth'.
  pose proof (addHs_there _ _ _ _ R H) as Th. split.
  - intros x rest v T V. unfold deriveGoalsHelper in Hp. pose proof (detach_spec goal u) as D.
    destruct (infGoalDetach goal u) as [[c|]|]; cbn [rbind] in Hp; [| |discriminate].
    + assert (Eh : [mkH c None (depth + 1)] = hs) by congruence. subst hs. destruct D as (x' & rest' & v' & D1 & D2 & D3).
      assert (x' = x) by congruence. subst x'. destruct (Th (mkH c None (depth + 1))) as (e & E1 & E2 & E3); [apply in_app_iff; right; now left|].
      exists e. split; auto. simpl in *. destruct D3 as (-> & _ & _ & -> & _) in E2, E3 |- *. auto.
    + now destruct (D x rest).
  - intros k c a subj vg vb N Hk Oc Ha T S V1 V2.
    assert (Hc : In a (query_by_consequence (s_term goal) m)).
    { unfold query_by_consequence. apply filter_In. rewrite term_clone_id. split; [|rewrite T; now apply checkEqTerm_eq].
      unfold pBeliefs. simpl. rewrite app_nil_r. apply in_flat_map. exists k. split; [now apply occurs_retSubterms|].
      unfold pBeliefsOf. rewrite (in_mget _ _ _ _ Nd Hk). exact Ha. }
    destruct (helper_complete _ _ _ _ _ _ _ _ _ Hp N Hc T S V1 V2) as (h & Hh & _ & _ & Hg).
    destruct (Th h) as (e & E1 & E2 & E3); [apply in_app_iff; now right|]. exists e. split; auto.
    destruct Hg as (G1 & _ & _ & G4 & _). rewrite E2, E3. auto.
Qed.

(** * The best goal for a situation *)
Lemma split_last : forall A (l : list A), (1 <= length l)%nat -> exists pre x, l = pre ++ [x] /\ firstn (length l - 1) l = pre.
Proof.
  intros A l H. destruct (@exists_last _ l) as (pre & x & ->); [destruct l; [simpl in H; lia|easy]|]. exists pre, x. split; auto.
  rewrite app_length. simpl. replace (length pre + 1 - 1)%nat with (length pre + 0)%nat by lia. rewrite firstn_app_2. simpl. apply app_nil_r.
Qed.
Lemma applies_iff : forall state e ut, applies state e ut <->
  exists sq asg, s_term (e_sentence e) = Seq sq /\ (1 <= length sq)%nat /\
    unify (retSubSeqAsSeqOrTerm (firstn (length sq - 1) sq)) state = Some asg /\ ut = unifySubst (s_term (e_sentence e)) asg.
Proof.
  intros state e ut. unfold applies, e_term. split.
  - intros (pre & x & asg & H1 & H2 & H3). exists (pre ++ [x]), asg. split; auto.
    assert (L : (1 <= length (pre ++ [x]))%nat) by (rewrite app_length; simpl; lia). split; auto.
    destruct (split_last _ _ L) as (pre' & x' & E & ->). apply app_inj_tail in E. destruct E as [<- <-]. auto.
  - intros (sq & asg & H1 & L & H2 & H3). destruct (split_last _ _ L) as (pre & x & E & F). rewrite F in H2. exists pre, x, asg. split; [congruence|auto].
Qed.

Definition bestOf (state : term) (l : list entry) (st : f64 * option (entry * term)) : Prop :=
  (forall e ut v, In e l -> applies state e ut -> retTv (e_sentence e) = Some v -> fltb (fst st) (calcExp v) = false) /\
  match snd st with
  | None => fst st = f0
  | Some (e, ut) => In e l /\ applies state e ut /\ fltb f0 (fst st) = true /\ exists v, retTv (e_sentence e) = Some v /\ fst st = calcExp v
  end.
Lemma fltb_trans' : forall a b c, fltb a b = true -> fltb b c = true -> fltb a c = true.
Proof. intros. eapply fltb_leb_trans; eauto. now apply fltb_leb. Qed.
Lemma selStep_best : forall state l st e st', bestOf state l st -> selStep state st e = Ok st' -> bestOf state (l ++ [e]) st'.
Proof.
  intros state l st e st' (B1 & B2) H. unfold selStep in H.
  assert (Skip : st' = st -> (forall ut v, applies state e ut -> retTv (e_sentence e) = Some v -> fltb (fst st) (calcExp v) = false) -> bestOf state (l ++ [e]) st').
  { intros -> Hno. split.
    - intros x ut v Hx Ha Hv. apply in_app_iff in Hx. destruct Hx as [Hx|[<-|[]]]; eauto.
    - destruct (snd st) as [[x ut]|]; auto. destruct B2 as (X1 & X2). split; auto. apply in_app_iff. auto. }
  destruct (s_term (e_sentence e)) eqn:T; try (apply Skip; [congruence|intros ut v Ha; apply applies_iff in Ha; destruct Ha as (sq & asg & Q & _); congruence]).
  destruct (Nat.leb 1 (length l0)) eqn:L.
  - apply Nat.leb_le in L. destruct (unify (retSubSeqAsSeqOrTerm (firstn (length l0 - 1) l0)) state) as [asg|] eqn:U.
    + destruct (retTv (e_sentence e)) as [v|] eqn:V; cbn [unwrap rbind] in H; [|discriminate].
      destruct (fgtb (calcExp v) (fst st)) eqn:G.
      * assert (E : st' = (calcExp v, Some (e, unifySubst (Seq l0) asg))) by congruence. subst st'. rewrite fgtb_flip in G. split.
        -- simpl. intros x ut v' Hx Ha Hv. apply in_app_iff in Hx. destruct Hx as [Hx|[<-|[]]].
           ++ destruct (fltb (calcExp v) (calcExp v')) eqn:F; auto. assert (W := B1 x ut v' Hx Ha Hv).
              rewrite (fltb_trans' _ _ _ G F) in W. discriminate.
           ++ assert (v' = v) by congruence. subst. apply fltb_irrefl.
        -- cbn [snd fst]. split; [apply in_app_iff; right; now left|]. split.
           ++ apply applies_iff. exists l0, asg. rewrite T. auto.
           ++ split; [|eauto]. destruct (snd st) as [[x ut]|].
              ** destruct B2 as (_ & _ & B2 & _). eapply fltb_trans'; eauto.
              ** now rewrite <- B2.
      * apply Skip; [congruence|]. intros ut v' Ha Hv. assert (v' = v) by congruence. subst. exact G.
    + apply Skip; [congruence|]. intros ut v Ha. apply applies_iff in Ha. destruct Ha as (sq & asg & Q & _ & U' & _). congruence.
  - apply Nat.leb_gt in L. apply Skip; [congruence|]. intros ut v Ha. apply applies_iff in Ha. destruct Ha as (sq & asg & Q & L' & _).
    assert (sq = l0) by congruence. subst. lia.
Qed.
Lemma sel_best : forall state l done st st', bestOf state done st -> rfold (selStep state) l st = Ok st' -> bestOf state (done ++ l) st'.
Proof.
  intros state l. induction l as [|e l IH]; intros done st st' B H; cbn [rfold] in H.
  - injection H as <-. now rewrite app_nil_r.
  - destruct (selStep state st e) as [st1|] eqn:E; cbn [rbind] in H; [|discriminate]. apply (selStep_best _ done) in E; auto.
    specialize (IH _ _ _ E H). now rewrite <- app_assoc in IH.
Qed.
Theorem sel_spec : forall g state x r, selHighestExpGoalByState g state = Ok (x, r) ->
  (forall e ut v, stored g e -> applies state e ut -> retTv (e_sentence e) = Some v -> fltb x (calcExp v) = false) /\
  match r with
  | None => x = f0
  | Some (e, ut) => stored g e /\ applies state e ut /\ fltb f0 x = true /\ exists v, retTv (e_sentence e) = Some v /\ x = calcExp v
  end.
Proof.
  intros g state x r H. unfold selHighestExpGoalByState in H. apply (sel_best _ _ []) in H.
  - destruct H as (A & B). simpl in A, B. split.
    + intros e ut v He. apply A. now apply stored_iff.
    + destruct r as [[e ut]|]; auto. destruct B as (B1 & B2). split; auto. now apply stored_iff.
  - split; [intros e ut v []|reflexivity].
Qed.
Theorem sel_total : forall g state, (exists r, selHighestExpGoalByState g state = Ok r) <->
  (forall e ut, stored g e -> applies state e ut -> retTv (e_sentence e) <> None).
Proof.
  intros g state. unfold selHighestExpGoalByState.
  assert (Gen : forall l st, (exists r, rfold (selStep state) l st = Ok r) <-> (forall e ut, In e l -> applies state e ut -> retTv (e_sentence e) <> None)).
  { induction l as [|e l IH]; intros st; cbn [rfold].
    - split; [intros _ e ut []|eauto].
    - assert (St : (exists r, selStep state st e = Ok r) <-> forall ut, applies state e ut -> retTv (e_sentence e) <> None).
      { unfold selStep. destruct (s_term (e_sentence e)) eqn:T; try (split; [intros _ ut Ha; apply applies_iff in Ha; destruct Ha as (sq & asg & Q & _); congruence|eauto]).
        destruct (Nat.leb 1 (length l0)) eqn:L.
        - apply Nat.leb_le in L. destruct (unify (retSubSeqAsSeqOrTerm (firstn (length l0 - 1) l0)) state) as [asg|] eqn:U.
          + destruct (retTv (e_sentence e)) as [v|] eqn:V; cbn [unwrap rbind].
            * split; [discriminate|eauto].
            * split; [intros (r & Hr); discriminate|]. intros Ha. exfalso. apply (Ha (unifySubst (s_term (e_sentence e)) asg)); auto.
              apply applies_iff. exists l0, asg. auto.
          + split; [|eauto]. intros _ ut Ha. apply applies_iff in Ha. destruct Ha as (sq & asg & Q & _ & U' & _). congruence.
        - apply Nat.leb_gt in L. split; [|eauto]. intros _ ut Ha. apply applies_iff in Ha. destruct Ha as (sq & asg & Q & L' & _).
          assert (sq = l0) by congruence. subst. lia. }
      split.
      + intros (r & Hr). destruct (selStep state st e) as [st1|] eqn:E; cbn [rbind] in Hr; [|discriminate].
        intros x ut [<-|Hx] Ha; [apply (proj1 St) with ut; eauto|]. apply (proj1 (IH st1)) with ut; eauto.
      + intros H. destruct (proj2 St) as (st1 & E); [intros ut Ha; apply (H e ut); auto; now left|]. rewrite E. cbn [rbind].
        apply IH. intros x ut Hx. apply H. now right. }
  rewrite Gen. split; intros H e ut He; apply H; now apply stored_iff.
Qed.
