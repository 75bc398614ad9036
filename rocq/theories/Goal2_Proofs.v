(** Proofs about the goal system, continued: reachable stores, forgetting,
    duplicates, satisfaction, derivation and choice. *)
From Coq Require Import String ZArith Bool Lia List Permutation Sorted.
From Verif Require Import Base F64_Model Term_Model Term_Spec Term_Proofs Unify_Model Stamp_Model Stamp_Proofs Tv_Model Sentence_Model Sort_Proofs Mem_Model Mem_Spec Mem_Proofs PMem_Model PMem_Proofs Goal_Model Goal_Spec Goal_Proofs.
Import ListNotations.
Local Open Scope Z_scope.

Lemma addEntry_cases : forall g t goal evi depth g', addEntry g t goal evi depth = Ok g' ->
  s_punct goal = GOAL /\ ((goalKnown g goal = true /\ g' = g) \/ addEntry2 g (mkEntry goal evi t depth f1 f1 f0) = Ok g').
Proof.
  intros g t goal evi depth g' H. unfold addEntry in H. destruct (s_punct goal) eqn:P; try discriminate. simpl in H. split; auto.
  destruct (goalKnown g goal); auto. injection H as <-. auto.
Qed.

(** * Folding additions *)
Lemma sameButAcc_refl : forall e, sameButAcc e e.
Proof. reflexivity. Qed.
Lemma sameButAcc_set : forall e a, sameButAcc (setAcc e a) e.
Proof. reflexivity. Qed.
Lemma sameButAcc_fields : forall a b, sameButAcc a b -> e_sentence a = e_sentence b /\ e_evi a = e_evi b /\ e_create a = e_create b /\
  e_depth a = e_depth b /\ e_des a = e_des b /\ e_util a = e_util b.
Proof. intros a b H. unfold sameButAcc, setAcc in H. injection H. intros. subst. repeat split; auto. Qed.

Lemma added_keep : forall g e g' x, addEntry2 g e = Ok g' -> In x (retEntries g) -> In x (retEntries g').
Proof.
  intros g e g' x H Hx. apply added_entries in H. destruct H as [[-> _]|(acc & P)]; auto.
  apply (Permutation_in _ (Permutation_sym P)). now right.
Qed.
Lemma added_from : forall g e g' x, addEntry2 g e = Ok g' -> In x (retEntries g') -> In x (retEntries g) \/ sameButAcc x e.
Proof.
  intros g e g' x H Hx. apply added_entries in H. destruct H as [[H _]|(acc & P)]; [rewrite H in Hx; auto|].
  apply (Permutation_in _ P) in Hx. destruct Hx as [<-|Hx]; auto. right. apply sameButAcc_set.
Qed.
Lemma added_there : forall g e g', addEntry2 g e = Ok g' ->
  (exists x, In x (retEntries g') /\ sameButAcc x e) \/ (opTerm (e_term e) /\ exists x, In x (g_active g) /\ sameGoal x e).
Proof.
  intros g e g' H. apply addEntry2_as in H. destruct H as [O X ->|O N ->|i a b pre es post l O I0 I L B Q1 Q2 ->|i a b batch O I0 I L B Q1 ->].
  - right. auto.
  - left. exists e. split; [|reflexivity]. unfold retEntries. simpl. repeat rewrite in_app_iff. simpl. tauto.
  - left. eexists. split; [|apply sameButAcc_set]. unfold retEntries. simpl. rewrite flat_map_app. simpl. rewrite flat_map_app. simpl.
    repeat rewrite in_app_iff. simpl. eauto 8.
  - left. exists e. split; [|reflexivity]. unfold retEntries. simpl. rewrite flat_map_app. simpl. rewrite flat_map_app. simpl.
    repeat rewrite in_app_iff. simpl. tauto.
Qed.
Lemma added_length : forall g e g', addEntry2 g e = Ok g' -> (length (retEntries g') <= S (length (retEntries g)))%nat.
Proof.
  intros g e g' H. apply added_entries in H. destruct H as [[-> _]|(acc & P)]; [lia|].
  apply Permutation_length in P. simpl in P. lia.
Qed.
Lemma added_cfg : forall g e g', addEntry2 g e = Ok g' ->
  g_maxEntries g' = g_maxEntries g /\ g_maxDepth g' = g_maxDepth g /\ g_sat g' = g_sat g /\ g_rounds g' = g_rounds g.
Proof. intros g e g' H. apply addEntry2_as in H. destruct H; subst; simpl; auto. Qed.

Definition addAll := rfold addEntry2.
Lemma addAll_spec : forall l g g', rfold addEntry2 l g = Ok g' ->
  (forall x, In x (retEntries g) -> In x (retEntries g')) /\
  (forall x, In x (retEntries g') -> In x (retEntries g) \/ exists e, In e l /\ sameButAcc x e) /\
  (forall e, In e l -> (exists x, In x (retEntries g') /\ sameButAcc x e) \/
      (opTerm (e_term e) /\ exists x, In x (retEntries g') /\ sameGoal x e)) /\
  (length (retEntries g') <= length (retEntries g) + length l)%nat /\
  (gOk g -> gOk g') /\
  g_maxEntries g' = g_maxEntries g /\ g_maxDepth g' = g_maxDepth g /\ g_sat g' = g_sat g /\ g_rounds g' = g_rounds g.
Proof.
  induction l as [|e l IH]; intros g g' H; simpl in H.
  - injection H as <-. split; [auto|]. split; [auto|]. split; [intros e []|]. split; [lia|]. auto.
  - destruct (addEntry2 g e) as [g1|] eqn:E; simpl in H; [|discriminate].
    destruct (IH g1 g' H) as (A & B & C & D & F & G1 & G2 & G3 & G4). destruct (added_cfg _ _ _ E) as (K1 & K2 & K3 & K4).
    split; [intros x Hx; apply A; eapply added_keep; eauto|].
    split. { intros x Hx. apply B in Hx. destruct Hx as [Hx|(e' & H1 & H2)].
      - eapply added_from in Hx; eauto. destruct Hx as [Hx|Hx]; auto. right. exists e. split; auto. now left.
      - right. exists e'. split; auto. now right. }
    split. { intros x [<-|Hx]; auto. destruct (added_there _ _ _ E) as [(y & H1 & H2)|(O & y & H1 & H2)].
      - left. exists y. auto.
      - right. split; auto. exists y. split; auto. apply A. eapply added_keep; eauto. unfold retEntries. apply in_app_iff. auto. }
    split. { apply added_length in E. simpl. lia. }
    split. { intros G. apply F. eapply addEntry2_inv; eauto. }
    repeat split; congruence.
Qed.

(** * Reachable stores are well formed *)
Lemma emptyOk : forall n d sat rounds, gOk (mkGsys [] (repeat [] (Z.to_nat d)) [] n d sat rounds).
Proof.
  intros. assert (E : forall i b, nth_error (repeat (@nil group) (Z.to_nat d)) i = Some b -> b = []).
  { intros i b H. apply nth_error_In in H. now apply repeat_spec in H. }
  constructor; simpl; try discriminate.
  - now rewrite repeat_length.
  - intros i b t es H1 H2. apply E in H1. now subst.
  - intros b H. apply repeat_spec in H. subst. constructor.
  - intros e [].
  - constructor.
  - constructor.
  - intros i b t es H1 H2. apply E in H1. now subst.
Qed.
Lemma emptyEntries : forall n d sat rounds, retEntries (mkGsys [] (repeat [] (Z.to_nat d)) [] n d sat rounds) = [].
Proof. intros. unfold retEntries. simpl. rewrite app_nil_r. induction (Z.to_nat d); simpl; auto. Qed.

Lemma addEntry_inv : forall g t goal evi depth g', gOk g -> addEntry g t goal evi depth = Ok g' -> gOk g'.
Proof.
  intros g t goal evi depth g' G H. apply addEntry_cases in H. destruct H as (_ & [[_ ->]|H]); auto. eapply addEntry2_inv; eauto.
Qed.

Lemma satisfy_sentence : forall sat ev e, e_sentence (satisfy sat ev e) = e_sentence e /\ e_depth (satisfy sat ev e) = e_depth e.
Proof. intros. unfold satisfy. destruct (sat && _); auto. Qed.
Lemma satisfy_idem : forall sat ev e, satisfy sat ev (satisfy sat ev e) = satisfy sat ev e.
Proof.
  intros. unfold satisfy at 1. destruct (satisfy_sentence sat ev e) as (-> & _). unfold satisfy.
  destruct (sat && checkEqTerm (s_term (e_sentence e)) ev); reflexivity.
Qed.
Lemma event_active : forall g ev, g_active (event_occurred g ev) = map (satisfy (g_sat g) ev) (g_active g).
Proof. intros. simpl. rewrite map_map. apply map_ext. intros. apply satisfy_idem. Qed.
Lemma event_entries : forall g ev, retEntries (event_occurred g ev) = map (satisfy (g_sat g) ev) (retEntries g).
Proof.
  intros g ev. unfold retEntries. rewrite event_active, map_app. f_equal. simpl.
  induction (g_batches g) as [|b l IH]; simpl; auto. rewrite map_app, IH. f_equal.
  induction b as [|gr b IH2]; simpl; auto. rewrite map_app, IH2. reflexivity.
Qed.
Lemma nth_error_map_inv : forall A B (f : A -> B) l i b', nth_error (map f l) i = Some b' -> exists b, nth_error l i = Some b /\ b' = f b.
Proof.
  intros A B f l i b' H. rewrite nth_error_map in H. destruct (nth_error l i) as [b|]; simpl in H; [|discriminate H]. injection H as <-. eauto.
Qed.
Lemma event_nth : forall g ev i b', nth_error (g_batches (event_occurred g ev)) i = Some b' ->
  exists b, nth_error (g_batches g) i = Some b /\ b' = map (fun gr => (fst gr, map (satisfy (g_sat g) ev) (snd gr))) b.
Proof. intros g ev i b' H. simpl in H. apply nth_error_map_inv in H. exact H. Qed.
Lemma event_atLevel : forall g ev i e, atLevel g i e -> atLevel (event_occurred g ev) i (satisfy (g_sat g) ev e).
Proof.
  intros g ev i e (b & gr & H1 & H2 & H3).
  exists (map (fun gr => (fst gr, map (satisfy (g_sat g) ev) (snd gr))) b), (fst gr, map (satisfy (g_sat g) ev) (snd gr)).
  split; [simpl; rewrite nth_error_map; exact (f_equal (option_map _) H1)|]. split.
  - apply in_map_iff. eauto.
  - simpl. now apply in_map.
Qed.
Lemma event_inv : forall g ev, gOk g -> gOk (event_occurred g ev).
Proof.
  intros g ev []. constructor.
  - simpl. now rewrite map_length.
  - intros i b t es H1 H2. apply event_nth in H1. destruct H1 as (b0 & H1 & ->). apply in_map_iff in H2.
    destruct H2 as ([t0 es0] & E & H2). simpl in E. injection E as <- <-. destruct (ok_groups i b0 t0 es0 H1 H2) as (A & B & C).
    split; [destruct es0; [easy|discriminate]|]. split; auto. intros e He. apply in_map_iff in He. destruct He as (x & <- & Hx).
    destruct (C x Hx). unfold e_term. destruct (satisfy_sentence (g_sat g) ev x) as (-> & ->). auto.
  - intros b H. simpl in H. apply in_map_iff in H. destruct H as (b0 & <- & H). rewrite map_map. simpl. apply ok_nodup. auto.
  - rewrite event_active. intros e He. apply in_map_iff in He. destruct He as (x & <- & Hx). unfold e_term.
    destruct (satisfy_sentence (g_sat g) ev x) as (-> & _). apply ok_active. auto.
  - rewrite event_active. eapply map_pairs; [|eauto]. intros a b H [H1 H2]. apply H. unfold sameGoal, e_term, e_stamp in *.
    destruct (satisfy_sentence (g_sat g) ev a) as (Ea & _). destruct (satisfy_sentence (g_sat g) ev b) as (Eb & _).
    rewrite Ea, Eb in *. auto.
  - auto.
  - intros t l s H1 H2. simpl in H1. destruct (ok_index t l s H1 H2) as (A & i & e & B & C). split; auto.
    exists i, (satisfy (g_sat g) ev e). split; [now apply event_atLevel|]. destruct (satisfy_sentence (g_sat g) ev e) as (-> & _). auto.
  - intros i b t es H1 H2. apply event_nth in H1. destruct H1 as (b0 & H1 & ->). apply in_map_iff in H2.
    destruct H2 as ([t0 es0] & E & H2). simpl in E. injection E as <- <-. simpl. eapply ok_heads; eauto.
Qed.
Lemma exec_inv : forall g i, gOk g -> gOk (setActive g (remove_at i (g_active g))).
Proof.
  intros g i []. constructor; simpl; auto.
  - intros e H. apply remove_at_in in H. auto.
  - now apply remove_at_pairs.
Qed.

Lemma limit_unfold : forall decay g t g', limitGoals decay g t = Ok g' ->
  exists arr srt, rmapM (refreshUtil decay t) (retEntries g ++ g_active g) = Ok arr /\ fsort_desc e_util arr = Ok srt /\
    0 <= g_maxEntries g /\ rfold addEntry2 (firstn (Z.to_nat (g_maxEntries g)) srt)
      (mkGsys [] (repeat [] (Z.to_nat (g_maxDepth g))) [] (g_maxEntries g) (g_maxDepth g) (g_sat g) (g_rounds g)) = Ok g'.
Proof.
  intros decay g t g' H. unfold limitGoals in H. destruct (rmapM _ _) as [arr|]; simpl in H; [|discriminate].
  destruct (fsort_desc e_util arr) as [srt|] eqn:E; simpl in H; [|discriminate].
  destruct (Z.ltb_spec (g_maxEntries g) 0); [discriminate|]. exists arr, srt. auto.
Qed.
Lemma limit_inv : forall decay g t g', limitGoals decay g t = Ok g' -> gOk g'.
Proof.
  intros decay g t g' H. apply limit_unfold in H. destruct H as (arr & srt & _ & _ & _ & H). apply addAll_spec in H.
  destruct H as (_ & _ & _ & _ & F & _). apply F. apply emptyOk.
Qed.

Lemma infer_unfold : forall u g t m r1 r2 rnd g', sampleAndInference u g t m r1 r2 rnd = Ok g' ->
  (sample g r1 r2 = Ok None /\ g' = g) \/
  exists goal depth ws concls hs, sample g r1 r2 = Ok (Some (goal, depth)) /\
    rfold (subRound u m) (map rnd (seq 0 (Z.to_nat (g_rounds g)))) ([(goal, depth)], []) = Ok (ws, concls) /\
    deriveGoalsHelper u goal depth ALL_BELIEFS m = Ok hs /\
    rfold (fun g h => addEntry g t (h_goal h) (h_evi h) (h_depth h)) (concls ++ hs) g = Ok g'.
Proof.
  intros u g t m r1 r2 rnd g' H. unfold sampleAndInference in H. destruct (sample g r1 r2) as [[[goal depth]|]|]; simpl in H; [| |discriminate].
  - right. destruct (rfold (subRound u m) _ _) as [[ws concls]|] eqn:E; simpl in H; [|discriminate].
    destruct (deriveGoalsHelper u goal depth ALL_BELIEFS m) as [hs|] eqn:E2; simpl in H; [|discriminate].
    exists goal, depth, ws, concls, hs. auto.
  - left. injection H as <-. auto.
Qed.
Lemma infer_ind : forall (P : gsys -> Prop) u g t m r1 r2 rnd g', 
  (forall g goal evi depth g', P g -> addEntry g t goal evi depth = Ok g' -> P g') ->
  P g -> sampleAndInference u g t m r1 r2 rnd = Ok g' -> P g'.
Proof.
  intros P u g t m r1 r2 rnd g' HP H0 H. apply infer_unfold in H. destruct H as [[_ ->]|(goal & depth & ws & concls & hs & _ & _ & _ & H)]; auto.
  eapply (rfold_ind _ _ _ P) in H; eauto.
Qed.

Theorem reach_ok : forall g, gReach g -> gOk g.
Proof.
  induction 1.
  - apply emptyOk.
  - eapply addEntry_inv; eauto.
  - eapply (infer_ind gOk); [|eauto|eauto]. intros. eapply addEntry_inv; eauto.
  - eapply limit_inv; eauto.
  - now apply event_inv.
  - now apply exec_inv.
  - destruct IHgReach. constructor; simpl; auto.
Qed.

(** * Properties of all stored goals *)
Section Entries.
  Variable P : entry -> Prop.
  Hypothesis P_new : forall goal evi t d, s_punct goal = GOAL -> P (mkEntry goal evi t d f1 f1 f0).
  Hypothesis P_acc : forall e l, P e -> P l -> P (setAcc e (fadd (e_acc l) (fmax (e_des l) f0))).
  Hypothesis P_util : forall e u, P e -> P (setUtil e u).
  Hypothesis P_des : forall e, P e -> P (setDes e f0).

  Lemma add2_entries : forall g e g', (forall x, In x (retEntries g) -> P x) -> P e -> addEntry2 g e = Ok g' ->
    forall x, In x (retEntries g') -> P x.
  Proof.
    intros g e g' HP He H. apply addEntry2_as in H. destruct H as [_ _ ->|O N ->|i a b pre es post l O I0 I L B Q1 Q2 ->|i a b batch O I0 I L B Q1 ->]; auto.
    - intros x Hx. unfold retEntries in Hx. simpl in Hx. rewrite app_assoc, in_app_iff in Hx. destruct Hx as [Hx|[<-|[]]]; auto.
    - assert (Hl : P l).
      { apply HP. unfold retEntries. rewrite B, flat_map_app. simpl. rewrite flat_map_app. simpl. apply lastEntry_ok in Q2.
        destruct Q2 as (l' & ->). repeat rewrite in_app_iff. simpl. tauto. }
      intros x Hx. unfold retEntries in HP, Hx. simpl in Hx. rewrite B in HP.
      rewrite flat_map_app in *. simpl in *. rewrite flat_map_app in *. simpl in *.
      repeat rewrite in_app_iff in Hx. simpl in Hx.
      assert (Hx' : x = setAcc e (fadd (e_acc l) (fmax (e_des l) f0)) \/
         In x ((flat_map (fun b : list (term * list entry) => flat_map snd b) a ++ (flat_map snd pre ++ es ++ flat_map snd post) ++ flat_map (fun b : list (term * list entry) => flat_map snd b) b) ++ g_active g)).
      { repeat rewrite in_app_iff. intuition. }
      destruct Hx' as [->|Hx']; auto.
    - intros x Hx. unfold retEntries in HP, Hx. simpl in Hx. rewrite B in HP.
      rewrite flat_map_app in *. simpl in *. rewrite flat_map_app in *. simpl in *.
      repeat rewrite in_app_iff in Hx. simpl in Hx.
      assert (Hx' : x = e \/
         In x ((flat_map (fun b : list (term * list entry) => flat_map snd b) a ++ flat_map snd batch ++ flat_map (fun b : list (term * list entry) => flat_map snd b) b) ++ g_active g)).
      { repeat rewrite in_app_iff. intuition. }
      destruct Hx' as [->|Hx']; auto.
  Qed.
  Lemma addAll_entries : forall l g g', (forall x, In x (retEntries g) -> P x) -> (forall x, In x l -> P x) -> rfold addEntry2 l g = Ok g' ->
    forall x, In x (retEntries g') -> P x.
  Proof.
    intros l g g' Hg Hl H. apply (rfold_ind _ _ addEntry2 (fun g => forall x, In x (retEntries g) -> P x) l g g'); auto.
    intros s a s' Hs Ha E. apply (add2_entries s a s'); auto.
  Qed.
  Lemma add_entries : forall g t goal evi d g', (forall x, In x (retEntries g) -> P x) -> addEntry g t goal evi d = Ok g' ->
    forall x, In x (retEntries g') -> P x.
  Proof.
    intros g t goal evi d g' Hg H. apply addEntry_cases in H. destruct H as (G & [[_ ->]|H]); auto.
    eapply add2_entries; eauto.
  Qed.
  Theorem reach_entries : forall g, gReach g -> forall x, In x (retEntries g) -> P x.
  Proof.
    induction 1.
    - unfold makeGoalSystem. rewrite emptyEntries. intros x [].
    - eapply add_entries; eauto.
    - eapply (infer_ind (fun g => forall x, In x (retEntries g) -> P x)); [|eauto|eauto]. intros. eapply add_entries; eauto.
    - apply limit_unfold in H0. destruct H0 as (arr & srt & E1 & E2 & _ & H0). eapply addAll_entries; [| |eauto].
      + rewrite emptyEntries. intros x [].
      + intros x Hx. apply firstn_in in Hx. apply fsort_desc_ok in E2. destruct E2 as (Q & _).
        apply (Permutation_in _ (Permutation_sym Q)) in Hx. apply rmapM_ok in E1.
        assert (G : forall y, In y (retEntries g ++ g_active g) -> P y).
        { intros y Hy. apply IHgReach. apply in_app_iff in Hy. destruct Hy; auto. unfold retEntries. apply in_app_iff. auto. }
        clear -E1 Hx G P_util. induction E1 as [|y z l l' Hy _ IH]; [easy|]. destruct Hx as [->|Hx].
        * unfold refreshUtil in Hy. destruct (retTv (e_sentence y)); simpl in Hy; [|discriminate]. injection Hy as <-.
          apply P_util. apply G. now left.
        * apply IH; auto. intros; apply G; now right.
    - rewrite event_entries. intros x Hx. apply in_map_iff in Hx. destruct Hx as (y & <- & Hy). unfold satisfy. destruct (_ && _); auto.
    - intros x Hx. apply IHgReach. unfold retEntries in *. simpl in Hx. apply in_app_iff in Hx. apply in_app_iff. destruct Hx as [Hx|Hx]; auto.
      apply remove_at_in in Hx. auto.
    - exact IHgReach.
  Qed.
End Entries.

Theorem only_goals : forall g, gReach g -> forall x, stored g x -> s_punct (e_sentence x) = GOAL.
Proof.
  intros g H x Hx. apply stored_iff in Hx. apply (reach_entries (fun e => s_punct (e_sentence e) = GOAL)) with (g := g); auto.
Qed.
Theorem reach_filed : forall g, gReach g -> forall x,
  (forall i, atLevel g i x -> ~ opTerm (e_term x) /\ Z.of_nat i = Z.min (e_depth x) (g_maxDepth g - 1)) /\
  (In x (g_active g) -> opTerm (e_term x)).
Proof.
  intros g H x. apply reach_ok in H. split.
  - intros i (b & [t es] & H1 & H2 & H3). simpl in H3. destruct (ok_groups _ H i b t es H1 H2) as (A & B & C).
    destruct (C x H3) as (D & E). subst t. auto.
  - apply ok_active. auto.
Qed.
Theorem reach_ops_distinct : forall g, gReach g -> ForallOrdPairs (fun a b => ~ sameGoal a b) (g_active g).
Proof. intros g H. apply ok_distinct. now apply reach_ok. Qed.

(** * Forgetting *)
Lemma refresh_spec : forall decay t e x, refreshUtil decay t e = Ok x -> sameEntry x e /\ utilOf decay t e (e_util x).
Proof.
  intros decay t e x H. unfold refreshUtil in H. destruct (retTv (e_sentence e)) as [v|] eqn:E; simpl in H; [|discriminate].
  injection H as <-. split; [repeat split|]. exists v. auto.
Qed.
Lemma utilOf_fun : forall decay t e u u', utilOf decay t e u -> utilOf decay t e u' -> u = u'.
Proof. intros decay t e u u' (v & H1 & H2) (v' & H3 & H4). congruence. Qed.
Lemma pairs_eq : forall A (R : A -> A -> Prop) l x y, (forall a b, R a b -> R b a) -> ForallOrdPairs (fun a b => ~ R a b) l -> In x l -> In y l -> R x y -> x = y.
Proof.
  intros A R l x y S H. induction H as [|a l H1 H2 IH]; [easy|]. rewrite Forall_forall in H1. intros [->|Hx] [->|Hy] HR; auto.
  - exfalso. apply (H1 y Hy HR).
  - exfalso. apply (H1 x Hx). auto.
Qed.

Lemma sorted_app : forall A (R : A -> A -> Prop) l1 l2, StronglySorted R (l1 ++ l2) -> forall x y, In x l1 -> In y l2 -> R x y.
Proof.
  intros A R l1. induction l1 as [|a l1 IH]; intros l2 H x y Hx Hy; [easy|]. simpl in H. inversion H as [|? ? H1 H2]; subst.
  destruct Hx as [<-|Hx]; [|eapply IH; eauto]. rewrite Forall_forall in H2. apply H2. apply in_app_iff. auto.
Qed.

Theorem limit_spec : forall g decay t g', gReach g -> limitGoals decay g t = Ok g' ->
  Z.of_nat (length (retEntries g')) <= g_maxEntries g /\
  (forall x, stored g' x -> exists e, stored g e /\ sameEntry x e /\ utilOf decay t e (e_util x)) /\
  (forall e, stored g e -> (exists x, stored g' x /\ sameEntry x e) \/
     (g_maxEntries g < Z.of_nat (length (retEntries g) + length (g_active g)) /\
      forall x u, stored g' x -> utilOf decay t e u -> fleb u (e_util x) = true)) /\
  g_maxEntries g' = g_maxEntries g /\ g_maxDepth g' = g_maxDepth g.
Proof.
  intros g decay t g' R H. apply limit_unfold in H. destruct H as (arr & srt & E1 & E2 & N0 & H).
  pose proof (reach_ok g R) as G. set (kept := firstn (Z.to_nat (g_maxEntries g)) srt) in *.
  apply addAll_spec in H. rewrite !emptyEntries in H. destruct H as (_ & B & C & D & _ & K1 & K2 & _). simpl in D.
  assert (Perm : Permutation arr srt /\ StronglySorted (keyGe e_util) srt).
  { apply fsort_desc_ok in E2. destruct E2 as (Q & Q2 & _). auto. }
  destruct Perm as (Q & Srt). apply rmapM_ok in E1.
  assert (Fwd : forall e, In e (retEntries g ++ g_active g) -> exists x, In x srt /\ sameEntry x e /\ utilOf decay t e (e_util x)).
  { intros e He. assert (W : exists x, In x arr /\ refreshUtil decay t e = Ok x).
    { clear -E1 He. induction E1 as [|y z l l' Hy _ IH]; [easy|]. destruct He as [->|He].
      - exists z. split; auto. now left.
      - destruct (IH He) as (x & H1 & H2). exists x. split; auto. now right. }
    destruct W as (x & W1 & W2). exists x. split; [now apply (Permutation_in _ Q)|]. now apply refresh_spec. }
  assert (Bwd : forall x, In x srt -> exists e, In e (retEntries g) /\ (In e (g_active g) \/ ~ opTerm (e_term e)) /\ sameEntry x e /\ utilOf decay t e (e_util x)).
  { intros x Hx. apply (Permutation_in _ (Permutation_sym Q)) in Hx.
    assert (W : exists e, In e (retEntries g ++ g_active g) /\ refreshUtil decay t e = Ok x).
    { clear -E1 Hx. induction E1 as [|y z l l' Hy _ IH]; [easy|]. destruct Hx as [->|Hx].
      - exists y. split; auto. now left.
      - destruct (IH Hx) as (e & H1 & H2). exists e. split; auto. now right. }
    destruct W as (e & W1 & W2). exists e. assert (W3 : In e (retEntries g)).
    { apply in_app_iff in W1. destruct W1 as [W1|W1]; auto. unfold retEntries. apply in_app_iff; auto. }
    split; auto. split; [|now apply refresh_spec].
    apply stored_iff in W3. destruct W3 as [(i & W3)|W3]; auto. right. apply (reach_filed g R e) in W3. tauto. }
  assert (Len : (length kept <= Z.to_nat (g_maxEntries g))%nat) by (unfold kept; rewrite firstn_length; lia).
  split; [lia|]. split; [|split; [|split; [exact K1|exact K2]]].
  - intros x Hx. apply stored_iff in Hx. apply B in Hx. destruct Hx as [[]|(y & Hy & Hs)].
    apply firstn_in in Hy. destruct (Bwd y Hy) as (e & A1 & _ & A2 & A3). exists e. apply sameButAcc_fields in Hs.
    destruct Hs as (S1 & S2 & S3 & S4 & S5 & S6). split; [now apply stored_iff|]. destruct A2 as (T1 & T2 & T3 & T4 & T5).
    split; [repeat split; congruence|]. now rewrite S6.
  - intros e He. apply stored_iff in He. destruct (Fwd e) as (y & Y1 & Y2 & Y3); [apply in_app_iff; auto|].
    assert (Cases : In y kept \/ In y (skipn (Z.to_nat (g_maxEntries g)) srt)).
    { apply in_app_iff. unfold kept. now rewrite firstn_skipn. }
    destruct Cases as [Hk|Hd].
    + left. destruct (C y Hk) as [(x & X1 & X2)|(O & x & X1 & X2)].
      * exists x. split; [now apply stored_iff|]. apply sameButAcc_fields in X2. destruct X2 as (S1 & S2 & S3 & S4 & S5 & S6).
        destruct Y2 as (T1 & T2 & T3 & T4 & T5). repeat split; congruence.
      * exists x. split; [now apply stored_iff|]. apply B in X1. destruct X1 as [[]|(z & Z1 & Z2)]. apply firstn_in in Z1.
        destruct (Bwd z Z1) as (ez & A1 & A2 & A3 & _). apply sameButAcc_fields in Z2. destruct Z2 as (S1 & S2 & S3 & S4 & S5 & S6).
        destruct A3 as (T1 & T2 & T3 & T4 & T5). destruct Y2 as (U1 & U2 & U3 & U4 & U5).
        assert (Hez : In ez (g_active g)).
        { destruct A2 as [A2|A2]; auto. exfalso. apply A2. unfold e_term. rewrite <- T1, <- S1.
          destruct X2 as [X2 _]. unfold e_term in X2. rewrite X2. exact O. }
        assert (Hea : In e (g_active g)).
        { apply stored_iff in He. destruct He as [(i & He)|He]; auto. exfalso. apply (reach_filed g R e) in He. destruct He as [He _].
          apply He. unfold e_term in *. rewrite <- U1. exact O. }
        assert (Eq : ez = e).
        { apply (pairs_eq _ sameGoal (g_active g)); auto.
          - intros a b [P1 P2]. split; auto.
          - apply ok_distinct. auto.
          - unfold sameGoal, e_term, e_stamp in *. destruct X2 as [X2 X3]. split; congruence. }
        subst ez. repeat split; congruence.
    + right. split.
      * apply (f_equal (@length _)) in Q || idtac. assert (Lq : length srt = length arr) by (symmetry; now apply Permutation_length).
        apply Forall2_length in E1 || idtac. assert (La : length arr = length (retEntries g ++ g_active g)).
        { revert E1. clear. intros E1. induction E1; simpl; auto. }
        rewrite app_length in La. assert (length (skipn (Z.to_nat (g_maxEntries g)) srt) <> 0)%nat by (destruct (skipn _ srt); simpl; [easy|lia]).
        rewrite skipn_length in *. lia.
      * intros x u Hx Hu. apply stored_iff in Hx. apply B in Hx. destruct Hx as [[]|(z & Z1 & Z2)].
        rewrite (utilOf_fun _ _ _ _ _ Hu Y3). apply sameButAcc_fields in Z2. destruct Z2 as (_ & _ & _ & _ & _ & ->).
        unfold kept in Z1. rewrite <- (firstn_skipn (Z.to_nat (g_maxEntries g)) srt) in Srt.
        apply (sorted_app _ _ _ _ Srt z y Z1 Hd).
Qed.
