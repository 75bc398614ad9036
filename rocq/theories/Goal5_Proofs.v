(** Proofs about the goal system: which goals are recognised. *)
From Coq Require Import String ZArith Bool Lia List Permutation.
From Verif Require Import Base F64_Model Term_Model Term_Spec Term_Proofs Stamp_Model Stamp_Proofs Tv_Model Sentence_Model Mem_Model Mem_Spec Mem_Proofs Goal_Model Goal_Spec Goal_Proofs Goal2_Proofs Goal3_Proofs.
Import ListNotations.
Local Open Scope Z_scope.

Record hOk (g : gsys) : Prop := mkHok {
  h_sound : forall t l s, mget t (g_byTerm g) = Some l -> In s l -> exists i e, opens g i e /\ e_sentence e = s;
  h_complete : forall i e, opens g i e -> exists l s, mget (e_term e) (g_byTerm g) = Some l /\ In s l /\
    (s = e_sentence e \/ checkOverlap (s_stamp s) (e_stamp e) = true) }.

Lemma opens_at : forall g i e, opens g i e -> atLevel g i e.
Proof. intros g i e (b & t & es & H1 & H2). exists b, (t, e :: es). split; [exact H1|]. split; [exact H2|now left]. Qed.

Lemma add2_heads : forall g e g', gOk g -> hOk g -> addEntry2 g e = Ok g' -> hOk g'.
Proof.
  intros g e g' G [S C] H. apply addEntry2_as in H.
  destruct H as [_ _ ->|O N ->|i a b pre es post l O I0 I L B P Q ->|i a b batch O I0 I L B P ->]; [constructor; auto..| |].
  - set (e' := setAcc e (fadd (e_acc l) (fmax (e_des l) f0))) in *. apply lastEntry_ok in Q. destruct Q as (l' & ->).
    assert (Hd : exists h r, l' ++ [l] = h :: r) by (destruct l'; simpl; eauto). destruct Hd as (h & r & Hd).
    assert (Op : forall j x, opens (setBatches g (a ++ (pre ++ (e_term e, (l' ++ [l]) ++ [e']) :: post) :: b)) j x <-> opens g j x).
    { intros j x. unfold opens. simpl. rewrite B. rewrite Hd. split.
      - intros (bb & t & ess & H1 & H2). apply nth_mid in H1. destruct H1 as [[-> ->]|[_ H1]]; [|eauto 10].
        exists (pre ++ (e_term e, h :: r) :: post). apply in_app_iff in H2. destruct H2 as [H2|[H2|H2]].
        + exists t, ess. split; [apply nth_at|]. apply in_app_iff. auto.
        + injection H2 as <- <- <-. exists (e_term e), r. split; [apply nth_at|]. apply in_app_iff. right. now left.
        + exists t, ess. split; [apply nth_at|]. apply in_app_iff. right. now right.
      - intros (bb & t & ess & H1 & H2). apply nth_mid in H1. destruct H1 as [[-> ->]|[_ H1]]; [|eauto 10].
        exists (pre ++ (e_term e, (h :: r) ++ [e']) :: post). apply in_app_iff in H2. destruct H2 as [H2|[H2|H2]].
        + exists t, ess. split; [apply nth_at|]. apply in_app_iff. auto.
        + injection H2 as <- <- <-. exists (e_term e), (r ++ [e']). split; [apply nth_at|]. apply in_app_iff. right. now left.
        + exists t, ess. split; [apply nth_at|]. apply in_app_iff. right. now right. }
    constructor.
    + intros t ll s H1 H2. destruct (S t ll s H1 H2) as (j & x & A1 & A2). exists j, x. split; [now apply Op|exact A2].
    + intros j x H. apply Op in H. exact (C j x H).
  - set (g' := setByTerm _ _).
    assert (Op : forall j x, opens g' j x <-> opens g j x \/ (j = length a /\ x = e)).
    { intros j x. unfold opens, g'. simpl. rewrite B. split.
      - intros (bb & t & ess & H1 & H2). apply nth_mid in H1. destruct H1 as [[-> ->]|[_ H1]]; [|eauto 10].
        apply in_app_iff in H2. destruct H2 as [H2|[H2|[]]].
        + left. exists batch, t, ess. split; [apply nth_at|exact H2].
        + right. injection H2 as _ <- _. auto.
      - intros [(bb & t & ess & H1 & H2)|[-> ->]].
        + apply nth_mid in H1. destruct H1 as [[-> ->]|[_ H1]]; [|eauto 10].
          exists (batch ++ [(e_term e, [e])]), t, ess. split; [apply nth_at|]. apply in_app_iff. auto.
        + exists (batch ++ [(e_term e, [e])]), (e_term e), []. split; [apply nth_at|]. apply in_app_iff. right. now left. }
    constructor.
    + intros t ll s H1 H2. unfold g' in H1. simpl in H1. rewrite indexEntry_get in H1.
      assert (K : (exists l0, mget t (g_byTerm g) = Some l0 /\ In s l0) \/ s = e_sentence e).
      { destruct (checkEqTerm (s_term (e_sentence e)) t) eqn:E; [|eauto]. apply checkEqTerm_eq in E. subst t.
        destruct (mget (s_term (e_sentence e)) (g_byTerm g)) as [arr|] eqn:M.
        - destruct (existsb _ arr); injection H1 as <-; [eauto|]. apply in_app_iff in H2. destruct H2 as [H2|[H2|[]]]; eauto.
        - injection H1 as <-. destruct H2 as [H2|[]]. auto. }
      destruct K as [(l0 & K1 & K2)| ->].
      * destruct (S t l0 s K1 K2) as (j & x & A1 & A2). exists j, x. split; [apply Op; auto|exact A2].
      * exists (length a), e. split; [apply Op; auto|reflexivity].
    + intros j x H. apply Op in H. unfold g'. simpl. rewrite indexEntry_get.
      destruct H as [H|[-> ->]].
      * destruct (C j x H) as (l0 & s & A1 & A2 & A3). destruct (checkEqTerm (s_term (e_sentence e)) (e_term x)) eqn:E; [|eauto].
        apply checkEqTerm_eq in E. rewrite E, A1. destruct (existsb _ l0); [eauto|]. exists (l0 ++ [e_sentence e]), s. split; [auto|]. split; [apply in_app_iff; auto|exact A3].
      * change (e_term e) with (s_term (e_sentence e)). rewrite checkEqTerm_refl. destruct (mget (s_term (e_sentence e)) (g_byTerm g)) as [arr|] eqn:M.
        -- destruct (existsb _ arr) eqn:Ex.
           ++ apply existsb_exists in Ex. destruct Ex as (s & A1 & A2). apply andb_true_iff in A2. exists arr, s. split; [auto|]. split; [auto|]. right. apply A2.
           ++ exists (arr ++ [e_sentence e]), (e_sentence e). split; [auto|]. split; [apply in_app_iff; right; now left|auto].
        -- exists [e_sentence e], (e_sentence e). split; [auto|]. split; [now left|auto].
Qed.
Lemma add_heads : forall g t goal evi depth g', gOk g -> hOk g -> addEntry g t goal evi depth = Ok g' -> hOk g'.
Proof.
  intros g t goal evi depth g' G Hh H. apply addEntry_cases in H. destruct H as (_ & [[_ ->]|H]); auto. eapply add2_heads; eauto.
Qed.
Lemma empty_heads : forall n d en s r, hOk (mkGsys [] (repeat [] n) [] d en s r).
Proof.
  intros n d en s r. constructor; simpl; [discriminate|]. intros i e (b & t & es & H1 & H2). apply nth_error_In, repeat_spec in H1. subst b. destruct H2.
Qed.
Lemma event_opens : forall g ev i e, opens (event_occurred g ev) i e <-> exists x, opens g i x /\ e = satisfy (g_sat g) ev x.
Proof.
  intros g ev i e. split.
  - intros (b & t & es & H1 & H2). apply event_nth in H1. destruct H1 as (b0 & H1 & ->). apply in_map_iff in H2. destruct H2 as ([t0 es0] & E & H2).
    simpl in E. destruct es0 as [|x es0]; [discriminate|]. injection E as <- <- _. exists x. split; [|auto]. exists b0, t0, es0. auto.
  - intros (x & (b & t & es & H1 & H2) & ->). exists (map (fun gr => (fst gr, map (satisfy (g_sat g) ev) (snd gr))) b), t, (map (satisfy (g_sat g) ev) es). split.
    + simpl. rewrite nth_error_map. exact (f_equal (option_map _) H1).
    + apply in_map_iff. exists (t, x :: es). auto.
Qed.
Lemma event_heads : forall g ev, hOk g -> hOk (event_occurred g ev).
Proof.
  intros g ev [S C]. constructor.
  - intros t l s H1 H2. simpl in H1. destruct (S t l s H1 H2) as (i & e & A & B). exists i, (satisfy (g_sat g) ev e). split; [apply event_opens; eauto|].
    destruct (satisfy_sentence (g_sat g) ev e) as (-> & _). auto.
  - intros i e H. apply event_opens in H. destruct H as (x & H & ->). destruct (C i x H) as (l & s & A). exists l, s. unfold e_term, e_stamp.
    destruct (satisfy_sentence (g_sat g) ev x) as (-> & _). exact A.
Qed.
Lemma all_heads : forall l g g', gOk g -> hOk g -> rfold addEntry2 l g = Ok g' -> hOk g'.
Proof.
  induction l as [|e l IH]; intros g g' G Hh H; simpl in H; [now injection H as <-|].
  destruct (addEntry2 g e) as [g1|] eqn:E; simpl in H; [|discriminate]. eapply IH; [| |exact H]; [eapply addEntry2_inv; eauto|eapply add2_heads; eauto].
Qed.
Theorem reach_heads : forall g, gReach g -> hOk g.
Proof.
  induction 1 as [n d|g t goal evi depth g' R IH H|g u t m r1 r2 rnd g' R IH H|g decay t g' R IH H|g ev R IH|g i R IH|g n sat rounds R IH].
  - apply empty_heads.
  - eapply add_heads; eauto. now apply reach_ok.
  - assert (K : gOk g' /\ hOk g'); [|apply K]. eapply (infer_ind (fun g => gOk g /\ hOk g)); [| |exact H].
    + intros g0 goal evi depth g1 [A B] H0. split; [eapply addEntry_inv; eauto|eapply add_heads; eauto].
    + split; [now apply reach_ok|exact IH].
  - apply limit_unfold in H. destruct H as (arr & srt & _ & _ & _ & H). eapply all_heads; [| |exact H]; [apply emptyOk|apply empty_heads].
  - now apply event_heads.
  - destruct IH as [S C]. constructor; [exact S|exact C].
  - destruct IH as [S C]. constructor; [exact S|exact C].
Qed.

Lemma unchanged_known : forall g t goal evi depth, ~ opTerm (s_term goal) -> addEntry g t goal evi depth = Ok g -> goalKnown g goal = true.
Proof.
  intros g t goal evi depth O H. apply addEntry_cases in H. destruct H as (_ & [[K _]|H]); [exact K|]. exfalso.
  destruct (added_entries _ _ _ H) as [(_ & x & _)|(acc & Pm)].
  - apply addEntry2_as in H. destruct H as [O' _ _|O' _ _|i a b pre es post l _ I0 I L B P Q E|i a b batch _ I0 I L B P E]; try (now apply O).
    + apply (f_equal g_batches) in E. simpl in E. rewrite B in E. apply app_inv_head in E. injection E as E. apply app_inv_head in E. injection E as E.
      apply (f_equal (@length _)) in E. rewrite app_length in E. simpl in E. lia.
    + apply (f_equal g_batches) in E. simpl in E. rewrite B in E. apply app_inv_head in E. injection E as E. apply (f_equal (@length _)) in E. rewrite app_length in E. simpl in E. lia.
  - apply Permutation_length in Pm. simpl in Pm. lia.
Qed.

Lemma opens_unique : forall g i e x, gOk g -> opens g i e -> opens g i x -> e_term e = e_term x -> e = x.
Proof.
  intros g i e x G (b & t1 & es1 & A1 & A2) (b' & t2 & es2 & B1 & B2) T. rewrite A1 in B1. injection B1 as <-.
  destruct (ok_groups _ G _ _ _ _ A1 A2) as (_ & _ & F1). destruct (ok_groups _ G _ _ _ _ A1 B2) as (_ & _ & F2).
  destruct (F1 e (or_introl eq_refl)) as (T1 & _). destruct (F2 x (or_introl eq_refl)) as (T2 & _). assert (Q0 : t2 = t1) by congruence. rewrite Q0 in B2.
  assert (ND := ok_nodup _ G b (nth_error_In _ _ A1)).
  assert (Q : (t1, e :: es1) = (t1, x :: es2)); [|congruence]. clear - ND A2 B2. induction b as [|[u v] b IH]; [destruct A2|]. simpl in ND. inversion ND as [|? ? N ND']; subst.
  destruct A2 as [A2|A2]; destruct B2 as [B2|B2]; [congruence| | |auto].
  - exfalso. apply N. assert (u = t1) by congruence. subst u. exact (in_map fst _ _ B2).
  - exfalso. apply N. assert (u = t1) by congruence. subst u. exact (in_map fst _ _ A2).
Qed.
(** what is recognised opened a group *)
Theorem recognised_opens : forall g t goal evi depth, gReach g -> ~ opTerm (s_term goal) -> addEntry g t goal evi depth = Ok g ->
  exists i e, opens g i e /\ e_term e = s_term goal /\ e_stamp e = s_stamp goal.
Proof.
  intros g t goal evi depth R O H. pose proof (reach_ok _ R) as G. apply unchanged_known in H; auto. apply known_iff in H; auto.
  destruct H as (l & E & x & Hx & St). destruct (h_sound _ (reach_heads _ R) _ _ _ E Hx) as (i & e & A & B). exists i, e. split; [exact A|].
  unfold e_term, e_stamp. rewrite B. split; [|exact St]. apply (ok_index _ G _ _ _ E Hx).
Qed.
(** what opened a group is recognised, or shares evidence with what opened a group of another level *)
Theorem opens_recognised : forall g i e t goal evi depth, gReach g -> opens g i e -> s_punct goal = GOAL -> e_term e = s_term goal -> e_stamp e = s_stamp goal ->
  addEntry g t goal evi depth = Ok g \/ exists j x, opens g j x /\ j <> i /\ e_term x = e_term e /\ exists id, In id (e_stamp x) /\ In id (e_stamp e).
Proof.
  intros g i e t goal evi depth R Op Pu Te Se. pose proof (reach_ok _ R) as G. pose proof (reach_heads _ R) as Hh.
  destruct (h_complete _ Hh i e Op) as (l & s & E & Hs & K). destruct (h_sound _ Hh _ _ _ E Hs) as (j & x & A & B).
  assert (T : e_term x = e_term e) by (unfold e_term at 1; rewrite B; apply (ok_index _ G _ _ _ E Hs)).
  assert (Kn : s_stamp s = s_stamp goal -> addEntry g t goal evi depth = Ok g).
  { intros Q. unfold addEntry. rewrite Pu. cbn [punct_eqb negb]. replace (goalKnown g goal) with true; [reflexivity|]. symmetry. apply known_iff; auto. rewrite <- Te. eauto. }
  destruct K as [->|K]; [left; apply Kn; exact Se|]. destruct (Nat.eq_dec j i) as [->|N].
  - left. apply Kn. rewrite <- Se. replace e with x; [unfold e_stamp; now rewrite B|].
    exact (opens_unique _ _ _ _ G A Op T).
  - right. exists j, x. split; [exact A|]. split; [exact N|]. split; [exact T|]. apply checkOverlap_iff in K. destruct K as (id & K1 & K2). exists id. unfold e_stamp at 1. rewrite B. auto.
Qed.

Theorem one_level : forall g i e t goal evi depth, gReach g -> opens g i e -> (forall j x, opens g j x -> e_term x = e_term e -> j = i) ->
  s_punct goal = GOAL -> s_term goal = e_term e -> (addEntry g t goal evi depth = Ok g <-> s_stamp goal = e_stamp e).
Proof.
  intros g i e t goal evi depth R Op U Pu Te. pose proof (reach_ok _ R) as G. split; intros H.
  - assert (O : ~ opTerm (s_term goal)).
    { rewrite Te. destruct Op as (b & t1 & es1 & A1 & A2). destruct (ok_groups _ G _ _ _ _ A1 A2) as (_ & N & F). now rewrite (proj1 (F e (or_introl eq_refl))). }
    destruct (recognised_opens _ _ _ _ _ R O H) as (j & x & A & B & C). assert (T : e_term x = e_term e) by congruence. assert (j = i) by (eapply U; eauto). subst j.
    rewrite <- C. f_equal. exact (opens_unique _ _ _ _ G A Op T).
  - destruct (opens_recognised g i e t goal evi depth R Op Pu) as [K|(j & x & A & B & C & _)]; auto. exfalso. apply B. eapply U; eauto.
Qed.
