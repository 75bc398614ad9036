(** Invariants of whole runs of the sequential reasoner. *)
From Coq Require Import ZArith Bool Lia List Permutation Sorted Relations.
From Verif Require Import Base F64_Model Sort_Proofs Term_Model Term_Spec Term_Proofs
  Stamp_Model Stamp_Proofs Tv_Model Sentence_Model Sentence_Proofs Infer_Model Infer_Spec Infer_Proofs Mem_Model Mem_Spec Mem_Proofs
  Cycle_Model Cycle_Spec Cycle_Proofs Task_Proofs.
Import ListNotations.

(** * Cycle steps and the task tables *)
Lemma swap_remove_spec : forall A i (l : list A) x, nth_error l i = Some x -> Permutation (x :: swap_remove i l) l.
Proof.
  intros A i l x H. unfold swap_remove. destruct (List.rev l) as [|y r] eqn:R.
  - apply (f_equal (@List.rev A)) in R. rewrite rev_involutive in R. subst l. destruct i; discriminate.
  - apply (f_equal (@List.rev A)) in R. rewrite rev_involutive in R. simpl in R. subst l. set (l := List.rev r) in *.
    rewrite app_length. simpl. replace (length l + 1 - 1) with (length l) by lia.
    destruct (Nat.lt_ge_cases i (length l)) as [L|L].
    + rewrite nth_error_app1 in H by auto.
      assert (G : forall (l : list A) i y z, i < length l -> nth_error l i = Some x ->
         Permutation (x :: firstn (length l) (replace_at i y (l ++ [z]))) (y :: l)).
      { clear. induction l as [|w l IH]; intros [|i] y z L H; simpl in *; try lia.
        - injection H as ->. rewrite firstn_app, firstn_all, Nat.sub_diag. simpl. rewrite app_nil_r. apply perm_swap.
        - rewrite perm_swap, IH by (auto; lia). apply perm_swap. }
      rewrite G by auto. rewrite Permutation_app_comm. reflexivity.
    + rewrite nth_error_app2 in H by auto. assert (i = length l).
      { destruct (Nat.eq_dec i (length l)); auto. rewrite (proj2 (nth_error_None _ _)) in H; [discriminate|simpl; lia]. }
      subst i. rewrite Nat.sub_diag in H. simpl in H. injection H as <-.
      assert (G : forall (l : list A) y z, firstn (length l) (replace_at (length l) y (l ++ [z])) = l).
      { clear. induction l as [|w l IH]; intros y z; simpl; auto. f_equal. auto. }
      rewrite G. rewrite Permutation_app_comm. reflexivity.
Qed.
Lemma swap_remove_sub : forall A i (l : list A) x, nth_error l i = Some x -> NoDup l ->
  NoDup (swap_remove i l) /\ (forall y, In y (swap_remove i l) <-> In y l /\ y <> x).
Proof.
  intros A i l x H N. assert (P := swap_remove_spec _ _ _ _ H). apply Permutation_sym in P.
  assert (N2 := Permutation_NoDup P N). inversion N2 as [|? ? N3 N4]; subst. split; auto.
  intros y. split.
  - intros Hy. split; [apply (Permutation_in _ (Permutation_sym P)); now right|]. intros ->. contradiction.
  - intros [Hy Hn]. apply (Permutation_in _ P) in Hy. destruct Hy; [congruence|auto].
Qed.

Lemma limitTasks_ok : forall expf sh sh', limitTasks expf sh = Ok sh' ->
  exists kept, sh' = setJudg kept sh /\ length kept <= 30 /\
  (NoDup (judg sh) -> NoDup kept) /\ (forall a, In a kept -> In a (judg sh)) /\
  let key a := taskCalcCredit expf (hget (heap sh) a) (cycleCtr sh) in
  (forall a, In a kept -> fltb (f_frac 1 1000) (key a) = true) /\
  (forall a b, In a kept -> In b (judg sh) -> ~ In b kept -> fleb (key b) (key a) = true) /\
  (forall b, In b (judg sh) -> ~ In b kept -> fltb (f_frac 1 1000) (key b) = true ->
     length kept = 30).
Proof.
  intros expf sh sh' H. unfold limitTasks in H. set (key := fun a => taskCalcCredit expf (hget (heap sh) a) (cycleCtr sh)) in *.
  destruct (fsort_desc key (judg sh)) as [srt|] eqn:E; [|discriminate]. unfold rbind in H.
  apply fsort_desc_ok in E. destruct E as (P & S & Nn).
  exists (filter (fun a => fgtb (key a) (f_frac 1 1000)) (firstn 30 srt)).
  assert (F : firstn (Nat.min 30 (length srt)) srt = firstn 30 srt).
  { destruct (Nat.le_ge_cases 30 (length srt)); [rewrite Nat.min_l by auto; auto|].
    rewrite Nat.min_r by auto. rewrite firstn_all. symmetry. now apply firstn_all2. }
  rewrite F in H. clear F. assert (H' : sh' = setJudg (filter (fun a => fgtb (key a) (f_frac 1 1000)) (firstn 30 srt)) sh).
  { unfold key. injection H. intros K. symmetry. exact K. }
  clear H. split; [exact H'|]. clear H'.
  assert (FL : forall (l : list nat) f, length (filter f l) <= length l).
  { clear. induction l; simpl; intros f; auto. destruct (f a); simpl; specialize (IHl f); lia. }
  split; [specialize (FL (firstn 30 srt) (fun a => fgtb (key a) (f_frac 1 1000))); rewrite firstn_length in FL; lia|].
  assert (IN : forall a, In a (filter (fun a => fgtb (key a) (f_frac 1 1000)) (firstn 30 srt)) <-> In a (firstn 30 srt) /\ fltb (f_frac 1 1000) (key a) = true).
  { intros a. rewrite filter_In, fgtb_flip. reflexivity. }
  split; [|split; [|split; [|split]]].
  - intros N. apply NoDup_filter. assert (N2 := Permutation_NoDup P N). rewrite <- (firstn_skipn 30 srt) in N2.
    clear - N2. induction (firstn 30 srt) as [|x l IH]; [constructor|]. simpl in N2. inversion N2; subst. constructor; auto.
    intros K. apply H1. apply in_or_app. auto.
  - intros a Ha. apply IN in Ha. destruct Ha as [Ha _]. apply firstn_in in Ha. apply (Permutation_in _ (Permutation_sym P)). auto.
  - intros a Ha. now apply IN.
  - intros a b Ha Hb Hn. rewrite IN in Ha, Hn. destruct Ha as [Ha Hk]. apply (Permutation_in _ P) in Hb.
    rewrite <- (firstn_skipn 30 srt) in Hb. apply in_app_iff in Hb. destruct Hb as [Hb|Hb].
    + assert (Q : fltb (f_frac 1 1000) (key b) = false) by (destruct (fltb (f_frac 1 1000) (key b)); [destruct Hn; auto|auto]).
      assert (D : a <> b) by (intros ->; congruence).
      assert (Nb : fis_nan (key b) = false).
      { assert (L2 : 2 <= length (judg sh)).
        { apply firstn_in in Ha, Hb. apply (Permutation_in _ (Permutation_sym P)) in Ha, Hb. clear - D Ha Hb.
          destruct (judg sh) as [|x [|y l]]; simpl in *; try tauto; lia. }
        apply Nn in L2. rewrite Forall_forall in L2. apply L2. apply firstn_in in Hb. apply (Permutation_in _ (Permutation_sym P)). auto. }
      assert (Na := proj1 (fltb_nan_l _ _ Hk)). apply fltb_leb in Hk. eapply fleb_trans; [|exact Hk].
      rewrite fleb_not_lt by auto. now rewrite Q.
    + exact (sorted_firstn_best _ _ _ _ S _ _ Ha Hb).
  - intros b Hb Hn Hk. rewrite IN in Hn. apply (Permutation_in _ P) in Hb. rewrite <- (firstn_skipn 30 srt) in Hb.
    apply in_app_iff in Hb. destruct Hb as [Hb|Hb]; [destruct Hn; auto|].
    assert (All : forall a, In a (firstn 30 srt) -> fltb (f_frac 1 1000) (key a) = true).
    { intros a Ha. assert (K := sorted_firstn_best _ _ _ _ S _ _ Ha Hb). unfold keyGe in K. eapply fltb_leb_trans; eauto. }
    assert (FA : forall l : list nat, (forall a, In a l -> fltb (f_frac 1 1000) (key a) = true) ->
       filter (fun a => fgtb (key a) (f_frac 1 1000)) l = l).
    { clear. induction l as [|x l IH]; simpl; intros H; auto. rewrite fgtb_flip, H by now left. f_equal. apply IH. intros; apply H; now right. }
    rewrite FA by auto. rewrite firstn_length. assert (length (skipn 30 srt) <> 0) by (destruct (skipn 30 srt); [contradiction|discriminate]).
    rewrite skipn_length in H. lia.
Qed.

Lemma rebuild_idx : forall sh t a, indexed (rebuildIndex sh) t a <-> In a (judg sh) /\ occurs t (taskTerm sh a).
Proof.
  intros sh t a. unfold rebuildIndex.
  assert (G : forall js bt, NoDup (map fst bt) ->
    let bt' := fold_left (fun bt a => populateTaskByTermLookup bt (s_term (tk_s (hget (heap sh) a))) a) js bt in
    NoDup (map fst bt') /\ forall t a, inIdx bt' t a <-> inIdx bt t a \/ (In a js /\ occurs t (taskTerm sh a))).
  { clear. induction js as [|j js IH]; intros bt N; cbn [fold_left].
    - split; auto. intros t a. simpl. tauto.
    - destruct (IH _ (populate_nodup bt (s_term (tk_s (hget (heap sh) j))) j N)) as [A B]. split; auto.
      intros t a. rewrite B, populate_idx. simpl. unfold taskTerm. split.
      + intros [[K|[-> K]]|[K1 K2]]; auto.
      + intros [K|[[<-|K1] K2]]; auto. }
  destruct (G (judg sh) [] (NoDup_nil _)) as [A B]. rewrite indexed_iff by exact A. simpl (byTerm _). rewrite B.
  split; [intros [(l & H & _)|H]; [discriminate|auto]|auto].
Qed.
Lemma rebuild_keys : forall sh, NoDup (map fst (byTerm (rebuildIndex sh))).
Proof.
  intros sh. unfold rebuildIndex. simpl. generalize (judg sh) as js, (@nil (term * list nat)) as bt, (NoDup_nil term : NoDup (map fst (@nil (term * list nat)))).
  induction js as [|j js IH]; intros bt N; cbn [fold_left]; auto. apply IH. now apply populate_nodup.
Qed.
Lemma rebuild_ok : forall maxC sh, tasksOk maxC sh -> tasksOk maxC (rebuildIndex sh).
Proof.
  intros maxC sh [I1 I2 I3 I4 I5 I6 I7 I8 I9 I10]. constructor; auto.
  - apply rebuild_keys.
  - intros t a H. apply rebuild_idx in H. destruct H. split; [apply I3|]; auto.
  - intros a t Ha O. apply rebuild_idx. auto.
Qed.

Lemma sampleQuestion_frame : forall sv sh sh' ans, sampleQuestion sv sh = Ok (sh', ans) ->
  exists qs, sh' = setQuestions qs sh.
Proof.
  intros sv sh sh' ans H. unfold sampleQuestion in H. destruct (questions sh) as [|q0 qs0] eqn:Q.
  - injection H as <- <-. exists (questions sh). destruct sh; reflexivity.
  - destruct (task2SelByCreditRandom sv (q0 :: qs0)) as [i|]; [|discriminate]. cbn [rbind] in H.
    destruct (idx (q0 :: qs0) i) as [q|]; [|discriminate]. cbn [rbind] in H.
    destruct (qaTryAll q _) as [r|]; [|discriminate]. cbn [rbind] in H. injection H as <- <-. eauto.
Qed.

Lemma collect_in : forall h l acc a, In a (collectSecondary h acc l) -> In a acc \/ In a l.
Proof.
  intros h l acc a. unfold collectSecondary. intros H.
  assert (G : forall l acc, In a (fold_left (fun acc a => if existsb (fun b => (tk_id (hget h b) =? tk_id (hget h a))%Z) acc then acc else acc ++ [a]) l acc) -> In a acc \/ In a l).
  { clear. induction l as [|x l IH]; intros acc H; cbn [fold_left] in H; auto. apply IH in H. simpl.
    destruct (existsb _ acc) in H; [tauto|]. rewrite in_app_iff in H. simpl in H. tauto. }
  apply G in H. destruct H as [H|H]; auto. right. now apply firstn_in in H.
Qed.
Lemma secondary_in : forall sh t a, In a (secondaryFor sh t) -> exists u, occurs u t /\ inIdx (byTerm sh) u a.
Proof.
  intros sh t a H. unfold secondaryFor, limitSecondary in H. apply firstn_in in H. rewrite sort_in in H.
  assert (G : forall us acc, (forall u, In u us -> occurs u t) ->
    In a (fold_left (fun acc st => match mget st (byTerm sh) with Some l => collectSecondary (heap sh) acc l | None => acc end) us acc) ->
    In a acc \/ exists u, occurs u t /\ inIdx (byTerm sh) u a).
  { clear. induction us as [|u us IH]; intros acc Ho H; cbn [fold_left] in H; auto.
    apply IH in H; [|intros; apply Ho; now right]. destruct H as [H|H]; auto.
    destruct (mget u (byTerm sh)) as [l|] eqn:G; auto. apply collect_in in H. destruct H as [H|H]; auto.
    right. exists u. split; [apply Ho; now left|]. exists l. auto. }
  apply G in H; [|intros u; apply retUniqueSubterms_in]. destruct H as [[]|H]. auto.
Qed.

Definition msgOk (sh : shared) (m : workMsg) : Prop :=
  primary m < length (heap sh) /\ forall a, In a (secondary m) -> a < length (heap sh).

(** one reasoning cycle: sentences and ids of the tasks stay, the task tables
    stay consistent, the memory loses at most concepts *)
Lemma selectWork_ok : forall expf maxC sh sh' msg, tasksOk maxC sh -> selectWork expf sh = Ok (sh', msg) ->
  tasksOk maxC sh' /\ heap sh' = heap sh /\ memory sh' = memory sh /\ cycleCtr sh' = cycleCtr sh /\
  match msg with Some m => msgOk sh' m /\ In (primary m) (judg sh) /\ ~ In (primary m) (judg sh') | None => judg sh = [] end.
Proof.
  intros expf maxC sh sh' msg OK H. unfold selectWork in H. destruct (judg sh) as [|j0 js] eqn:J.
  - injection H as <- <-. auto 10.
  - set (i := taskSelByCreditTop expf _ _) in H. destruct (idx (j0 :: js) i) as [a|] eqn:E; [|discriminate]. cbn [rbind] in H.
    injection H as <- <-. assert (Hn : nth_error (j0 :: js) i = Some a).
    { unfold idx in E. destruct (nth_error (j0 :: js) i); [injection E as ->; auto|discriminate]. }
    rewrite <- J in Hn. destruct (swap_remove_sub _ _ _ _ Hn (ok_nodup _ _ OK)) as [N S].
    rewrite <- J. assert (OK' : tasksOk maxC (setJudg (swap_remove i (judg sh)) sh)).
    { apply (tasksOk_ext _ sh); simpl; auto using sameTasks_refl. intros b Hb. now apply S. }
    split; auto. split; auto. split; auto. split; auto.
    assert (Ha : In a (judg sh)) by (eapply nth_error_In; eauto). split; [|simpl; split; [auto|]].
    + split; simpl; [now apply (ok_judg _ _ OK)|]. intros b Hb. apply secondary_in in Hb. destruct Hb as (u & _ & Hb).
      apply (ok_index _ _ OK u). apply indexed_iff; [apply OK|]. exact Hb.
    + intros K. apply S in K. tauto.
Qed.

Lemma reasonCycle_ok : forall expf sv maxC sh now sh' now' ans msg, tasksOk maxC sh ->
  reasonCycle expf sv sh now = Ok (sh', now', ans, msg) ->
  tasksOk maxC sh' /\ sameTasks (heap sh) (heap sh') /\
  (memory sh' = memory sh \/ limitMemory (memory sh) 3000 = Ok (memory sh')) /\
  match msg with Some m => msgOk sh' m | None => True end /\
  cycleCtr sh' = (cycleCtr sh + 1)%Z /\ now' = (now + 1)%Z /\ incl (judg sh') (judg sh) /\
  (Z.rem (cycleCtr sh') 111 = 0%Z -> length (judg sh') <= 30 /\
     forall t a, indexed sh' t a <-> In a (judg sh') /\ occurs t (taskTerm sh' a)).
Proof.
  intros expf sv maxC sh now sh' now' ans msg OK H. unfold reasonCycle in H.
  set (sh0 := setCycleCtr (cycleCtr sh + 1) sh) in H.
  set (sh1 := baseCredits (transferCredits sh0)) in H.
  assert (S1 : sameTasks (heap sh) (heap sh1)) by (apply (sameTasks_trans _ (heap (transferCredits sh0))); [apply (transfer_same sh0)|apply base_same]).
  assert (F1 : judg sh1 = judg sh /\ byTerm sh1 = byTerm sh /\ taskCtr sh1 = taskCtr sh /\ memory sh1 = memory sh /\ cycleCtr sh1 = (cycleCtr sh + 1)%Z) by (repeat split; reflexivity).
  assert (OK1 : tasksOk maxC sh1).
  { destruct F1 as (J & B & C & _). apply (tasksOk_eq _ sh); auto. }
  clearbody sh1. destruct (sampleQuestion sv sh1) as [[sh2 qa]|] eqn:E2; [|discriminate]. cbn [rbind fst snd] in H.
  apply sampleQuestion_frame in E2. destruct E2 as [qs ->]. set (sh2 := setQuestions qs sh1) in H.
  assert (OK2 : tasksOk maxC sh2) by (apply (tasksOk_eq _ sh1); auto using sameTasks_refl).
  destruct (selectWork expf sh2) as [[sh3 w]|] eqn:E3; [|discriminate]. cbn [rbind fst snd] in H.
  assert (W := selectWork_ok _ _ _ _ _ OK2 E3). destruct W as (OK3 & H3 & M3 & C3 & W).
  assert (I3 : incl (judg sh3) (judg sh)).
  { destruct F1 as (J & _). rewrite <- J. change (judg sh1) with (judg sh2). unfold selectWork in E3.
    destruct (judg sh2) as [|j0 js] eqn:Q; [injection E3 as <- <-; rewrite Q; apply incl_refl|].
    destruct (idx (j0 :: js) _) as [a|] eqn:E; [|discriminate]. cbn [rbind] in E3. injection E3 as <- <-. simpl.
    assert (Hn : nth_error (j0 :: js) (taskSelByCreditTop expf (map (hget (heap sh2)) (j0 :: js)) (cycleCtr sh2)) = Some a).
    { unfold idx in E. destruct (nth_error _ _); [injection E as ->; auto|discriminate]. }
    intros x Hx. assert (N := ok_nodup _ _ OK2). rewrite Q in N. apply (swap_remove_sub _ _ _ _ Hn N) in Hx. apply Hx. }
  set (sh4 := touchAll w (now + 1) sh3) in H.
  assert (F4 : heap sh4 = heap sh3 /\ judg sh4 = judg sh3 /\ byTerm sh4 = byTerm sh3 /\ taskCtr sh4 = taskCtr sh3 /\ memory sh4 = memory sh3 /\ cycleCtr sh4 = cycleCtr sh3)
    by (unfold sh4, touchAll; destruct w; repeat split; reflexivity).
  clearbody sh4. destruct F4 as (H4 & J4 & B4 & T4 & M4 & C4).
  assert (OK4 : tasksOk maxC sh4) by (apply (tasksOk_eq _ sh3); auto; rewrite H4; apply sameTasks_refl).
  destruct (maintainTasks expf sh4) as [sh5|] eqn:E5; [|discriminate]. cbn [rbind] in H.
  destruct (maintainConcepts sh5) as [sh6|] eqn:E6; [|discriminate]. cbn [rbind] in H. injection H as <- <- <- <-.
  assert (X5 : tasksOk maxC sh5 /\ heap sh5 = heap sh4 /\ memory sh5 = memory sh4 /\ cycleCtr sh5 = cycleCtr sh4 /\ incl (judg sh5) (judg sh4) /\
    (Z.rem (cycleCtr sh4) 111 = 0%Z -> length (judg sh5) <= 30 /\ forall t a, indexed sh5 t a <-> In a (judg sh5) /\ occurs t (taskTerm sh5 a))).
  { unfold maintainTasks in E5. destruct (Z.rem (cycleCtr sh4) 111 =? 0)%Z eqn:R.
    - destruct (limitTasks expf sh4) as [sh5'|] eqn:L; [|discriminate]. cbn [rbind] in E5. injection E5 as <-.
      apply limitTasks_ok in L. destruct L as (kept & -> & Lk & Nk & Ik & _). simpl.
      assert (OK5 : tasksOk maxC (setJudg kept sh4)) by (apply (tasksOk_ext _ sh4); simpl; auto using sameTasks_refl; apply Nk, OK4).
      split; [now apply rebuild_ok|]. do 4 (split; [auto|]). intros _. split; [auto|]. apply (rebuild_idx (setJudg kept sh4)).
    - injection E5 as <-. apply Z.eqb_neq in R. do 5 (split; [auto using incl_refl|]). intros K. contradiction. }
  destruct X5 as (OK5 & H5 & M5 & C5 & I5 & B5).
  assert (X6 : heap sh6 = heap sh5 /\ judg sh6 = judg sh5 /\ byTerm sh6 = byTerm sh5 /\ taskCtr sh6 = taskCtr sh5 /\ cycleCtr sh6 = cycleCtr sh5 /\
    (memory sh6 = memory sh5 \/ limitMemory (memory sh5) 3000 = Ok (memory sh6))).
  { unfold maintainConcepts in E6. destruct (Z.rem (cycleCtr sh5) 173 =? 0)%Z.
    - destruct (limitMemory (memory sh5) 3000) as [m|] eqn:L; [|discriminate]. cbn [rbind] in E6. injection E6 as <-. simpl. auto 10.
    - injection E6 as <-. auto 10. }
  destruct X6 as (H6 & J6 & B6 & T6 & C6 & M6).
  destruct F1 as (_ & _ & _ & M1 & C1). assert (M3' : memory sh3 = memory sh1) by exact M3. assert (C3' : cycleCtr sh3 = cycleCtr sh1) by exact C3.
  split; [|split; [|split; [|split; [|split; [|split; [|split]]]]]].
  - apply (tasksOk_eq _ sh5); auto; rewrite H6; apply sameTasks_refl.
  - rewrite H6, H5, H4, H3. exact S1.
  - assert (E : memory sh5 = memory sh) by congruence. rewrite E in M6. exact M6.
  - destruct w as [m|]; auto. destruct W as [[W1 W2] _]. split; [rewrite H6, H5, H4; auto|]. intros a Ha. rewrite H6, H5, H4. auto.
  - congruence.
  - reflexivity.
  - rewrite J6. intros x Hx. apply I3. rewrite <- J4. auto.
  - intros R. rewrite C6, C5 in R. destruct (B5 R) as [L X]. rewrite J6. split; auto.
    intros t a. unfold indexed, taskTerm in *. rewrite B6, H6. apply X.
Qed.

(** * Memory *)
Section Mem.
  Variables (G : sentence -> Prop) (maxC : Z) (n : nat).
  Hypothesis CL : closed G.
  Hypothesis G_stamp : forall s, G s -> s_stamp s <> [].
  Hypothesis n_pos : 1 <= n.

  Let B := beliefsOk G maxC n.

  Lemma revised_all : forall s l l', revisedTable s l l' -> forall (Q : sentence -> Prop),
    (forall b nb, Q b -> revisable s b -> isRevision s b nb -> Q nb) ->
    (forall b, In b l -> Q b) -> forall b, In b l' -> Q b.
  Proof.
    intros s l l' R Q HQ. induction R as [l l' (nb & R)|l|l1 l2 l3 R1 IH1 R2 IH2]; auto.
    intros A x Hx. destruct (replaced_in _ _ _ _ _ R Hx) as [Hx'|(-> & b & Hb & Rb & I)]; eauto.
  Qed.
  Lemma revise_inv : forall m s u m' r u', memInv B m -> G s -> memReviseBelief m s u = Ok (m', r, u') -> memInv B m'.
  Proof.
    intros m s u m' r u' [OK HB] Gs H. destruct (s_punct s) eqn:P.
    2,3: unfold memReviseBelief in H; rewrite P in H; injection H as <- <- <-; split; auto.
    destruct (revise_spec _ _ _ _ _ _ OK H) as (OK' & K & _ & T & _). split; auto.
    intros t c' Hc'. destruct (T _ _ Hc') as (c & Hc & _ & R1 & R2 & L1 & L2). destruct (HB _ _ Hc) as [B1 B2 B3 B4 B5].
    assert (Nc : c_name c' = c_name c) by (rewrite (proj2 OK' _ _ Hc'), (proj2 OK _ _ Hc); auto).
    constructor.
    - rewrite L1. auto.
    - rewrite L2. auto.
    - assert (Q : forall l l', revisedTable s l l' -> (forall b, In b l -> In b (byExp c) \/ In b (byUsage c)) ->
        forall b, In b l' -> G b /\ s_punct b = JUGEMENT /\ occurs (c_name c') (s_term b) /\ (calcComplexity (s_term b) <= maxC)%Z).
      { intros l l' R Hl. apply (revised_all _ _ _ R).
        - intros b nb (Q1 & Q2 & Q3 & Q4) Rb I.
          assert (Gn : G nb) by (apply (cl_revise _ CL s b); auto).
          destruct I as (va & vs & _ & _ & _ & _ & Et & _ & Ep & _). rewrite Ep, Et, <- (proj1 Rb). auto.
        - intros b Hb. rewrite Nc. auto. }
      intros b [Hb|Hb]; [apply (Q _ _ R1)|apply (Q _ _ R2)]; auto.
    - eapply Permutation_NoDup; [apply (revised_terms _ _ _ R1)|auto].
    - eapply Permutation_NoDup; [apply (revised_terms _ _ _ R2)|auto].
  Qed.

  Lemma storeTable_len2 : forall key k s l l', storeTable key k s l = Ok l' -> 1 <= k <= n -> 1 <= length l <= n -> 1 <= length l' <= n.
  Proof.
    intros key k s l l' H K L. apply storeTable_ok in H. destruct H as [[-> _]|(_ & full & P & _ & ->)]; auto.
    apply Permutation_length in P. rewrite app_length in P. simpl in P. rewrite firstn_length. lia.
  Qed.
  Lemma storeTable_one : forall key k s l l', storeTable key k s l = Ok l' -> (forall b, In b l -> ~ revisable s b) ->
    NoDup (map s_term l) -> NoDup (map s_term l').
  Proof.
    intros key k s l l' H NR N. apply storeTable_ok in H. destruct H as [[-> _]|(X & full & P & _ & ->)]; auto.
    assert (N2 : NoDup (map s_term (l ++ [s]))).
    { rewrite map_app. apply NoDup_snoc; auto. rewrite in_map_iff. intros (b & E & Hb).
      apply (NR b Hb). split; auto. intros Sh. apply X. eauto. }
    assert (N3 : NoDup (map s_term full)) by (eapply Permutation_NoDup; [apply Permutation_map, P|auto]).
    rewrite <- (firstn_skipn k full), map_app in N3. clear - N3.
    induction (firstn k full) as [|x f IH]; simpl in *; [constructor|]. inversion N3; subst. constructor; auto.
    intros K. apply H1. apply in_or_app. auto.
  Qed.
  Lemma store_inv : forall us m s now k m', 1 <= k <= n -> memInv B m -> G s -> (calcComplexity (s_term s) <= maxC)%Z ->
    (s_punct s = JUGEMENT -> forall t c, holds m t c -> occurs t (s_term s) -> ~ hasRevisable s c) ->
    storeInConcepts us m s k now = Ok m' -> memInv B m'.
  Proof.
    intros us m s now k m' Hk [OK HB] Gs Cs NR H. unfold storeInConcepts in H. apply store2_cases in H. destruct H as [[_ ->]|[J H]]; [split; auto|].
    specialize (NR J).
    set (I := fun c => B c /\ ~ hasRevisable s c).
    assert (HI : memInv I m).
    { split; auto. intros t c Hc. split; [eauto|]. intros (b & Hb & R). apply (NR t c Hc); [|exists b; auto].
      rewrite <- (proj1 R). rewrite <- (proj2 OK _ _ Hc). apply (bo_all _ _ _ _ (HB _ _ Hc) b Hb). }
    assert (SE : ~ revisable s s).
    { intros [_ K]. apply K. assert (N := G_stamp _ Gs). destruct (s_stamp s) as [|i st] eqn:E; [contradiction|]. exists i. rewrite E. split; now left. }
    assert (HI' : memInv I m').
    { apply (store_fold_inv2 k I (fun _ _ x => x = s)) with (us := us) (now := now) (s := s) (ts := retSubterms (s_term s)) (m := m);
        [| |reflexivity|exact J|intros t; apply retSubterms_iff|exact HI|exact H].
      - intros us' now' t s' -> _ O. split.
        + constructor; simpl; try lia; try (constructor; [intros []|constructor]).
          intros b [[<-|[]]|[<-|[]]]; auto.
        + intros (b & Hb & R). simpl in Hb. destruct Hb as [[<-|[]]|[<-|[]]]; contradiction.
      - intros us' now' t s' c e u -> _ O Hn [Bc NRc] E U. assert (Bc' := Bc). destruct Bc' as [B1 B2 B3 B4 B5].
        assert (In1 : forall b, In b e \/ In b u -> (In b (byExp c) \/ In b (byUsage c)) \/ b = s).
        { intros b [K|K]; [eapply storeTable_in in K; eauto|eapply storeTable_in in K; eauto]; tauto. }
        split.
        + constructor; simpl.
          * eapply storeTable_len2; eauto.
          * eapply storeTable_len2; eauto.
          * intros b Hb. apply In1 in Hb. destruct Hb as [Hb| ->]; [subst t; apply B3; auto|auto].
          * eapply storeTable_one; eauto. intros b Hb R. apply NRc. exists b. auto.
          * eapply storeTable_one; eauto. intros b Hb R. apply NRc. exists b. auto.
        + intros (b & Hb & R). apply In1 in Hb. destruct Hb as [Hb| ->]; [|contradiction]. apply NRc. exists b. auto. }
    destruct HI' as [OK' HI']. split; auto. intros t c Hc. apply (HI' t c Hc).
  Qed.

  (** * The state invariant *)
  Record stateOk (sh : shared) (ps : list workMsg) : Prop := mkStateOk {
    so_tasks : tasksOk maxC sh;
    so_heap : forall a, a < length (heap sh) -> G (tk_s (hget (heap sh) a));
    so_mem : memInv B (memory sh);
    so_msgs : forall m, In m ps -> msgOk sh m
  }.

  Lemma memAddTask_ok : forall sh ps s cc mul now k sh', 1 <= k <= n -> stateOk sh ps -> (s_punct s = JUGEMENT -> G s) ->
    memAddTask sh s cc maxC k mul now = Ok sh' -> stateOk sh' ps /\ heapGrows sh sh'.
  Proof.
    intros sh ps s cc mul now k sh' Hk [T Hh M P] Gs H. apply memAddTask_cases in H.
    destruct H as [[_ ->]|(C & m & r & u & m2 & R & SR & ->)]; [split; [constructor; auto|apply heapGrows_refl]|].
    destruct (revise_spec _ _ _ _ _ _ (proj1 M) R) as (_ & _ & _ & _ & RS).
    assert (M2 : memInv B m2).
    { destruct (s_punct s) eqn:J.
      - assert (M1 : memInv B m) by (eapply revise_inv; eauto). destruct SR as [[-> S]|[_ ->]]; [|auto].
        eapply store_inv; eauto. intros _. destruct RS as (-> & _ & RS). apply RS. auto.
      - unfold memReviseBelief in R. rewrite J in R. injection R as <- <- <-. destruct SR as [[_ S]|[K _]]; [|contradiction].
        unfold storeInConcepts, storeInConcepts2 in S. rewrite J in S. simpl in S. injection S as <-. auto.
      - unfold memReviseBelief in R. rewrite J in R. injection R as <- <- <-. destruct SR as [[_ S]|[K _]]; [|contradiction].
        unfold storeInConcepts, storeInConcepts2 in S. rewrite J in S. simpl in S. injection S as <-. auto. }
    set (sh1 := setMemory m2 (setNextU u sh)).
    assert (T1 : tasksOk maxC sh1) by (apply (tasksOk_eq _ sh); auto using sameTasks_refl).
    set (l := s :: match r with Some x => [x] | None => [] end).
    assert (Gl : forall x, In x l -> (s_punct x = JUGEMENT -> G x) /\ (calcComplexity (s_term x) <= maxC)%Z).
    { intros x [<-|Hx]; [auto|]. destruct r as [nb|]; [|destruct Hx]. destruct Hx as [<-|[]].
      destruct RS as (J & (b & Rb & I & _) & t & c & Hc & _ & Hn).
      assert (M1 : memInv B m) by (apply (revise_inv (memory sh) s (nextU sh) m (Some nb) u); auto).
      destruct (bo_all _ _ _ _ (proj2 M1 _ _ Hc) _ Hn) as (Q1 & _ & _ & Q2). auto. }
    destruct (addAll_ok maxC cc mul l sh1 T1) as (A1 & [x A2] & A3 & A4 & _); [intros; apply Gl; auto|].
    fold sh1. fold l. set (sh2 := addAll cc mul sh1 l) in *. simpl in A2, A3. split; [|exists x; auto].
    assert (L : length (heap sh) <= length (heap sh2)) by (rewrite A2, app_length; lia).
    constructor; auto.
    - intros a Ha. destruct (Nat.lt_ge_cases a (length (heap sh))) as [La|La].
      + rewrite A2, hget_app. apply Nat.ltb_lt in La. rewrite La. apply Hh. now apply Nat.ltb_lt.
      + destruct (A4 a) as [K1 K2]; [simpl; lia|]. apply Gl; auto.
    - rewrite A3. auto.
    - intros m' Hm'. destruct (P _ Hm') as [K1 K2]. split; [lia|]. intros a Ha. apply K2 in Ha. lia.
  Qed.

  (** * The worker *)
  Lemma inferAll_ok : forall p l st st', G p -> s_punct p = JUGEMENT -> (forall s, In s l -> G s /\ s_punct s = JUGEMENT) ->
    Forall (fun c => G (fst c)) (fst st) -> inferAll p l st = Ok st' -> Forall (fun c => G (fst c)) (fst st').
  Proof.
    intros p l. induction l as [|s l IH]; intros st st' Gp Jp Gl F H; unfold inferAll in H; cbn [rfold] in H.
    - injection H as <-. auto.
    - destruct (inference p s (snd st)) as [[cs ap]|] eqn:E; [|discriminate]. cbn [rbind fst snd] in H.
      eapply IH; [auto|auto|intros; apply Gl; now right| |exact H].
      simpl. apply Forall_app. split; auto. destruct (Gl s) as [Gs Js]; [now left|]. eapply (cl_binary _ CL p s); eauto.
  Qed.
  Lemma derive_ok : forall sh ps msg d, stateOk sh ps -> msgOk sh msg -> derive sh msg = Ok d -> Forall (fun c => G (fst c)) (fst d).
  Proof.
    intros sh ps msg d [T Hh M P] [MP MS] H. unfold derive in H.
    set (p := tk_s (hget (heap sh) (primary msg))) in *.
    assert (Gp : G p) by (apply Hh; auto). assert (Jp : s_punct p = JUGEMENT) by (apply (ok_punct _ _ T); auto).
    destruct (infSinglePremise2 p (nextU sh)) as [single|] eqn:E0; [|discriminate]. cbn [rbind] in H.
    assert (F0 := cl_single _ CL _ _ _ Gp Jp E0).
    assert (Gs : forall l s, incl l (secondary msg) -> In s (map (fun a => tk_s (hget (heap sh) a)) l) -> G s /\ s_punct s = JUGEMENT).
    { intros l s Hl Hs. apply in_map_iff in Hs. destruct Hs as (a & <- & Ha). apply Hl, MS in Ha. split; [auto|]. apply (ok_punct _ _ T); auto. }
    destruct (inferAll p (map _ (filter _ _)) _) as [st1|] eqn:E1; [|discriminate]. cbn [rbind] in H.
    apply inferAll_ok in E1; auto.
    2: { intros s. apply Gs. intros a Ha. apply filter_In in Ha. destruct Ha as [Ha _]. now apply firstn_in in Ha. }
    destruct (inferAll p (map _ (secondary msg)) st1) as [st2|] eqn:E2; [|discriminate]. cbn [rbind] in H.
    apply inferAll_ok in E2; auto. 2: { intros s. apply Gs. apply incl_refl. }
    destruct (mget (s_term p) (memory sh)) as [c|] eqn:C; [|injection H as <-; auto].
    assert (Bc := proj2 M _ _ (mget_in _ _ _ _ C)).
    destruct (inferAll p (byExp c) st2) as [st3|] eqn:E3; [|discriminate]. cbn [rbind] in H.
    apply inferAll_ok in E3; auto. 2: { intros s Hs. destruct (bo_all _ _ _ _ Bc s) as (Q1 & Q2 & _); auto. }
    apply inferAll_ok in H; auto. intros s Hs. destruct (bo_all _ _ _ _ Bc s) as (Q1 & Q2 & _); auto.
  Qed.

  Lemma workerStep_ok : forall sh ps msg k sh' ans, 1 <= k <= n -> stateOk sh (msg :: ps) -> workerStep maxC k sh msg = Ok (sh', ans) ->
    stateOk sh' ps /\ heapGrows sh sh'.
  Proof.
    intros sh ps msg k sh' ans Hk OK H. unfold workerStep in H.
    destruct (derive sh msg) as [d|] eqn:D; [|discriminate]. cbn [rbind] in H.
    apply (derive_ok sh (msg :: ps)) in D; auto; [|apply OK; now left].
    destruct (answerAll (questions sh) (map fst (fst d))) as [qa|]; [|discriminate]. cbn [rbind] in H.
    set (sh1 := setQuestions (fst qa) (setNextU (snd d) sh)) in H.
    assert (OK1 : stateOk sh1 ps).
    { destruct OK as [T Hh M P]. constructor; auto.
      - apply (tasksOk_eq _ sh); auto using sameTasks_refl.
      - intros m Hm. apply (P m). now right. }
    destruct (rfold _ (fst d) sh1) as [sh2|] eqn:R; [|discriminate]. cbn [rbind] in H. injection H as <- <-.
    change (heapGrows sh sh2) with (heapGrows sh1 sh2). clearbody sh1.
    generalize (fst d) as cs, sh1, OK1, D, R. clear sh1 OK1 D R OK. intros cs.
    induction cs as [|c cs IH]; intros sh1 OK1 D R; cbn [rfold] in R.
    - injection R as <-. split; [auto|apply heapGrows_refl].
    - destruct (memAddTask sh1 _ _ _ _ _ _) as [sh3|] eqn:E; [|discriminate]. cbn [rbind] in R.
      inversion D as [|? ? D1 D2]; subst. destruct (memAddTask_ok _ _ _ _ _ _ _ _ Hk OK1 (fun _ => D1) E) as [OK3 G3].
      destruct (IH _ OK3 D2 R) as [OK2 G2]. split; [auto|]. eapply heapGrows_trans; eauto.
  Qed.

  Lemma run_ok : forall (Inp : sentence -> Prop) sh ps, (forall s, Inp s -> s_punct s = JUGEMENT -> G s) -> run Inp maxC n sh ps -> stateOk sh ps.
  Proof.
    intros Inp sh ps HI R. induction R as [|sh ps s cc mul now k sh' R IH Is Hk E|sh ps q R IH|sh ps expf sv now sh' now' ans msg R IH E|sh ps msg k sh' ans R IH Hk E|sh ps R IH|sh ps us pm sc nu R IH].
    - constructor; [apply tasksOk_start|simpl; intros; lia|split; [split; [constructor|]|]; intros t c []|intros m []].
    - eapply memAddTask_ok; eauto.
    - destruct IH as [T Hh M P]. constructor; auto. apply (tasksOk_eq _ sh); auto using sameTasks_refl.
    - destruct IH as [T Hh M P]. destruct (reasonCycle_ok _ _ _ _ _ _ _ _ _ T E) as (T' & [L S] & M' & W & _).
      constructor; auto.
      + intros a Ha. rewrite (proj1 (S a)). apply Hh. now rewrite <- L.
      + destruct M' as [->|M']; auto. eapply memInv_limit; eauto.
      + intros m Hm. apply in_app_iff in Hm. destruct Hm as [Hm|Hm].
        * destruct (P _ Hm) as [P1 P2]. split; [rewrite L; auto|]. intros a Ha. rewrite L. auto.
        * destruct msg as [m0|]; [|destruct Hm]. destruct Hm as [<-|[]]. auto.
    - eapply workerStep_ok; eauto.
    - destruct IH as [T Hh M P]. constructor; auto. destruct T as [I1 I2 I3 I4 I5 I6 I7 I8 I9 I10].
      constructor; simpl; auto; try (intros; contradiction); try apply NoDup_nil. intros t a (l & [] & _).
    - destruct IH as [T Hh M P]. constructor; auto. apply (tasksOk_eq _ sh); auto using sameTasks_refl.
  Qed.
End Mem.

(** * Closed properties *)
Lemma closed_and : forall G H : sentence -> Prop, closed G -> closed H -> closed (fun s => G s /\ H s).
Proof.
  intros G H [G1 G2 G3] [H1 H2 H3]. constructor.
  - intros p u cs [A B] J E. assert (X := G1 _ _ _ A J E). assert (Y := H1 _ _ _ B J E).
    rewrite Forall_forall in *. intros x Hx. auto.
  - intros a b u cs ap [A B] [A' B'] J J' E. assert (X := G2 _ _ _ _ _ A A' J J' E). assert (Y := H2 _ _ _ _ _ B B' J J' E).
    rewrite Forall_forall in *. intros x Hx. auto.
  - intros s b nb [A B] [A' B'] J J' R I. split; eauto.
Qed.
Lemma merge_nonempty : forall a b, a <> [] -> merge a b <> [].
Proof.
  intros a b H E. apply (f_equal (@length _)) in E. rewrite merge_length in E. destruct a; [contradiction|]. simpl in E. lia.
Qed.
(** the conclusions of a step carry one of the two stamps *)
Lemma single_stamps : forall p u cs, infSinglePremise2 p u = Ok cs -> Forall (fun c => s_stamp (fst c) = s_stamp p) cs.
Proof.
  intros p u cs H. destruct (single2_shape _ _ _ H) as (l & _ & _ & F). eapply Forall_impl; [|exact F]. intros c Hc. apply Hc.
Qed.
Lemma binary_stamps : forall a b u cs ap, inference a b u = Ok (cs, ap) ->
  Forall (fun c => s_stamp (fst c) = merge (s_stamp a) (s_stamp b) /\ ~ shareEvidence a b) cs.
Proof.
  intros a b u cs ap H. destruct (checkOverlap (s_stamp a) (s_stamp b)) eqn:O.
  - apply checkOverlap_iff in O. rewrite (inference_overlap _ _ _ _ _ H O). constructor.
  - assert (N : ~ shareEvidence a b) by (intros K; apply checkOverlap_iff in K; congruence).
    destruct (inference_shape _ _ _ _ _ H N) as (l & _ & _ & F & _). eapply Forall_impl; [|exact F]. intros c Hc. split; [apply Hc|auto].
Qed.
Lemma closed_stamp : forall P : stamp -> Prop, (forall a b, P a -> P b -> (forall i, In i a -> In i b -> False) -> P (merge a b)) ->
  closed (fun s => P (s_stamp s)).
Proof.
  intros P HP. constructor.
  - intros p u cs A _ E. apply single_stamps in E. eapply Forall_impl; [|exact E]. intros c Hc. cbn beta in *. rewrite Hc. auto.
  - intros a b u cs ap A A' _ _ E. apply binary_stamps in E. eapply Forall_impl; [|exact E]. cbn beta. intros c [Hc N]. rewrite Hc.
    apply HP; auto. intros i H1 H2. apply N. exists i. auto.
  - intros s b nb A A' _ _ [_ N] (va & vs & _ & _ & _ & Es & _). rewrite Es. apply HP; auto.
    intros i H1 H2. apply N. exists i. auto.
Qed.
Lemma closed_nonempty : closed (fun s => s_stamp s <> []).
Proof. apply (closed_stamp (fun st => st <> [])). intros a b Ha _ _. now apply merge_nonempty. Qed.
Lemma closed_nodup : closed (fun s => NoDup (s_stamp s)).
Proof.
  apply (closed_stamp (@NoDup Z)). intros a b Ha Hb D. apply merge_nodup; auto.
  destruct (checkOverlap a b) eqn:E; auto. apply checkOverlap_iff in E. destruct E as (i & H1 & H2). destruct (D i); auto.
Qed.
Lemma closed_ids : forall Q : Z -> Prop, closed (fun s => forall i, In i (s_stamp s) -> Q i).
Proof.
  intros Q. apply (closed_stamp (fun st => forall i, In i st -> Q i)). intros a b Ha Hb _ i Hi. apply merge_from in Hi. destruct Hi; auto.
Qed.
Lemma closed_tv : closed (fun s => retTv s <> None).
Proof.
  constructor.
  - intros p u cs _ _ E. destruct (single2_shape _ _ _ E) as (l & _ & M & _). apply Forall_forall. intros c Hc.
    apply (in_map (fun c => (s_term (fst c), retTv (fst c), snd c))) in Hc. rewrite M in Hc. apply in_map_iff in Hc.
    destruct Hc as (x & Ex & _). injection Ex as _ Ex _. rewrite <- Ex. discriminate.
  - intros a b u cs ap _ _ _ _ E. destruct (checkOverlap (s_stamp a) (s_stamp b)) eqn:O.
    + apply checkOverlap_iff in O. rewrite (inference_overlap _ _ _ _ _ E O). constructor.
    + assert (N : ~ shareEvidence a b) by (intros K; apply checkOverlap_iff in K; congruence).
      destruct (inference_shape _ _ _ _ _ E N) as (l & _ & M & _). apply Forall_forall. intros c Hc.
      apply (in_map (fun c => (s_term (fst c), retTv (fst c)))) in Hc. rewrite M in Hc. apply in_map_iff in Hc.
      destruct Hc as (x & Ex & _). injection Ex as _ Ex. rewrite <- Ex. discriminate.
  - intros s b nb _ _ _ _ _ (va & vs & _ & _ & E & _). unfold retTv. rewrite E. discriminate.
Qed.
Lemma closed_derivable : forall Inp, closed (derivable Inp).
Proof.
  intros Inp. constructor.
  - intros p u cs D J E. destruct (single2_shape _ _ _ E) as (l & S & M & F). apply Forall_forall. intros c Hc.
    rewrite Forall_forall in F. destruct (F _ Hc) as (F1 & F2 & F3 & F4).
    apply (in_map (fun c => (s_term (fst c), retTv (fst c), snd c))) in Hc. rewrite M in Hc. apply in_map_iff in Hc.
    destruct Hc as ([[[t v] q] bias] & Ex & Hin). cbn [fst snd] in Ex. injection Ex as Et Ev Eb.
    apply (single_iff _ _ _ _ S) in Hin. destruct Hin as (_ & mir & bi & w & St & Tw & Vw & _). rewrite J in St.
    apply (dv_single Inp p (fst c) mir bi w); auto.
    + rewrite <- Et. auto.
    + rewrite <- Ev, Vw. reflexivity.
  - intros a b u cs ap Da Db Ja Jb E. destruct (checkOverlap (s_stamp a) (s_stamp b)) eqn:O.
    + apply checkOverlap_iff in O. rewrite (inference_overlap _ _ _ _ _ E O). constructor.
    + assert (N : ~ shareEvidence a b) by (intros K; apply checkOverlap_iff in K; congruence).
      destruct (inference_shape _ _ _ _ _ E N) as (l & S & M & F & _). apply Forall_forall. intros c Hc.
      rewrite Forall_forall in F. destruct (F _ Hc) as (F1 & F2 & F3 & F4 & _).
      apply (in_map (fun c => (s_term (fst c), retTv (fst c)))) in Hc. rewrite M in Hc. apply in_map_iff in Hc.
      destruct Hc as ([[t v] q] & Ex & Hin). cbn [fst snd] in Ex. injection Ex as Et Ev.
      destruct (binary_iff _ _ _ _ _ _ _ _ S) as [B _]. apply B in Hin. destruct Hin as (_ & tr & Sc & Tv). rewrite Ja, Jb in Sc.
      apply (dv_binary Inp a b (fst c) tr v); auto. rewrite <- Et. auto.
  - intros s b nb Ds Db _ _ R I. exact (dv_revise Inp s b nb Ds Db R I).
Qed.

(** * Runs *)
Section Runs.
  Variables (Inp : sentence -> Prop) (maxC : Z) (n : nat).
  Hypothesis Inp_stamp : forall s, Inp s -> s_punct s = JUGEMENT -> s_stamp s <> [].
  Hypothesis n_pos : 1 <= n.

  Theorem run_inv : forall G, closed G -> (forall s, Inp s -> s_punct s = JUGEMENT -> G s) -> forall sh ps, run Inp maxC n sh ps ->
    tasksOk maxC sh /\ (forall a, a < length (heap sh) -> G (tk_s (hget (heap sh) a))) /\
    mapOk (memory sh) /\ (forall t c, holds (memory sh) t c -> beliefsOk G maxC n c) /\
    (forall m, In m ps -> msgOk sh m).
  Proof.
    intros G CL GI sh ps R.
    destruct (run_ok (fun s => G s /\ s_stamp s <> []) maxC n) with (Inp := Inp) (sh := sh) (ps := ps) as [T H [M1 M2] P]; auto.
    - apply closed_and; [auto|apply closed_nonempty].
    - intros s Hs. apply Hs.
    - split; [auto|]. split; [intros a Ha; apply (H a Ha)|]. split; [auto|]. split; [|auto].
      intros t c Hc. destruct (M2 t c Hc) as [B1 B2 B3 B4 B5]. constructor; auto. intros b Hb. destruct (B3 b Hb) as ((Q1 & _) & Q2). auto.
  Qed.
End Runs.

(** * Admission of one sentence *)
Lemma addAll_judg : forall cc mul l sh, exists j, judg (addAll cc mul sh l) = judg sh ++ j.
Proof.
  induction l as [|s l IH]; intros sh; cbn [addAll]; [exists []; now rewrite app_nil_r|].
  assert (C := addOne_cases cc mul sh s). destruct (addOne cc mul sh s) as [sh1|]; [|exists []; now rewrite app_nil_r].
  destruct (IH sh1) as [j Hj]. rewrite Hj. destruct C as [(_ & _ & t & _ & _ & J & _)|(_ & _ & J & _)]; rewrite J; [|eauto].
  exists ([length (heap sh)] ++ j). now rewrite app_assoc.
Qed.
Theorem add_rejects : forall sh s cc maxC nB mul now, (calcComplexity (s_term s) > maxC)%Z ->
  memAddTask sh s cc maxC nB mul now = Ok sh.
Proof.
  intros. unfold memAddTask. destruct (calcComplexity (s_term s) >? maxC)%Z eqn:E; auto.
  rewrite Z.gtb_ltb in E. apply Z.ltb_ge in E. lia.
Qed.
Theorem add_duplicate : forall sh s cc maxC nB mul now sh', s_punct s = JUGEMENT ->
  (exists a, In a (judg sh) /\ taskTerm sh a = s_term s /\ s_stamp (tk_s (hget (heap sh) a)) = s_stamp s) ->
  memAddTask sh s cc maxC nB mul now = Ok sh' ->
  heap sh' = heap sh /\ judg sh' = judg sh /\ byTerm sh' = byTerm sh /\ taskCtr sh' = taskCtr sh.
Proof.
  intros sh s cc maxC nB mul now sh' J D H. apply memAddTask_cases in H.
  destruct H as [[_ ->]|(_ & m & r & u & m2 & _ & _ & ->)]; auto.
  cbn [addAll]. unfold addOne. rewrite J.
  change (taskExists (setMemory m2 (setNextU u sh)) s) with (taskExists sh s).
  rewrite (proj2 (taskExists_iff sh s) D). auto.
Qed.
Theorem add_admits : forall sh s cc maxC nB mul now sh', tasksOk maxC sh -> s_punct s = JUGEMENT ->
  (calcComplexity (s_term s) <= maxC)%Z ->
  ~ (exists a, In a (judg sh) /\ taskTerm sh a = s_term s /\ s_stamp (tk_s (hget (heap sh) a)) = s_stamp s) ->
  memAddTask sh s cc maxC nB mul now = Ok sh' -> mapOk (memory sh) ->
  exists a, In a (judg sh') /\ ~ In a (judg sh) /\ tk_s (hget (heap sh') a) = s /\
    (forall t, occurs t (s_term s) -> indexed sh' t a) /\
    (forall b, b < length (heap sh) -> tk_id (hget (heap sh') a) <> tk_id (hget (heap sh) b)).
Proof.
  intros sh s cc maxC nB mul now sh' OK J C ND H MO. apply memAddTask_cases in H.
  destruct H as [[K _]|(_ & m & r & u & m2 & R & _ & ->)]; [lia|].
  destruct (revise_spec _ _ _ _ _ _ MO R) as (_ & _ & _ & _ & RS).
  set (sh1 := setMemory m2 (setNextU u sh)).
  assert (T1 : tasksOk maxC sh1) by (apply (tasksOk_eq _ sh); auto using sameTasks_refl).
  set (l := match r with Some x => [x] | None => [] end).
  assert (Cl : forall x, In x (s :: l) -> (calcComplexity (s_term x) <= maxC)%Z).
  { intros x [<-|Hx]; auto. unfold l in Hx. destruct r as [nb|]; [|destruct Hx]. destruct Hx as [<-|[]].
    destruct RS as (_ & (b & _ & (va & vs & _ & _ & _ & _ & -> & _) & _) & _). auto. }
  destruct (addAll_ok maxC cc mul (s :: l) sh1 T1 Cl) as (A1 & [x A2] & _).
  cbn [addAll] in *. assert (AC := addOne_cases cc mul sh1 s).
  assert (NE : taskExists sh1 s = false).
  { change (taskExists sh1 s) with (taskExists sh s). destruct (taskExists sh s) eqn:E; auto. apply taskExists_iff in E. contradiction. }
  destruct (addOne cc mul sh1 s) as [sh2|]; [|destruct AC as [_ K]; congruence].
  destruct AC as [(_ & _ & AD)|(K & _)]; [|contradiction]. assert (AD' := AD). destruct AD' as (t & Hh & Ht & Hj & _ & Hid & _).
  destruct (addAll_judg cc mul l sh2) as [j Aj]. set (sh3 := addAll cc mul sh2 l) in *.
  assert (Hin : In (length (heap sh)) (judg sh3)).
  { rewrite Aj, Hj. apply in_or_app. left. apply in_or_app. right. now left. }
  assert (Ts : tk_s (hget (heap sh3) (length (heap sh))) = s).
  { assert (T2 : tasksOk maxC sh2) by (eapply admitted_ok; [exact T1|exact AD|exact J|exact NE|exact C]).
    destruct (addAll_ok maxC cc mul l sh2 T2) as (_ & [y E] & _); [intros; apply Cl; now right|]. fold sh3 in E.
    rewrite E, Hh, <- app_assoc. simpl (heap sh1). rewrite hget_app, Nat.ltb_irrefl, Nat.sub_diag. exact Ht. }
  exists (length (heap sh)). split; [auto|]. split; [|split; [auto|split]].
  - intros K. apply (ok_judg _ _ OK) in K. lia.
  - intros u' O. apply (ok_listed _ _ A1); auto. unfold taskTerm. now rewrite Ts.
  - intros b Hb. rewrite (ok_ids _ _ A1) by (apply (ok_judg _ _ A1); auto). rewrite (ok_ids _ _ OK) by auto. lia.
Qed.

(** the ids of all tasks ever created differ *)
Lemma tasks_ids : forall maxC sh, tasksOk maxC sh -> forall a b, a < length (heap sh) -> b < length (heap sh) ->
  tk_id (hget (heap sh) a) = tk_id (hget (heap sh) b) -> a = b.
Proof. intros maxC sh OK a b Ha Hb. rewrite !(ok_ids _ _ OK) by auto. lia. Qed.

(** derivable judgements rest on input evidence only *)
Lemma derivable_ids : forall Inp s, derivable Inp s -> forall i, In i (s_stamp s) -> exists x, Inp x /\ In i (s_stamp x).
Proof.
  induction 1 as [s Is J|p c mir bias w D IH St Tp Tc Es|a b c tr v Da IHa Db IHb N S T Tc Es|s b nb Ds IHs Db IHb R I]; intros i Hi.
  - eauto.
  - rewrite Es in Hi. auto.
  - rewrite Es in Hi. apply merge_from in Hi. destruct Hi; auto.
  - destruct I as (va & vs & _ & _ & _ & Es & _). rewrite Es in Hi. apply merge_from in Hi. destruct Hi; auto.
Qed.
