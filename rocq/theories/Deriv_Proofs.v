(** Premise selection, credit bookkeeping, completeness of the deriver and
    distribution of answers. *)
From Coq Require Import ZArith Bool Lia List Permutation Sorted Relations.
From Verif Require Import Base F64_Model Sort_Proofs Term_Model Term_Spec Term_Proofs Unify_Spec
  Stamp_Model Stamp_Proofs Tv_Model Sentence_Model Sentence_Proofs Infer_Model Infer_Spec Infer_Proofs Mem_Model Mem_Spec Mem_Proofs
  Cycle_Model Cycle_Spec Cycle_Proofs Select_Proofs Task_Proofs Run_Proofs.
Import ListNotations.

(** * Premise selection *)
Definition collectF (h : list task) (acc : list nat) (a : nat) : list nat :=
  if existsb (fun b => (tk_id (hget h b) =? tk_id (hget h a))%Z) acc then acc else acc ++ [a].
Lemma collectF_spec : forall h l acc, (forall a b, In a (acc ++ l) -> In b (acc ++ l) -> tk_id (hget h a) = tk_id (hget h b) -> a = b) ->
  NoDup acc -> NoDup (fold_left (collectF h) l acc) /\ forall a, In a (fold_left (collectF h) l acc) <-> In a acc \/ In a l.
Proof.
  induction l as [|x l IH]; intros acc U N; cbn [fold_left].
  - split; [auto|]. simpl. tauto.
  - assert (U2 : forall a b, In a ((acc ++ [x]) ++ l) -> In b ((acc ++ [x]) ++ l) -> tk_id (hget h a) = tk_id (hget h b) -> a = b).
    { intros a b Ha Hb. rewrite <- app_assoc in *. auto. }
    unfold collectF at 2. unfold collectF at 3. destruct (existsb _ acc) eqn:E.
    + apply existsb_exists in E. destruct E as (b & Hb & E). apply Z.eqb_eq in E.
      assert (b = x) by (apply U; auto; apply in_or_app; [left|right; left]; auto). subst b.
      destruct (IH acc) as [A B]; [intros a b Ha Hb2; apply U; apply in_app_iff; simpl; apply in_app_iff in Ha, Hb2; tauto|auto|].
      split; [auto|]. intros a. rewrite B. simpl. split; [tauto|]. intros [H|[<-|H]]; auto.
    + destruct (IH (acc ++ [x])) as [A B]; auto.
      { apply (Permutation_NoDup (Permutation_cons_append acc x)). constructor; auto. intros K.
        assert (F : existsb (fun b => (tk_id (hget h b) =? tk_id (hget h x))%Z) acc = true) by (apply existsb_exists; exists x; split; auto; apply Z.eqb_refl).
        congruence. }
      split; [auto|]. intros a. rewrite B, in_app_iff. simpl. tauto.
Qed.
Theorem secondary_spec : forall maxC sh t, tasksOk maxC sh ->
  NoDup (secondaryFor sh t) /\ (length (secondaryFor sh t) <= 300) /\
  StronglySorted (fun a b => (calcComplexity (taskTerm sh a) <= calcComplexity (taskTerm sh b))%Z) (secondaryFor sh t) /\
  (forall a, In a (secondaryFor sh t) -> exists u, occurs u t /\ occurs u (taskTerm sh a) /\ indexed sh u a) /\
  (forall u l a, occurs u t -> In (u, l) (byTerm sh) -> In a (firstn 51 l) -> ~ In a (secondaryFor sh t) ->
     length (secondaryFor sh t) = 300 /\ forall b, In b (secondaryFor sh t) -> (calcComplexity (taskTerm sh b) <= calcComplexity (taskTerm sh a))%Z).
Proof.
  intros maxC sh t OK.
  assert (UN : forall a b, a < length (heap sh) -> b < length (heap sh) -> tk_id (hget (heap sh) a) = tk_id (hget (heap sh) b) -> a = b) by (eapply tasks_ids; eauto).
  assert (RNG : forall u l a, mget u (byTerm sh) = Some l -> In a l -> a < length (heap sh)).
  { intros u l a G Ha. apply (ok_index _ _ OK u). exists l. split; [now apply mget_in|auto]. }
  set (col := fun acc st => match mget st (byTerm sh) with Some l => collectSecondary (heap sh) acc l | None => acc end).
  assert (G : forall us acc, (forall a, In a acc -> a < length (heap sh)) -> NoDup acc ->
    NoDup (fold_left col us acc) /\ (forall u l a, In u us -> mget u (byTerm sh) = Some l -> In a (firstn 51 l) -> In a (fold_left col us acc)) /\
    (forall a, In a acc -> In a (fold_left col us acc))).
  { induction us as [|u us IH]; intros acc R N; cbn [fold_left]; [split; [auto|split; [intros u l a []|auto]]|].
    assert (S : (forall a, In a (col acc u) -> a < length (heap sh)) /\ NoDup (col acc u) /\
        (forall a, In a acc -> In a (col acc u)) /\ (forall l a, mget u (byTerm sh) = Some l -> In a (firstn 51 l) -> In a (col acc u))).
    { unfold col. destruct (mget u (byTerm sh)) as [l|] eqn:M; [|split; [auto|split; [auto|split; [auto|discriminate]]]].
      unfold collectSecondary. fold (collectF (heap sh)).
      assert (R2 : forall a, In a (acc ++ firstn 51 l) -> a < length (heap sh)).
      { intros a Ha. apply in_app_iff in Ha. destruct Ha as [Ha|Ha]; auto. apply firstn_in in Ha. eauto. }
      destruct (collectF_spec (heap sh) (firstn 51 l) acc) as [A B]; auto.
      split; [intros a Ha; apply R2, in_app_iff; now apply B|]. split; [auto|]. split; [intros; apply B; auto|].
      intros l' a E Ha. injection E as <-. apply B; auto. }
    destruct S as (S1 & S2 & S3 & S4). destruct (IH _ S1 S2) as (A & B & C). split; [auto|]. split.
    - intros v l a [<-|Hv] Hl Ha; [apply C; eapply S4; eauto|eauto].
    - auto. }
  destruct (G (retUniqueSubterms t) [] (fun a (H : In a []) => match H with end) (NoDup_nil _)) as (A & B & _).
  unfold secondaryFor, limitSecondary. fold col. set (L := fold_left col (retUniqueSubterms t) []) in *.
  set (lt := fun a b => (calcComplexity (s_term (tk_s (hget (heap sh) a))) <? calcComplexity (s_term (tk_s (hget (heap sh) b))))%Z).
  set (R := fun a b => (calcComplexity (taskTerm sh a) <= calcComplexity (taskTerm sh b))%Z).
  assert (SS : StronglySorted R (sort_by lt L)).
  { apply sort_sorted; unfold lt, R, taskTerm; intros; [apply Z.ltb_lt in H|apply Z.ltb_ge in H|]; lia. }
  assert (ND : NoDup (sort_by lt L)) by (apply (Permutation_NoDup (sort_perm lt L)); auto).
  assert (CUT : forall x y, In x (firstn 300 (sort_by lt L)) -> In y (skipn 300 (sort_by lt L)) -> R x y).
  { intros x y Hx Hy. rewrite <- (firstn_skipn 300 (sort_by lt L)) in SS. revert Hx Hy. generalize SS. clear.
    generalize (firstn 300 (sort_by lt L)) as l1, (skipn 300 (sort_by lt L)) as l2. induction l1 as [|z l1 IH]; intros l2 SS Hx Hy; [destruct Hx|].
    simpl in SS. inversion SS as [|? ? S1 S2]; subst. destruct Hx as [<-|Hx]; [|eauto]. rewrite Forall_forall in S2. apply S2, in_app_iff. auto. }
  split; [|split; [|split; [|split]]].
  - rewrite <- (firstn_skipn 300 (sort_by lt L)) in ND. revert ND. generalize (skipn 300 (sort_by lt L)) as l2.
    generalize (firstn 300 (sort_by lt L)) as l1. clear. induction l1 as [|x l IH]; intros l2 N; [constructor|]. simpl in N. inversion N; subst. constructor; [|eauto].
    intros K. apply H1. apply in_or_app. auto.
  - rewrite firstn_length. lia.
  - rewrite <- (firstn_skipn 300 (sort_by lt L)) in SS. revert SS. generalize (skipn 300 (sort_by lt L)) as l2.
    generalize (firstn 300 (sort_by lt L)) as l1. clear. induction l1 as [|x l IH]; intros l2 N; [constructor|]. simpl in N. inversion N; subst. constructor; [eauto|].
    rewrite Forall_forall in *. intros y Hy. apply H2, in_app_iff. auto.
  - intros a Ha. destruct (secondary_in sh t a) as (u & O & I).
    { unfold secondaryFor, limitSecondary. fold col. exact Ha. }
    exists u. assert (I' : indexed sh u a) by (apply indexed_iff; [apply OK|exact I]). split; [auto|]. split; [apply (ok_index _ _ OK u a I')|auto].
  - intros u l a O Hl Ha Hn. assert (Hin : In a (sort_by lt L)).
    { apply sort_in. apply (B u l); auto. - now apply retUniqueSubterms_in. - apply in_mget; auto. apply OK. }
    rewrite <- (firstn_skipn 300 (sort_by lt L)) in Hin. apply in_app_iff in Hin. destruct Hin as [Hin|Hin]; [contradiction|]. split.
    + rewrite firstn_length. assert (length (skipn 300 (sort_by lt L)) <> 0) by (destruct (skipn 300 (sort_by lt L)); [destruct Hin|discriminate]).
      rewrite skipn_length in H. lia.
    + intros b Hb. apply (CUT b a Hb Hin).
Qed.

(** * Credits *)
Lemma hget_hupd : forall h a f x, hget (hupd h a f) x = if Nat.eqb a x && Nat.ltb a (length h) then f (hget h a) else hget h x.
Proof. intros. unfold hupd, hget. apply nth_replace_at. Qed.
Lemma hupd_length : forall h a f, length (hupd h a f) = length h.
Proof. intros. apply replace_at_length. Qed.
(** everything but the two credits *)
Definition frame (t t' : task) : Prop :=
  tk_s t' = tk_s t /\ mulCredit t' = mulCredit t /\ tk_id t' = tk_id t /\ derivTime t' = derivTime t.
Definition gotQa (t t' : task) (ps : list f64) : Prop :=
  frame t t' /\ credit t' = credit t /\ qaCredit t' = fold_left fadd ps (qaCredit t).
Lemma gotQa_nil : forall t, gotQa t t [].
Proof. intros. repeat split; auto. Qed.
Lemma gotQa_trans : forall a b c p q, gotQa a b p -> gotQa b c q -> gotQa a c (p ++ q).
Proof.
  intros a b c p q ((F1 & F2 & F3 & F4) & C & Q) ((G1 & G2 & G3 & G4) & D & R).
  split; [repeat split; congruence|]. split; [congruence|]. rewrite fold_left_app, <- Q. exact R.
Qed.
Lemma addQa_list : forall p l h a, a < length h ->
  gotQa (hget h a) (hget (fold_left (fun h a => hupd h a (addQa p)) l h) a) (map (fun _ => p) (filter (Nat.eqb a) l)).
Proof.
  induction l as [|x l IH]; intros h a La; cbn [fold_left filter map]; [apply gotQa_nil|].
  specialize (IH (hupd h x (addQa p)) a). rewrite hupd_length in IH. specialize (IH La). rewrite hget_hupd in IH.
  destruct (Nat.eqb a x) eqn:E.
  - apply Nat.eqb_eq in E. subst x. rewrite Nat.eqb_refl, (proj2 (Nat.ltb_lt _ _) La) in IH. simpl in IH.
    simpl. change (p :: ?l) with ([p] ++ l). eapply gotQa_trans; [|exact IH]. repeat split; auto.
  - rewrite Nat.eqb_sym in E. rewrite E in IH. simpl in IH. exact IH.
Qed.
Lemma hlen_fold : forall A (f : list task -> A -> list task) l h, (forall h x, length (f h x) = length h) -> length (fold_left f l h) = length h.
Proof. induction l as [|x l IH]; intros h H; simpl; auto. rewrite IH; auto. Qed.
Theorem transfer_spec : forall sh a, NoDup (map fst (byTerm sh)) -> a < length (heap sh) -> exists ps,
  gotQa (hget (heap sh) a) (hget (heap (transferCredits sh)) a) ps /\
  (forall p, In p ps <-> exists q u, In q (questions sh) /\ p = prio q /\ occurs u (s_term (q_s q)) /\ indexed sh u a).
Proof.
  intros sh a N La. unfold transferCredits. simpl (heap (setHeap _ _)).
  set (fu := fun q h st => match mget st (byTerm sh) with Some l => fold_left (fun h a => hupd h a (addQa (prio q))) l h | None => h end).
  assert (Lu : forall q h st, length (fu q h st) = length h).
  { intros. unfold fu. destruct (mget st (byTerm sh)); auto. apply hlen_fold. intros. apply hupd_length. }
  assert (G1 : forall q us h, a < length h -> exists ps, gotQa (hget h a) (hget (fold_left (fu q) us h) a) ps /\
    forall p, In p ps <-> p = prio q /\ exists u, In u us /\ indexed sh u a).
  { intros q. induction us as [|u us IH]; intros h Lh; cbn [fold_left].
    - exists []. split; [apply gotQa_nil|]. simpl. intros p. split; [tauto|]. intros (_ & u & [] & _).
    - destruct (IH (fu q h u)) as (ps & Q & I); [rewrite Lu; auto|].
      assert (S : exists p1, gotQa (hget h a) (hget (fu q h u) a) p1 /\ forall p, In p p1 <-> p = prio q /\ indexed sh u a).
      { unfold fu. destruct (mget u (byTerm sh)) as [l|] eqn:M.
        - eexists. split; [apply addQa_list; auto|]. intros p. rewrite in_map_iff. split.
          + intros (x & <- & Hx). apply filter_In in Hx. destruct Hx as [Hx E]. apply Nat.eqb_eq in E. subst x. split; auto. exists l. split; auto. now apply mget_in.
          + intros (-> & l' & Hl & Hx). assert (M' := in_mget _ _ _ _ N Hl). rewrite M in M'. injection M' as <-. exists a. split; auto. apply filter_In. split; auto. apply Nat.eqb_refl.
        - exists []. split; [apply gotQa_nil|]. intros p. simpl. split; [tauto|]. intros (_ & l' & Hl & Hx). apply in_mget in Hl; auto. congruence. }
      destruct S as (p1 & Q1 & I1). exists (p1 ++ ps). split; [eapply gotQa_trans; eauto|]. intros p. rewrite in_app_iff, I1, I. simpl. split.
      + intros [(-> & H)|(-> & v & Hv & H)]; split; eauto.
      + intros (-> & v & [<-|Hv] & H); [left|right]; eauto. }
  assert (G2 : forall qs h, a < length h -> exists ps, gotQa (hget h a) (hget (fold_left (fun h q => fold_left (fu q) (retSubterms (s_term (q_s q))) h) qs h) a) ps /\
    forall p, In p ps <-> exists q u, In q qs /\ p = prio q /\ occurs u (s_term (q_s q)) /\ indexed sh u a).
  { induction qs as [|q qs IH]; intros h Lh; cbn [fold_left].
    - exists []. split; [apply gotQa_nil|]. simpl. intros p. split; [tauto|]. intros (q & u & [] & _).
    - destruct (G1 q (retSubterms (s_term (q_s q))) h Lh) as (p1 & Q1 & I1).
      destruct (IH (fold_left (fu q) (retSubterms (s_term (q_s q))) h)) as (ps & Q & I); [rewrite hlen_fold; auto|].
      exists (p1 ++ ps). split; [eapply gotQa_trans; eauto|]. intros p. rewrite in_app_iff, I1, I. split.
      + intros [(-> & u & Hu & H)|(q' & u & Hq & H)]; [exists q, u|exists q', u]; [apply retSubterms_iff in Hu|]; simpl; auto.
      + intros (q' & u & [<-|Hq] & -> & Hu & H); [left|right; eauto 8]. split; auto. exists u. split; auto. now apply retSubterms_iff. }
  destruct (G2 (questions sh) (heap sh) La) as (ps & Q & I). exists ps. split; [exact Q|exact I].
Qed.

Lemma fold_hupd_nodup : forall f l h a, NoDup l -> (forall x, In x l -> x < length h) ->
  hget (fold_left (fun h a => hupd h a f) l h) a = if existsb (Nat.eqb a) l then f (hget h a) else hget h a.
Proof.
  intros f. induction l as [|x l IH]; intros h a N R; cbn [fold_left existsb]; auto.
  inversion N as [|? ? N1 N2]; subst. rewrite IH; auto; [|intros y Hy; rewrite hupd_length; apply R; now right].
  rewrite hget_hupd. destruct (Nat.eqb a x) eqn:E; simpl.
  - apply Nat.eqb_eq in E. subst x. rewrite Nat.eqb_refl. rewrite (proj2 (Nat.ltb_lt _ _) (R a (or_introl eq_refl))). simpl.
    destruct (existsb (Nat.eqb a) l) eqn:F; auto. apply existsb_exists in F. destruct F as (y & Hy & F). apply Nat.eqb_eq in F. subst y. contradiction.
  - rewrite Nat.eqb_sym, E. simpl. reflexivity.
Qed.
Theorem base_spec : forall maxC sh a, tasksOk maxC sh -> a < length (heap sh) ->
  let t := hget (heap sh) a in let t' := hget (heap (baseCredits sh)) a in let c := f_of_Z (calcComplexity (taskTerm sh a)) in
  (In a (judg sh) -> frame t t' /\ credit t' = fdiv (fadd (credit t) f05) c /\ qaCredit t' = fdiv (qaCredit t) c) /\
  (~ In a (judg sh) -> t' = t).
Proof.
  intros maxC sh a OK La t t' c. subst t'. unfold baseCredits. simpl (heap (setHeap _ _)).
  rewrite fold_hupd_nodup; [|apply OK|intros x Hx; rewrite hlen_fold by (intros; apply hupd_length); now apply (ok_judg _ _ OK)].
  rewrite fold_hupd_nodup; [|apply OK|apply (ok_judg _ _ OK)].
  destruct (existsb (Nat.eqb a) (judg sh)) eqn:E.
  - apply existsb_exists in E. destruct E as (y & Hy & E). apply Nat.eqb_eq in E. subst y. split; [|contradiction].
    intros _. repeat split; reflexivity.
  - split; [|auto]. intros H. assert (existsb (Nat.eqb a) (judg sh) = true) by (apply existsb_exists; exists a; split; auto; apply Nat.eqb_refl). congruence.
Qed.

(** * Usage counters *)
Definition cellOf (sh : shared) (a : nat) : nat := s_usage (tk_s (hget (heap sh) a)).
Theorem touch_spec : forall m now sh x,
  let k := length (filter (fun a => Nat.eqb (cellOf sh a) x) (primary m :: secondary m)) in
  usages (touchAll (Some m) now sh) x =
    if Nat.eqb k 0 then usages sh x else mkUsage now (useCount (usages sh x) + Z.of_nat k).
Proof.
  intros m now sh x. unfold touchAll, setUsages. cbn [usages].
  generalize (primary m :: secondary m) as l, (usages sh) as us.
  induction l as [|a l IH]; intros us; cbn [fold_left]; [reflexivity|].
  rewrite IH. unfold touch. cbn [filter]. change (s_usage (tk_s (hget (heap sh) a))) with (cellOf sh a).
  rewrite (Nat.eqb_sym x (cellOf sh a)). destruct (Nat.eqb (cellOf sh a) x) eqn:E; cbn [length Nat.eqb].
  - destruct (Nat.eqb_spec (length (filter (fun a => Nat.eqb (cellOf sh a) x) l)) 0) as [F|F].
    + rewrite F. unfold usageUpdate. f_equal.
    + unfold usageUpdate. simpl useCount. f_equal. lia.
  - reflexivity.
Qed.

(** * Answers to questions *)
Lemma qaTryAll_app : forall c2 c1 q q1 q2 a1 a2, qaTryAll q c1 = Ok (q1, a1) -> qaTryAll q1 c2 = Ok (q2, a2) -> qaTryAll q (c1 ++ c2) = Ok (q2, a1 ++ a2).
Proof.
  intros c2. unfold qaTryAll.
  assert (Acc : forall cs q acc q' ans, rfold (fun st c => do r <- qaTryAnswer (fst st) c; Ok (fst r, snd st ++ snd r)) cs (q, []) = Ok (q', ans) ->
    rfold (fun st c => do r <- qaTryAnswer (fst st) c; Ok (fst r, snd st ++ snd r)) cs (q, acc) = Ok (q', acc ++ ans)).
  { assert (Gen : forall cs q acc acc2 q' ans, rfold (fun st c => do r <- qaTryAnswer (fst st) c; Ok (fst r, snd st ++ snd r)) cs (q, acc2) = Ok (q', ans) ->
      rfold (fun st c => do r <- qaTryAnswer (fst st) c; Ok (fst r, snd st ++ snd r)) cs (q, acc ++ acc2) = Ok (q', acc ++ ans)).
    { induction cs as [|c cs IH]; intros q acc acc2 q' ans H; cbn [rfold] in *; [injection H as <- <-; auto|].
      cbn [fst snd] in *. destruct (qaTryAnswer q c) as [[q1 a1]|]; [|discriminate]. cbn [rbind fst snd] in *. rewrite <- app_assoc. apply IH. exact H. }
    intros cs q acc q' ans H. rewrite <- (app_nil_r acc) at 1. now apply Gen. }
  assert (G : forall c1 q acc q1 a1 q2 a2, rfold (fun st c => do r <- qaTryAnswer (fst st) c; Ok (fst r, snd st ++ snd r)) c1 (q, acc) = Ok (q1, a1) ->
    rfold (fun st c => do r <- qaTryAnswer (fst st) c; Ok (fst r, snd st ++ snd r)) c2 (q1, []) = Ok (q2, a2) ->
    rfold (fun st c => do r <- qaTryAnswer (fst st) c; Ok (fst r, snd st ++ snd r)) (c1 ++ c2) (q, acc) = Ok (q2, a1 ++ a2)).
  { induction c1 as [|c c1 IH]; intros q acc q1 a1 q2 a2 H1 H2; cbn [rfold app] in *.
    - injection H1 as <- <-. now apply Acc.
    - cbn [fst snd] in *. destruct (qaTryAnswer q c) as [[q3 a3]|]; [|discriminate]. cbn [rbind fst snd] in *. eapply IH; eauto. }
  intros c1 q q1 q2 a1 a2 H1 H2. eapply G; eauto.
Qed.
(** each question sees every judgement, in order; together they report exactly
    the answers of the single questions *)
Definition answeredBy (js : list sentence) (q q' : task2) (a : list answer) : Prop := qaTryAll q js = Ok (q', a).
Lemma qaTryQuestions_spec : forall c qs qs' ans, qaTryQuestions qs c = Ok (qs', ans) ->
  exists parts, length parts = length qs /\ length qs' = length qs /\ ans = concat parts /\
  forall i q, nth_error qs i = Some q -> exists q' a, nth_error qs' i = Some q' /\ nth_error parts i = Some a /\ qaTryAnswer q c = Ok (q', a).
Proof.
  intros c qs qs' ans H. unfold qaTryQuestions in H.
  assert (G : forall qs acc aacc qs' ans, rfold (fun st q => do r <- qaTryAnswer q c; Ok (fst st ++ [fst r], snd st ++ snd r)) qs (acc, aacc) = Ok (qs', ans) ->
    exists parts nq, length parts = length qs /\ length nq = length qs /\ qs' = acc ++ nq /\ ans = aacc ++ concat parts /\
    forall i q, nth_error qs i = Some q -> exists q' a, nth_error nq i = Some q' /\ nth_error parts i = Some a /\ qaTryAnswer q c = Ok (q', a)).
  { clear. induction qs as [|q qs IH]; intros acc aacc qs' ans H; cbn [rfold] in H.
    - injection H as <- <-. exists [], []. rewrite !app_nil_r. repeat split; auto. intros [|i] q; discriminate.
    - cbn [fst snd] in H. destruct (qaTryAnswer q c) as [[q1 a1]|] eqn:E; [|discriminate]. cbn [rbind fst snd] in H.
      apply IH in H. destruct H as (parts & nq & L1 & L2 & -> & -> & P). exists (a1 :: parts), (q1 :: nq). simpl.
      rewrite <- !app_assoc. repeat split; auto. intros [|i] q' Hq; simpl in *; [injection Hq as <-; eauto|eauto]. }
  apply G in H. destruct H as (parts & nq & L1 & L2 & -> & -> & P). exists parts. simpl. auto.
Qed.
Lemma concat_zip : forall (p1 p2 : list (list answer)), length p1 = length p2 ->
  Permutation (concat p1 ++ concat p2) (concat (map (fun x => fst x ++ snd x) (combine p1 p2))).
Proof.
  induction p1 as [|a p1 IH]; intros [|b p2] L; simpl in *; try discriminate; auto.
  rewrite <- IH by lia. rewrite <- !app_assoc. apply Permutation_app_head. rewrite !app_assoc. apply Permutation_app_tail. apply Permutation_app_comm.
Qed.
Lemma nth_combine : forall A B (l1 : list A) (l2 : list B) i x y, nth_error l1 i = Some x -> nth_error l2 i = Some y -> nth_error (combine l1 l2) i = Some (x, y).
Proof. induction l1 as [|a l1 IH]; intros [|b l2] [|i] x y H1 H2; simpl in *; try discriminate; [congruence|eauto]. Qed.
Theorem answerAll_spec : forall cs qs qs' ans, answerAll qs cs = Ok (qs', ans) ->
  let js := filter (fun c => punct_eqb (s_punct c) JUGEMENT) cs in
  exists parts, length parts = length qs /\ length qs' = length qs /\ Permutation ans (concat parts) /\
  forall i q, nth_error qs i = Some q -> exists q' a, nth_error qs' i = Some q' /\ nth_error parts i = Some a /\ answeredBy js q q' a.
Proof.
  intros cs qs qs' ans H. unfold answerAll in H.
  assert (G : forall cs qs aacc qs' ans,
    rfold (fun st c => if punct_eqb (s_punct c) JUGEMENT then do r <- qaTryQuestions (fst st) c; Ok (fst r, snd st ++ snd r) else Ok st) cs (qs, aacc) = Ok (qs', ans) ->
    exists parts, length parts = length qs /\ length qs' = length qs /\ (exists na, ans = aacc ++ na /\ Permutation na (concat parts)) /\
    forall i q, nth_error qs i = Some q -> exists q' a, nth_error qs' i = Some q' /\ nth_error parts i = Some a /\
      answeredBy (filter (fun c => punct_eqb (s_punct c) JUGEMENT) cs) q q' a).
  { clear. induction cs as [|c cs IH]; intros qs aacc qs' ans H; cbn [rfold filter] in *.
    - injection H as <- <-. exists (map (fun _ => []) qs). rewrite map_length. repeat split; auto.
      + exists []. rewrite app_nil_r. split; auto. clear. induction qs; simpl; auto.
      + intros i q Hq. exists q, []. repeat split; auto. rewrite nth_error_map, Hq. reflexivity.
    - destruct (punct_eqb (s_punct c) JUGEMENT).
      + cbn [fst snd] in H. destruct (qaTryQuestions qs c) as [[qs1 a1]|] eqn:E; [|discriminate]. cbn [rbind fst snd] in H.
        apply qaTryQuestions_spec in E. destruct E as (p1 & L1 & L2 & -> & P1). apply IH in H.
        destruct H as (p2 & L3 & L4 & (na & -> & PM) & P2).
        exists (map (fun x => fst x ++ snd x) (combine p1 p2)). rewrite map_length, combine_length. split; [lia|]. split; [lia|]. split.
        * exists (concat p1 ++ na). rewrite app_assoc. split; auto. rewrite PM. apply concat_zip. lia.
        * intros i q Hq. destruct (P1 i q Hq) as (q1 & x1 & N1 & M1 & T1). destruct (P2 i q1 N1) as (q2 & x2 & N2 & M2 & T2).
          exists q2, (x1 ++ x2). split; [auto|]. split; [rewrite nth_error_map; rewrite (nth_combine _ _ _ _ _ _ _ M1 M2); reflexivity|].
          unfold answeredBy in *. change (c :: ?l) with ([c] ++ l). eapply qaTryAll_app; [|exact T2]. unfold qaTryAll. cbn [rfold fst snd]. rewrite T1. reflexivity.
      + apply IH in H. exact H. }
  apply G in H. destruct H as (parts & L1 & L2 & (na & -> & PM) & P). exists parts. auto.
Qed.

(** * The sampled question *)
Theorem sample_spec : forall sv sh sh' ans, sampleQuestion sv sh = Ok (sh', ans) ->
  (questions sh = [] /\ sh' = sh /\ ans = []) \/
  exists i q q' cs, nth_error (questions sh) i = Some q /\ qaTryAll q cs = Ok (q', ans) /\
    sh' = setQuestions (replace_at i q' (questions sh)) sh /\
    let m := match s_term (q_s q) with Stmt PREDIMPL _ _ => procMem sh | _ => memory sh end in
    (mapOk m -> forall b, In b cs <-> exists u c, occurs u (s_term (q_s q)) /\ holds m u c /\ (In b (byExp c) \/ In b (byUsage c))).
Proof.
  intros sv sh sh' ans H. unfold sampleQuestion in H. destruct (questions sh) as [|q0 qs0] eqn:Q.
  - injection H as <- <-. left. auto.
  - right. destruct (task2SelByCreditRandom sv (q0 :: qs0)) as [i|]; [|discriminate]. cbn [rbind] in H.
    unfold idx in H. destruct (nth_error (q0 :: qs0) i) as [q|] eqn:E; [|discriminate]. cbn [unwrap rbind] in H.
    set (cs := flat_map _ _) in H. destruct (qaTryAll q cs) as [[q' a]|] eqn:T; [|discriminate]. cbn [rbind fst snd] in H. injection H as <- <-.
    exists i, q, q', cs. split; [auto|]. split; [auto|]. split; [auto|]. intros m MO b. unfold cs. rewrite in_flat_map.
    assert (Hm : (if isTemporal (s_term (q_s q)) then procMem sh else memory sh) = m).
    { unfold m, isTemporal. destruct (s_term (q_s q)) as [c x y| | | | | | | | | | | | | |]; try reflexivity; destruct c; reflexivity. }
    rewrite Hm. unfold ret_beliefs_of_concept. split.
    + intros (u & Hu & Hb). apply retUniqueSubterms_in in Hu. destruct (mget u m) as [c|] eqn:M; [|destruct Hb].
      apply in_app_iff in Hb. exists u, c. split; [auto|]. split; [now apply mget_in|auto].
    + intros (u & c & Hu & Hc & Hb). exists u. split; [now apply retUniqueSubterms_in|]. rewrite (in_mget _ _ _ _ (proj1 MO) Hc). now apply in_app_iff.
Qed.

(** * Completeness of the deriver *)
Lemma inferAll_mono : forall p l st st', inferAll p l st = Ok st' -> incl (fst st) (fst st').
Proof.
  intros p l. induction l as [|s l IH]; intros st st' H; unfold inferAll in H; cbn [rfold] in H.
  - injection H as <-. apply incl_refl.
  - destruct (inference p s (snd st)) as [[cs ap]|] eqn:E; [|discriminate]. cbn [rbind fst snd] in H. apply IH in H. simpl in H.
    intros x Hx. apply H, in_app_iff. auto.
Qed.
Lemma inferAll_has : forall p l st st' s, inferAll p l st = Ok st' -> In s l -> exists u cs ap, inference p s u = Ok (cs, ap) /\ incl cs (fst st').
Proof.
  intros p l. induction l as [|x l IH]; intros st st' s H Hs; [destruct Hs|]. unfold inferAll in H; cbn [rfold] in H.
  destruct (inference p x (snd st)) as [[cs ap]|] eqn:E; [|discriminate]. cbn [rbind fst snd] in H.
  destruct Hs as [<-|Hs]; [|eapply IH; eauto]. exists (snd st), cs, ap. split; auto. apply inferAll_mono in H. simpl in H.
  intros y Hy. apply H, in_app_iff. auto.
Qed.
(** the second premises of a message: the secondary tasks and the beliefs of the
    concept named by the primary task's statement *)
Definition partner (sh : shared) (msg : workMsg) (b : sentence) : Prop :=
  (exists a, In a (secondary msg) /\ b = tk_s (hget (heap sh) a)) \/
  exists c, holds (memory sh) (taskTerm sh (primary msg)) c /\ (In b (byExp c) \/ In b (byUsage c)).
Theorem derive_complete : forall sh msg d, mapOk (memory sh) -> derive sh msg = Ok d ->
  let p := tk_s (hget (heap sh) (primary msg)) in
  (exists u cs, infSinglePremise2 p u = Ok cs /\ incl cs (fst d)) /\
  forall b, partner sh msg b -> exists u cs ap, inference p b u = Ok (cs, ap) /\ incl cs (fst d).
Proof.
  intros sh msg d MO H p. unfold derive in H. fold p in H.
  destruct (infSinglePremise2 p (nextU sh)) as [single|] eqn:E0; [|discriminate]. cbn [rbind] in H.
  destruct (inferAll p (map _ (filter _ _)) _) as [st1|] eqn:E1; [|discriminate]. cbn [rbind] in H.
  destruct (inferAll p (map _ (secondary msg)) st1) as [st2|] eqn:E2; [|discriminate]. cbn [rbind] in H.
  assert (I1 := inferAll_mono _ _ _ _ E1). simpl in I1. assert (I2 := inferAll_mono _ _ _ _ E2).
  assert (I3 : incl (fst st2) (fst d)).
  { destruct (mget (s_term p) (memory sh)) as [c|]; [|injection H as <-; apply incl_refl].
    destruct (inferAll p (byExp c) st2) as [st3|] eqn:E3; [|discriminate]. cbn [rbind] in H.
    eapply incl_tran; eapply inferAll_mono; eauto. }
  split; [exists (nextU sh), single; split; [auto|]; eapply incl_tran; [exact I1|]; eapply incl_tran; eauto|].
  intros b [(a & Ha & ->)|(c & Hc & Hb)].
  - destruct (inferAll_has _ _ _ _ (tk_s (hget (heap sh) a)) E2) as (u & cs & ap & E & I); [apply in_map_iff; eauto|].
    exists u, cs, ap. split; auto. eapply incl_tran; eauto.
  - unfold taskTerm in Hc. fold p in Hc. rewrite (in_mget _ _ _ _ (proj1 MO) Hc) in H.
    destruct (inferAll p (byExp c) st2) as [st3|] eqn:E3; [|discriminate]. cbn [rbind] in H. destruct Hb as [Hb|Hb].
    + destruct (inferAll_has _ _ _ _ _ E3 Hb) as (u & cs & ap & E & I). exists u, cs, ap. split; auto. eapply incl_tran; [exact I|]. eapply inferAll_mono; eauto.
    + exact (inferAll_has _ _ _ _ _ H Hb).
Qed.

(** tasks once queued stay queued during additions *)
Definition queued (sh : shared) (t : term) (st : stamp) : Prop :=
  exists a, In a (judg sh) /\ taskTerm sh a = t /\ s_stamp (tk_s (hget (heap sh) a)) = st.
Lemma add_keeps : forall maxC sh s cc nB mul now sh', tasksOk maxC sh -> mapOk (memory sh) -> memAddTask sh s cc maxC nB mul now = Ok sh' ->
  forall t st, queued sh t st -> queued sh' t st.
Proof.
  intros maxC sh s cc nB mul now sh' OK MO H t st (a & Ha & E1 & E2). apply memAddTask_cases in H.
  destruct H as [[_ ->]|(C & m & r & u & m2 & R & _ & ->)]; [exists a; auto|].
  destruct (revise_spec _ _ _ _ _ _ MO R) as (_ & _ & _ & _ & RS).
  set (sh1 := setMemory m2 (setNextU u sh)). set (l := s :: match r with Some x => [x] | None => [] end).
  assert (T1 : tasksOk maxC sh1) by (apply (tasksOk_eq _ sh); auto using sameTasks_refl).
  assert (Cl : forall x, In x l -> (calcComplexity (s_term x) <= maxC)%Z).
  { intros x [<-|Hx]; auto. destruct r as [nb|]; [|destruct Hx]. destruct Hx as [<-|[]].
    destruct RS as (_ & (b & _ & (va & vs & _ & _ & _ & _ & -> & _) & _) & _). auto. }
  destruct (addAll_ok maxC cc mul l sh1 T1 Cl) as (_ & [x Hx] & _). destruct (addAll_judg cc mul l sh1) as [j Hj].
  exists a. unfold taskTerm. rewrite Hj, Hx, hget_app. simpl (heap sh1). rewrite (proj2 (Nat.ltb_lt _ _) (ok_judg _ _ OK _ Ha)).
  split; [apply in_or_app; auto|auto].
Qed.
Lemma add_queues : forall maxC sh s cc nB mul now sh', tasksOk maxC sh -> mapOk (memory sh) -> memAddTask sh s cc maxC nB mul now = Ok sh' ->
  s_punct s = JUGEMENT -> (calcComplexity (s_term s) <= maxC)%Z -> queued sh' (s_term s) (s_stamp s).
Proof.
  intros maxC sh s cc nB mul now sh' OK MO H J C. destruct (taskExists sh s) eqn:E.
  - apply taskExists_iff in E. eapply add_keeps; eauto.
  - assert (ND : ~ exists a, In a (judg sh) /\ taskTerm sh a = s_term s /\ s_stamp (tk_s (hget (heap sh) a)) = s_stamp s).
    { intros K. apply taskExists_iff in K. congruence. }
    destruct (add_admits _ _ _ _ _ _ _ _ OK J C ND H MO) as (a & Ha & _ & Es & _). exists a. unfold taskTerm. rewrite Es. auto.
Qed.

(** all conclusions are judgements *)
Lemma single_judg : forall p u cs, infSinglePremise2 p u = Ok cs -> Forall (fun c => s_punct (fst c) = JUGEMENT) cs.
Proof.
  intros p u cs H. apply single2_shape in H. destruct H as (l & _ & _ & F). eapply Forall_impl; [|exact F]. intros c Hc. apply Hc.
Qed.
Lemma inference_judg : forall a b u cs ap, inference a b u = Ok (cs, ap) -> Forall (fun c => s_punct (fst c) = JUGEMENT) cs.
Proof.
  intros a b u cs ap H. destruct (checkOverlap (s_stamp a) (s_stamp b)) eqn:O.
  - apply checkOverlap_iff in O. rewrite (inference_overlap _ _ _ _ _ H O). constructor.
  - assert (N : ~ exists e, In e (s_stamp a) /\ In e (s_stamp b)) by (intros K; apply checkOverlap_iff in K; congruence).
    destruct (inference_shape _ _ _ _ _ H N) as (l & _ & _ & F & _). eapply Forall_impl; [|exact F]. intros c Hc. apply Hc.
Qed.
Lemma inferAll_judg : forall p l st st', inferAll p l st = Ok st' -> Forall (fun c => s_punct (fst c) = JUGEMENT) (fst st) ->
  Forall (fun c => s_punct (fst c) = JUGEMENT) (fst st').
Proof.
  intros p l. induction l as [|s l IH]; intros st st' H F; unfold inferAll in H; cbn [rfold] in H; [injection H as <-; auto|].
  destruct (inference p s (snd st)) as [[cs ap]|] eqn:E; [|discriminate]. cbn [rbind fst snd] in H. apply IH in H; auto.
  simpl. apply Forall_app. split; auto. eapply inference_judg; eauto.
Qed.
Lemma derive_judg : forall sh msg d, derive sh msg = Ok d -> Forall (fun c => s_punct (fst c) = JUGEMENT) (fst d).
Proof.
  intros sh msg d H. unfold derive in H. set (p := tk_s (hget (heap sh) (primary msg))) in H.
  destruct (infSinglePremise2 p (nextU sh)) as [single|] eqn:E0; [|discriminate]. cbn [rbind] in H.
  destruct (inferAll p (map _ (filter _ _)) _) as [st1|] eqn:E1; [|discriminate]. cbn [rbind] in H.
  destruct (inferAll p (map _ (secondary msg)) st1) as [st2|] eqn:E2; [|discriminate]. cbn [rbind] in H.
  apply inferAll_judg in E1; [|simpl; eapply single_judg; eauto]. apply inferAll_judg in E2; auto.
  destruct (mget (s_term p) (memory sh)) as [c|]; [|injection H as <-; auto].
  destruct (inferAll p (byExp c) st2) as [st3|] eqn:E3; [|discriminate]. cbn [rbind] in H.
  apply inferAll_judg in E3; auto. apply inferAll_judg in H; auto.
Qed.

(** every conclusion within the complexity limit is queued after the worker step *)
Section Worker.
  Variables (Inp : sentence -> Prop) (maxC : Z) (n : nat).
  Hypothesis inputs : forall s, Inp s -> s_punct s = JUGEMENT -> s_stamp s <> [].
  Hypothesis n1 : 1 <= n.
  Theorem worker_queues : forall sh msg ps sh' ans, run Inp maxC n sh (msg :: ps) -> workerStep maxC n sh msg = Ok (sh', ans) ->
    exists d, derive sh msg = Ok d /\
    (forall c, In c (fst d) -> s_punct (fst c) = JUGEMENT -> (calcComplexity (s_term (fst c)) <= maxC)%Z ->
       queued sh' (s_term (fst c)) (s_stamp (fst c))) /\
    (forall t st, queued sh t st -> queued sh' t st) /\
    exists qa, answerAll (questions sh) (map fst (fst d)) = Ok (qa, ans) /\ questions sh' = qa.
  Proof.
    intros sh msg ps sh' ans R H. set (G := fun s : sentence => s_stamp s <> []).
    assert (CL : closed G) by exact closed_nonempty.
    assert (ST := run_ok G maxC n CL (fun _ g => g) n1 Inp sh (msg :: ps) inputs R).
    unfold workerStep in H. destruct (derive sh msg) as [d|] eqn:D; [|discriminate]. cbn [rbind] in H. exists d. split; [auto|].
    assert (GD := derive_ok G maxC n CL sh (msg :: ps) msg d ST (so_msgs _ _ _ _ _ ST msg (or_introl eq_refl)) D).
    destruct (answerAll (questions sh) (map fst (fst d))) as [[qs a]|] eqn:A; [|discriminate]. cbn [rbind fst snd] in H.
    set (sh1 := setQuestions qs (setNextU (snd d) sh)) in H.
    assert (S1 : stateOk G maxC n sh1 ps).
    { destruct ST as [T Hh M P]. constructor; auto.
      - apply (tasksOk_eq _ sh); auto using sameTasks_refl.
      - intros m Hm. apply (P m). now right. }
    destruct (rfold _ (fst d) sh1) as [sh2|] eqn:F; [|discriminate]. cbn [rbind] in H. injection H as <- <-.
    assert (K : (forall c, In c (fst d) -> s_punct (fst c) = JUGEMENT -> (calcComplexity (s_term (fst c)) <= maxC)%Z -> queued sh2 (s_term (fst c)) (s_stamp (fst c))) /\
       (forall t st, queued sh1 t st -> queued sh2 t st) /\ (Forall (fun c => s_punct (fst c) = JUGEMENT) (fst d) -> questions sh2 = questions sh1)).
    { clear A D R ST. clearbody sh1. revert sh1 S1 GD F. induction (fst d) as [|c cs IH]; intros sh1 S1 GD F; cbn [rfold] in F.
      - injection F as <-. split; [intros c []|auto].
      - destruct (memAddTask sh1 _ _ _ _ _ _) as [sh3|] eqn:E; [|discriminate]. cbn [rbind] in F.
        inversion GD as [|? ? D1 D2]; subst. destruct (memAddTask_ok G maxC n CL (fun _ g => g) n1 _ _ _ _ _ _ _ _ (conj n1 (le_n n)) S1 (fun _ => D1) E) as [S3 _].
        destruct (IH _ S3 D2 F) as (K1 & K2 & K3). destruct (so_mem _ _ _ _ _ S1) as [MO _].
        split; [|split].
        + intros c' [<-|Hc] J C; [|auto]. apply K2. eapply add_queues; eauto. apply (so_tasks _ _ _ _ _ S1).
        + intros t st Q. apply K2. eapply add_keeps; eauto. apply (so_tasks _ _ _ _ _ S1).
        + intros FA. inversion FA as [|? ? J1 J2]; subst. rewrite K3 by auto. clear - E J1 MO S1 D1 CL n1.
          apply memAddTask_cases in E. destruct E as [[_ ->]|(C & m & r & u & m2 & RV & _ & ->)]; auto.
          assert (M1 := revise_inv G maxC n CL _ _ _ _ _ _ (so_mem _ _ _ _ _ S1) D1 RV).
          destruct (revise_spec _ _ _ _ _ _ MO RV) as (_ & _ & _ & _ & RS).
          assert (Q : forall mul l sh0, Forall (fun s => s_punct s = JUGEMENT) l -> questions (addAll true mul sh0 l) = questions sh0).
          { clear. induction l as [|s l IHl]; intros sh0 FA; cbn [addAll]; auto. inversion FA as [|? ? J1 J2]; subst. unfold addOne. rewrite J1.
            destruct (taskExists sh0 s); auto. rewrite IHl by auto. reflexivity. }
          rewrite Q; [reflexivity|]. constructor; auto. destruct r as [nb|]; constructor; auto.
          destruct RS as (_ & _ & t & cc & Hc & _ & Hn). apply (bo_all _ _ _ _ (proj2 M1 _ _ Hc) _ Hn). }
    destruct K as (K1 & K2 & K3). split; [auto|]. split; [exact K2|]. exists qs. split; [auto|]. rewrite K3; [reflexivity|].
    apply derive_judg in D. exact D.
  Qed.
End Worker.

Section Conclusions.
  Variables (Inp : sentence -> Prop) (maxC : Z) (n : nat).
  Hypothesis inputs : forall s, Inp s -> s_punct s = JUGEMENT -> s_stamp s <> [].
  Hypothesis n1 : 1 <= n.
  Theorem worker_conclusions : forall sh msg ps sh' ans, run Inp maxC n sh (msg :: ps) -> workerStep maxC n sh msg = Ok (sh', ans) ->
    let p := tk_s (hget (heap sh) (primary msg)) in
    (forall b t tr v, partner sh msg b -> ~ shareEvidence p b ->
       schema JUGEMENT (s_term p) JUGEMENT (s_term b) t tr \/ schema JUGEMENT (s_term b) JUGEMENT (s_term p) t tr ->
       truthVal tr (retTv p) (retTv b) = Some v -> (calcComplexity t <= maxC)%Z -> queued sh' t (merge (s_stamp p) (s_stamp b))) /\
    (forall t mir bias w, struct JUGEMENT (s_term p) t mir bias -> retTv p = Some w -> (calcComplexity t <= maxC)%Z -> queued sh' t (s_stamp p)).
  Proof.
    intros sh msg ps sh' ans R H p. set (G := fun s : sentence => s_stamp s <> []).
    assert (ST := run_ok G maxC n closed_nonempty (fun _ g => g) n1 Inp sh (msg :: ps) inputs R).
    destruct (so_msgs _ _ _ _ _ ST msg (or_introl eq_refl)) as [MP MS]. destruct (so_mem _ _ _ _ _ ST) as [MO MB].
    destruct (worker_queues Inp maxC n inputs n1 _ _ _ _ _ R H) as (d & D & Q & _).
    assert (J := derive_judg _ _ _ D). rewrite Forall_forall in J.
    destruct (derive_complete _ _ _ MO D) as [(u0 & cs0 & E0 & I0) DC]. fold p in E0, DC.
    assert (Jp : s_punct p = JUGEMENT) by (apply (ok_punct _ _ (so_tasks _ _ _ _ _ ST)); auto). split.
    - intros b t tr v Pb NS SC TV CX. destruct (DC b Pb) as (u & cs & ap & E & I).
      assert (Jb : s_punct b = JUGEMENT).
      { destruct Pb as [(a & Ha & ->)|(c & Hc & Hb)]; [apply (ok_punct _ _ (so_tasks _ _ _ _ _ ST)); auto|].
        apply (bo_all _ _ _ _ (MB _ _ Hc) _ Hb). }
      destruct (inference_shape _ _ _ _ _ E NS) as (l & EB & EM & F & _). rewrite Jp, Jb in EB.
      assert (IN : In (t, v, JUGEMENT) l) by (apply (proj1 (binary_iff _ _ _ _ _ _ _ _ EB)); split; eauto).
      apply (in_map (fun c => (fst (fst c), Some (snd (fst c))))) in IN. rewrite <- EM in IN. apply in_map_iff in IN. destruct IN as (c & Ec & Hc).
      simpl in Ec. injection Ec as Et _. rewrite Forall_forall in F. destruct (F _ Hc) as (_ & _ & _ & Es & _).
      assert (K := Q c (I _ Hc) (J _ (I _ Hc))). rewrite Et, Es in K. auto.
    - intros t mir bias w SC TV CX. destruct (single2_shape _ _ _ E0) as (l & EB & EM & F). rewrite Jp in EB.
      assert (IN : In (t, stTruth mir w, JUGEMENT, f_frac bias 10) l).
      { apply (single_iff _ _ _ _ EB). split; auto. exists mir, bias, w. auto. }
      apply (in_map (fun c => (fst (fst (fst c)), Some (snd (fst (fst c))), snd c))) in IN; rewrite <- EM in IN; apply in_map_iff in IN; destruct IN as (c & Ec & Hc);
        simpl in Ec; injection Ec as Et _ _; rewrite Forall_forall in F; destruct (F _ Hc) as (_ & _ & _ & Es);
        assert (K := Q c (I0 _ Hc) (J _ (I0 _ Hc))); rewrite Et, Es in K; auto.
  Qed.
End Conclusions.

(** the revised belief is queued as well *)
Theorem add_revised : forall maxC sh s cc nB mul now sh' m nb u, tasksOk maxC sh -> mapOk (memory sh) ->
  (forall t c b, holds (memory sh) t c -> In b (byExp c) \/ In b (byUsage c) -> s_punct b = JUGEMENT) ->
  memAddTask sh s cc maxC nB mul now = Ok sh' ->
  (calcComplexity (s_term s) <= maxC)%Z -> memReviseBelief (memory sh) s (nextU sh) = Ok (m, Some nb, u) ->
  ~ queued sh (s_term s) (s_stamp s) -> queued sh' (s_term nb) (s_stamp nb).
Proof.
  intros maxC sh s cc nB mul now sh' m nb u OK MO MJ H C RV NQ. apply memAddTask_cases in H.
  destruct H as [[K _]|(_ & m' & r & u' & m2 & RV' & _ & ->)]; [lia|]. rewrite RV in RV'. injection RV' as <- <- <-.
  destruct (revise_spec _ _ _ _ _ _ MO RV) as (_ & _ & _ & TB & J & (b & Rb & I & _) & t & c & Hc & _ & Hn).
  set (sh1 := setMemory m2 (setNextU u sh)).
  assert (T1 : tasksOk maxC sh1) by (apply (tasksOk_eq _ sh); auto using sameTasks_refl).
  assert (Jn : s_punct nb = JUGEMENT).
  { assert (RT : forall l l', revisedTable s l l' -> (forall x, In x l -> s_punct x = JUGEMENT) -> forall x, In x l' -> s_punct x = JUGEMENT).
    { intros l l' RT. induction RT as [l l' (z & Rz)|l|l1 l2 l3 _ IH1 _ IH2]; auto.
      intros F x Hx. destruct (replaced_in _ _ _ _ _ Rz Hx) as [Hx'|(-> & b' & Hb' & _ & va & vs & _ & _ & _ & _ & _ & _ & P & _)]; auto. rewrite P. auto. }
    destruct (TB _ _ Hc) as (c0 & Hc0 & _ & R1 & R2 & _). destruct Hn as [Hn|Hn].
    - eapply RT; [exact R1| |exact Hn]. intros x Hx. eapply MJ; eauto.
    - eapply RT; [exact R2| |exact Hn]. intros x Hx. eapply MJ; eauto. }
  assert (NE : taskExists sh1 s = false).
  { change (taskExists sh1 s) with (taskExists sh s). destruct (taskExists sh s) eqn:E; auto. apply taskExists_iff in E. destruct NQ. exact E. }
  cbn [addAll]. assert (AC := addOne_cases cc mul sh1 s). destruct (addOne cc mul sh1 s) as [sh2|]; [|destruct AC; congruence].
  destruct AC as [(_ & _ & AD)|(K & _)]; [|contradiction].
  assert (T2 : tasksOk maxC sh2) by (eapply admitted_ok; eauto).
  assert (AC := addOne_cases cc mul sh2 nb). destruct (addOne cc mul sh2 nb) as [sh3|].
  - destruct AC as [(_ & _ & x & Hh & Hs & Hj & _)|(K & _)]; [|contradiction].
    exists (length (heap sh2)). rewrite Hj. split; [apply in_or_app; right; now left|]. unfold taskTerm.
    rewrite Hh, hget_app, Nat.ltb_irrefl, Nat.sub_diag. simpl. now rewrite Hs.
  - destruct AC as [_ E]. apply taskExists_iff in E. exact E.
Qed.
