(** Proofs about the task tables and whole runs of the sequential reasoner. *)
From Coq Require Import ZArith Bool Lia List Permutation Sorted Relations.
From Verif Require Import Base F64_Model Sort_Proofs Term_Model Term_Spec Term_Proofs
  Stamp_Model Stamp_Proofs Tv_Model Sentence_Model Sentence_Proofs Infer_Model Infer_Proofs Mem_Model Mem_Spec Mem_Proofs
  Cycle_Model Cycle_Spec Cycle_Proofs.
Import ListNotations.

(** * The term index *)
Definition inIdx (bt : list (term * list nat)) (t : term) (a : nat) : Prop := exists l, mget t bt = Some l /\ In a l.
Lemma indexed_iff : forall sh t a, NoDup (map fst (byTerm sh)) -> (indexed sh t a <-> inIdx (byTerm sh) t a).
Proof.
  intros sh t a N. unfold indexed, inIdx. split; intros (l & H & Ha); exists l; split; auto; [now apply in_mget|now apply mget_in].
Qed.
Definition push1 (a : nat) (bt : list (term * list nat)) (st : term) : list (term * list nat) :=
  match mget st bt with
  | Some v => mset (term_clone st) (v ++ [a]) bt
  | None => mset (term_clone st) [a] bt
  end.
Lemma push1_idx : forall a bt st t x, inIdx (push1 a bt st) t x <-> inIdx bt t x \/ (x = a /\ t = st).
Proof.
  intros a bt st t x. unfold push1, inIdx. rewrite !term_clone_id.
  destruct (mget st bt) as [v|] eqn:G; rewrite mget_mset; destruct (checkEqTerm st t) eqn:E.
  - apply checkEqTerm_eq in E. subst t. split.
    + intros (l & [= <-] & H). apply in_app_iff in H. destruct H as [H|[<-|[]]]; eauto.
    + intros [(l & H & Hx)|[-> _]]; eexists; (split; [reflexivity|]); apply in_app_iff; [|right; now left].
      left. congruence.
  - assert (t <> st) by (intros ->; rewrite checkEqTerm_refl in E; discriminate). split; [eauto|].
    intros [K|[_ K]]; [auto|contradiction].
  - apply checkEqTerm_eq in E. subst t. split.
    + intros (l & [= <-] & [<-|[]]); auto.
    + intros [(l & H & Hx)|[-> _]]; [congruence|]. exists [a]. split; auto. now left.
  - assert (t <> st) by (intros ->; rewrite checkEqTerm_refl in E; discriminate). split; [eauto|].
    intros [K|[_ K]]; [auto|contradiction].
Qed.
Lemma push1_nodup : forall a bt st, NoDup (map fst bt) -> NoDup (map fst (push1 a bt st)).
Proof. intros a bt st H. unfold push1. rewrite !term_clone_id. destruct (mget st bt); now apply mset_nodup. Qed.
Lemma pushAll_idx : forall a ts bt t x, inIdx (fold_left (push1 a) ts bt) t x <-> inIdx bt t x \/ (x = a /\ In t ts).
Proof.
  induction ts as [|st ts IH]; intros bt t x; cbn [fold_left].
  - simpl. tauto.
  - rewrite IH, push1_idx. simpl. intuition.
Qed.
Lemma pushAll_nodup : forall a ts bt, NoDup (map fst bt) -> NoDup (map fst (fold_left (push1 a) ts bt)).
Proof. induction ts as [|st ts IH]; intros bt H; cbn [fold_left]; auto. apply IH. now apply push1_nodup. Qed.
Lemma populate_idx : forall bt tm a t x,
  inIdx (populateTaskByTermLookup bt tm a) t x <-> inIdx bt t x \/ (x = a /\ occurs t tm).
Proof. intros. unfold populateTaskByTermLookup. fold (push1 a). rewrite pushAll_idx, retSubterms_iff. reflexivity. Qed.
Lemma populate_nodup : forall bt tm a, NoDup (map fst bt) -> NoDup (map fst (populateTaskByTermLookup bt tm a)).
Proof. intros. unfold populateTaskByTermLookup. fold (push1 a). now apply pushAll_nodup. Qed.

(** * Heap changes that keep sentences and ids *)
Definition sameTasks (h h' : list task) : Prop :=
  length h' = length h /\ forall a, tk_s (hget h' a) = tk_s (hget h a) /\ tk_id (hget h' a) = tk_id (hget h a).
Lemma sameTasks_refl : forall h, sameTasks h h.
Proof. split; auto. Qed.
Lemma sameTasks_trans : forall a b c, sameTasks a b -> sameTasks b c -> sameTasks a c.
Proof.
  intros a b c [L1 H1] [L2 H2]. split; [congruence|]. intros x. destruct (H1 x), (H2 x). split; congruence.
Qed.
Lemma replace_at_length : forall A i (v : A) l, length (replace_at i v l) = length l.
Proof. induction i; intros v [|x l]; simpl; auto. Qed.
Lemma nth_replace_at : forall A i j (v d : A) l, nth j (replace_at i v l) d = if Nat.eqb i j && Nat.ltb i (length l) then v else nth j l d.
Proof.
  intros A i j v d l. revert i j. induction l as [|x l IH]; intros [|i] [|j]; simpl; auto.
  - destruct (Nat.eqb i j); reflexivity.
  - rewrite IH. reflexivity.
Qed.
Lemma hupd_same : forall h a f, (forall t, tk_s (f t) = tk_s t /\ tk_id (f t) = tk_id t) -> sameTasks h (hupd h a f).
Proof.
  intros h a f H. unfold hupd. split; [apply replace_at_length|]. intros x. unfold hget. rewrite nth_replace_at.
  destruct (Nat.eqb a x && Nat.ltb a (length h)) eqn:E; auto.
  apply andb_true_iff in E. destruct E as [E _]. apply Nat.eqb_eq in E. subst x. apply H.
Qed.
Lemma fold_same : forall A (f : list task -> A -> list task) l h, (forall h x, sameTasks h (f h x)) -> sameTasks h (fold_left f l h).
Proof.
  induction l as [|x l IH]; intros h H; simpl; [apply sameTasks_refl|]. eapply sameTasks_trans; [apply H|apply IH; auto].
Qed.
Lemma transfer_same : forall sh, sameTasks (heap sh) (heap (transferCredits sh)).
Proof.
  intros sh. unfold transferCredits. simpl. apply fold_same. intros h q. apply fold_same. intros h' st.
  destruct (mget st (byTerm sh)); [|apply sameTasks_refl]. apply fold_same. intros h2 a. apply hupd_same. auto.
Qed.
Lemma base_same : forall sh, sameTasks (heap sh) (heap (baseCredits sh)).
Proof.
  intros sh. unfold baseCredits. simpl. eapply sameTasks_trans; apply fold_same; intros h a; apply hupd_same; auto.
Qed.

(** * The invariant of the task tables *)
Lemma tasksOk_ext : forall maxC sh sh', tasksOk maxC sh -> sameTasks (heap sh) (heap sh') ->
  (forall a, In a (judg sh') -> In a (judg sh)) -> NoDup (judg sh') -> byTerm sh' = byTerm sh -> taskCtr sh' = taskCtr sh -> tasksOk maxC sh'.
Proof.
  intros maxC sh sh' [I1 I2 I3 I4 I5 I6 I7 I8 I9 I10] [L S] J N B C.
  assert (T : forall a, taskTerm sh' a = taskTerm sh a) by (intros a; unfold taskTerm; now rewrite (proj1 (S a))).
  assert (X : forall t a, indexed sh' t a <-> indexed sh t a) by (intros; unfold indexed; rewrite B; reflexivity).
  constructor.
  - intros a Ha. rewrite (proj2 (S a)). apply I1. now rewrite <- L.
  - rewrite C, L. auto.
  - intros a Ha. rewrite L. auto.
  - auto.
  - rewrite B. auto.
  - intros t a H. rewrite L, T. apply I6. now apply X.
  - intros a t Ha O. apply X. apply I7; auto. now rewrite <- T.
  - intros a Ha. rewrite (proj1 (S a)). apply I8. now rewrite <- L.
  - intros a Ha. rewrite T. apply I9. now rewrite <- L.
  - intros a b Ha Hb. rewrite !T, !(proj1 (S _)). apply I10; auto.
Qed.
Lemma tasksOk_eq : forall maxC sh sh', tasksOk maxC sh -> sameTasks (heap sh) (heap sh') ->
  judg sh' = judg sh -> byTerm sh' = byTerm sh -> taskCtr sh' = taskCtr sh -> tasksOk maxC sh'.
Proof. intros maxC sh sh' OK S J B C. apply (tasksOk_ext maxC sh); auto; rewrite J; [tauto|apply OK]. Qed.
Lemma tasksOk_start : forall maxC, tasksOk maxC sharedMake.
Proof.
  intros maxC. constructor; simpl; try (intros; lia); try (intros; contradiction); try apply NoDup_nil; auto.
  intros t a (l & [] & _).
Qed.

Lemma hget_app : forall h x a, hget (h ++ x) a = if Nat.ltb a (length h) then hget h a else nth (a - length h) x task0.
Proof.
  intros h x a. unfold hget. destruct (Nat.ltb a (length h)) eqn:E.
  - apply Nat.ltb_lt in E. now apply app_nth1.
  - apply Nat.ltb_ge in E. now apply app_nth2.
Qed.
Lemma taskExists_iff : forall sh s, taskExists sh s = true <->
  exists a, In a (judg sh) /\ taskTerm sh a = s_term s /\ s_stamp (tk_s (hget (heap sh) a)) = s_stamp s.
Proof.
  intros sh s. unfold taskExists. rewrite existsb_exists. split; intros (a & Ha & H); exists a; split; auto.
  - apply andb_true_iff in H. destruct H as [H1 H2]. apply checkEqTerm_eq in H1. apply checkSame_iff in H2. unfold taskTerm. auto.
  - destruct H as [H1 H2]. apply andb_true_iff. rewrite checkEqTerm_eq, checkSame_iff. unfold taskTerm in H1. auto.
Qed.

(** what one admission does *)
Definition admitted (sh sh' : shared) (s : sentence) : Prop :=
  exists t, heap sh' = heap sh ++ [t] /\ tk_s t = s /\ judg sh' = judg sh ++ [length (heap sh)] /\
    byTerm sh' = populateTaskByTermLookup (byTerm sh) (s_term s) (length (heap sh)) /\
    tk_id t = taskCtr sh /\ taskCtr sh' = (taskCtr sh + 1)%Z /\ questions sh' = questions sh /\ memory sh' = memory sh.
Lemma addOne_cases : forall cc mul sh s,
  match addOne cc mul sh s with
  | None => s_punct s = JUGEMENT /\ taskExists sh s = true
  | Some sh' => (s_punct s = JUGEMENT /\ taskExists sh s = false /\ admitted sh sh' s) \/
                (s_punct s <> JUGEMENT /\ heap sh' = heap sh /\ judg sh' = judg sh /\ byTerm sh' = byTerm sh /\
                 taskCtr sh' = taskCtr sh /\ memory sh' = memory sh /\ exists l, questions sh' = questions sh ++ l)
  end.
Proof.
  intros cc mul sh s. unfold addOne. destruct (s_punct s) eqn:P.
  - destruct (taskExists sh s) eqn:E; [auto|]. left. split; auto. split; auto. exists (newTask sh s cc mul).
    unfold newTask. rewrite shallow_id. destruct cc; repeat split; reflexivity.
  - right. repeat split; auto; try discriminate. simpl. eauto.
  - right. repeat split; auto; try discriminate. exists []. now rewrite app_nil_r.
Qed.

Lemma admitted_ok : forall maxC sh sh' s, tasksOk maxC sh -> admitted sh sh' s -> s_punct s = JUGEMENT ->
  taskExists sh s = false -> (calcComplexity (s_term s) <= maxC)%Z -> tasksOk maxC sh'.
Proof.
  intros maxC sh sh' s [I1 I2 I3 I4 I5 I6 I7 I8 I9 I10] (t & Hh & Ht & Hj & Hb & Hid & Hc & _) P E C.
  set (n := length (heap sh)) in *.
  assert (L : length (heap sh') = S n) by (rewrite Hh, app_length; simpl; unfold n; lia).
  assert (Old : forall a, a < n -> hget (heap sh') a = hget (heap sh) a).
  { intros a Ha. rewrite Hh, hget_app. unfold n in Ha. apply Nat.ltb_lt in Ha. now rewrite Ha. }
  assert (New : hget (heap sh') n = t).
  { rewrite Hh, hget_app. unfold n. rewrite Nat.ltb_irrefl, Nat.sub_diag. reflexivity. }
  assert (TO : forall a, a < n -> taskTerm sh' a = taskTerm sh a) by (intros a Ha; unfold taskTerm; now rewrite Old).
  assert (TN : taskTerm sh' n = s_term s) by (unfold taskTerm; rewrite New, Ht; auto).
  assert (N' : NoDup (map fst (byTerm sh'))) by (rewrite Hb; now apply populate_nodup).
  assert (X : forall u a, indexed sh' u a <-> indexed sh u a \/ (a = n /\ occurs u (s_term s))).
  { intros u a. rewrite !indexed_iff by auto. rewrite Hb. apply populate_idx. }
  assert (JC : forall a, In a (judg sh') -> (In a (judg sh) /\ a < n) \/ a = n).
  { intros a Ha. rewrite Hj in Ha. apply in_app_iff in Ha. destruct Ha as [Ha|[<-|[]]]; [left; split; [auto|exact (I3 _ Ha)]|right; reflexivity]. }
  assert (LC : forall a, a < length (heap sh') -> a < n \/ a = n) by (intros; lia).
  constructor.
  - intros a Ha. apply LC in Ha. destruct Ha as [Ha| ->]; [rewrite Old; auto|]. rewrite New, Hid. unfold n. auto.
  - rewrite Hc, L. unfold n in *. lia.
  - intros a Ha. apply JC in Ha. lia.
  - rewrite Hj. apply NoDup_snoc; auto. intros K. apply I3 in K. unfold n in K. lia.
  - auto.
  - intros u a Hu. apply X in Hu. destruct Hu as [Hu|[-> Hu]].
    + apply I6 in Hu. destruct Hu as [Hl Ho]. split; [fold n in Hl; lia|]. now rewrite TO.
    + split; [lia|]. now rewrite TN.
  - intros a u Ha Ho. apply X. apply JC in Ha. destruct Ha as [[Ha Hl]| ->].
    + left. apply I7; auto. now rewrite <- TO.
    + right. split; auto. now rewrite <- TN.
  - intros a Ha. apply LC in Ha. destruct Ha as [Ha| ->]; [rewrite Old; auto|]. now rewrite New, Ht.
  - intros a Ha. apply LC in Ha. destruct Ha as [Ha| ->]; [rewrite TO; auto|]. now rewrite TN.
  - assert (D : forall a, In a (judg sh) -> taskTerm sh' a = taskTerm sh' n ->
        s_stamp (tk_s (hget (heap sh') a)) = s_stamp (tk_s (hget (heap sh') n)) -> False).
    { intros a Ha T1 S1. assert (Hl := I3 _ Ha). fold n in Hl. rewrite TO, TN in T1 by auto. rewrite Old, New, Ht in S1 by auto.
      assert (taskExists sh s = true) by (apply taskExists_iff; eauto). congruence. }
    intros a b Ha Hb'. apply JC in Ha, Hb'. intros T1 S1. destruct Ha as [[Ha Hla]| ->], Hb' as [[Hb' Hlb]| ->]; auto.
    + rewrite !TO in T1 by auto. rewrite !Old in S1 by auto. now apply I10.
    + destruct (D a); auto.
    + destruct (D b); auto.
Qed.

Definition heapGrows (sh sh' : shared) : Prop := exists x, heap sh' = heap sh ++ x.
Lemma heapGrows_refl : forall sh, heapGrows sh sh.
Proof. intros sh. exists []. now rewrite app_nil_r. Qed.
Lemma heapGrows_trans : forall a b c, heapGrows a b -> heapGrows b c -> heapGrows a c.
Proof. intros a b c [x Hx] [y Hy]. exists (x ++ y). rewrite Hy, Hx. now rewrite app_assoc. Qed.

(** a list of sentences *)
Lemma addAll_ok : forall maxC cc mul l sh, tasksOk maxC sh -> (forall s, In s l -> (calcComplexity (s_term s) <= maxC)%Z) ->
  let sh' := addAll cc mul sh l in
  tasksOk maxC sh' /\ heapGrows sh sh' /\ memory sh' = memory sh /\
  (forall a, length (heap sh) <= a < length (heap sh') -> In (tk_s (hget (heap sh') a)) l /\ s_punct (tk_s (hget (heap sh') a)) = JUGEMENT) /\
  exists q, questions sh' = questions sh ++ q.
Proof.
  induction l as [|s l IH]; intros sh OK Hl; cbn [addAll].
  - split; [auto|]. split; [apply heapGrows_refl|]. split; [auto|]. split; [intros; lia|]. exists []. now rewrite app_nil_r.
  - assert (C := addOne_cases cc mul sh s). destruct (addOne cc mul sh s) as [sh1|].
    + assert (OK1 : tasksOk maxC sh1).
      { destruct C as [(P & E & A)|(P & H1 & H2 & H3 & H4 & _)].
        - eapply admitted_ok; eauto. apply Hl. now left.
        - apply (tasksOk_ext _ sh); auto; [rewrite H1; apply sameTasks_refl|rewrite H2; auto|rewrite H2; apply OK]. }
      destruct (IH sh1 OK1) as (A1 & [x A2] & A3 & A4 & [q A5]); [intros; apply Hl; now right|].
      destruct C as [(P & E & t & Hh & Ht & Hj & Hb & Hid & Hc & Hq & Hm)|(P & H1 & H2 & H3 & H4 & H5 & [q0 H6])].
      * split; [auto|]. split; [exists ([t] ++ x); rewrite A2, Hh; now rewrite app_assoc|]. split; [congruence|]. split.
        -- intros a Ha. destruct (Nat.eq_dec a (length (heap sh))) as [->|Hn].
           ++ assert (E2 : hget (heap (addAll cc mul sh1 l)) (length (heap sh)) = t).
              { rewrite A2, Hh, <- app_assoc, hget_app, Nat.ltb_irrefl, Nat.sub_diag. reflexivity. }
              rewrite E2, Ht. split; [now left|auto].
           ++ destruct (A4 a) as [B1 B2]; [rewrite Hh, app_length; simpl; lia|]. split; [now right|auto].
        -- exists q. congruence.
      * split; [auto|]. split; [exists x; congruence|]. split; [congruence|]. split.
        -- intros a Ha. destruct (A4 a) as [B1 B2]; [rewrite H1; lia|]. split; [now right|auto].
        -- exists (q0 ++ q). rewrite A5, H6. now rewrite app_assoc.
    + split; [auto|]. split; [apply heapGrows_refl|]. split; [auto|]. split; [intros; lia|]. exists []. now rewrite app_nil_r.
Qed.

(** * Adding a sentence *)
Lemma memAddTask_cases : forall sh s cc maxC nB mul now sh', memAddTask sh s cc maxC nB mul now = Ok sh' ->
  ((calcComplexity (s_term s) > maxC)%Z /\ sh' = sh) \/
  ((calcComplexity (s_term s) <= maxC)%Z /\ exists m r u m2, memReviseBelief (memory sh) s (nextU sh) = Ok (m, r, u) /\
     ((r = None /\ storeInConcepts (usages sh) m s nB now = Ok m2) \/ (r <> None /\ m2 = m)) /\
     sh' = addAll cc mul (setMemory m2 (setNextU u sh)) (s :: match r with Some x => [x] | None => [] end)).
Proof.
  intros sh s cc maxC nB mul now sh' H. unfold memAddTask in H.
  destruct (calcComplexity (s_term s) >? maxC)%Z eqn:E.
  - left. injection H as <-. apply Z.gtb_lt in E. split; [lia|auto].
  - right. assert (E' : (calcComplexity (s_term s) <= maxC)%Z) by (rewrite Z.gtb_ltb in E; apply Z.ltb_ge in E; auto).
    split; auto. destruct (memReviseBelief (memory sh) s (nextU sh)) as [[[m r] u]|]; [|discriminate]. cbn [rbind] in H.
    destruct r as [x|].
    + cbn [rbind] in H. injection H as <-. exists m, (Some x), u, m. split; auto. split; [right; split; [discriminate|auto]|reflexivity].
    + simpl (usages _) in H. simpl (memory (setNextU _ _)) in H.
      destruct (storeInConcepts (usages sh) m s nB now) as [m2|] eqn:S; [|discriminate].
      cbn [rbind] in H. injection H as <-. exists m, None, u, m2. split; auto.
Qed.
