(** Invariants of every interleaving. *)
From Coq Require Import ZArith Bool Lia List Permutation Sorted Relations.
From Verif Require Import Base F64_Model Sort_Proofs Term_Model Term_Spec Term_Proofs Unify_Spec
  Stamp_Model Stamp_Proofs Tv_Model Sentence_Model Sentence_Proofs Infer_Model Infer_Spec Infer_Proofs Mem_Model Mem_Spec Mem_Proofs
  Cycle_Model Cycle_Spec Cycle_Proofs Select_Proofs Task_Proofs Run_Proofs Sched_Model Sched_Spec.
Import ListNotations.

(** * Task tables with tasks in flight *)
(** [P]: built but not yet in the table; [X]: in the table but not yet indexed *)
Record tInv (maxC : Z) (sh : shared) (P X : list nat) : Prop := mkTInv {
  ti_ids : forall a, a < length (heap sh) -> tk_id (hget (heap sh) a) = (1000 + Z.of_nat a)%Z;
  ti_ctr : taskCtr sh = (1000 + Z.of_nat (length (heap sh)))%Z;
  ti_live : forall a, In a (judg sh ++ P) -> a < length (heap sh);
  ti_nodup : NoDup (judg sh ++ P);
  ti_keys : NoDup (map fst (byTerm sh));
  ti_index : forall t a, indexed sh t a -> a < length (heap sh) /\ occurs t (taskTerm sh a);
  ti_listed : forall a t, In a (judg sh) -> occurs t (taskTerm sh a) -> indexed sh t a \/ In a X;
  ti_punct : forall a, a < length (heap sh) -> s_punct (tk_s (hget (heap sh) a)) = JUGEMENT;
  ti_size : forall a, a < length (heap sh) -> (calcComplexity (taskTerm sh a) <= maxC)%Z
}.
Definition keepH (h h' : list task) : Prop :=
  length h <= length h' /\ forall a, a < length h -> tk_s (hget h' a) = tk_s (hget h a).
Lemma keepH_refl : forall h, keepH h h.
Proof. split; auto. Qed.
Lemma keepH_same : forall h h', sameTasks h h' -> keepH h h'.
Proof. intros h h' [L S]. split; [lia|]. intros a _. apply S. Qed.

Lemma tInv_frame : forall maxC sh sh' P X P' X', tInv maxC sh P X -> sameTasks (heap sh) (heap sh') ->
  (forall a, In a (judg sh' ++ P') -> In a (judg sh ++ P)) -> NoDup (judg sh' ++ P') ->
  byTerm sh' = byTerm sh -> taskCtr sh' = taskCtr sh ->
  (forall a, In a (judg sh') -> In a (judg sh) \/ In a X') -> incl X X' -> tInv maxC sh' P' X'.
Proof.
  intros maxC sh sh' P X P' X' [I1 I2 I3 I4 I5 I6 I7 I8 I9] [L S] J N B C JX XX.
  assert (T : forall a, taskTerm sh' a = taskTerm sh a) by (intros a; unfold taskTerm; now rewrite (proj1 (S a))).
  assert (E : forall t a, indexed sh' t a <-> indexed sh t a) by (intros; unfold indexed; rewrite B; reflexivity).
  constructor.
  - intros a Ha. rewrite (proj2 (S a)). apply I1. now rewrite <- L.
  - rewrite C, L. auto.
  - intros a Ha. rewrite L. auto.
  - auto.
  - rewrite B. auto.
  - intros t a H. rewrite L, T. apply I6. now apply E.
  - intros a t Ha O. rewrite E. rewrite T in O. apply JX in Ha. destruct Ha as [Ha|Ha]; [|auto].
    destruct (I7 a t Ha O); auto.
  - intros a Ha. rewrite (proj1 (S a)). apply I8. now rewrite <- L.
  - intros a Ha. rewrite T. apply I9. now rewrite <- L.
Qed.
Lemma tInv_eq : forall maxC sh sh' P X, tInv maxC sh P X -> sameTasks (heap sh) (heap sh') ->
  judg sh' = judg sh -> byTerm sh' = byTerm sh -> taskCtr sh' = taskCtr sh -> tInv maxC sh' P X.
Proof.
  intros maxC sh sh' P X T S J B C. apply (tInv_frame maxC sh sh' P X); auto using incl_refl; rewrite J; auto. apply T.
Qed.
Lemma tInv_perm : forall maxC sh P P' X X', Permutation P P' -> incl X X' -> tInv maxC sh P X -> tInv maxC sh P' X'.
Proof.
  intros maxC sh P P' X X' PP XX T. assert (Q : Permutation (judg sh ++ P) (judg sh ++ P')) by now apply Permutation_app_head.
  apply (tInv_frame maxC sh sh P X); auto using sameTasks_refl.
  - intros a Ha. apply (Permutation_in _ (Permutation_sym Q)). auto.
  - eapply Permutation_NoDup; [exact Q|]. apply T.
Qed.
Lemma tInv_index : forall maxC sh P X a s, tInv maxC sh P (a :: X) -> a < length (heap sh) -> taskTerm sh a = s_term s ->
  tInv maxC (setByTerm (populateTaskByTermLookup (byTerm sh) (s_term s) a) sh) P X.
Proof.
  intros maxC sh P X a s [I1 I2 I3 I4 I5 I6 I7 I8 I9] La Ta.
  set (sh' := setByTerm _ sh). assert (N' : NoDup (map fst (byTerm sh'))) by (apply populate_nodup; auto).
  assert (E : forall t b, indexed sh' t b <-> indexed sh t b \/ (b = a /\ occurs t (s_term s))).
  { intros t b. rewrite !indexed_iff by auto. apply populate_idx. }
  constructor; auto.
  - intros t b H. apply E in H. destruct H as [H|[-> H]]; [apply (I6 t b H)|]. split; auto.
    change (taskTerm sh' a) with (taskTerm sh a). now rewrite Ta.
  - intros b t Hb O. rewrite E. change (taskTerm sh' b) with (taskTerm sh b) in O.
    destruct (I7 b t Hb O) as [K|[<-|K]]; auto. left. right. split; auto. now rewrite <- Ta.
Qed.
Lemma tInv_alloc : forall maxC sh P X t, tInv maxC sh P X -> tk_id t = taskCtr sh -> s_punct (tk_s t) = JUGEMENT ->
  (calcComplexity (s_term (tk_s t)) <= maxC)%Z ->
  tInv maxC (setTaskCtr (taskCtr sh + 1) (setHeap (heap sh ++ [t]) sh)) (length (heap sh) :: P) X /\
  keepH (heap sh) (heap sh ++ [t]) /\ hget (heap sh ++ [t]) (length (heap sh)) = t.
Proof.
  intros maxC sh P X t [I1 I2 I3 I4 I5 I6 I7 I8 I9] Hid Hp Hc. set (n := length (heap sh)) in *.
  set (sh' := setTaskCtr _ _).
  assert (L : length (heap sh') = S n) by (unfold sh'; simpl; rewrite app_length; simpl; unfold n; lia).
  assert (Old : forall a, a < n -> hget (heap sh') a = hget (heap sh) a).
  { intros a Ha. unfold sh'. simpl. rewrite hget_app. unfold n in Ha. apply Nat.ltb_lt in Ha. now rewrite Ha. }
  assert (New : hget (heap sh') n = t).
  { unfold sh'. simpl. rewrite hget_app. unfold n. rewrite Nat.ltb_irrefl, Nat.sub_diag. reflexivity. }
  assert (TO : forall a, a < n -> taskTerm sh' a = taskTerm sh a) by (intros a Ha; unfold taskTerm; now rewrite Old).
  assert (LC : forall a, a < length (heap sh') -> a < n \/ a = n) by (intros; lia).
  split; [|split].
  - constructor.
    + intros a Ha. apply LC in Ha. destruct Ha as [Ha| ->]; [rewrite Old; auto|]. rewrite New, Hid. unfold n. auto.
    + rewrite L. unfold sh'. simpl. rewrite I2. unfold n. lia.
    + intros a Ha. change (judg sh') with (judg sh) in Ha. apply in_app_iff in Ha. destruct Ha as [Ha|[<-|Ha]]; [|lia|];
        (assert (K : a < n); [apply I3; apply in_app_iff; auto|lia]).
    + change (judg sh') with (judg sh). apply (Permutation_NoDup (Permutation_middle (judg sh) P n)). constructor; auto.
      intros K. apply I3 in K. unfold n in K. lia.
    + auto.
    + intros u a H. change (indexed sh' u a) with (indexed sh u a) in H. apply I6 in H. destruct H as [H1 H2]. fold n in H1. split; [lia|]. now rewrite TO.
    + intros a u Ha O. change (indexed sh' u a) with (indexed sh u a). apply I7; auto. rewrite <- TO; auto.
      apply I3. apply in_app_iff. auto.
    + intros a Ha. apply LC in Ha. destruct Ha as [Ha| ->]; [rewrite Old; auto|]. now rewrite New.
    + intros a Ha. apply LC in Ha. destruct Ha as [Ha| ->]; [rewrite TO; auto|]. unfold taskTerm. now rewrite New.
  - split; [rewrite app_length; lia|]. intros a Ha. f_equal. now apply Old.
  - exact New.
Qed.
Lemma tInv_rebuild : forall maxC sh P X, tInv maxC sh P X -> tInv maxC (rebuildIndex sh) P X.
Proof.
  intros maxC sh P X [I1 I2 I3 I4 I5 I6 I7 I8 I9]. constructor; auto.
  - apply rebuild_keys.
  - intros t a H. apply rebuild_idx in H. destruct H. split; [apply I3; apply in_app_iff; auto|auto].
  - intros a t Ha O. left. apply rebuild_idx. auto.
Qed.
Lemma tInv_flush : forall maxC sh P X, tInv maxC sh P X -> tInv maxC (flushTasks sh) P X.
Proof.
  intros maxC sh P X [I1 I2 I3 I4 I5 I6 I7 I8 I9]. constructor; auto.
  - intros a Ha. apply I3. apply in_app_iff. right. exact Ha.
  - simpl. clear - I4. induction (judg sh); auto. apply IHl. simpl in I4. now inversion I4.
  - apply NoDup_nil.
  - intros t a (l & [] & _).
  - intros a t [].
Qed.
Lemma nodup_sub_app : forall (j j' P : list nat), NoDup (j ++ P) -> NoDup j' -> incl j' j -> NoDup (j' ++ P).
Proof.
  intros j j' P N N' I. assert (NP : NoDup P) by (clear - N; induction j; auto; apply IHj; simpl in N; now inversion N).
  induction j' as [|a j' IH]; simpl; auto. inversion N' as [|? ? H1 H2]; subst.
  constructor; [|apply IH; auto; intros x Hx; apply I; now right].
  intros K. apply in_app_iff in K. destruct K as [K|K]; [contradiction|].
  assert (Ha : In a j) by (apply I; now left). apply in_split in Ha. destruct Ha as (l1 & l2 & ->).
  rewrite <- app_assoc in N. simpl in N. apply NoDup_remove_2 in N. apply N. rewrite !in_app_iff. auto.
Qed.
Lemma nodup_app_l : forall (j P : list nat), NoDup (j ++ P) -> NoDup j.
Proof.
  induction j as [|a j IH]; intros P N; [constructor|]. simpl in N. inversion N; subst. constructor; [|eauto].
  intros K. apply H1. apply in_app_iff. auto.
Qed.
(** removal of tasks from the table *)
Lemma tInv_shrink : forall maxC sh P X j, tInv maxC sh P X -> NoDup j -> incl j (judg sh) -> tInv maxC (setJudg j sh) P X.
Proof.
  intros maxC sh P X j T N I. apply (tInv_frame maxC sh _ P X); auto using sameTasks_refl, incl_refl.
  - simpl. intros a. rewrite !in_app_iff. intros [K|K]; auto.
  - simpl. apply (nodup_sub_app (judg sh)); auto. apply T.
Qed.

(** * Sentences *)
Section Sched.
  Variables (G : sentence -> Prop) (maxC : Z) (n : nat).
  Hypothesis CL : closed G.

  Let B := beliefsAny G maxC n.
  Definition good (z : sentence) : Prop := (s_punct z = JUGEMENT -> G z) /\ (calcComplexity (s_term z) <= maxC)%Z.
  Definition argOk (x : addArgs) : Prop := good (ar_s x) /\ 1 <= ar_n x <= n.
  Record shInv (sh : shared) (P X : list nat) : Prop := mkShInv {
    si_t : tInv maxC sh P X;
    si_heap : forall a, a < length (heap sh) -> G (tk_s (hget (heap sh) a));
    si_mem : memInv B (memory sh)
  }.
  Lemma shInv_frame : forall sh sh' P X P' X', shInv sh P X -> tInv maxC sh' P' X' -> sameTasks (heap sh) (heap sh') ->
    memory sh' = memory sh -> shInv sh' P' X'.
  Proof.
    intros sh sh' P X P' X' [T H M] T' [L S] E. constructor; auto.
    - intros a Ha. rewrite (proj1 (S a)). apply H. now rewrite <- L.
    - now rewrite E.
  Qed.
  Lemma shInv_eq : forall sh sh' P X, shInv sh P X -> sameTasks (heap sh) (heap sh') ->
    judg sh' = judg sh -> byTerm sh' = byTerm sh -> taskCtr sh' = taskCtr sh -> memory sh' = memory sh -> shInv sh' P X.
  Proof. intros sh sh' P X I S J Bt C M. apply (shInv_frame sh sh' P X P X I); auto. apply (tInv_eq maxC sh); auto. apply I. Qed.

  (** * Memory *)
  Lemma reviseConcept_inv : forall s m r u t m' r' u', memInv B m -> G s -> s_punct s = JUGEMENT ->
    reviseConcept s (m, r, u) t = Ok (m', r', u') ->
    memInv B m' /\ (r' = r \/ exists nb, r' = Some nb /\ good nb).
  Proof.
    intros s m r u t m' r' u' [OK HB] Gs P H. assert (H' := H). apply reviseConcept_spec in H.
    destruct H as (K & _ & F & [(Gn & -> & -> & _)|(c & e & x & oe & ox & Gc & E1 & E2 & Gc' & Er & _)]); [split; [split|]; auto|].
    assert (Hc := mget_in _ _ _ _ Gc). assert (Bc := HB _ _ Hc). destruct Bc as [B1 B2 B3].
    assert (R1 := revised_of _ _ _ _ _ E1). assert (R2 := revised_of _ _ _ _ _ E2).
    assert (Q : forall l l', revisedTable s l l' -> (forall b, In b l -> In b (byExp c) \/ In b (byUsage c)) ->
        forall b, In b l' -> G b /\ s_punct b = JUGEMENT /\ occurs (c_name c) (s_term b) /\ (calcComplexity (s_term b) <= maxC)%Z).
    { intros l l' R Hl. apply (revised_all _ _ _ R).
      - intros b nb (Q1 & Q2 & Q3 & Q4) Rb I.
        assert (Gn : G nb) by (apply (cl_revise _ CL s b); auto).
        destruct I as (va & vs & _ & _ & _ & _ & Et & _ & Ep & _). rewrite Ep, Et, <- (proj1 Rb). auto.
      - intros b Hb. auto. }
    assert (Qe := Q _ _ R1 (fun b Hb => or_introl Hb)). assert (Qx := Q _ _ R2 (fun b Hb => or_intror Hb)).
    assert (L1 := revised_length _ _ _ R1). assert (L2 := revised_length _ _ _ R2).
    assert (N' : NoDup (map fst m')) by (rewrite K; apply OK).
    assert (C' : forall t' c', holds m' t' c' -> holds m t' c' \/ (t' = t /\ c' = mkConcept (c_name c) e x)).
    { intros t' c' Hc'. apply in_mget in Hc'; auto. destruct (term_eq_dec t' t) as [->|Hn].
      - right. split; auto. congruence.
      - left. rewrite F in Hc' by auto. now apply mget_in. }
    split.
    - split.
      + split; auto. intros t' c' Hc'. apply C' in Hc'. destruct Hc' as [Hc'|[-> ->]]; [now apply OK|]. simpl. now apply OK.
      + intros t' c' Hc'. apply C' in Hc'. destruct Hc' as [Hc'|[-> ->]]; [eauto|]. constructor; simpl; try lia.
        intros b [Hb|Hb]; [now apply Qe|now apply Qx].
    - apply reviseTable_spec in E1, E2. rewrite Er. destruct ox as [nb|]; [|destruct oe as [nb|]]; simpl; [| |auto]; right; exists nb; split; auto.
      + destruct E2 as [E2 _]. apply replaced_has in E2. destruct (Qx _ E2) as (Q1 & _ & _ & Q2). split; auto.
      + destruct E1 as [E1 _]. apply replaced_has in E1. destruct (Qe _ E1) as (Q1 & _ & _ & Q2). split; auto.
  Qed.
  Lemma store_any : forall us m s now k m', 1 <= k <= n -> memInv B m -> good s ->
    storeInConcepts us m s k now = Ok m' -> memInv B m'.
  Proof.
    intros us m s now k m' Hk HM [Gs Cs] H. unfold storeInConcepts in H. apply store2_cases in H. destruct H as [[_ ->]|[J H]]; [auto|].
    specialize (Gs J).
    apply (store_fold_inv2 k B (fun _ _ x => x = s)) with (us := us) (now := now) (s := s) (ts := retSubterms (s_term s)) (m := m);
      [| |reflexivity|exact J|intros t; apply retSubterms_iff|exact HM|exact H].
    - intros us' now' t s' -> _ O. constructor; simpl; try lia. intros b [[<-|[]]|[<-|[]]]; auto.
    - intros us' now' t s' c e u -> _ O Hn [B1 B2 B3] E U. constructor; simpl.
      + eapply storeTable_len2; eauto; lia.
      + eapply storeTable_len2; eauto; lia.
      + intros b [Hb|Hb]; [apply (storeTable_in _ _ _ _ _ _ E) in Hb|apply (storeTable_in _ _ _ _ _ _ U) in Hb];
          (destruct Hb as [Hb| ->]; [rewrite <- Hn; apply B3; auto|auto]).
  Qed.

  (** * Adding a sentence *)
  Definition phOk (h : list task) (x : addArgs) (f : phase) : Prop :=
    match f with
    | FRevise ts r => (ts = [] \/ s_punct (ar_s x) = JUGEMENT) /\ (forall nb, r = Some nb -> good nb)
    | FStore => True
    | FCheck l => Forall good l
    | FPush s l a | FIndex s l a => a < length h /\ tk_s (hget h a) = s /\ Forall good l
    end.
  Definition opt {A} (g : A -> list nat) (o : option A) : list nat := match o with Some f => g f | None => [] end.
  Lemma phOk_keep : forall h h' x f, keepH h h' -> phOk h x f -> phOk h' x f.
  Proof.
    intros h h' x f [L K] H. destruct f as [ts r| |l|s l a|s l a]; simpl in *; auto;
      destruct H as (H1 & H2 & H3); (split; [lia|]; split; [rewrite K; auto|auto]).
  Qed.
  Lemma startAdd_ok : forall x f h, (s_punct (ar_s x) = JUGEMENT -> G (ar_s x)) -> startAdd maxC x = Some f ->
    good (ar_s x) /\ phOk h x f /\ unpushed f = [] /\ unindexed f = [].
  Proof.
    intros x f h Gx H. unfold startAdd in H. destruct (calcComplexity (s_term (ar_s x)) >? maxC)%Z eqn:E; [discriminate|].
    injection H as <-. rewrite Z.gtb_ltb in E. apply Z.ltb_ge in E. split; [split; auto|]. split; [|auto].
    simpl. split; [|discriminate]. destruct (s_punct (ar_s x)); auto.
  Qed.
  Lemma addStep_ok : forall x f sh sh' o P X, argOk x -> phOk (heap sh) x f ->
    shInv sh (unpushed f ++ P) (unindexed f ++ X) -> addStep x f sh = Ok (sh', o) ->
    shInv sh' (opt unpushed o ++ P) (opt unindexed o ++ X) /\ keepH (heap sh) (heap sh') /\
    (forall f', o = Some f' -> phOk (heap sh') x f').
  Proof.
    intros x f sh sh' o P X [[Gx Cx] Nx] Hf I H. destruct f as [[|t ts] [nb|]| |[|s l]|s l a|s l a]; cbn [addStep] in H.
    - injection H as <- <-. split; [exact I|]. split; [apply keepH_refl|]. intros f' [= <-]. simpl. simpl in Hf.
      repeat constructor; auto; apply Hf; auto.
    - injection H as <- <-. split; [exact I|]. split; [apply keepH_refl|]. intros f' [= <-]. exact Logic.I.
    - destruct (reviseConcept (ar_s x) (memory sh, Some nb, nextU sh) t) as [[[m r'] u]|] eqn:E; [|discriminate]. cbn [rbind] in H. injection H as <- <-.
      simpl in Hf. destruct Hf as [[K|J] Hr]; [discriminate|]. destruct I as [T Hh M].
      destruct (reviseConcept_inv _ _ _ _ _ _ _ _ M (Gx J) J E) as [M' R']. simpl. split; [|split; [apply keepH_refl|]].
      + constructor; auto. apply (tInv_eq maxC sh); auto using sameTasks_refl.
      + intros f' [= <-]. simpl. split; auto. intros z Hz. destruct R' as [->|(z' & -> & Gz)]; auto. now injection Hz as <-.
    - destruct (reviseConcept (ar_s x) (memory sh, None, nextU sh) t) as [[[m r'] u]|] eqn:E; [|discriminate]. cbn [rbind] in H. injection H as <- <-.
      simpl in Hf. destruct Hf as [[K|J] Hr]; [discriminate|]. destruct I as [T Hh M].
      destruct (reviseConcept_inv _ _ _ _ _ _ _ _ M (Gx J) J E) as [M' R']. simpl. split; [|split; [apply keepH_refl|]].
      + constructor; auto. apply (tInv_eq maxC sh); auto using sameTasks_refl.
      + intros f' [= <-]. simpl. split; auto. intros z Hz. destruct R' as [->|(z' & -> & Gz)]; auto. now injection Hz as <-.
    - destruct (storeInConcepts (usages sh) (memory sh) (ar_s x) (ar_n x) (ar_now x)) as [m|] eqn:E; [|discriminate]. cbn [rbind] in H. injection H as <- <-.
      destruct I as [T Hh M]. split; [|split; [apply keepH_refl|]].
      + constructor; auto; [apply (tInv_eq maxC sh); auto using sameTasks_refl|]. simpl. eapply store_any; eauto. split; auto.
      + intros f' [= <-]. simpl. constructor; [split; auto|constructor].
    - injection H as <- <-. split; [exact I|]. split; [apply keepH_refl|]. discriminate.
    - simpl in Hf. inversion Hf as [|? ? [Gs Cs] Hl]; subst. destruct (s_punct s) eqn:J.
      + destruct (taskExists sh s); [injection H as <- <-; split; [exact I|]; split; [apply keepH_refl|discriminate]|].
        set (t := newTask sh s (ar_cc x) (ar_mul x)) in H. assert (Et : tk_s t = s /\ tk_id t = taskCtr sh).
        { unfold t, newTask. rewrite shallow_id. destruct (ar_cc x); auto. }
        destruct Et as [Et Ei]. clearbody t. injection H as <- <-. destruct I as [T Hh M].
        destruct (tInv_alloc maxC sh P X t) as (T' & K & Nw); auto; try (rewrite Et; auto).
        split; [|split; [exact K|]].
        * constructor; auto. simpl. intros a Ha. rewrite app_length in Ha. simpl in Ha.
          destruct (Nat.eq_dec a (length (heap sh))) as [->|Ne]; [rewrite Nw, Et; auto|].
          rewrite (proj2 K) by lia. apply Hh. lia.
        * intros f' [= <-]. simpl. rewrite app_length. simpl. split; [lia|]. split; [now rewrite Nw|auto].
      + injection H as <- <-. split; [|split; [apply keepH_refl|intros f' [= <-]; exact Hl]].
        apply (shInv_eq sh); auto using sameTasks_refl.
      + injection H as <- <-. split; [exact I|]. split; [apply keepH_refl|intros f' [= <-]; exact Hl].
    - injection H as <- <-. split; [|split; [apply keepH_refl|intros f' [= <-]; exact Hf]].
      assert (T := si_t _ _ _ I). apply (shInv_frame sh _ (unpushed (FPush s l a) ++ P) (unindexed (FPush s l a) ++ X)); auto using sameTasks_refl.
      simpl in *. assert (Q : Permutation (judg sh ++ a :: P) ((judg sh ++ [a]) ++ P)) by (rewrite <- app_assoc; reflexivity).
      apply (tInv_frame maxC sh _ (a :: P) X); simpl; auto using sameTasks_refl.
      + intros b Hb. apply (Permutation_in _ (Permutation_sym Q)). auto.
      + eapply Permutation_NoDup; [exact Q|apply T].
      + intros b Hb. apply in_app_iff in Hb. destruct Hb as [Hb|[<-|[]]]; auto.
      + intros b Hb. now right.
    - injection H as <- <-. simpl in Hf, I. destruct Hf as (La & Ta & Hl).
      split; [|split; [apply keepH_refl|intros f' [= <-]; exact Hl]].
      apply (shInv_frame sh _ P (a :: X)); auto using sameTasks_refl.
      apply tInv_index; auto; [apply I|]. unfold taskTerm. now rewrite Ta.
  Qed.

  (** * Answers *)
  Definition ansOk (ans : list answer) : Prop :=
    forall q s, In (q, s) ans -> instanceOf (s_term s) q /\ s_punct s = JUGEMENT /\ (isTemporal q = false -> G s).
  Lemma ansOk_nil : ansOk [].
  Proof. intros q s []. Qed.
  Lemma ansOk_app : forall a b, ansOk a -> ansOk b -> ansOk (a ++ b).
  Proof. intros a b A Bb q s H. apply in_app_iff in H. destruct H; auto. Qed.
  Lemma tryAnswer_ok : forall q c q' ans, (isTemporal (s_term (q_s q)) = false -> s_punct c = JUGEMENT -> G c) ->
    qaTryAnswer q c = Ok (q', ans) -> ansOk ans /\ q_s q' = q_s q.
  Proof.
    intros q c q' ans Gc H. apply qaTryAnswer_spec in H. destruct H as (E & _ & _ & [(-> & _)|(-> & J & I & _)]); split; auto.
    - apply ansOk_nil.
    - intros q0 s [[= <- <-]|[]]. auto.
  Qed.
  Lemma tryAll_ok : forall cs q q' ans, (isTemporal (s_term (q_s q)) = false -> forall c, In c cs -> s_punct c = JUGEMENT -> G c) ->
    qaTryAll q cs = Ok (q', ans) -> ansOk ans /\ q_s q' = q_s q.
  Proof.
    intros cs q q' ans Gc H. unfold qaTryAll in H. assert (A := ansOk_nil). revert A H. generalize (@nil answer) as acc. revert q Gc.
    induction cs as [|c cs IH]; intros q Gc acc A H; cbn [rfold] in H; [injection H as <- <-; auto|].
    cbn [fst snd] in H. destruct (qaTryAnswer q c) as [[q1 a1]|] eqn:E; [|discriminate]. cbn [rbind fst snd] in H.
    apply tryAnswer_ok in E; [|intros T J; apply Gc; auto; now left]. destruct E as [A1 E1].
    apply IH in H; [|rewrite E1; intros T c' Hc' J; apply Gc; auto; now right|now apply ansOk_app].
    destruct H as [H1 H2]. split; [auto|congruence].
  Qed.
  Lemma tryQuestions_ok : forall c qs qs' ans, (s_punct c = JUGEMENT -> G c) ->
    qaTryQuestions qs c = Ok (qs', ans) -> ansOk ans.
  Proof.
    intros c qs qs' ans Gc H. unfold qaTryQuestions in H.
    assert (Gn : forall qs qacc acc, ansOk acc ->
      rfold (fun st q => do r <- qaTryAnswer q c; Ok (fst st ++ [fst r], snd st ++ snd r)) qs (qacc, acc) = Ok (qs', ans) -> ansOk ans).
    { clear H qs. induction qs as [|q qs IH]; intros qacc acc A H; cbn [rfold] in H; [injection H as <- <-; auto|].
      cbn [fst snd] in H. destruct (qaTryAnswer q c) as [[q1 a1]|] eqn:E; [|discriminate]. cbn [rbind fst snd] in H.
      apply tryAnswer_ok in E; [|auto]. destruct E as [A1 E1]. apply IH in H; auto. now apply ansOk_app. }
    eapply Gn; [apply ansOk_nil|exact H].
  Qed.

  (** * The cycle *)
  Definition msgIn (h : list task) (m : workMsg) : Prop :=
    forall a, a = primary m \/ In a (secondary m) -> a < length h.
  Definition cyOk (h : list task) (p : cphase) : Prop :=
    match p with
    | YCollect a ts acc => a < length h /\ forall b, In b acc -> b < length h
    | YTouch m | YSend m => msgIn h m
    | _ => True
    end.
  Lemma cyOk_keep : forall h h' p, keepH h h' -> cyOk h p -> cyOk h' p.
  Proof.
    intros h h' p [L _] H. destruct p; simpl in *; auto; try (intros b Hb; apply H in Hb; lia).
    destruct H as [H1 H2]. split; [lia|]. intros b Hb. apply H2 in Hb. lia.
  Qed.
  Definition quOk (h : list task) (qu : list workMsg) : Prop := length qu <= 4 /\ forall m, In m qu -> msgIn h m.
  Lemma quOk_keep : forall h h' qu, keepH h h' -> quOk h qu -> quOk h' qu.
  Proof. intros h h' qu [L _] [H1 H2]. split; auto. intros m Hm a Ha. apply (H2 m Hm) in Ha. lia. Qed.
  Lemma cycStep_ok : forall y p sh qu sh' qu' ans o P X, cyOk (heap sh) p -> shInv sh P X -> quOk (heap sh) qu ->
    cycStep y p sh qu = Ok (Some (sh', qu', ans, o)) ->
    shInv sh' P X /\ keepH (heap sh) (heap sh') /\ quOk (heap sh') qu' /\ ansOk ans /\ (forall p', o = Some p' -> cyOk (heap sh') p').
  Proof.
    intros y p sh qu sh' qu' ans o P X Hp I Q H.
    destruct p as [| | |i [|t ts]| | |a [|t ts] acc|m|m| | | | |]; cbn [cycStep] in H.
    - assert (K := transfer_same sh). set (s1 := transferCredits sh) in *. assert (I1 : shInv s1 P X) by (apply (shInv_eq sh); auto).
      clearbody s1. injection H as <- <- <- <-. split; [auto|]. split; [now apply keepH_same|].
      split; [exact (quOk_keep _ _ _ (keepH_same _ _ K) Q)|]. split; [apply ansOk_nil|]. intros p' [= <-]. exact Logic.I.
    - assert (K := base_same sh). set (s1 := baseCredits sh) in *. assert (I1 : shInv s1 P X) by (apply (shInv_eq sh); auto).
      clearbody s1. injection H as <- <- <- <-. split; [auto|]. split; [now apply keepH_same|].
      split; [exact (quOk_keep _ _ _ (keepH_same _ _ K) Q)|]. split; [apply ansOk_nil|]. intros p' [= <-]. exact Logic.I.
    - destruct (questions sh) as [|q0 qs0].
      + injection H as <- <- <- <-. split; [auto|]. split; [apply keepH_refl|]. split; [auto|]. split; [apply ansOk_nil|]. intros p' [= <-]. exact Logic.I.
      + destruct (task2SelByCreditRandom _ _) as [i|]; [|discriminate]. cbn [rbind] in H. destruct (idx _ i) as [q|]; [|discriminate]. cbn [rbind] in H.
        injection H as <- <- <- <-. split; [auto|]. split; [apply keepH_refl|]. split; [auto|]. split; [apply ansOk_nil|]. intros p' [= <-]. exact Logic.I.
    - injection H as <- <- <- <-. split; [auto|]. split; [apply keepH_refl|]. split; [auto|]. split; [apply ansOk_nil|]. intros p' [= <-]. exact Logic.I.
    - destruct (idx (questions sh) i) as [q|]; [|discriminate]. cbn [rbind] in H.
      set (m := if isTemporal _ then _ else _) in H. set (cs := match ret_beliefs_of_concept m t with Some l => l | None => [] end) in H.
      destruct (qaTryAll q cs) as [[q' a]|] eqn:E; [|discriminate]. cbn [rbind fst snd] in H.
      injection H as <- <- <- <-. split; [apply (shInv_eq sh); auto using sameTasks_refl|]. split; [apply keepH_refl|]. split; [auto|].
      split; [|intros p' [= <-]; exact Logic.I].
      apply tryAll_ok in E; [apply E|]. intros Te c Hc _. unfold cs, m in Hc. rewrite Te in Hc. unfold ret_beliefs_of_concept in Hc.
      destruct (mget t (memory sh)) as [cn|] eqn:Gm; [|destruct Hc]. apply mget_in in Gm.
      apply in_app_iff in Hc. apply (ba_all _ _ _ _ (proj2 (si_mem _ _ _ I) _ _ Gm)). auto.
    - injection H as <- <- <- <-. split; [auto|]. split; [apply keepH_refl|]. split; [auto|]. split; [apply ansOk_nil|].
      intros p' [= <-]. destruct (judg sh); exact Logic.I.
    - set (i := taskSelByCreditTop _ _ _) in H. destruct (idx (judg sh) i) as [a|] eqn:E; [|discriminate]. cbn [rbind] in H.
      assert (Hn : nth_error (judg sh) i = Some a).
      { unfold idx in E. destruct (nth_error (judg sh) i); [injection E as ->; auto|discriminate]. }
      injection H as <- <- <- <-. assert (T := si_t _ _ _ I). destruct (swap_remove_sub _ _ _ _ Hn (nodup_app_l _ _ (ti_nodup _ _ _ _ T))) as [N S].
      split; [|split; [apply keepH_refl|]; split; [auto|]; split; [apply ansOk_nil|]].
      + apply (shInv_frame sh _ P X); auto using sameTasks_refl. apply tInv_shrink; auto. intros b Hb. now apply S.
      + intros p' [= <-]. simpl. split; [|intros b []]. apply (ti_live _ _ _ _ T). apply in_app_iff. left. eapply nth_error_In; eauto.
    - injection H as <- <- <- <-. split; [auto|]. split; [apply keepH_refl|]. split; [auto|]. split; [apply ansOk_nil|].
      intros p' [= <-]. simpl. intros b [->|Hb]; [exact (proj1 Hp)|]. simpl in Hb. unfold limitSecondary in Hb. apply firstn_in in Hb. rewrite sort_in in Hb. now apply (proj2 Hp).
    - injection H as <- <- <- <-. split; [auto|]. split; [apply keepH_refl|]. split; [auto|]. split; [apply ansOk_nil|].
      intros p' [= <-]. simpl. split; [exact (proj1 Hp)|]. intros b Hb. destruct (mget t (byTerm sh)) as [l|] eqn:E; [|now apply (proj2 Hp)].
      apply collect_in in Hb. destruct Hb as [Hb|Hb]; [now apply (proj2 Hp)|]. assert (T := si_t _ _ _ I).
      apply (ti_index _ _ _ _ T t). exists l. split; [now apply mget_in|auto].
    - assert (K : heap (touchAll (Some m) (cy_now y) sh) = heap sh) by reflexivity.
      assert (I1 : shInv (touchAll (Some m) (cy_now y) sh) P X) by (apply (shInv_eq sh); auto using sameTasks_refl).
      set (s1 := touchAll _ _ sh) in *. clearbody s1. injection H as <- <- <- <-. rewrite K. split; [auto|]. split; [apply keepH_refl|]. split; [auto|].
      split; [apply ansOk_nil|]. intros p' [= <-]. exact Hp.
    - destruct (length qu <? 4) eqn:E; [|discriminate]. apply Nat.ltb_lt in E. injection H as <- <- <- <-.
      split; [auto|]. split; [apply keepH_refl|]. split; [|split; [apply ansOk_nil|intros p' [= <-]; exact Logic.I]].
      destruct Q as [Q1 Q2]. split; [rewrite app_length; simpl; lia|]. intros m' Hm'. apply in_app_iff in Hm'. destruct Hm' as [Hm'|[<-|[]]]; auto.
    - injection H as <- <- <- <-. split; [auto|]. split; [apply keepH_refl|]. split; [auto|]. split; [apply ansOk_nil|].
      intros p' [= <-]. destruct (Z.rem (cycleCtr sh) 111 =? 0)%Z; exact Logic.I.
    - destruct (limitTasks (cy_exp y) sh) as [s1|] eqn:E; [|discriminate]. cbn [rbind] in H. injection H as <- <- <- <-.
      apply limitTasks_ok in E. destruct E as (kept & -> & Lk & Nk & Ik & _). assert (T := si_t _ _ _ I).
      split; [|split; [apply keepH_refl|]; split; [auto|]; split; [apply ansOk_nil|intros p' [= <-]; exact Logic.I]].
      apply (shInv_frame sh _ P X); auto using sameTasks_refl. apply tInv_shrink; auto. apply Nk. apply (nodup_app_l _ _ (ti_nodup _ _ _ _ T)).
    - injection H as <- <- <- <-. split; [auto|]. split; [apply keepH_refl|]. split; [auto|]. split; [apply ansOk_nil|].
      intros p' [= <-]. destruct (Z.rem (cycleCtr sh) 111 =? 0)%Z; exact Logic.I.
    - assert (I1 : shInv (rebuildIndex sh) P X).
      { apply (shInv_frame sh _ P X); auto using sameTasks_refl. apply tInv_rebuild. apply I. }
      assert (K : heap (rebuildIndex sh) = heap sh) by reflexivity.
      set (s1 := rebuildIndex sh) in *. clearbody s1. injection H as <- <- <- <-. rewrite K. split; [auto|]. split; [apply keepH_refl|]. split; [auto|].
      split; [apply ansOk_nil|]. intros p' [= <-]. exact Logic.I.
    - unfold maintainConcepts in H. destruct (Z.rem (cycleCtr sh) 173 =? 0)%Z.
      + destruct (limitMemory (memory sh) 3000) as [m|] eqn:E; [|discriminate]. cbn [rbind] in H. injection H as <- <- <- <-.
        split; [|split; [apply keepH_refl|]; split; [auto|]; split; [apply ansOk_nil|discriminate]].
        destruct I as [T Hh M]. constructor; auto; [apply (tInv_eq maxC sh); auto using sameTasks_refl|]. eapply memInv_limit; eauto.
      + cbn [rbind] in H. injection H as <- <- <- <-. split; [auto|]. split; [apply keepH_refl|]. split; [auto|]. split; [apply ansOk_nil|discriminate].
  Qed.

  (** * The worker *)
  Lemma infer_any : forall p l st st', G p -> s_punct p = JUGEMENT -> (forall s, In s l -> G s /\ s_punct s = JUGEMENT) ->
    Forall (fun c => G (fst c)) (fst st) -> inferAll p l st = Ok st' -> Forall (fun c => G (fst c)) (fst st').
  Proof. apply inferAll_ok. exact CL. Qed.
  Lemma derive_any : forall sh P X msg d, shInv sh P X -> msgIn (heap sh) msg -> derive sh msg = Ok d -> Forall (fun c => G (fst c)) (fst d).
  Proof.
    intros sh P X msg d [T Hh M] MI H. assert (MP : primary msg < length (heap sh)) by (apply MI; auto).
    assert (MS : forall a, In a (secondary msg) -> a < length (heap sh)) by (intros a Ha; apply MI; auto). unfold derive in H.
    set (p := tk_s (hget (heap sh) (primary msg))) in *.
    assert (Gp : G p) by (apply Hh; auto). assert (Jp : s_punct p = JUGEMENT) by (apply (ti_punct _ _ _ _ T); auto).
    destruct (infSinglePremise2 p (nextU sh)) as [single|] eqn:E0; [|discriminate]. cbn [rbind] in H.
    assert (F0 := cl_single _ CL _ _ _ Gp Jp E0).
    assert (Gs : forall l s, incl l (secondary msg) -> In s (map (fun a => tk_s (hget (heap sh) a)) l) -> G s /\ s_punct s = JUGEMENT).
    { intros l s Hl Hs. apply in_map_iff in Hs. destruct Hs as (a & <- & Ha). apply Hl, MS in Ha. split; [auto|]. apply (ti_punct _ _ _ _ T); auto. }
    destruct (inferAll p (map _ (filter _ _)) _) as [st1|] eqn:E1; [|discriminate]. cbn [rbind] in H.
    apply infer_any in E1; auto.
    2: { intros s. apply Gs. intros a Ha. apply filter_In in Ha. destruct Ha as [Ha _]. now apply firstn_in in Ha. }
    destruct (inferAll p (map _ (secondary msg)) st1) as [st2|] eqn:E2; [|discriminate]. cbn [rbind] in H.
    apply infer_any in E2; auto. 2: { intros s. apply Gs. apply incl_refl. }
    destruct (mget (s_term p) (memory sh)) as [c|] eqn:C; [|injection H as <-; auto].
    assert (Bc := proj2 M _ _ (mget_in _ _ _ _ C)).
    destruct (inferAll p (byExp c) st2) as [st3|] eqn:E3; [|discriminate]. cbn [rbind] in H.
    apply infer_any in E3; auto. 2: { intros s Hs. destruct (ba_all _ _ _ _ Bc s) as (Q1 & Q2 & _); auto. }
    apply infer_any in H; auto. intros s Hs. destruct (ba_all _ _ _ _ Bc s) as (Q1 & Q2 & _); auto.
  Qed.
  Definition wkOk (h : list task) (p : wphase) : Prop :=
    match p with
    | WIdle => True
    | WDerive m => msgIn h m
    | WAnswer m cs todo => Forall (fun c => G (fst c)) cs /\ Forall G todo
    | WAdd m cs => Forall (fun c => G (fst c)) cs
    | WAdding m x f cs => argOk x /\ phOk h x f /\ Forall (fun c => G (fst c)) cs
    end.
  Lemma wkOk_keep : forall h h' p, keepH h h' -> wkOk h p -> wkOk h' p.
  Proof.
    intros h h' p K H. destruct p; simpl in *; auto.
    - intros a Ha. apply H in Ha. destruct K. lia.
    - destruct H as (H1 & H2 & H3). split; [auto|]. split; [eapply phOk_keep; eauto|auto].
  Qed.
  Lemma workStep_ok : forall k p sh qu sh' qu' ans p' P X, 1 <= k <= n -> wkOk (heap sh) p ->
    shInv sh (workOf unpushed p ++ P) (workOf unindexed p ++ X) -> quOk (heap sh) qu ->
    workStep maxC k p sh qu = Ok (Some (sh', qu', ans, p')) ->
    shInv sh' (workOf unpushed p' ++ P) (workOf unindexed p' ++ X) /\ keepH (heap sh) (heap sh') /\
    quOk (heap sh') qu' /\ ansOk ans /\ wkOk (heap sh') p'.
  Proof.
    intros k p sh qu sh' qu' ans p' P X Hk Hp I Q H. destruct p as [|m|m cs [|c todo]|m [|c cs]|m x f cs]; cbn [workStep] in H.
    - destruct qu as [|m qu1]; [discriminate|]. injection H as <- <- <- <-. split; [exact I|]. split; [apply keepH_refl|].
      destruct Q as [Q1 Q2]. split; [split; [simpl in Q1; lia|intros m' Hm'; apply Q2; now right]|].
      split; [apply ansOk_nil|]. simpl. apply Q2. now left.
    - destruct (derive sh m) as [d|] eqn:E; [|discriminate]. cbn [rbind] in H. injection H as <- <- <- <-.
      split; [apply (shInv_eq sh); auto using sameTasks_refl|]. split; [apply keepH_refl|]. split; [auto|]. split; [apply ansOk_nil|].
      assert (F := derive_any _ _ _ _ _ I Hp E). simpl. split; auto.
      apply Forall_forall. intros s Hs. apply in_map_iff in Hs. destruct Hs as (c & <- & Hc). rewrite Forall_forall in F. auto.
    - injection H as <- <- <- <-. split; [exact I|]. split; [apply keepH_refl|]. split; [auto|]. split; [apply ansOk_nil|]. apply Hp.
    - destruct Hp as [Hc Ht]. inversion Ht as [|? ? Gc Ht']; subst. destruct (punct_eqb (s_punct c) JUGEMENT).
      + destruct (qaTryQuestions (questions sh) c) as [r|] eqn:E; [|discriminate]. cbn [rbind] in H. injection H as <- <- <- <-.
        split; [apply (shInv_eq sh); auto using sameTasks_refl|]. split; [apply keepH_refl|]. split; [auto|].
        split; [destruct r; eapply tryQuestions_ok; eauto|]. split; auto.
      + injection H as <- <- <- <-. split; [exact I|]. split; [apply keepH_refl|]. split; [auto|]. split; [apply ansOk_nil|]. split; auto.
    - injection H as <- <- <- <-. split; [exact I|]. split; [apply keepH_refl|]. split; [auto|]. split; [apply ansOk_nil|]. exact Logic.I.
    - inversion Hp as [|? ? Gc Hc]; subst. set (x := mkAddArgs _ _ _ _ _) in H. injection H as <- <- <- <-.
      destruct (startAdd maxC x) as [f|] eqn:E.
      + destruct (startAdd_ok x f (heap sh) (fun _ => Gc) E) as (Gx & Hf & U1 & U2). simpl. rewrite U1, U2.
        split; [exact I|]. split; [apply keepH_refl|]. split; [auto|]. split; [apply ansOk_nil|]. split; [split; auto|auto].
      + split; [exact I|]. split; [apply keepH_refl|]. split; [auto|]. split; [apply ansOk_nil|]. exact Hc.
    - destruct Hp as (Hx & Hf & Hc). destruct (addStep x f sh) as [[s1 o]|] eqn:E; [|discriminate]. cbn [rbind fst snd] in H.
      injection H as <- <- <- <-. simpl in I. destruct (addStep_ok _ _ _ _ _ _ _ Hx Hf I E) as (I' & K & Hf').
      destruct o as [f'|]; simpl in *; (split; [exact I'|]; split; [auto|]; split; [eapply quOk_keep; eauto|]; split; [apply ansOk_nil|]; auto).
  Qed.

  (** * Clients *)
  Definition cpOk (h : list task) (p : cpc) : Prop :=
    match p with CIdle => True | CAdd x f => argOk x /\ phOk h x f | CCycle y p => cyOk h p end.
  Lemma cpOk_keep : forall h h' p, keepH h h' -> cpOk h p -> cpOk h' p.
  Proof.
    intros h h' p K H. destruct p; simpl in *; auto.
    - destruct H as (H1 & H2). split; [auto|]. eapply phOk_keep; eauto.
    - eapply cyOk_keep; eauto.
  Qed.
  Lemma cliStep_ok : forall p sh qu sh' qu' ans p' P X, cpOk (heap sh) p ->
    shInv sh (cliOf unpushed p ++ P) (cliOf unindexed p ++ X) -> quOk (heap sh) qu ->
    cliStep p sh qu = Ok (Some (sh', qu', ans, p')) ->
    shInv sh' (cliOf unpushed p' ++ P) (cliOf unindexed p' ++ X) /\ keepH (heap sh) (heap sh') /\
    quOk (heap sh') qu' /\ ansOk ans /\ cpOk (heap sh') p'.
  Proof.
    intros p sh qu sh' qu' ans p' P X Hp I Q H. destruct p as [|x f|y p]; cbn [cliStep] in H.
    - discriminate.
    - destruct Hp as (Hx & Hf). destruct (addStep x f sh) as [[s1 o]|] eqn:E; [|discriminate]. cbn [rbind fst snd] in H.
      injection H as <- <- <- <-. simpl in I. destruct (addStep_ok _ _ _ _ _ _ _ Hx Hf I E) as (I' & K & Hf').
      destruct o as [f'|]; simpl in *; (split; [exact I'|]; split; [auto|]; split; [eapply quOk_keep; eauto|]; split; [apply ansOk_nil|]; auto).
    - destruct (cycStep y p sh qu) as [[[[[s1 q1] a1] o]|]|] eqn:E; cbn [rbind] in H; [|discriminate|discriminate].
      injection H as <- <- <- <-. simpl in *. destruct (cycStep_ok _ _ _ _ _ _ _ _ _ _ Hp I Q E) as (I' & K & Q' & A & Hp').
      destruct o as [p'|]; simpl; (split; [exact I'|]; split; [auto|]; split; [auto|]; split; [auto|]; auto).
  Qed.
  Lemma opStart_ok : forall o sh sh' p P X, (forall x, o = OpAdd x -> (s_punct (ar_s x) = JUGEMENT -> G (ar_s x)) /\ 1 <= ar_n x <= n) ->
    shInv sh P X -> opStart maxC o sh = (sh', p) ->
    shInv sh' (cliOf unpushed p ++ P) (cliOf unindexed p ++ X) /\ heap sh' = heap sh /\ cpOk (heap sh') p.
  Proof.
    intros o sh sh' p P X Ho I H. destruct o as [x|q| |y]; cbn [opStart] in H.
    - destruct (Ho x eq_refl) as [Gx Nx]. destruct (startAdd maxC x) as [f|] eqn:E; injection H as <- <-; [|simpl; auto].
      destruct (startAdd_ok x f (heap sh) Gx E) as (G1 & Hf & U1 & U2). simpl. rewrite U1, U2. split; [exact I|]. split; auto. split; [split; auto|auto].
    - injection H as <- <-. split; [apply (shInv_eq sh); auto using sameTasks_refl|]. simpl. auto.
    - injection H as <- <-. split; [|simpl; auto]. apply (shInv_frame sh _ P X); auto using sameTasks_refl. apply tInv_flush. apply I.
    - injection H as <- <-. split; [apply (shInv_eq sh); auto using sameTasks_refl|]. simpl. auto.
  Qed.

  (** * The system *)
  Record sysInv (st : sys) : Prop := mkSysInv {
    sy_sh : shInv (y_sh st) (inFlight unpushed st) (inFlight unindexed st);
    sy_cl : Forall (cpOk (heap (y_sh st))) (y_clients st);
    sy_wk : wkOk (heap (y_sh st)) (y_worker st);
    sy_qu : quOk (heap (y_sh st)) (y_queue st);
    sy_log : ansOk (y_log st)
  }.
  Lemma shInv_perm : forall sh P P' X X', Permutation P P' -> incl X X' -> shInv sh P X -> shInv sh P' X'.
  Proof. intros sh P P' X X' PP XX [T H M]. constructor; auto. eapply tInv_perm; eauto. Qed.
  Lemma replace_split : forall A (l : list A) i c c', nth_error l i = Some c ->
    exists l1 l2, l = l1 ++ c :: l2 /\ replace_at i c' l = l1 ++ c' :: l2.
  Proof.
    intros A l. induction l as [|x l IH]; intros [|i] c c' H; simpl in *; try discriminate.
    - injection H as ->. exists [], l. auto.
    - destruct (IH _ _ c' H) as (l1 & l2 & -> & ->). exists (x :: l1), l2. auto.
  Qed.
  Lemma flight_split : forall g l1 c l2 w, Permutation (flat_map (cliOf g) (l1 ++ c :: l2) ++ workOf g w)
    (cliOf g c ++ (flat_map (cliOf g) (l1 ++ l2) ++ workOf g w)).
  Proof.
    intros g l1 c l2 w. rewrite !flat_map_app. simpl. rewrite <- !app_assoc. rewrite !app_assoc.
    apply Permutation_app_tail. apply Permutation_app_tail. apply Permutation_app_comm.
  Qed.
  Lemma perm_incl : forall (a b : list nat), Permutation a b -> incl a b.
  Proof. intros a b P x Hx. eapply Permutation_in; eauto. Qed.
  Lemma Forall_keep : forall h h' l, keepH h h' -> Forall (cpOk h) l -> Forall (cpOk h') l.
  Proof. intros h h' l K. apply Forall_impl. intros p. now apply cpOk_keep. Qed.

  Theorem reach_inv : forall (Inp : sentence -> Prop) wN k st, (forall s, Inp s -> s_punct s = JUGEMENT -> G s) ->
    1 <= wN <= n -> reach (choiceOk Inp n) maxC wN k st -> sysInv st /\ length (y_clients st) = k.
  Proof.
    intros Inp wN k st HI HW R. induction R as [|st c st' R [[I C W Q L] LC] Hc E|st h us pm sc nu R [[I C W Q L] LC] S].
    - split; [|apply repeat_length]. constructor; simpl.
      + assert (F : forall g, inFlight g (sysMake k) = []).
        { intros g. unfold inFlight, sysMake. simpl. rewrite app_nil_r. induction k; simpl; auto. }
        rewrite !F. constructor; simpl; [|intros; lia|split; [split; [constructor|]|]; intros t c []].
        constructor; simpl; try (intros; lia); try (intros; contradiction); try apply NoDup_nil; auto.
        intros t a (l & [] & _).
      + apply Forall_forall. intros p Hp. apply repeat_spec in Hp. subst p. exact Logic.I.
      + exact Logic.I.
      + split; [simpl; lia|intros m []].
      + apply ansOk_nil.
    - destruct c as [i o|i|]; cbn [exec] in E.
      + destruct (nth_error (y_clients st) i) as [[|x f|y p]|] eqn:Ni; try discriminate.
        destruct (opStart maxC o (y_sh st)) as [sh' p'] eqn:Es. injection E as <-.
        destruct (replace_split _ _ _ _ p' Ni) as (l1 & l2 & E1 & E2). rewrite E1 in C. apply Forall_app in C. destruct C as [C1 C2]. inversion C2 as [|? ? Cc C3]; subst.
        assert (HO : forall x, o = OpAdd x -> (s_punct (ar_s x) = JUGEMENT -> G (ar_s x)) /\ 1 <= ar_n x <= n).
        { intros x ->. simpl in Hc. destruct Hc as [H1 H2]. auto. }
        destruct (opStart_ok _ _ _ _ _ _ HO I Es) as (I' & Eh & Hp').
        split; [|simpl; now rewrite replace_at_length].
        constructor; cbn [y_sh y_clients y_worker y_queue y_log]; auto.
        * unfold inFlight in *. cbn [y_clients y_worker] in *. rewrite E1 in I'. rewrite E2. eapply shInv_perm; [| |exact I'].
          -- rewrite (flight_split unpushed l1 p' l2). apply Permutation_app_head. rewrite (flight_split unpushed l1 CIdle l2). reflexivity.
          -- apply perm_incl. rewrite (flight_split unindexed l1 p' l2). apply Permutation_app_head. rewrite (flight_split unindexed l1 CIdle l2). reflexivity.
        * rewrite E2. apply Forall_app. rewrite Eh in *. split; auto.
        * now rewrite Eh.
        * now rewrite Eh.
      + destruct (nth_error (y_clients st) i) as [p|] eqn:Ni; [|discriminate].
        destruct (cliStep p (y_sh st) (y_queue st)) as [[[[[sh' qu'] ans] p']|]|] eqn:Es; cbn [rbind] in E; [|discriminate|discriminate].
        injection E as <-. destruct (replace_split _ _ _ _ p' Ni) as (l1 & l2 & E1 & E2).
        assert (Cp : cpOk (heap (y_sh st)) p) by (rewrite Forall_forall in C; apply C; eapply nth_error_In; eauto).
        assert (Ip : shInv (y_sh st) (cliOf unpushed p ++ (flat_map (cliOf unpushed) (l1 ++ l2) ++ workOf unpushed (y_worker st)))
                       (cliOf unindexed p ++ (flat_map (cliOf unindexed) (l1 ++ l2) ++ workOf unindexed (y_worker st)))).
        { unfold inFlight in I. rewrite E1 in I. eapply shInv_perm; [| |exact I]; [|apply perm_incl]; apply flight_split. }
        destruct (cliStep_ok _ _ _ _ _ _ _ _ _ Cp Ip Q Es) as (I' & K & Q' & A & Cp').
        split; [|simpl; now rewrite replace_at_length].
        constructor; cbn [y_sh y_clients y_worker y_queue y_log]; auto.
        * unfold inFlight. cbn [y_clients y_worker]. rewrite E2. eapply shInv_perm; [| |exact I']; [|apply perm_incl]; apply Permutation_sym, flight_split.
        * rewrite E2. rewrite E1 in C. apply (Forall_keep _ _ _ K) in C. apply Forall_app in C. destruct C as [C1 C2]. inversion C2; subst.
          apply Forall_app. split; auto.
        * eapply wkOk_keep; eauto.
        * now apply ansOk_app.
      + destruct (workStep maxC wN (y_worker st) (y_sh st) (y_queue st)) as [[[[[sh' qu'] ans] p']|]|] eqn:Es; cbn [rbind] in E; [|discriminate|discriminate].
        injection E as <-.
        assert (Ip : shInv (y_sh st) (workOf unpushed (y_worker st) ++ flat_map (cliOf unpushed) (y_clients st))
                       (workOf unindexed (y_worker st) ++ flat_map (cliOf unindexed) (y_clients st))).
        { unfold inFlight in I. eapply shInv_perm; [| |exact I]; [|apply perm_incl]; apply Permutation_app_comm. }
        destruct (workStep_ok _ _ _ _ _ _ _ _ _ _ HW W Ip Q Es) as (I' & K & Q' & A & Wp').
        split; [|exact LC].
        constructor; cbn [y_sh y_clients y_worker y_queue y_log]; auto.
        * unfold inFlight. cbn [y_clients y_worker]. eapply shInv_perm; [| |exact I']; [|apply perm_incl]; apply Permutation_app_comm.
        * now apply (Forall_keep _ _ _ K).
        * now apply ansOk_app.
    - split; [|exact LC]. assert (K := keepH_same _ _ S). set (st' := mkSys _ _ _ _ _).
      constructor; unfold st'; cbn [y_sh y_clients y_worker y_queue y_log heap]; auto.
      + change (inFlight unpushed st') with (inFlight unpushed st). change (inFlight unindexed st') with (inFlight unindexed st).
        apply (shInv_eq (y_sh st)); auto.
      + now apply (Forall_keep _ _ _ K).
      + eapply wkOk_keep; eauto.
      + eapply quOk_keep; eauto.
  Qed.
End Sched.
