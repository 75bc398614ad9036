(** No step of the declarative reasoner panics. *)
From Coq Require Import ZArith Bool Lia List Permutation.
From Verif Require Import Base F64_Model Sort_Proofs Term_Model Term_Spec Term_Proofs Speak_Spec Speak_Proofs Unify_Spec Stamp_Model Tv_Model Tv_Spec
  Sentence_Model Sentence_Proofs Infer_Model Infer_Spec Infer_Proofs Mem_Model Mem_Spec Mem_Proofs Cycle_Model Cycle_Spec Cycle_Proofs
  Select_Proofs Task_Proofs Run_Proofs Deriv_Proofs Sched_Model Sched_Spec Sched_Proofs Sched2_Proofs Safe_Spec Safe_Proofs Safe2_Proofs.
Import ListNotations.

Lemma wf_speaks : forall t, wf t -> speakable t.
Proof.
  intros t H x O B. specialize (H x O). destruct x as [| |[|]|[|]|[|]| | | |[|]|[|]|? ? [|]|[|]|[|]|[|]|]; cbn in *; try contradiction; (congruence || lia).
Qed.

Section Safe.
  Variables (Inp : sentence -> Prop) (maxC : Z) (nB wN j k : nat).
  Hypothesis HI : forall s, Inp s -> fairInput s.
  Hypothesis HT : tempered Inp.
  Hypothesis HM : (maxC < 2 ^ 63)%Z.
  Hypothesis HW : 1 <= wN <= nB.

  Let G := derivable Inp.
  Lemma G_closed : closed G.
  Proof. apply closed_derivable. Qed.
  Lemma G_wf : forall s, G s -> wf (s_term s).
  Proof. apply derivable_wf. intros s H. now apply HI. Qed.
  Lemma G_tv : forall s, G s -> retTv s <> None.
  Proof. intros s H. destruct (derivable_range Inp HI HT s H) as (v & E & _). now rewrite E. Qed.
  Lemma G_store : forall s, G s -> storable s.
  Proof. now apply derivable_storable. Qed.

  (** * What each thread carries with it *)
  Definition goodMsg (n : Z) (m : workMsg) : Prop := (0 <= m_cycle m <= n)%Z /\ length (secondary m) <= 300.
  Definition goodArg (n : Z) (x : addArgs) : Prop :=
    wf (s_term (ar_s x)) /\ unit64 (ar_mul x) /\ (ar_now x < 2 ^ 63 \/ ar_now x <= n)%Z.
  Definition wfs (s : sentence) : Prop := wf (s_term s).
  Definition goodPh (f : phase) : Prop :=
    match f with
    | FRevise _ r => forall nb, r = Some nb -> wfs nb
    | FStore => True
    | FCheck l | FPush _ l _ | FIndex _ l _ => Forall wfs l
    end.
  Definition goodCy (n : Z) (nq : nat) (p : cphase) : Prop :=
    match p with YAsk i _ => i < nq | YTouch m | YSend m => goodMsg n m | _ => True end.
  Definition goodCp (n : Z) (nq : nat) (p : cpc) : Prop :=
    match p with
    | CIdle => True
    | CAdd x f => goodArg n x /\ goodPh f
    | CCycle y p => expLike (cy_exp y) /\ i64 (cy_now y) /\ goodCy n nq p
    end.
  Definition biased (cs : list (sentence * f64)) : Prop := Forall (fun c => unit64 (snd c)) cs.
  Definition goodWk (n : Z) (w : wphase) : Prop :=
    match w with
    | WIdle => True
    | WDerive m => goodMsg n m
    | WAnswer m cs _ | WAdd m cs => goodMsg n m /\ biased cs
    | WAdding m x f cs => goodMsg n m /\ biased cs /\ goodArg n x /\ goodPh f
    end.
  Record goodSh (sh : shared) : Prop := mkGoodSh {
    gs_heap : okHeap (cycleCtr sh) (heap sh);
    gs_ctr : (0 <= cycleCtr sh)%Z;
    gs_us : saneCells (usages sh);
    gs_pm : readable (procMem sh);
    gs_q : Forall goodQuestion (questions sh)
  }.
  Record goodSys (st : sys) : Prop := mkGoodSys {
    gy_sh : goodSh (y_sh st);
    gy_cl : Forall (goodCp (cycleCtr (y_sh st)) (length (questions (y_sh st)))) (y_clients st);
    gy_wk : goodWk (cycleCtr (y_sh st)) (y_worker st);
    gy_qu : Forall (goodMsg (cycleCtr (y_sh st))) (y_queue st)
  }.
  Lemma goodMsg_later : forall n n' m, (n <= n')%Z -> goodMsg n m -> goodMsg n' m.
  Proof. intros n n' m L [A B]. split; [lia|auto]. Qed.
  Lemma goodArg_later : forall n n' x, (n <= n')%Z -> goodArg n x -> goodArg n' x.
  Proof. intros n n' x L (A & B & C). split; [auto|]. split; [auto|]. lia. Qed.
  Lemma goodCp_later : forall n n' q q' p, (n <= n')%Z -> q <= q' -> goodCp n q p -> goodCp n' q' p.
  Proof.
    intros n n' q q' p L Lq H. destruct p as [|x f|y p]; simpl in *; auto.
    - destruct H. split; [eapply goodArg_later; eauto|auto].
    - destruct H as (A & B & C). split; [auto|]. split; [auto|]. destruct p; simpl in *; auto; try lia; eapply goodMsg_later; eauto.
  Qed.
  Lemma goodWk_later : forall n n' w, (n <= n')%Z -> goodWk n w -> goodWk n' w.
  Proof.
    intros n n' w L H. destruct w; simpl in *; auto.
    - eapply goodMsg_later; eauto.
    - destruct H. split; [eapply goodMsg_later; eauto|auto].
    - destruct H. split; [eapply goodMsg_later; eauto|auto].
    - destruct H as (A & B & C & D). split; [eapply goodMsg_later; eauto|]. split; [auto|]. split; [eapply goodArg_later; eauto|auto].
  Qed.

  (** * Adding a sentence *)
  Lemma reviseConcept_total : forall s m r u t, retTv s <> None ->
    (forall t c b, holds m t c -> In b (byExp c) \/ In b (byUsage c) -> retTv b <> None) ->
    exists y, reviseConcept s (m, r, u) t = Ok y.
  Proof.
    intros s m r u t Hs Hm. unfold reviseConcept. destruct (mget (term_clone t) m) as [c|] eqn:E; [|eexists; reflexivity].
    apply mget_in in E.
    assert (K : forall l v, (forall b, In b l -> In b (byExp c) \/ In b (byUsage c)) -> exists y, reviseTable s l v = Ok y).
    { intros l v Hl. destruct (reviseTable s l v) as [y|] eqn:R; [eauto|]. apply reviseTable_panic in R.
      destruct R as (l1 & b & l2 & -> & _ & _ & [T|T]); [|contradiction]. exfalso. apply (Hm _ _ b E); [|auto]. apply Hl, in_elt. }
    destruct (K (byExp c) u) as (e & ->); [auto|]. cbn [rbind]. destruct (K (byUsage c) (used (snd e) u)) as (x & ->); [auto|].
    cbn [rbind]. eexists; reflexivity.
  Qed.
  Lemma reviseConcept_term : forall s m r u t m' r' u', reviseConcept s (m, r, u) t = Ok (m', r', u') ->
    r' = r \/ exists nb, r' = Some nb /\ s_term nb = s_term s.
  Proof.
    intros s m r u t m' r' u' H. apply reviseConcept_spec in H.
    destruct H as (_ & _ & _ & [(_ & _ & -> & _)|(c & e & x & oe & ox & _ & E1 & E2 & _ & Er & _)]); [auto|].
    assert (K : forall l l' nb v, reviseTable s l v = Ok (l', Some nb) -> s_term nb = s_term s).
    { intros l l' nb v E. apply reviseTable_spec in E. destruct E as [E _]. inversion E as [? ? ? ? _ _ I]; subst.
      destruct I as (? & ? & _ & _ & _ & _ & T & _). exact T. }
    rewrite Er. destruct ox as [nb|]; simpl; [right; exists nb; split; [auto|]; eapply K; eauto|].
    destruct oe as [nb|]; simpl; [right; exists nb; split; [auto|]; eapply K; eauto|auto].
  Qed.
  Let B := beliefsAny G maxC nB.
  Lemma mem_tv : forall m, memInv B m -> forall t c b, holds m t c -> In b (byExp c) \/ In b (byUsage c) -> retTv b <> None.
  Proof. intros m [_ H] t c b Hc Hb. apply G_tv. now apply (ba_all _ _ _ _ (H _ _ Hc)). Qed.
  Lemma mem_storable : forall m, memInv B m -> allStorable m.
  Proof. intros m [_ H] t c b Hc Hb. apply G_store. apply (ba_all _ _ _ _ (H _ _ Hc)). auto. Qed.
  Definition timely (sh : shared) : Prop := (cycleCtr sh < 2 ^ 63)%Z /\ forall a, (useCount (usages sh a) < 2 ^ 63)%Z.

  Lemma addStep_total : forall x f sh P X, argOk G maxC nB x -> phOk G maxC (heap sh) x f -> shInv G maxC nB sh P X ->
    goodArg (cycleCtr sh) x -> goodSh sh -> timely sh -> addStep x f sh <> Panic.
  Proof.
    intros x f sh P X [[Gx Cx] Nx] Hf I (Wx & Mx & Tx) S [T1 T2]. destruct f as [[|t ts] r| |[|s l]|s l a|s l a]; cbn [addStep]; try discriminate.
    - destruct r; discriminate.
    - simpl in Hf. destruct Hf as [[K|J] _]; [discriminate|].
      destruct (reviseConcept_total (ar_s x) (memory sh) r (nextU sh) t) as ([[m r'] u] & ->); [now apply G_tv, Gx|apply mem_tv; apply I|].
      cbn [rbind]. discriminate.
    - destruct (store_total (usages sh) (memory sh) (ar_s x) (ar_n x) (ar_now x)) as (m & ->).
      + apply (si_mem _ _ _ _ _ _ I).
      + apply usable; [apply S|auto|lia].
      + apply mem_storable. apply I.
      + intros J. now apply G_store, Gx.
      + cbn [rbind]. discriminate.
    - destruct (s_punct s); try discriminate. destruct (taskExists sh s); discriminate.
  Qed.
  Lemma addStep_good : forall x f sh sh' o P X, argOk G maxC nB x -> phOk G maxC (heap sh) x f -> shInv G maxC nB sh P X ->
    goodArg (cycleCtr sh) x -> goodPh f -> goodSh sh -> addStep x f sh = Ok (sh', o) ->
    goodSh sh' /\ cycleCtr sh' = cycleCtr sh /\ length (questions sh) <= length (questions sh') /\ usages sh' = usages sh /\
    (forall f', o = Some f' -> goodPh f').
  Proof.
    intros x f sh sh' o P X [[Gx Cx] Nx] Hf I (Wx & Mx & Tx) Hg S H. destruct f as [[|t ts] r| |[|s l]|s l a|s l a]; cbn [addStep] in H.
    - destruct r as [nb|]; injection H as <- <-; (split; [exact S|]; split; [reflexivity|]; split; [lia|]; split; [reflexivity|]; intros f' [= <-]; simpl).
      + constructor; [exact Wx|]. constructor; [apply (Hg nb eq_refl)|constructor].
      + exact Logic.I.
    - destruct (reviseConcept (ar_s x) (memory sh, r, nextU sh) t) as [[[m r'] u]|] eqn:E; [|discriminate]. cbn [rbind] in H. injection H as <- <-.
      split; [destruct S; constructor; auto|]. split; [reflexivity|]. split; [simpl; lia|]. split; [reflexivity|]. intros f' [= <-]. simpl.
      apply reviseConcept_term in E. destruct E as [->|(nb & -> & E)]; [exact Hg|]. intros z [= <-]. unfold wfs. now rewrite E.
    - destruct (storeInConcepts _ _ _ _ _) as [m|] eqn:E; [|discriminate]. cbn [rbind] in H. injection H as <- <-.
      split; [destruct S; constructor; auto|]. split; [reflexivity|]. split; [simpl; lia|]. split; [reflexivity|]. intros f' [= <-]. simpl.
      constructor; [exact Wx|constructor].
    - injection H as <- <-. split; [exact S|]. split; [reflexivity|]. split; [lia|]. split; [reflexivity|]. discriminate.
    - simpl in Hg. inversion Hg as [|? ? Ws Wl]; subst. destruct (s_punct s) eqn:J.
      + destruct (taskExists sh s); [injection H as <- <-; split; [exact S|]; split; [reflexivity|]; split; [lia|]; split; [reflexivity|]; discriminate|].
        assert (K : okTask (cycleCtr sh) (newTask sh s (ar_cc x) (ar_mul x))).
        { apply ok_new; [exact Mx|apply S|]. simpl in Hf. inversion Hf as [|? ? [_ Cs] _]; subst. split; [now apply wf_complexity|lia]. }
        set (t := newTask _ _ _ _) in *. clearbody t. injection H as <- <-. split.
        * destruct S. constructor; cbn [heap cycleCtr usages procMem questions setTaskCtr setHeap]; auto. now apply ok_app.
        * split; [reflexivity|]. split; [simpl; lia|]. split; [reflexivity|]. intros f' [= <-]. exact Wl.
      + injection H as <- <-. split; [|split; [reflexivity|]; split; [simpl; rewrite app_length; lia|]; split; [reflexivity|]; intros f' [= <-]; exact Wl].
        destruct S. constructor; cbn [heap cycleCtr usages procMem questions setQuestions]; auto. apply Forall_app. split; [auto|].
        constructor; [|constructor]. rewrite shallow_id. split; [exact (wf_speaks _ Ws)|]. split; [now left|exact unit_1].
      + injection H as <- <-. split; [exact S|]. split; [reflexivity|]. split; [lia|]. split; [reflexivity|]. intros f' [= <-]. exact Wl.
    - injection H as <- <-. split; [destruct S; constructor; auto|]. split; [reflexivity|]. split; [simpl; lia|]. split; [reflexivity|].
      intros f' [= <-]. exact Hg.
    - injection H as <- <-. split; [destruct S; constructor; auto|]. split; [reflexivity|]. split; [simpl; lia|]. split; [reflexivity|].
      intros f' [= <-]. exact Hg.
  Qed.

  (** * Questions *)
  Definition candOk (c : sentence) : Prop := s_punct c = JUGEMENT -> speakable (s_term c) /\ retTv c <> None.
  Lemma printable : forall s, speakable (s_term s) -> (s_punct s = QUESTION \/ retTv s <> None) -> printSentence s = Ok tt.
  Proof.
    intros s W H. unfold printSentence. destruct (sp_text _ W) as (x & ->). cbn [rbind].
    destruct H as [->|H]; [reflexivity|]. destruct (punct_eqb _ _); [reflexivity|]. destruct (retTv s); [reflexivity|congruence].
  Qed.
  Lemma tryAnswer_total : forall q c, goodQuestion q -> candOk c -> exists q' a, qaTryAnswer q c = Ok (q', a) /\ goodQuestion q'.
  Proof.
    intros q c (Wq & Pq & Uq) Hc. unfold qaTryAnswer. destruct (punct_eqb (s_punct c) JUGEMENT) eqn:J; cbn [negb].
    2: { eexists q, []. split; [reflexivity|repeat split; auto; apply Uq]. }
    apply punct_eqb_eq in J. destruct (Hc J) as [Wc Tc]. destruct (retTv c) as [v|] eqn:Ev; [|congruence]. cbn [unwrap rbind].
    destruct (fgtb _ _); [|eexists q, []; split; [reflexivity|repeat split; auto; apply Uq]].
    destruct (Unify_Model.unify _ _); [|eexists q, []; split; [reflexivity|repeat split; auto; apply Uq]].
    rewrite (printable (q_s q) Wq Pq), (printable c Wc) by (right; congruence). cbn [rbind].
    eexists _, _. split; [reflexivity|]. repeat split; auto; apply Uq.
  Qed.
  Lemma tryAll_total : forall cs q, goodQuestion q -> Forall candOk cs -> exists q' a, qaTryAll q cs = Ok (q', a) /\ goodQuestion q'.
  Proof.
    intros cs q Hq Hc. unfold qaTryAll. generalize (@nil answer) as acc. revert q Hq.
    induction Hc as [|c cs Hc _ IH]; intros q Hq acc; cbn [rfold]; [eexists q, acc; auto|]. cbn [fst snd].
    destruct (tryAnswer_total q c Hq Hc) as (q' & a & -> & Hq'). cbn [rbind fst snd]. now apply IH.
  Qed.
  Lemma tryQuestions_total : forall c qs, candOk c -> Forall goodQuestion qs ->
    exists qs' a, qaTryQuestions qs c = Ok (qs', a) /\ Forall goodQuestion qs' /\ length qs' = length qs.
  Proof.
    intros c qs Hc Hq. unfold qaTryQuestions.
    assert (K : forall qs qa acc, Forall goodQuestion qs -> Forall goodQuestion qa -> exists qs' a,
      rfold (fun st q => do r <- qaTryAnswer q c; Ok (fst st ++ [fst r], snd st ++ snd r)) qs (qa, acc) = Ok (qs', a) /\
      Forall goodQuestion qs' /\ length qs' = length qa + length qs).
    { clear qs Hq. induction qs as [|q qs IH]; intros qa acc H1 H2; cbn [rfold]; [eexists qa, acc; split; [reflexivity|]; split; [auto|simpl; lia]|].
      inversion H1 as [|? ? Hq Hqs]; subst. destruct (tryAnswer_total q c Hq Hc) as (q' & a & -> & Hq'). cbn [rbind fst snd].
      destruct (IH (qa ++ [q']) (acc ++ a) Hqs) as (qs' & a' & E & F & L); [apply Forall_app; auto|].
      eexists _, _. split; [exact E|]. split; [auto|]. rewrite L, app_length. simpl. lia. }
    destruct (K qs [] [] Hq (Forall_nil _)) as (qs' & a & E & F & L). eauto.
  Qed.
  Lemma Forall_replace : forall A (Q : A -> Prop) i v l, Forall Q l -> Q v -> Forall Q (replace_at i v l).
  Proof.
    intros A Q i v l F Hv. revert i. induction F as [|x l Hx F IH]; intros [|i]; simpl; auto.
  Qed.

  (** * The cycle *)
  Lemma cands_ok : forall m t, (forall t c b, holds m t c -> In b (byExp c) \/ In b (byUsage c) -> candOk b) ->
    Forall candOk (match ret_beliefs_of_concept m t with Some l => l | None => [] end).
  Proof.
    intros m t H. unfold ret_beliefs_of_concept. destruct (mget t m) as [c|] eqn:E; [|constructor].
    apply mget_in in E. apply Forall_forall. intros b Hb. apply in_app_iff in Hb. eapply H; eauto.
  Qed.
  Lemma ask_total : forall sh P X i t, shInv G maxC nB sh P X -> goodSh sh -> i < length (questions sh) ->
    exists q q' a, idx (questions sh) i = Ok q /\
      qaTryAll q (match ret_beliefs_of_concept (if isTemporal (s_term (q_s q)) then procMem sh else memory sh) t with Some l => l | None => [] end) = Ok (q', a) /\
      goodQuestion q'.
  Proof.
    intros sh P X i t I S L. unfold idx. destruct (nth_error (questions sh) i) as [q|] eqn:E; [|apply nth_error_None in E; lia].
    assert (Hq : goodQuestion q).
    { assert (F := gs_q _ S). rewrite Forall_forall in F. apply F. eapply nth_error_In; eauto. }
    destruct (tryAll_total (match ret_beliefs_of_concept (if isTemporal (s_term (q_s q)) then procMem sh else memory sh) t with Some l => l | None => [] end) q Hq)
      as (q' & a & E' & Hq').
    - apply cands_ok. intros t' c b Hc Hb. destruct (isTemporal _).
      + intros J. exact (gs_pm _ S t' c b Hc Hb J).
      + assert (K := ba_all _ _ _ _ (proj2 (si_mem _ _ _ _ _ _ I) _ _ Hc) b Hb). intros _. split; [apply wf_speaks, G_wf, K|apply G_tv, K].
    - exists q, q', a. split; [reflexivity|]. split; [exact E'|exact Hq'].
  Qed.
  Lemma limitTasks_total : forall expf sh, expLike expf -> goodSh sh -> timely sh -> (forall a, In a (judg sh) -> a < length (heap sh)) ->
    limitTasks expf sh <> Panic.
  Proof.
    intros expf sh HE S [T _] L E. unfold limitTasks in E. destruct (fsort_desc _ (judg sh)) eqn:F; [discriminate|].
    apply fsort_desc_panic in F. destruct F as (_ & a & Ha & Hn). rewrite sane_credit in Hn; [discriminate|auto| |].
    - split; [apply S|exact T].
    - apply (gs_heap _ S). now apply L.
  Qed.
  Lemma cycStep_total : forall y p sh qu P X, p <> YSelect -> shInv G maxC nB sh P X -> goodSh sh -> timely sh ->
    expLike (cy_exp y) -> goodCy (cycleCtr sh) (length (questions sh)) p -> cycStep y p sh qu <> Panic.
  Proof.
    intros y p sh qu P X NS I S T HE Hp.
    destruct p as [| | |i [|t ts]| | |a [|t ts] acc|m|m| | | | |]; cbn [cycStep]; try discriminate.
    - destruct (questions sh) as [|q qs] eqn:Q; [discriminate|]. rewrite <- Q.
      unfold task2SelByCreditRandom. destruct (selRandom _ _) as [i|] eqn:E.
      + cbn [rbind]. apply roulette_spec in E. destruct E as (L & _). rewrite map_length in L. unfold idx.
        destruct (nth_error (questions sh) i) eqn:E2; [discriminate|]. apply nth_error_None in E2. lia.
      + apply roulette_panic in E. rewrite Q in E. discriminate.
    - simpl in Hp. destruct (ask_total sh P X i t I S Hp) as (q & q' & a & E1 & E2 & _). rewrite E1. cbn [rbind]. rewrite E2. discriminate.
    - now elim NS.
    - destruct (length qu <? 4); discriminate.
    - destruct (limitTasks (cy_exp y) sh) eqn:E; [discriminate|]. exfalso. revert E. apply limitTasks_total; auto.
      intros a Ha. apply (ti_live _ _ _ _ (si_t _ _ _ _ _ _ I)). apply in_app_iff. now left.
    - unfold maintainConcepts. destruct (Z.rem (cycleCtr sh) 173 =? 0)%Z; [|discriminate].
      destruct (limit_total (memory sh) 3000) as (m & ->); [apply (si_mem _ _ _ _ _ _ I)|apply mem_storable; apply I|discriminate].
  Qed.
  Lemma cycStep_good : forall y p sh qu sh' qu' ans o P X, shInv G maxC nB sh P X -> goodSh sh -> i64 (cy_now y) ->
    goodCy (cycleCtr sh) (length (questions sh)) p -> Forall (goodMsg (cycleCtr sh)) qu ->
    cycStep y p sh qu = Ok (Some (sh', qu', ans, o)) ->
    goodSh sh' /\ cycleCtr sh' = cycleCtr sh /\ length (questions sh') = length (questions sh) /\ Forall (goodMsg (cycleCtr sh)) qu' /\
    (forall a, useCount (usages sh' a) <= useCount (usages sh a) + 301)%Z /\
    (forall p', o = Some p' -> goodCy (cycleCtr sh) (length (questions sh)) p').
  Proof.
    intros y p sh qu sh' qu' ans o P X I S HN Hp Q H.
    assert (Same : forall a, (useCount (usages sh a) <= useCount (usages sh a) + 301)%Z) by (intros; lia).
    destruct p as [| | |i [|t ts]| | |a [|t ts] acc|m|m| | | | |]; cbn [cycStep] in H.
    - assert (K : goodSh (transferCredits sh)).
      { destruct S. constructor; auto. apply ok_transfer; [|auto]. eapply Forall_impl; [|eassumption]. intros q Hq. apply Hq. }
      set (s1 := transferCredits sh) in *. assert (E1 : cycleCtr s1 = cycleCtr sh) by reflexivity. assert (E2 : questions s1 = questions sh) by reflexivity.
      assert (E3 : usages s1 = usages sh) by reflexivity. clearbody s1.
      injection H as <- <- <- <-. rewrite E1, E2, E3. split; [auto|]. split; [auto|]. split; [auto|]. split; [auto|]. split; [auto|]. intros p' [= <-]. exact Logic.I.
    - assert (K : goodSh (baseCredits sh)) by (destruct S; constructor; auto; now apply ok_base).
      set (s1 := baseCredits sh) in *. assert (E1 : cycleCtr s1 = cycleCtr sh) by reflexivity. assert (E2 : questions s1 = questions sh) by reflexivity.
      assert (E3 : usages s1 = usages sh) by reflexivity. clearbody s1.
      injection H as <- <- <- <-. rewrite E1, E2, E3. split; [auto|]. split; [auto|]. split; [auto|]. split; [auto|]. split; [auto|]. intros p' [= <-]. exact Logic.I.
    - destruct (questions sh) as [|q0 qs0] eqn:EQ.
      + injection H as <- <- <- <-. rewrite EQ. split; [auto|]. split; [auto|]. split; [auto|]. split; [auto|]. split; [auto|]. intros p' [= <-]. exact Logic.I.
      + rewrite <- EQ in *. clear EQ. destruct (task2SelByCreditRandom _ _) as [i|] eqn:E; [|discriminate]. cbn [rbind] in H.
        destruct (idx _ i) as [q|]; [|discriminate]. cbn [rbind] in H.
        injection H as <- <- <- <-. split; [auto|]. split; [auto|]. split; [auto|]. split; [auto|]. split; [auto|]. intros p' [= <-]. simpl.
        apply roulette_spec in E. destruct E as (L & _). now rewrite map_length in L.
    - injection H as <- <- <- <-. split; [auto|]. split; [auto|]. split; [auto|]. split; [auto|]. split; [auto|]. intros p' [= <-]. exact Logic.I.
    - simpl in Hp. destruct (ask_total sh P X i t I S Hp) as (q & q' & a & E1 & E2 & Hq'). rewrite E1 in H. cbn [rbind] in H. rewrite E2 in H. cbn [rbind fst snd] in H.
      injection H as <- <- <- <-. split; [destruct S; constructor; auto; now apply Forall_replace|]. split; [auto|].
      split; [simpl; apply replace_at_length|]. split; [auto|]. split; [auto|]. intros p' [= <-]. exact Hp.
    - injection H as <- <- <- <-. split; [auto|]. split; [auto|]. split; [auto|]. split; [auto|]. split; [auto|]. intros p' [= <-]. destruct (judg sh); exact Logic.I.
    - destruct (idx (judg sh) _) as [a|]; [|discriminate]. cbn [rbind] in H.
      injection H as <- <- <- <-. split; [destruct S; constructor; auto|]. split; [auto|]. split; [auto|]. split; [auto|]. split; [auto|]. intros p' [= <-]. exact Logic.I.
    - injection H as <- <- <- <-. split; [auto|]. split; [auto|]. split; [auto|]. split; [auto|]. split; [auto|]. intros p' [= <-]. simpl. split.
      + simpl. generalize (gs_ctr _ S). lia.
      + simpl. unfold limitSecondary. rewrite firstn_length. lia.
    - injection H as <- <- <- <-. split; [auto|]. split; [auto|]. split; [auto|]. split; [auto|]. split; [auto|]. intros p' [= <-]. exact Logic.I.
    - assert (K : goodSh (touchAll (Some m) (cy_now y) sh)).
      { destruct S. constructor; auto. apply touch_cells; [auto|apply HN]. }
      assert (C := touch_count m (cy_now y) sh).
      set (s1 := touchAll _ _ sh) in *. assert (E1 : cycleCtr s1 = cycleCtr sh) by reflexivity. assert (E2 : questions s1 = questions sh) by reflexivity. clearbody s1.
      injection H as <- <- <- <-. rewrite E1, E2. split; [auto|]. split; [auto|]. split; [auto|]. split; [auto|]. split; [|intros p' [= <-]; exact Hp].
      intros a. specialize (C a). simpl in Hp. destruct Hp as [_ Hp]. lia.
    - destruct (length qu <? 4); [|discriminate]. injection H as <- <- <- <-.
      split; [auto|]. split; [auto|]. split; [auto|]. split; [|split; [auto|intros p' [= <-]; exact Logic.I]]. apply Forall_app. split; [auto|]. constructor; [exact Hp|constructor].
    - injection H as <- <- <- <-. split; [auto|]. split; [auto|]. split; [auto|]. split; [auto|]. split; [auto|]. intros p' [= <-]. destruct (Z.rem (cycleCtr sh) 111 =? 0)%Z; exact Logic.I.
    - destruct (limitTasks (cy_exp y) sh) as [s1|] eqn:E; [|discriminate]. cbn [rbind] in H. injection H as <- <- <- <-.
      apply limitTasks_ok in E. destruct E as (kept & -> & _).
      split; [destruct S; constructor; auto|]. split; [auto|]. split; [auto|]. split; [auto|]. split; [auto|]. intros p' [= <-]. exact Logic.I.
    - injection H as <- <- <- <-. split; [auto|]. split; [auto|]. split; [auto|]. split; [auto|]. split; [auto|]. intros p' [= <-]. destruct (Z.rem (cycleCtr sh) 111 =? 0)%Z; exact Logic.I.
    - assert (K : goodSh (rebuildIndex sh)) by (destruct S; constructor; auto).
      set (s1 := rebuildIndex sh) in *. assert (E1 : cycleCtr s1 = cycleCtr sh) by reflexivity. assert (E2 : questions s1 = questions sh) by reflexivity.
      assert (E3 : usages s1 = usages sh) by reflexivity. clearbody s1.
      injection H as <- <- <- <-. rewrite E1, E2, E3. split; [auto|]. split; [auto|]. split; [auto|]. split; [auto|]. split; [auto|]. intros p' [= <-]. exact Logic.I.
    - unfold maintainConcepts in H. destruct (Z.rem (cycleCtr sh) 173 =? 0)%Z.
      + destruct (limitMemory (memory sh) 3000) as [m|] eqn:E; [|discriminate]. cbn [rbind] in H. injection H as <- <- <- <-.
        split; [destruct S; constructor; auto|]. split; [auto|]. split; [auto|]. split; [auto|]. split; [auto|discriminate].
      + cbn [rbind] in H. injection H as <- <- <- <-. split; [auto|]. split; [auto|]. split; [auto|]. split; [auto|]. split; [auto|discriminate].
  Qed.

  (** * The worker *)
  Lemma inferAll_total : forall p l st, retTv p <> None -> (forall s, In s l -> retTv s <> None) -> biased (fst st) ->
    exists st', inferAll p l st = Ok st' /\ biased (fst st').
  Proof.
    intros p l st Hp Hl. revert st. induction l as [|s l IH]; intros st Hb; unfold inferAll in *; cbn [rfold]; [eauto|].
    assert (Hs : retTv s <> None) by (apply Hl; now left).
    destruct (inference p s (snd st)) as [r|] eqn:E.
    - assert (Br := inference_bias _ _ _ _ E). cbn [rbind]. apply IH; [intros x Hx; apply Hl; now right|].
      cbn [fst]. apply Forall_app. split; auto.
    - exfalso. unfold inference, inference2 in E. destruct (retTv p) as [x|]; [|congruence]. destruct (retTv s) as [y|]; [|congruence].
      destruct (binary_total (s_term p) (s_term s) (s_punct p) (s_punct s) x y) as (l' & g & E'). rewrite E' in E. discriminate.
  Qed.
  Lemma derive_total : forall sh P X m, shInv G maxC nB sh P X -> msgIn (heap sh) m -> exists d, derive sh m = Ok d /\ biased (fst d).
  Proof.
    intros sh P X m [T Hh M] MI. unfold derive. set (p := tk_s (hget (heap sh) (primary m))).
    assert (Gp : G p) by (apply Hh, MI; auto).
    assert (Tp := G_tv _ Gp).
    destruct (infSinglePremise2 p (nextU sh)) as [single|] eqn:E0.
    2: { exfalso. unfold infSinglePremise2 in E0. destruct (infSinglePremise _ _ _) eqn:E1; [discriminate|]. apply single_panic in E1.
         destruct E1 as [E1|(E1 & _)]; [|contradiction]. revert E1. apply wf_long, G_wf, Gp. }
    assert (B0 := single_bias _ _ _ E0). cbn [rbind].
    assert (Ts : forall l s, incl l (secondary m) -> In s (map (fun a => tk_s (hget (heap sh) a)) l) -> retTv s <> None).
    { intros l s Hl Hs. apply in_map_iff in Hs. destruct Hs as (a & <- & Ha). apply G_tv, Hh, MI. right. auto. }
    destruct (inferAll_total p (map (fun a => tk_s (hget (heap sh) a)) (filter (fun a => negb (Nat.eqb (primary m) a))
                 (firstn (Nat.div (length (secondary m)) 2) (secondary m)))) (single, (nextU sh + length single)%nat) Tp) as (st1 & -> & B1); [|exact B0|].
    { intros s. apply Ts. intros a Ha. apply filter_In in Ha. destruct Ha as [Ha _]. now apply firstn_in in Ha. }
    cbn [rbind]. destruct (inferAll_total p (map (fun a => tk_s (hget (heap sh) a)) (secondary m)) st1 Tp) as (st2 & -> & B2); [|exact B1|].
    { intros s. apply Ts. apply incl_refl. }
    cbn [rbind]. destruct (mget (s_term p) (memory sh)) as [c|] eqn:C; [|eauto]. apply mget_in in C.
    destruct (inferAll_total p (byExp c) st2 Tp) as (st3 & -> & B3); [|exact B2|].
    { intros s Hs. apply (mem_tv _ M _ _ _ C). auto. }
    cbn [rbind]. apply inferAll_total; auto. intros s Hs. apply (mem_tv _ M _ _ _ C). auto.
  Qed.
  Lemma G_cand : forall s, G s -> candOk s.
  Proof. intros s H _. split; [now apply wf_speaks, G_wf|now apply G_tv]. Qed.
  Lemma workStep_total : forall p sh qu P X, wkOk G maxC nB (heap sh) p -> shInv G maxC nB sh P X -> goodSh sh -> timely sh ->
    goodWk (cycleCtr sh) p -> workStep maxC wN p sh qu <> Panic.
  Proof.
    intros p sh qu P X Hp I S T Hg. destruct p as [|m|m cs [|c todo]|m [|c cs]|m x f cs]; cbn [workStep]; try discriminate.
    - destruct qu; discriminate.
    - destruct (derive_total sh P X m I Hp) as (d & -> & _). discriminate.
    - destruct (punct_eqb _ _); [|discriminate]. destruct Hp as [_ Ht]. inversion Ht as [|? ? Gc _]; subst.
      destruct (tryQuestions_total c (questions sh) (G_cand _ Gc) (gs_q _ S)) as (qs & a & -> & _). discriminate.
    - destruct Hp as (Hx & Hf & _). destruct Hg as (_ & _ & Hgx & Hgf).
      assert (K := addStep_total x f sh P X Hx Hf I Hgx S T). destruct (addStep x f sh); [discriminate|contradiction].
  Qed.
  Lemma workStep_good : forall p sh qu sh' qu' ans p' P X, wkOk G maxC nB (heap sh) p -> shInv G maxC nB sh P X -> goodSh sh ->
    goodWk (cycleCtr sh) p -> Forall (goodMsg (cycleCtr sh)) qu -> workStep maxC wN p sh qu = Ok (Some (sh', qu', ans, p')) ->
    goodSh sh' /\ cycleCtr sh' = cycleCtr sh /\ length (questions sh) <= length (questions sh') /\ usages sh' = usages sh /\
    Forall (goodMsg (cycleCtr sh)) qu' /\ goodWk (cycleCtr sh) p'.
  Proof.
    intros p sh qu sh' qu' ans p' P X Hp I S Hg Q H. destruct p as [|m|m cs [|c todo]|m [|c cs]|m x f cs]; cbn [workStep] in H.
    - destruct qu as [|m qu1]; [discriminate|]. injection H as <- <- <- <-. inversion Q; subst.
      split; [auto|]. split; [auto|]. split; [auto|]. split; [auto|]. auto.
    - destruct (derive_total sh P X m I Hp) as (d & E & Bd). rewrite E in H. cbn [rbind] in H. injection H as <- <- <- <-.
      split; [destruct S; constructor; auto|]. split; [auto|]. split; [auto|]. split; [auto|]. split; [auto|]. split; auto.
    - injection H as <- <- <- <-. split; [auto|]. split; [auto|]. split; [auto|]. split; [auto|]. split; [auto|]. exact Hg.
    - destruct (punct_eqb _ _).
      + destruct Hp as [_ Ht]. inversion Ht as [|? ? Gc _]; subst.
        destruct (tryQuestions_total c (questions sh) (G_cand _ Gc) (gs_q _ S)) as (qs & a & E & F & L). rewrite E in H. cbn [rbind fst snd] in H.
        injection H as <- <- <- <-. split; [destruct S; constructor; auto|]. split; [auto|]. split; [simpl; lia|]. split; [auto|]. split; [auto|]. exact Hg.
      + injection H as <- <- <- <-. split; [auto|]. split; [auto|]. split; [auto|]. split; [auto|]. split; [auto|]. exact Hg.
    - injection H as <- <- <- <-. split; [auto|]. split; [auto|]. split; [auto|]. split; [auto|]. split; [auto|]. exact Logic.I.
    - destruct Hg as [Gm Gc]. inversion Gc as [|? ? Bc Bcs]; subst. simpl in Hp. inversion Hp as [|? ? Dc Dcs]; subst.
      set (x := mkAddArgs _ _ _ _ _) in H.
      assert (Gx : goodArg (cycleCtr sh) x).
      { split; [apply G_wf, Dc|]. split; [|right; apply Gm]. apply unit_mul; [apply unit_mul; [exact unit_1|]|exact Bc].
        destruct (le_lt_dec (length (heap sh)) (primary m)) as [L|L].
        - unfold hget. rewrite nth_overflow by auto. exact unit_0.
        - apply (gs_heap _ S _ L). }
      clearbody x. injection H as <- <- <- <-. split; [auto|]. split; [auto|]. split; [auto|]. split; [auto|]. split; [auto|].
      unfold startAdd. destruct (calcComplexity _ >? maxC)%Z; [split; auto|]. split; [auto|]. split; [auto|]. split; [auto|]. simpl. discriminate.
    - destruct Hp as (Hx & Hf & _). destruct Hg as (Gm & Gc & Hgx & Hgf).
      destruct (addStep x f sh) as [[s1 o]|] eqn:E; [|discriminate]. cbn [rbind fst snd] in H. injection H as <- <- <- <-.
      destruct (addStep_good _ _ _ _ _ _ _ Hx Hf I Hgx Hgf S E) as (S' & C' & L' & U' & F'). split; [auto|]. split; [auto|]. split; [auto|]. split; [auto|]. split; [auto|].
      destruct o as [f'|]; simpl; auto.
  Qed.

  (** * Clients *)
  Lemma cliStep_total : forall p sh qu P X, (forall y, p <> CCycle y YSelect) -> cpOk G maxC nB (heap sh) p -> shInv G maxC nB sh P X ->
    goodSh sh -> timely sh -> goodCp (cycleCtr sh) (length (questions sh)) p -> cliStep p sh qu <> Panic.
  Proof.
    intros p sh qu P X N Hp I S T Hg. destruct p as [|x f|y p]; cbn [cliStep].
    - discriminate.
    - destruct Hp as (Hx & Hf). destruct Hg as (Hgx & Hgf). assert (K := addStep_total x f sh P X Hx Hf I Hgx S T).
      destruct (addStep x f sh); [discriminate|contradiction].
    - destruct Hg as (HE & HN & Hg). assert (K : cycStep y p sh qu <> Panic).
      { apply (cycStep_total y p sh qu P X); auto. intros ->. now apply (N y). }
      destruct (cycStep y p sh qu) as [[[[[? ?] ?] ?]|]|]; [discriminate|discriminate|contradiction].
  Qed.
  Lemma cliStep_good : forall p sh qu sh' qu' ans p' P X, cpOk G maxC nB (heap sh) p -> shInv G maxC nB sh P X -> goodSh sh ->
    goodCp (cycleCtr sh) (length (questions sh)) p -> Forall (goodMsg (cycleCtr sh)) qu -> cliStep p sh qu = Ok (Some (sh', qu', ans, p')) ->
    goodSh sh' /\ cycleCtr sh' = cycleCtr sh /\ length (questions sh) <= length (questions sh') /\ Forall (goodMsg (cycleCtr sh)) qu' /\
    (forall a, useCount (usages sh' a) <= useCount (usages sh a) + 301)%Z /\ goodCp (cycleCtr sh) (length (questions sh)) p'.
  Proof.
    intros p sh qu sh' qu' ans p' P X Hp I S Hg Q H. destruct p as [|x f|y p]; cbn [cliStep] in H.
    - discriminate.
    - destruct Hp as (Hx & Hf). destruct Hg as (Hgx & Hgf). destruct (addStep x f sh) as [[s1 o]|] eqn:E; [|discriminate]. cbn [rbind fst snd] in H. injection H as <- <- <- <-.
      destruct (addStep_good _ _ _ _ _ _ _ Hx Hf I Hgx Hgf S E) as (S' & C' & L' & U' & F'). split; [auto|]. split; [auto|]. split; [auto|]. split; [auto|].
      split; [intros a; rewrite U'; lia|]. destruct o as [f'|]; simpl; auto.
    - destruct Hg as (HE & HN & Hg). destruct (cycStep y p sh qu) as [[[[[s1 q1] a1] o]|]|] eqn:E; cbn [rbind] in H; [|discriminate|discriminate].
      injection H as <- <- <- <-. destruct (cycStep_good _ _ _ _ _ _ _ _ _ _ I S HN Hg Q E) as (S' & C' & L' & Q' & U' & F').
      split; [auto|]. split; [auto|]. split; [lia|]. split; [auto|]. split; [auto|]. destruct o as [p'|]; simpl; auto.
  Qed.
  Lemma opStart_good : forall i o sh sh' p, safeChoice Inp nB j (ChStart i o) -> goodSh sh -> opStart maxC o sh = (sh', p) ->
    goodSh sh' /\ (cycleCtr sh <= cycleCtr sh' <= cycleCtr sh + 1)%Z /\ length (questions sh) <= length (questions sh') /\
    usages sh' = usages sh /\ goodCp (cycleCtr sh') (length (questions sh')) p.
  Proof.
    intros i o sh sh' p Hc S H. destruct o as [x|q| |y]; cbn [opStart] in H; simpl in Hc.
    - injection H as <- <-. split; [auto|]. split; [lia|]. split; [auto|]. split; [auto|]. destruct Hc as (Ix & _ & Ux & Tx).
      unfold startAdd. destruct (calcComplexity _ >? maxC)%Z; [exact Logic.I|]. split; [|simpl; discriminate].
      split; [now apply HI|]. split; [auto|]. left. apply Tx.
    - injection H as <- <-. split; [|split; [simpl; lia|]; split; [simpl; rewrite app_length; lia|]; split; [auto|exact Logic.I]].
      destruct S; constructor; auto. apply Forall_app. split; [auto|]. constructor; [auto|constructor].
    - injection H as <- <-. split; [destruct S; constructor; auto|]. split; [simpl; lia|]. split; [auto|]. split; [auto|exact Logic.I].
    - injection H as <- <-. split; [|split; [simpl; lia|]; split; [auto|]; split; [auto|]; simpl; tauto].
      destruct S; constructor; cbn [heap cycleCtr usages procMem questions setCycleCtr]; auto; [|lia]. eapply ok_later; [|eassumption]. lia.
  Qed.

  (** * The system *)
  Definition slow (n : Z) (st : sys) : Prop := (cycleCtr (y_sh st) <= n)%Z /\ forall a, (useCount (usages (y_sh st) a) <= 301 * n)%Z.
  Lemma step_good : forall st c st', sysInv G maxC nB st -> goodSys st -> safeChoice Inp nB j c -> exec maxC wN c st = Ok (Some st') ->
    goodSys st' /\ forall n, slow n st -> slow (n + 1) st'.
  Proof.
    intros st c st' V [S C W Q] Hc E. destruct c as [i o|i|]; cbn [exec] in E.
    - destruct (nth_error (y_clients st) i) as [[|x f|y p]|] eqn:Ni; try discriminate.
      destruct (opStart maxC o (y_sh st)) as [sh' p'] eqn:Es. injection E as <-.
      destruct (opStart_good _ _ _ _ _ Hc S Es) as (S' & [C1 C2] & L' & U' & P').
      split.
      + constructor; cbn [y_sh y_clients y_worker y_queue]; auto.
        * apply Forall_replace; [|auto]. eapply Forall_impl; [|exact C]. intros p. now apply goodCp_later.
        * now apply (goodWk_later (cycleCtr (y_sh st))).
        * eapply Forall_impl; [|exact Q]. intros m. now apply goodMsg_later.
      + intros n [N1 N2]. split; cbn [y_sh]; [lia|]. intros a. rewrite U'. specialize (N2 a). lia.
    - destruct (nth_error (y_clients st) i) as [p|] eqn:Ni; [|discriminate].
      destruct (cliStep p (y_sh st) (y_queue st)) as [[[[[sh' qu'] ans] p']|]|] eqn:Es; cbn [rbind] in E; [|discriminate|discriminate]. injection E as <-.
      assert (Cp : cpOk G maxC nB (heap (y_sh st)) p). { assert (F := sy_cl _ _ _ _ V). rewrite Forall_forall in F. apply F. eapply nth_error_In; eauto. }
      assert (Gp : goodCp (cycleCtr (y_sh st)) (length (questions (y_sh st))) p) by (rewrite Forall_forall in C; apply C; eapply nth_error_In; eauto).
      destruct (cliStep_good _ _ _ _ _ _ _ _ _ Cp (sy_sh _ _ _ _ V) S Gp Q Es) as (S' & C' & L' & Q' & U' & P').
      split.
      + constructor; cbn [y_sh y_clients y_worker y_queue]; rewrite ?C'; auto.
        eapply Forall_impl; [intros q; apply goodCp_later with (q := length (questions (y_sh st))); [apply Z.le_refl|exact L']|]. now apply Forall_replace.
      + intros n [N1 N2]. split; cbn [y_sh]; [lia|]. intros a. specialize (N2 a). specialize (U' a). lia.
    - destruct (workStep maxC wN (y_worker st) (y_sh st) (y_queue st)) as [[[[[sh' qu'] ans] p']|]|] eqn:Es; cbn [rbind] in E; [|discriminate|discriminate]. injection E as <-.
      destruct (workStep_good _ _ _ _ _ _ _ _ _ (sy_wk _ _ _ _ V) (sy_sh _ _ _ _ V) S W Q Es) as (S' & C' & L' & U' & Q' & P').
      split.
      + constructor; cbn [y_sh y_clients y_worker y_queue]; rewrite ?C'; auto.
        eapply Forall_impl; [intros q; apply goodCp_later with (q := length (questions (y_sh st))); [apply Z.le_refl|exact L']|]. exact C.
      + intros n [N1 N2]. split; cbn [y_sh]; [lia|]. intros a. rewrite U'. specialize (N2 a). lia.
  Qed.
  Lemma start_good : goodSys (sysMake k).
  Proof.
    constructor; simpl.
    - constructor; simpl; auto; try lia.
      + intros a Ha. simpl in Ha. lia.
      + intros a. simpl. lia.
      + intros t c b [].
    - apply Forall_forall. intros p Hp. apply repeat_spec in Hp. subst. exact Logic.I.
    - exact Logic.I.
    - constructor.
  Qed.
  Lemma start_slow : slow 0 (sysMake k).
  Proof. split; simpl; intros; lia. Qed.

  Lemma sreach_reach : forall (C D : choice -> Prop) st, (forall c, C c -> D c) -> sreach C maxC wN k st -> reach D maxC wN k st.
  Proof.
    intros C D st H R. induction R; [apply re_start|eapply re_step; eauto|apply re_env; auto].
  Qed.
  Lemma safe_ok : forall c, safeChoice Inp nB j c -> choiceOk Inp nB c.
  Proof. intros [i [x|q| |y]|i|] H; simpl in *; tauto. Qed.
  Lemma safe_one : forall c, safeChoice Inp nB j c -> oneCycler j c.
  Proof. intros [i [x|q| |y]|i|] H; simpl in *; tauto. Qed.
  Lemma sreach_inv : forall st, sreach (safeChoice Inp nB j) maxC wN k st -> sysInv G maxC nB st.
  Proof.
    intros st R. apply (reach_inv G maxC nB G_closed Inp wN k).
    - intros s Is J. now apply dv_input.
    - exact HW.
    - eapply sreach_reach; [|exact R]. apply safe_ok.
  Qed.
  Lemma sreach_good : forall st, sreach (safeChoice Inp nB j) maxC wN k st -> goodSys st.
  Proof.
    intros st R. induction R as [|st c st' R IH Hc E|st h us pm sc nu R IH Hh Hs Hu Hp].
    - apply start_good.
    - eapply step_good; eauto. now apply sreach_inv.
    - destruct IH as [[S1 S2 S3 S4 S5] C W Q]. constructor; cbn [y_sh y_clients y_worker y_queue heap cycleCtr usages procMem questions]; auto.
      constructor; cbn [heap cycleCtr usages procMem questions]; auto. eapply ok_env; eauto.
  Qed.
  Theorem never_panics : forall st c, sreach (safeChoice Inp nB j) maxC wN k st -> inTime st -> exec maxC wN c st <> Panic.
  Proof.
    intros st c R T. assert (V := sreach_inv _ R). destruct (sreach_good _ R) as [S C W Q].
    assert (T' : timely (y_sh st)) by (destruct T as [[_ T1] T2]; split; auto).
    destruct c as [i o|i|]; cbn [exec].
    - destruct (nth_error (y_clients st) i) as [[|x f|y p]|]; try discriminate. destruct (opStart maxC o (y_sh st)). discriminate.
    - destruct (nth_error (y_clients st) i) as [p|] eqn:Ni; [|discriminate].
      assert (Cp : cpOk G maxC nB (heap (y_sh st)) p). { assert (F := sy_cl _ _ _ _ V). rewrite Forall_forall in F. apply F. eapply nth_error_In; eauto. }
      assert (Gp : goodCp (cycleCtr (y_sh st)) (length (questions (y_sh st))) p) by (rewrite Forall_forall in C; apply C; eapply nth_error_In; eauto).
      assert (Dec : (exists y, p = CCycle y YSelect) \/ forall y, p <> CCycle y YSelect).
      { destruct p as [|x f|y [| | | | | | | | | | | | |]]; try (right; intros y'; discriminate). left. eauto. }
      destruct Dec as [(y & ->)|N].
      + destruct (select_safe (safeChoice Inp nB j) maxC wN k j st i y safe_one) as (st' & E); [|exact Ni|].
        * eapply sreach_reach; [|exact R]. auto.
        * cbn [exec] in E. rewrite Ni in E. rewrite E. discriminate.
      + assert (K := cliStep_total p (y_sh st) (y_queue st) _ _ N Cp (sy_sh _ _ _ _ V) S T' Gp).
        destruct (cliStep p (y_sh st) (y_queue st)) as [[[[[? ?] ?] ?]|]|]; [discriminate|discriminate|contradiction].
    - assert (K := workStep_total (y_worker st) (y_sh st) (y_queue st) _ _ (sy_wk _ _ _ _ V) (sy_sh _ _ _ _ V) S T' W).
      destruct (workStep _ _ _ _ _) as [[[[[? ?] ?] ?]|]|]; [discriminate|discriminate|contradiction].
  Qed.
  Theorem runs : forall cs, Forall (safeChoice Inp nB j) cs -> (301 * Z.of_nat (length cs) < 2 ^ 63)%Z ->
    execAll maxC wN cs (sysMake k) <> Panic.
  Proof.
    assert (Gen : forall cs n st, Forall (safeChoice Inp nB j) cs -> sreach (safeChoice Inp nB j) maxC wN k st -> slow n st ->
      (0 <= n)%Z -> (301 * (n + Z.of_nat (length cs)) < 2 ^ 63)%Z -> execAll maxC wN cs st <> Panic).
    { induction cs as [|c cs IH]; intros n st F R Sl Hn L; cbn [execAll]; [discriminate|]. inversion F as [|? ? Hc Fc]; subst.
      assert (T : inTime st).
      { destruct Sl as [S1 S2]. assert (K := gs_ctr _ (gy_sh _ (sreach_good _ R))). simpl length in L. split; [split; lia|].
        intros a. specialize (S2 a). lia. }
      assert (NP := never_panics _ c R T). destruct (exec maxC wN c st) as [[st'|]|] eqn:E; cbn [rbind]; [|discriminate|contradiction].
      destruct (step_good _ _ _ (sreach_inv _ R) (sreach_good _ R) Hc E) as [_ Sl']. apply (IH (n + 1)%Z); auto; [eapply sr_step; eauto|lia|simpl length in L; lia]. }
    intros cs F L. apply (Gen cs 0%Z); auto; [apply sr_start|apply start_slow|lia].
  Qed.
End Safe.
