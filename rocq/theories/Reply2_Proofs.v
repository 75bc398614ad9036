(** Some statements and questions, then one cycle. *)
From Coq Require Import ZArith Bool Lia List Permutation.
From Verif Require Import Base F64_Model Sort_Proofs Term_Model Term_Spec Term_Proofs Unify_Spec
  Stamp_Model Tv_Model Sentence_Model Sentence_Proofs Infer_Model Infer_Spec Infer_Proofs Mem_Model Mem_Spec Mem_Proofs
  Cycle_Model Cycle_Spec Cycle_Proofs Select_Proofs Task_Proofs Run_Proofs Deriv_Proofs
  Sched_Model Sched_Spec Sched_Proofs Sched2_Proofs Sched3_Proofs Reply_Spec Reply_Proofs.
Import ListNotations.

Section Session.
  Variables (maxC : Z) (wN nB : nat).
  Hypothesis wide : 1 <= wN <= nB.

  (** * What the tables hold after the additions [D] *)
  Definition fitsC (x : addArgs) : Prop := (calcComplexity (s_term (ar_s x)) <= maxC)%Z.
  Definition size (D : list addArgs) : nat := list_sum (map (fun x => length (retSubterms (s_term (ar_s x)))) D).
  Definition heapOf (sh : shared) (D : list addArgs) : Prop :=
    length (heap sh) <= size D /\ forall a, a < length (heap sh) -> exists x, In x D /\ s_punct (ar_s x) = JUGEMENT /\ fitsC x /\ tk_s (hget (heap sh) a) = ar_s x.
  Definition judgOf (sh : shared) (D : list addArgs) : Prop :=
    forall x, In x D -> s_punct (ar_s x) = JUGEMENT -> fitsC x -> exists a, In a (judg sh) /\ tk_s (hget (heap sh) a) = ar_s x.
  Definition asksOf (sh : shared) (D : list addArgs) : Prop :=
    forall x, In x D -> s_punct (ar_s x) = QUESTION -> fitsC x -> exists z, In z (questions sh) /\ q_s z = ar_s x.
  Definition among (D : list addArgs) (s : sentence) : Prop := exists x, In x D /\ s_punct (ar_s x) = JUGEMENT /\ s_term s = s_term (ar_s x).
  Definition memOf (sh : shared) (D : list addArgs) : Prop := memInv (beliefsAny (among D) maxC nB) (memory sh).
  Definition idxOf (sh : shared) (D : list addArgs) : Prop := forall u l, mget u (byTerm sh) = Some l -> length l <= size D.
  Record holdsOf (sh : shared) (Dh Dj Dq Dm Di : list addArgs) : Prop := mkHoldsOf {
    ho_heap : heapOf sh Dh; ho_judg : judgOf sh Dj; ho_asks : asksOf sh Dq; ho_mem : memOf sh Dm; ho_idx : idxOf sh Di }.
  Definition holdsAll (sh : shared) (D : list addArgs) : Prop := holdsOf sh D D D D D.

  Lemma size_app : forall a b, size (a ++ b) = size a + size b.
  Proof. intros a b. unfold size. rewrite map_app, list_sum_app. reflexivity. Qed.
  Lemma size_one : forall x, size [x] = length (retSubterms (s_term (ar_s x))).
  Proof. intros x. unfold size. cbn [map]. unfold list_sum. cbn [fold_right]. lia. Qed.
  Lemma parts_pos : forall t, 1 <= length (retSubterms t).
  Proof. intros t. assert (H : In t (retSubterms t)) by (apply retSubterms_iff; constructor). destruct (retSubterms t); [destruct H|simpl; lia]. Qed.
  Lemma heapOf_more : forall sh D x, heapOf sh D -> heapOf sh (D ++ [x]).
  Proof. intros sh D x [L H]. split; [rewrite size_app; lia|]. intros a Ha. destruct (H a Ha) as (z & Hz & R). exists z. split; [apply in_or_app; auto|exact R]. Qed.
  Lemma memOf_more : forall sh D x, memOf sh D -> memOf sh (D ++ [x]).
  Proof.
    intros sh D x [M H]. split; auto. intros t c Hc. destruct (H t c Hc) as [B1 B2 B3]. constructor; auto. intros b Hb. destruct (B3 b Hb) as ((z & Hz & R) & R2).
    split; [exists z; split; [apply in_or_app; auto|exact R]|exact R2].
  Qed.
  Lemma idxOf_more : forall sh D x, idxOf sh D -> idxOf sh (D ++ [x]).
  Proof. intros sh D x H u l E. apply H in E. rewrite size_app. lia. Qed.
  Lemma judgOf_more : forall sh D x, judgOf sh D -> (s_punct (ar_s x) <> JUGEMENT \/ ~ fitsC x) -> judgOf sh (D ++ [x]).
  Proof. intros sh D x H N z Hz J F. apply in_app_iff in Hz. destruct Hz as [Hz|[<-|[]]]; auto. now destruct N. Qed.
  Lemma asksOf_more : forall sh D x, asksOf sh D -> (s_punct (ar_s x) <> QUESTION \/ ~ fitsC x) -> asksOf sh (D ++ [x]).
  Proof. intros sh D x H N z Hz J F. apply in_app_iff in Hz. destruct Hz as [Hz|[<-|[]]]; auto. now destruct N. Qed.

  (** * Adding one sentence *)
  Definition atPhase (sh : shared) (D : list addArgs) (x : addArgs) (f : phase) : Prop :=
    let D' := D ++ [x] in
    match f with
    | FRevise ts r => r = None /\ (ts = [] \/ s_punct (ar_s x) = JUGEMENT) /\ holdsAll sh D
    | FStore => holdsAll sh D
    | FCheck l => (l = [ar_s x] /\ holdsOf sh D D D D' D) \/ (l = [] /\ holdsAll sh D')
    | FPush s l a => s = ar_s x /\ l = [] /\ s_punct (ar_s x) = JUGEMENT /\ tk_s (hget (heap sh) a) = ar_s x /\ a < length (heap sh) /\ holdsOf sh D' D D D' D
    | FIndex s l a => s = ar_s x /\ l = [] /\ s_punct (ar_s x) = JUGEMENT /\ holdsOf sh D' D' D D' D
    end.
  (** nothing in [D] has the same statement *)
  Definition newTo (D : list addArgs) (x : addArgs) : Prop :=
    s_punct (ar_s x) = JUGEMENT -> forall z, In z D -> s_punct (ar_s z) = JUGEMENT -> s_term (ar_s z) <> s_term (ar_s x).
  Lemma replaced_had : forall s l l' nb, replaced s l l' nb -> exists b, In b l /\ revisable s b.
  Proof. intros s l l' nb H. destruct H as [l1 b l2 nb _ R _]. exists b. split; auto. apply in_or_app. simpl. auto. Qed.
  Lemma no_revision : forall s m u t m' r' u' D, memInv (beliefsAny (among D) maxC nB) m -> (forall z, In z D -> s_punct (ar_s z) = JUGEMENT -> s_term (ar_s z) <> s_term s) ->
    reviseConcept s (m, None, u) t = Ok (m', r', u') -> r' = None /\ memInv (beliefsAny (among D) maxC nB) m'.
  Proof.
    intros s m u t m' r' u' D [OK HB] N H. apply reviseConcept_spec in H.
    destruct H as (K & _ & F & [(Gn & -> & -> & _)|(c & e & x & oe & ox & Gc & E1 & E2 & Gc' & Er & _)]); [split; [auto|split; auto]|].
    assert (Hc := mget_in _ _ _ _ Gc). destruct (HB _ _ Hc) as [_ _ B3].
    assert (NR : forall b, In b (byExp c) \/ In b (byUsage c) -> ~ revisable s b).
    { intros b Hb [E _]. destruct (B3 b Hb) as ((z & Hz & Jz & Ez) & _). apply (N z Hz Jz). congruence. }
    apply reviseTable_spec in E1, E2. destruct oe as [nb|].
    { destruct E1 as [E1 _]. apply replaced_had in E1. destruct E1 as (b & Hb & R). destruct (NR b); auto. }
    destruct ox as [nb|].
    { destruct E2 as [E2 _]. apply replaced_had in E2. destruct E2 as (b & Hb & R). destruct (NR b); auto. }
    destruct E1 as [-> _], E2 as [-> _]. split; [exact Er|].
    assert (Ec : mkConcept (c_name c) (byExp c) (byUsage c) = c) by (destruct c; reflexivity). rewrite Ec in Gc'.
    assert (N' : NoDup (map fst m')) by (rewrite K; apply OK).
    assert (C' : forall t' c', holds m' t' c' -> holds m t' c').
    { intros t' c' Hc'. apply in_mget in Hc'; auto. destruct (term_eq_dec t' t) as [->|Hn]; [assert (c' = c) by congruence; subst c'; exact Hc|]. rewrite F in Hc' by auto. now apply mget_in. }
    split; [split; auto|]. - intros t' c' Hc'. apply OK. auto. - intros t' c' Hc'. apply HB with t'. auto.
  Qed.
  Lemma populate_length : forall n tm a bt, (forall u l, mget u bt = Some l -> length l <= n) ->
    forall u l, mget u (populateTaskByTermLookup bt tm a) = Some l -> length l <= n + length (retSubterms tm).
  Proof.
    intros n tm a. unfold populateTaskByTermLookup. generalize (retSubterms tm). intros us. revert n. induction us as [|w us IH]; intros n bt H u l E; cbn [fold_left length] in *.
    - apply H in E. lia.
    - assert (K : length l <= S n + length us); [|lia]. revert E. apply IH. intros u0 l0 E0. destruct (mget w bt) as [v|] eqn:M; rewrite mget_mset in E0.
      + destruct (checkEqTerm (term_clone w) u0); [injection E0 as <-; rewrite app_length; simpl; apply H in M; lia|apply H in E0; lia].
      + destruct (checkEqTerm (term_clone w) u0); [injection E0 as <-; simpl; lia|apply H in E0; lia].
  Qed.
  Lemma addStep_at : forall D x f sh sh' o, newTo D x -> fitsC x -> 1 <= ar_n x <= nB -> (forall a, In a (judg sh) -> a < length (heap sh)) -> atPhase sh D x f -> addStep x f sh = Ok (sh', o) ->
    match o with Some f' => atPhase sh' D x f' | None => holdsAll sh' (D ++ [x]) end.
  Proof.
    intros D x f sh sh' o NW FC NX LV A H. destruct f as [[|t ts] [nb|]| |[|s l]|s l a|s l a]; cbn [addStep] in H; cbn [atPhase] in A.
    - destruct A as [A _]. discriminate.
    - injection H as <- <-. exact (proj2 (proj2 A)).
    - destruct A as [A _]. discriminate.
    - destruct A as (_ & [A|A] & I); [discriminate|]. destruct (reviseConcept _ _ _) as [[[m r'] u]|] eqn:E; [|discriminate]. cbn [rbind] in H. injection H as <- <-.
      destruct I as [I1 I2 I3 I4 I5]. destruct (no_revision _ _ _ _ _ _ _ D I4 (NW A) E) as [-> M']. split; auto. split; auto. constructor; auto.
    - destruct (storeInConcepts _ _ _ _ _) as [m|] eqn:E; [|discriminate]. cbn [rbind] in H. injection H as <- <-. left. split; auto. destruct A as [I1 I2 I3 I4 I5].
      constructor; auto. unfold memOf. cbn [memory setMemory]. apply (store_any (among (D ++ [x])) maxC nB _ _ _ _ _ _ NX (memOf_more _ _ x I4)) in E; auto.
      split; [|exact FC]. intros J. exists x. split; [apply in_or_app; simpl; auto|auto].
    - destruct A as [[A _]|[_ A]]; [discriminate|]. injection H as <- <-. exact A.
    - destruct A as [[A I]|[A _]]; [|discriminate]. injection A as -> ->. destruct I as [I1 I2 I3 I4 I5]. destruct (s_punct (ar_s x)) eqn:J.
      + assert (TE : taskExists sh (ar_s x) = false).
        { apply Bool.not_true_is_false. intros K. unfold taskExists in K. apply existsb_exists in K. destruct K as (a & Ha & K). apply andb_true_iff in K. destruct K as [K _].
          apply checkEqTerm_eq in K. destruct (proj2 I1 a (LV a Ha)) as (z & Hz & Jz & _ & Ez). rewrite Ez in K. now apply (NW J z Hz Jz). }
        rewrite TE in H. injection H as <- <-. cbn [atPhase]. set (tsk := newTask sh (ar_s x) (ar_cc x) (ar_mul x)).
        assert (Et : tk_s tsk = ar_s x) by (unfold tsk, newTask; rewrite shallowCopy_id; destruct (ar_cc x); reflexivity).
        assert (Ha : tk_s (hget (heap sh ++ [tsk]) (length (heap sh))) = ar_s x).
        { unfold hget. rewrite app_nth2 by lia. rewrite Nat.sub_diag. exact Et. }
        assert (Ho : forall a, a < length (heap sh) -> hget (heap sh ++ [tsk]) a = hget (heap sh) a) by (intros a La; unfold hget; now rewrite app_nth1).
        clearbody tsk. split; auto. split; auto. split; auto. split; auto. split; [cbn; rewrite app_length; simpl; lia|].
        constructor; auto; [split|].
        * cbn. rewrite app_length, size_app, size_one. assert (P := parts_pos (s_term (ar_s x))). destruct I1 as [I1 _]. simpl. lia.
        * cbn [heap setTaskCtr setHeap]. rewrite app_length. cbn [length]. intros a La. destruct (Nat.eq_dec a (length (heap sh))) as [->|Na].
          -- exists x. rewrite Ha. split; [apply in_or_app; simpl; auto|auto].
          -- rewrite Ho by lia. destruct (proj2 I1 a ltac:(lia)) as (z & Hz & R). exists z. split; [apply in_or_app; auto|exact R].
        * intros z Hz Jz Fz. destruct (I2 z Hz Jz Fz) as (a & H1 & H2). exists a. split; auto. cbn [heap setTaskCtr setHeap]. rewrite Ho; auto.
      + injection H as <- <-. right. split; auto. constructor.
        * now apply heapOf_more.
        * apply judgOf_more; [exact I2|left; congruence].
        * intros z Hz Qz Fz. cbn [questions setQuestions]. apply in_app_iff in Hz. destruct Hz as [Hz|[<-|[]]].
          -- destruct (I3 z Hz Qz Fz) as (w & Hw & Ew). exists w. split; auto. apply in_or_app. auto.
          -- eexists. split; [apply in_or_app; right; left; reflexivity|]. cbn. apply shallowCopy_id.
        * exact I4.
        * now apply (idxOf_more sh).
      + injection H as <- <-. right. split; auto. constructor.
        * now apply heapOf_more.
        * apply judgOf_more; [exact I2|left; congruence].
        * apply asksOf_more; [exact I3|left; congruence].
        * exact I4.
        * now apply idxOf_more.
    - injection H as <- <-. destruct A as (-> & -> & J & Ea & La & [I1 I2 I3 I4 I5]). cbn [atPhase]. split; auto. split; auto. split; auto. constructor; auto.
      intros z Hz Jz Fz. cbn [judg setJudg heap]. apply in_app_iff in Hz. destruct Hz as [Hz|[<-|[]]].
      + destruct (I2 z Hz Jz Fz) as (b & H1 & H2). exists b. split; auto. apply in_or_app. auto.
      + exists a. split; auto. apply in_or_app. simpl. auto.
    - injection H as <- <-. destruct A as (-> & -> & J & [I1 I2 I3 I4 I5]). right. split; auto. constructor; auto.
      + apply (asksOf_more sh); [exact I3|left; congruence].
      + intros u l E. cbn [byTerm setByTerm] in E. apply (populate_length (size D)) in E; [|exact I5]. rewrite size_app, size_one. exact E.
  Qed.

  (** * The additions *)
  Lemma holds_env : forall sh h pm sc us nu Dh Dj Dq Dm Di, holdsOf sh Dh Dj Dq Dm Di -> creditsOnly (heap sh) h ->
    holdsOf (mkShared h (judg sh) (byTerm sh) (questions sh) (memory sh) pm sc (taskCtr sh) (cycleCtr sh) us nu) Dh Dj Dq Dm Di.
  Proof.
    intros sh h pm sc us nu Dh Dj Dq Dm Di [[L H] I2 I3 I4 I5] [SL SS]. constructor; auto; [split; cbn [heap]|].
    - now rewrite SL.
    - intros a La. rewrite SL in La. destruct (H a La) as (x & Hx & J & F & E). exists x. rewrite (proj1 (SS a)). auto.
    - intros x Hx J F. destruct (I2 x Hx J F) as (a & Ha & E). exists a. cbn [judg heap]. rewrite (proj1 (SS a)). auto.
  Qed.
  Lemma at_env : forall sh h pm sc us nu D x f, atPhase sh D x f -> creditsOnly (heap sh) h ->
    atPhase (mkShared h (judg sh) (byTerm sh) (questions sh) (memory sh) pm sc (taskCtr sh) (cycleCtr sh) us nu) D x f.
  Proof.
    intros sh h pm sc us nu D x f A S. destruct f as [ts r| |l|s l a|s l a]; cbn [atPhase] in *.
    - destruct A as (A1 & A2 & A3). split; auto. split; auto. now apply (holds_env sh).
    - now apply (holds_env sh).
    - destruct A as [[A1 A2]|[A1 A2]]; [left|right]; (split; [auto|now apply (holds_env sh)]).
    - destruct A as (A1 & A2 & A3 & A4 & A5 & A6). cbn [heap]. destruct S as [SL SS]. rewrite (proj1 (SS a)), SL. split; auto. split; auto. split; auto. split; auto. split; auto. apply (holds_env sh); auto. split; auto.
    - destruct A as (A1 & A2 & A3 & A4). split; auto. split; auto. split; auto. now apply (holds_env sh).
  Qed.
  Definition adds (xs : list addArgs) : list (nat * op) := map (fun x => (0, OpAdd x)) xs.
  Definition calm (st : sys) : Prop := y_worker st = WIdle /\ y_queue st = [].
  Definition early (xs : list addArgs) (st : sys) : Prop := calm st /\
    ((y_clients st = [CIdle] /\ holdsAll (y_sh st) xs) \/
     exists D x f, xs = D ++ [x] /\ y_clients st = [CAdd x f] /\ fitsC x /\ atPhase (y_sh st) D x f).
  Definition goodAdds (xs : list addArgs) : Prop := Forall (fun x => 1 <= ar_n x <= nB) xs /\ forall D x D2, xs = D ++ x :: D2 -> newTo D x.
  Lemma good_prefix : forall xs ys, goodAdds (xs ++ ys) -> goodAdds xs.
  Proof.
    intros xs ys [F N]. apply Forall_app in F. split; [apply F|]. intros D x D2 E. apply (N D x (D2 ++ ys)). rewrite E, <- app_assoc. reflexivity.
  Qed.
  Lemma fair_adds : forall xs, Forall (fun x => 1 <= ar_n x <= nB) xs -> Forall (fair nB 0) (adds xs).
  Proof. intros xs F. unfold adds. apply Forall_forall. intros z Hz. apply in_map_iff in Hz. destruct Hz as (x & <- & Hx). rewrite Forall_forall in F. apply F, Hx. Qed.
  Lemma adds_snoc : forall ops z xs, ops ++ [z] = adds xs -> exists xs0 x, xs = xs0 ++ [x] /\ ops = adds xs0 /\ z = (0, OpAdd x).
  Proof.
    intros ops z xs E. destruct (@exists_last _ xs) as (xs0 & x & ->).
    - intros ->. destruct ops; discriminate.
    - unfold adds in E. rewrite map_app in E. apply app_inj_tail in E. destruct E as [E1 E2]. exists xs0, x. auto.
  Qed.
  Lemma early_start : early [] (sysMake 1).
  Proof.
    split; [split; reflexivity|]. left. split; [reflexivity|]. constructor.
    - split; [simpl; lia|]. simpl. intros a La. lia.
    - intros x [].
    - intros x [].
    - split; [split; [constructor|]|]; intros t c [].
    - intros u l E. discriminate.
  Qed.
  Lemma early_add : forall xs x st st', early xs st -> goodAdds (xs ++ [x]) -> exec maxC wN (ChStart 0 (OpAdd x)) st = Ok (Some st') -> early (xs ++ [x]) st'.
  Proof.
    intros xs x st st' [C S] GA H. cbn [exec] in H. destruct S as [[E I]|(D & x0 & f & _ & E & _)]; rewrite E in H; [|discriminate].
    cbn [nth_error opStart] in H. unfold startAdd in H. destruct (calcComplexity (s_term (ar_s x)) >? maxC)%Z eqn:K.
    - injection H as <-. split; [exact C|]. left. split; [reflexivity|]. cbn [y_sh]. apply Z.gtb_lt in K.
      assert (NF : ~ fitsC x) by (unfold fitsC; lia). destruct I as [I1 I2 I3 I4 I5].
      constructor; auto using heapOf_more, memOf_more, idxOf_more, judgOf_more, asksOf_more.
    - injection H as <-. split; [exact C|]. right. exists xs, x. eexists. split; [reflexivity|]. split; [reflexivity|].
      split; [unfold fitsC; rewrite Z.gtb_ltb in K; apply Z.ltb_ge in K; lia|]. cbn [atPhase y_sh]. split; auto. split; auto.
      destruct (s_punct (ar_s x)); auto.
  Qed.
  Lemma early_step : forall xs st c st', early xs st -> goodAdds xs -> (forall a, In a (judg (y_sh st)) -> a < length (heap (y_sh st))) -> begun c = [] ->
    exec maxC wN c st = Ok (Some st') -> early xs st'.
  Proof.
    intros xs st c st' [[W Q] S] GA LV B H. destruct c as [i0 o|i0|]; [discriminate| |]; cbn [exec] in H.
    - destruct S as [[E I]|(D & x & f & Ex & E & FC & A)]; rewrite E in H.
      + destruct i0 as [|[|i0]]; discriminate.
      + destruct i0 as [|[|i0]]; try discriminate. cbn [nth_error cliStep] in H.
        destruct (addStep x f (y_sh st)) as [[sh1 o]|] eqn:E1; [|discriminate]. cbn [rbind fst snd] in H. injection H as <-.
        assert (NW : newTo D x) by (destruct GA as [_ N]; apply (N D x []); auto).
        assert (NX : 1 <= ar_n x <= nB) by (destruct GA as [F _]; rewrite Forall_forall in F; apply F; rewrite Ex; apply in_or_app; simpl; auto).
        assert (K := addStep_at D x f _ _ _ NW FC NX LV A E1). split; [split; auto|]. cbn [y_sh y_clients]. destruct o as [f'|].
        * right. exists D, x, f'. auto.
        * left. split; [reflexivity|]. now rewrite Ex.
    - rewrite W, Q in H. cbn [workStep rbind] in H. discriminate.
  Qed.

  (** * The first cycle, up to the choice of a task *)
  Definition before (p : cphase) : Prop := match p with YTransfer | YBase | YSample | YAsk _ _ | YAny | YSelect => True | _ => False end.
  Definition choosing (xs : list addArgs) (y : cycArgs) (st : sys) : Prop :=
    calm st /\ exists p, before p /\ y_clients st = [CCycle y p] /\ holdsAll (y_sh st) xs.
  (** the task [a] is chosen; all statements are found by their subterms *)
  Definition chosen (xs : list addArgs) (st : sys) (a : nat) : Prop :=
    calm st /\ (exists y, y_clients st = [CCycle y (YCollect a (retUniqueSubterms (s_term (tk_s (hget (heap (y_sh st)) a)))) [])]) /\
    a < length (heap (y_sh st)) /\ heapOf (y_sh st) xs /\ asksOf (y_sh st) xs /\ idxOf (y_sh st) xs /\
    forall x, In x xs -> s_punct (ar_s x) = JUGEMENT -> fitsC x -> exists b, b < length (heap (y_sh st)) /\ tk_s (hget (heap (y_sh st)) b) = ar_s x /\
      forall u, occurs u (s_term (ar_s x)) -> exists l, mget u (byTerm (y_sh st)) = Some l /\ In b l.
  Lemma holds_same : forall sh sh' xs ans, holdsAll sh xs -> sameTasks (heap sh) (heap sh') -> judg sh' = judg sh -> byTerm sh' = byTerm sh -> memory sh' = memory sh ->
    qgrow ans (questions sh) (questions sh') -> holdsAll sh' xs.
  Proof.
    intros sh sh' xs ans [[L H] I2 I3 I4 I5] [SL SS] Ej Eb Em G. constructor.
    - split; [now rewrite SL|]. rewrite SL. intros a La. destruct (H a La) as (x & Hx & J & F & E). exists x. rewrite (proj1 (SS a)). auto.
    - intros x Hx J F. destruct (I2 x Hx J F) as (a & Ha & E). exists a. rewrite Ej, (proj1 (SS a)). auto.
    - intros x Hx J F. destruct (I3 x Hx J F) as (z & Hz & E). apply In_nth_error in Hz. destruct Hz as (i & Hz). destruct (proj1 (G i) z Hz) as (z' & Hz' & [Ez _]).
      exists z'. split; [eapply nth_error_In; eauto|congruence].
    - unfold memOf. now rewrite Em.
    - unfold idxOf. now rewrite Eb.
  Qed.
  Lemma choosing_step : forall xs y st c st', choosing xs y st -> sysInv (fun _ => True) maxC nB st -> begun c = [] ->
    (exists x, In x xs /\ s_punct (ar_s x) = JUGEMENT /\ fitsC x) ->
    exec maxC wN c st = Ok (Some st') -> choosing xs y st' \/ exists a, chosen xs st' a.
  Proof.
    intros xs y st c st' [[W Q] (p & Bp & E & I)] INV B EX H. destruct c as [i0 o|i0|]; [discriminate| |]; cbn [exec] in H.
    2:{ rewrite W, Q in H. cbn [workStep rbind] in H. discriminate. }
    rewrite E in H. destruct i0 as [|[|i0]]; try discriminate. cbn [nth_error cliStep] in H.
    destruct (cycStep y p (y_sh st) (y_queue st)) as [[[[[sh1 qu1] an1] o]|]|] eqn:E1; try discriminate. cbn [rbind] in H. injection H as <-.
    assert (G := proj2 (proj2 (cycStep_eff _ _ _ _ _ _ _ _ E1))).
    assert (SAME : forall s1 p' an, qgrow an (questions (y_sh st)) (questions s1) -> sameTasks (heap (y_sh st)) (heap s1) -> judg s1 = judg (y_sh st) -> byTerm s1 = byTerm (y_sh st) -> memory s1 = memory (y_sh st) -> before p' ->
       choosing xs y (mkSys s1 (y_queue st) (replace_at 0 (CCycle y p') [CCycle y p]) (y_worker st) (y_log st ++ an))).
    { intros s1 p' an G1 S1 S2 S3 S4 Bp'. split; [split; auto|]. exists p'. split; auto. split; [reflexivity|]. eapply holds_same; eauto. }
    destruct p as [| | |i [|t ts]| | |a [|t ts] acc|m|m| | | | |]; try (destruct Bp; fail); cbn [cycStep] in E1.
    - assert (K := transfer_same (y_sh st)). assert (K1 : judg (transferCredits (y_sh st)) = judg (y_sh st)) by reflexivity. assert (K2 : byTerm (transferCredits (y_sh st)) = byTerm (y_sh st)) by reflexivity. assert (K3 : memory (transferCredits (y_sh st)) = memory (y_sh st)) by reflexivity.
      set (s1 := transferCredits (y_sh st)) in *. clearbody s1. injection E1 as <- <- <- <-. left. apply SAME; auto; try exact Logic.I.
    - assert (K := base_same (y_sh st)). assert (K1 : judg (baseCredits (y_sh st)) = judg (y_sh st)) by reflexivity. assert (K2 : byTerm (baseCredits (y_sh st)) = byTerm (y_sh st)) by reflexivity. assert (K3 : memory (baseCredits (y_sh st)) = memory (y_sh st)) by reflexivity.
      set (s1 := baseCredits (y_sh st)) in *. clearbody s1. injection E1 as <- <- <- <-. left. apply SAME; auto; try exact Logic.I.
    - left. destruct (questions (y_sh st)) as [|q0 qs0] eqn:Eq; [injection E1 as <- <- <- <-; apply SAME; auto using sameTasks_refl; try exact Logic.I; rewrite Eq; apply qgrow_refl|].
      destruct (task2SelByCreditRandom _ _) as [i|]; [|discriminate]. cbn [rbind] in E1. destruct (idx _ i) as [q|]; [|discriminate]. cbn [rbind] in E1.
      injection E1 as <- <- <- <-. apply SAME; auto using sameTasks_refl; try exact Logic.I; rewrite Eq; apply qgrow_refl.
    - injection E1 as <- <- <- <-. left. apply SAME; auto using sameTasks_refl; try exact Logic.I.
    - destruct (idx (questions (y_sh st)) i) as [q|]; [|discriminate]. cbn [rbind] in E1. destruct (qaTryAll q _) as [[q' a]|]; [|discriminate]. cbn [rbind fst snd] in E1.
      injection E1 as <- <- <- <-. left. apply SAME; auto using sameTasks_refl; try exact Logic.I.
    - injection E1 as <- <- <- <-. left. apply SAME; auto using sameTasks_refl. destruct EX as (x & Hx & J & F). destruct (ho_judg _ _ _ _ _ _ I x Hx J F) as (a & Ha & _).
      destruct (judg (y_sh st)); [destruct Ha|exact Logic.I].
    - set (ix := taskSelByCreditTop _ _ _) in E1. unfold idx in E1. destruct (nth_error (judg (y_sh st)) ix) as [a|] eqn:Na; [|discriminate]. cbn [unwrap rbind] in E1.
      injection E1 as <- <- <- <-. right. exists a. destruct INV as [[T _ _] _ _ _ _]. destruct I as [I1 I2 I3 I4 I5].
      assert (FL : inFlight unindexed st = []) by (unfold inFlight; rewrite E, W; reflexivity).
      assert (LV : forall b, In b (judg (y_sh st)) -> b < length (heap (y_sh st))) by (intros b Hb; apply (ti_live _ _ _ _ T); apply in_or_app; auto).
      split; [split; auto|]. split; [exists y; reflexivity|]. split; [apply LV; eapply nth_error_In; eauto|].
      split; [exact I1|]. split; [exact I3|]. split; [exact I5|]. intros x Hx J F. destruct (I2 x Hx J F) as (b & Hb & Eb). exists b. split; [apply LV, Hb|]. split; [exact Eb|].
      intros u O. destruct (ti_listed _ _ _ _ T b u Hb) as [(l & Hl & Il)|K].
      + unfold taskTerm. now rewrite Eb.
      + exists l. split; auto. apply in_mget; auto. apply T.
      + rewrite FL in K. destruct K.
  Qed.
  Lemma nil_or_last : forall A (l : list A), l = [] \/ exists l1 z, l = l1 ++ [z].
  Proof. intros A l. destruct l as [|x l]; auto. right. destruct (@exists_last _ (x :: l)) as (l1 & z & E); [discriminate|]. exists l1, z. exact E. Qed.
  Lemma busy_start : forall st y q i o st', y_clients st = [CCycle y q] -> exec maxC wN (ChStart i o) st = Ok (Some st') -> False.
  Proof. intros st y q i o st' E H. cbn [exec] in H. rewrite E in H. destruct i as [|[|i]]; discriminate. Qed.
  Lemma session_phases : forall ops st0 st, spath maxC wN ops st0 st -> st0 = sysMake 1 ->
    (forall xs, ops = adds xs -> goodAdds xs -> early xs st) /\
    (forall xs y rest, ops = adds xs ++ (0, OpCycle y) :: rest -> goodAdds xs -> (exists x, In x xs /\ s_punct (ar_s x) = JUGEMENT /\ fitsC x) ->
      (rest = [] /\ choosing xs y st) \/
      exists st1 a, spath maxC wN (adds xs ++ [(0, OpCycle y)]) (sysMake 1) st1 /\ chosen xs st1 a /\ spath maxC wN rest st1 st).
  Proof.
    intros ops st0 st P. induction P as [st|ops st st1 c st2 P IH E|ops st st1 h us pm sc nu P IH S]; intros ->.
    - split.
      + intros [|x xs] Ex; [intros _; apply early_start|discriminate].
      + intros [|x xs] y rest Ex; discriminate.
    - specialize (IH eq_refl). destruct IH as [IH1 IH2].
      assert (SY : forall xs, ops = adds xs -> goodAdds xs -> sysInv (fun _ => True) maxC nB st1).
      { intros xs -> [F _]. apply (reach_sys maxC wN nB 0 1 st1 wide). eapply path_reach; [exact P|now apply fair_adds|constructor]. }
      split.
      + intros xs Ex GA. destruct c as [i0 o|i0|]; cbn [begun] in Ex.
        * apply adds_snoc in Ex. destruct Ex as (xs0 & x & -> & -> & K). injection K as -> ->. apply early_add with (st := st1); auto. apply IH1; auto. eapply good_prefix; eauto.
        * rewrite app_nil_r in Ex. apply early_step with (st := st1) (c := ChClient i0); auto. destruct (SY xs Ex GA) as [[T _ _] _ _ _ _]. intros a Ha. apply (ti_live _ _ _ _ T). apply in_or_app. auto.
        * rewrite app_nil_r in Ex. apply early_step with (st := st1) (c := ChWorker); auto. destruct (SY xs Ex GA) as [[T _ _] _ _ _ _]. intros a Ha. apply (ti_live _ _ _ _ T). apply in_or_app. auto.
      + intros xs y rest Ex GA EX.
        assert (CASE : (ops = adds xs /\ begun c = [(0, OpCycle y)] /\ rest = []) \/ exists rest1, ops = adds xs ++ (0, OpCycle y) :: rest1 /\ rest = rest1 ++ begun c).
        { destruct c as [i0 o|i0|]; cbn [begun] in *.
          - destruct (@nil_or_last _ rest) as [->|(rest1 & z & ->)].
            + apply app_inj_tail in Ex. destruct Ex as [-> K]. left. rewrite K. auto.
            + rewrite app_comm_cons, app_assoc in Ex. apply app_inj_tail in Ex. destruct Ex as [-> K]. right. exists rest1. rewrite K. auto.
          - rewrite app_nil_r in Ex. right. exists rest. rewrite app_nil_r. auto.
          - rewrite app_nil_r in Ex. right. exists rest. rewrite app_nil_r. auto. }
        destruct CASE as [(-> & B & ->)|(rest1 & EO & ->)].
        * left. split; auto. destruct c as [i0 o|i0|]; try discriminate. cbn [begun] in B. injection B as -> ->.
          destruct (IH1 xs eq_refl GA) as [CA S]. cbn [exec] in E. destruct S as [[EC I]|(D & x0 & f & _ & EC & _)]; rewrite EC in E; [|discriminate].
          cbn [nth_error opStart] in E. injection E as <-. split; [exact CA|]. exists YTransfer. split; [exact Logic.I|]. split; [reflexivity|]. cbn [y_sh].
          apply (holds_same (y_sh st1) _ xs []); auto using sameTasks_refl, qgrow_refl.
        * destruct (IH2 xs y rest1 EO GA EX) as [[-> CH]|(st3 & a & P1 & C1 & P2)].
          -- assert (B : begun c = []).
             { destruct c as [i0 o|i0|]; auto. exfalso. destruct CH as [_ (p & _ & EC & _)]. eapply busy_start; eauto. }
             rewrite B. assert (SI : sysInv (fun _ => True) maxC nB st1).
             { apply (reach_sys maxC wN nB 0 1 st1 wide). eapply path_reach; [exact P| |constructor]. rewrite EO. apply Forall_app. split; [apply fair_adds, GA|]. constructor; [reflexivity|constructor]. }
             destruct (choosing_step xs y st1 c st2 CH SI B EX E) as [C2|(a & C2)]; [auto|]. right. exists st2, a. split; [|split; [exact C2|constructor]].
             rewrite <- EO. replace ops with (ops ++ begun c) by (rewrite B; apply app_nil_r). econstructor; eauto.
          -- right. exists st3, a. split; auto. split; auto. eapply sp_move; eauto.
    - specialize (IH eq_refl). destruct IH as [IH1 IH2]. split.
      + intros xs Ex GA. destruct (IH1 xs Ex GA) as [CA SS]. split; [exact CA|]. cbn [y_clients y_sh]. destruct SS as [[EC I]|(D & x0 & f & E0 & EC & F & A)].
        * left. split; auto. now apply holds_env.
        * right. exists D, x0, f. split; auto. split; auto. split; auto. now apply at_env.
      + intros xs y rest Ex GA EX. destruct (IH2 xs y rest Ex GA EX) as [[-> [CA (p & Bp & EC & I)]]|(st3 & a & P1 & C1 & P2)].
        * left. split; auto. split; [exact CA|]. exists p. split; auto. split; auto. now apply holds_env.
        * right. exists st3, a. split; auto. split; auto. econstructor; eauto.
  Qed.

  (** * After the choice *)
  Lemma calm_step : forall st c st' y q, calm st -> y_clients st = [CCycle y q] -> begun c = [] ->
    match q with YCollect _ _ _ | YTouch _ => True | _ => False end -> exec maxC wN c st = Ok (Some st') ->
    calm st' /\ length (heap (y_sh st')) = length (heap (y_sh st)).
  Proof.
    intros st c st' y q [W Q] E B Hq H. destruct c as [i0 o|i0|]; [discriminate| |]; cbn [exec] in H.
    2:{ rewrite W, Q in H. cbn [workStep rbind] in H. discriminate. }
    rewrite E in H. destruct i0 as [|[|i0]]; try discriminate. cbn [nth_error cliStep] in H. unfold calm. rewrite W, Q in *.
    destruct q as [| | |i [|t ts]| | |a [|t ts] acc|m|m| | | | |]; try (destruct Hq; fail); cbn [cycStep rbind] in H.
    - injection H as <-. cbn [y_worker y_queue y_sh heap]. auto.
    - injection H as <-. cbn [y_worker y_queue y_sh heap]. auto.
    - assert (K : heap (touchAll (Some m) (cy_now y) (y_sh st)) = heap (y_sh st)) by reflexivity. set (s1 := touchAll _ _ _) in *. clearbody s1.
      injection H as <-. cbn [y_worker y_queue y_sh]. rewrite K. auto.
  Qed.
  Lemma chosen_path : forall a sec p i qs t v ops st st', instanceOf t (s_term qs) -> spath maxC wN ops st st' -> Forall (fair nB 0) ops -> reach (fairC nB 0) maxC wN 1 st ->
    calm st -> length (heap (y_sh st)) <= 300 -> going 0 a sec p i qs t v st ->
    (going 0 a sec p i qs t v st' /\ calm st' /\ length (heap (y_sh st')) <= 300) \/ later a sec p i qs t v st'.
  Proof.
    intros a sec p i qs t v ops st st' IN P. induction P as [st|ops st st1 c st2 P IH E|ops st st1 h us pm sc nu P IH S]; intros EO R C L G; auto.
    - apply Forall_app in EO. destruct EO as [F FB].
      assert (R1 := path_reach _ _ _ _ _ _ _ _ P F R). destruct (reach_sys _ _ _ _ _ _ wide R1) as (I1 & K1 & C1).
      destruct (IH F R C L G) as [(G1 & CA & L1)|L1]; [|right; apply (later_step maxC wN nB 0 a sec p i qs t v wide IN st1 c st2); auto].
      destruct (going_step maxC wN nB 0 a sec p i qs t v wide st1 c st2 I1 C1 L1 G1 E FB) as [G2|G2]; auto.
      left. split; auto.
      assert (ONE : forall z, nth_error (y_clients st1) 0 = Some z -> y_clients st1 = [z]).
      { intros z Hz. destruct (y_clients st1) as [|z0 [|z1 l]]; try discriminate. now injection Hz as ->. }
      assert (B : begun c = []).
      { destruct c as [i0 o|i0|]; auto. exfalso. destruct G1 as [_ [(y & ts & acc & E1 & _)|(y & m & _ & [E1|E1])]]; eapply busy_start; eauto. }
      destruct G1 as [_ [(y & ts & acc & E1 & _)|(y & m & _ & [E1|E1])]].
      + destruct (calm_step st1 c st2 y _ CA (ONE _ E1) B Logic.I E) as [C2 E2]. split; auto. lia.
      + destruct (calm_step st1 c st2 y _ CA (ONE _ E1) B Logic.I E) as [C2 E2]. split; auto. lia.
      + exfalso. assert (E3 := ONE _ E1). destruct CA as [W Q]. destruct c as [i0 o|i0|]; [discriminate| |]; cbn [exec] in E.
        * rewrite E3 in E. destruct i0 as [|[|i0]]; try discriminate. cbn [nth_error cliStep cycStep] in E. rewrite Q in E. cbn [length Nat.ltb Nat.leb rbind] in E. injection E as <-.
          destruct G2 as [_ [(y2 & ts & acc & E4 & _)|(y2 & m2 & _ & [E4|E4])]]; discriminate E4.
        * rewrite W, Q in E. cbn [workStep rbind] in E. discriminate.
    - destruct (IH EO R C L G) as [([PE GS] & CA & L1)|[PE LS]].
      + left. split; [|split; [exact CA|cbn [y_sh heap]; destruct S; lia]].
        split; [eapply (pending_step wN nB a sec p i qs t v wide st1 _ []); eauto; [eapply env_same; eauto|apply qgrow_refl]|]. destruct GS as [(y & ts & acc & E & ND & RG & HB)|GS]; [left|right; exact GS].
        exists y, ts, acc. split; auto. split; auto. split; [|exact HB]. cbn [y_sh heap]. destruct S as [SL _]. rewrite SL. exact RG.
      + right. split; [eapply (pending_step wN nB a sec p i qs t v wide st1 _ []); eauto; [eapply env_same; eauto|apply qgrow_refl]|exact LS].
  Qed.
  Lemma choosing_busy : forall xs y st, choosing xs y st -> ~ quiet 0 st.
  Proof. intros xs y st [_ (p & _ & E & _)] [C _]. rewrite E in C. discriminate. Qed.
  Lemma session_told : forall xs y rest st', spath maxC wN (adds xs ++ (0, OpCycle y) :: rest) (sysMake 1) st' -> Forall (fair nB 0) rest -> goodAdds xs -> size xs <= 51 ->
    (exists x, In x xs /\ s_punct (ar_s x) = JUGEMENT /\ fitsC x) -> quiet 0 st' ->
    exists p, In p xs /\ s_punct (ar_s p) = JUGEMENT /\ fitsC p /\
      forall q t v, In q xs -> s_punct (ar_s q) = QUESTION -> fitsC q ->
      (follows1 (ar_s p) t v \/ exists b, In b xs /\ s_punct (ar_s b) = JUGEMENT /\ fitsC b /\ sharePart (s_term (ar_s p)) (s_term (ar_s b)) /\ follows (ar_s p) (ar_s b) t v) ->
      instanceOf t (s_term (ar_s q)) -> fltb f0 (calcExp v) = true -> told st' (s_term (ar_s q)) (calcExp v).
  Proof.
    intros xs y rest st' P FR GA SZ EX QT. destruct (proj2 (session_phases _ _ _ P eq_refl) xs y rest eq_refl GA EX) as [[_ CH]|(st1 & a & P1 & C1 & P2)].
    { destruct (choosing_busy _ _ _ CH QT). }
    destruct C1 as (CA & (y1 & EC) & La & [LH HH] & AS & IX & FD). destruct (HH a La) as (p & Hp & Jp & Fp & Ep). exists p. split; auto. split; auto. split; auto.
    intros q t v Hq Jq Fq FO IN PO. destruct (AS q Hq Jq Fq) as (z & Hz & Ez). apply In_nth_error in Hz. destruct Hz as (i & Hz).
    assert (FA : Forall (fair nB 0) (adds xs ++ (0, OpCycle y) :: rest)).
    { apply Forall_app. split; [apply fair_adds, GA|]. constructor; [reflexivity|exact FR]. }
    assert (FA1 : Forall (fair nB 0) (adds xs ++ [(0, OpCycle y)])).
    { apply Forall_app. split; [apply fair_adds, GA|]. constructor; [reflexivity|constructor]. }
    assert (R1 : reach (fairC nB 0) maxC wN 1 st1) by (eapply path_reach; [exact P1|exact FA1|constructor]).
    assert (ST : exists sec, going 0 a sec (ar_s p) i (ar_s q) t v st1).
    { assert (G0 : forall sec, (forall b, In b sec -> found (byTerm (y_sh st1)) (retUniqueSubterms (s_term (ar_s p))) b) -> collecting 0 a sec st1).
      { intros sec HS. exists y1, (retUniqueSubterms (s_term (ar_s p))), []. rewrite EC, Ep. split; [reflexivity|]. split; [constructor|]. split; [intros x []|auto]. }
      destruct FO as [FO|(b & Hb & Jb & Fb & (u & U1 & U2) & FO)].
      - exists []. split; [|left; apply G0; intros b []]. split; [exists z; auto|]. auto.
      - destruct (FD b Hb Jb Fb) as (nb & Lb & Eb & IB). exists [nb]. split.
        + split; [exists z; auto|]. split; auto. split; auto. right. exists nb. split; [simpl; auto|]. split; auto. now rewrite Eb.
        + left. apply G0. intros b' [<-|[]]. destruct (IB u U2) as (l & El & Il). exists u, l. split; [now apply retUniqueSubterms_in|]. split; auto.
          rewrite firstn_all2; auto. apply IX in El. lia. }
    destruct ST as (sec & G). assert (GE : going 0 a sec (ar_s p) i (ar_s q) t v st' \/ later a sec (ar_s p) i (ar_s q) t v st').
    { destruct (chosen_path a sec (ar_s p) i (ar_s q) t v rest st1 st' IN P2 FR R1 CA) as [(G2 & _)|G2]; auto. lia. }
    assert (PE : pending a sec (ar_s p) i (ar_s q) t v st') by (destruct GE as [[PE _]|[PE _]]; exact PE).
    destruct PE as ((z1 & Hz1 & Ez1) & _).
    destruct (going_end 0 a sec (ar_s p) i (ar_s q) t v st' GE QT) as (z' & Hz' & B). assert (z1 = z') by congruence. subst z1. rewrite <- Ez1.
    apply (told_by st' i z' (calcExp v)); auto.
    - eapply path_log; [exact P|exact FA|apply log_start].
    - eapply path_num in P; [apply P; eapply nth_error_In; eauto|exact FA|apply num_start].
  Qed.
End Session.

(** * In the words of the specification *)
Definition nodesL := fix suml (l : list term) : nat := match l with [] => 0 | x :: l' => nodes x + suml l' end.
Lemma nodes_list : forall l, Forall (fun t => length (retSubterms t) = nodes t) l -> length (flat_map retSubterms l) = nodesL l.
Proof. intros l F. induction F as [|x l Hx F IH]; simpl; auto. rewrite app_length, Hx, IH. reflexivity. Qed.
Lemma nodes_parts : forall t, length (retSubterms t) = nodes t.
Proof. induction t using term_ind2; simpl; fold nodesL; rewrite ?app_length, ?nodes_list; auto; lia. Qed.
Lemma size_nodes : forall xs, size xs = list_sum (map (fun x => nodes (s_term (ar_s x))) xs).
Proof. intros xs. unfold size. f_equal. apply map_ext. intros x. apply nodes_parts. Qed.
Lemma fits_accepted : forall maxC x, fitsC maxC x <-> accepted maxC x.
Proof. intros maxC x. unfold fitsC, accepted. now rewrite complexity_split. Qed.
Lemma distinct_new : forall D x D2, distinct (D ++ x :: D2) -> newTo D x.
Proof.
  unfold distinct, newTo. intros D x D2 H Jx z Hz Jz E. rewrite filter_app, map_app in H. cbn [filter] in H. rewrite Jx in H. cbn [map] in H.
  apply NoDup_remove_2 in H. apply H. apply in_or_app. left. apply in_map_iff. exists z. split; auto. apply filter_In. split; auto. now rewrite Jz.
Qed.
Lemma good_of : forall nB xs, Forall (fun x => 1 <= ar_n x <= nB) xs -> distinct xs -> goodAdds nB xs.
Proof. intros nB xs F H. split; auto. intros D x D2 ->. eapply distinct_new; eauto. Qed.
Lemma inst_id : forall t, inst (fun v => v) t = t.
Proof.
  assert (ML : forall l, Forall (fun t => inst (fun v => v) t = t) l -> map (inst (fun v => v)) l = l).
  { intros l F. induction F as [|x l Hx F IH]; simpl; congruence. }
  induction t using term_ind2; simpl; rewrite ?ML; auto; congruence.
Qed.
Lemma ground_instance : forall t, ground t -> instanceOf t t.
Proof.
  intros t G. exists (fun v => v). split; [intros v Hv O; destruct (G v O Hv)|]. apply inst_id.
Qed.
