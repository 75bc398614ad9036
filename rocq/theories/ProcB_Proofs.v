(** Anticipations and the storage worker. *)
From Coq Require Import String ZArith Bool Lia List Sorted Permutation.
From Verif Require Import Base F64_Model Sort_Proofs Term_Model Term_Spec Term_Proofs Stamp_Model Stamp_Proofs Tv_Model Sentence_Model Mem_Model Mem_Proofs PMem_Model PMem_Proofs PMem2_Proofs
  Goal_Model Goal_Spec Goal_Proofs Goal3_Proofs Proc_Model Proc_Spec ProcA_Proofs ProcP_Proofs.
Import ListNotations.
Local Open Scope list_scope.
Local Open Scope Z_scope.

(** * Anticipations *)
Lemma retPred_iff : forall t p, retPred t = Ok p <-> exists q, t = Stmt PREDIMPL q p.
Proof.
  intros t p. split.
  - destruct t as [c x y| | | | | | | | | | | | | |]; try discriminate. destruct c; try discriminate. unfold retPred. rewrite term_clone_id. intros H.
    assert (y = p) by congruence. subst. eauto.
  - intros (q & ->). unfold retPred. now rewrite term_clone_id.
Qed.
Lemma rfilter_ok : forall A (f : A -> res bool) l l', rfilter f l = Ok l' ->
  (forall a, In a l -> exists b, f a = Ok b) /\ l' = filter (fun a => match f a with Ok b => b | Panic => false end) l.
Proof.
  intros A f. induction l as [|a l IH]; intros l' H; cbn [rfilter] in H.
  - assert (l' = []) by congruence. subst. split; [intros a []|reflexivity].
  - destruct (f a) as [b|] eqn:E; [|discriminate]. cbn [rbind] in H. destruct (rfilter f l) as [l2|]; [|discriminate]. cbn [rbind] in H.
    destruct (IH l2 eq_refl) as (A1 & ->). split.
    + intros x [<-|Hx]; eauto.
    + simpl. rewrite E. destruct b; congruence.
Qed.
Lemma rfilter_total : forall A (f : A -> res bool) l, (forall a, In a l -> exists b, f a = Ok b) -> exists l', rfilter f l = Ok l'.
Proof.
  intros A f. induction l as [|a l IH]; intros H; cbn [rfilter]; [eauto|].
  destruct (H a) as (b & ->); [now left|]. destruct IH as (l' & ->); [intros; apply H; now right|]. cbn [rbind]. eauto.
Qed.

(** does belief [b] of heap [h] predict [e]? *)
Definition predictsb (h : list sentence) (b : nat) (e : term) : bool :=
  match s_term (rd h b) with Stmt PREDIMPL _ p => checkEqTerm p e | _ => false end.
Lemma predictsb_iff : forall h b e, predictsb h b e = true <-> exists q, s_term (rd h b) = Stmt PREDIMPL q e.
Proof.
  intros. unfold predictsb. split.
  - destruct (s_term (rd h b)) as [c x y| | | | | | | | | | | | | |]; try discriminate. destruct c; try discriminate. intros H. apply checkEqTerm_eq in H. subst. eauto.
  - intros (q & ->). now apply checkEqTerm_eq.
Qed.
Lemma predIs_ok : forall h e a b, predIs h e a = Ok b -> b = predictsb h (fst a) e /\ exists q p, s_term (rd h (fst a)) = Stmt PREDIMPL q p.
Proof.
  intros h e a b H. unfold predIs in H. destruct (retPred _) as [p|] eqn:E; [|discriminate]. cbn [rbind] in H.
  apply retPred_iff in E. destruct E as (q & E). unfold predictsb. rewrite E. split; [congruence|eauto].
Qed.
Lemma filter_filter : forall A (f g : A -> bool) l, filter f (filter g l) = filter (fun x => g x && f x) l.
Proof. intros A f g l. induction l as [|x l IH]; simpl; auto. destruct (g x); simpl; [destruct (f x); congruence|auto]. Qed.

Definition seenIn (h : list sentence) (evs : list (option event)) (a : nat * Z) : bool :=
  existsb (fun o => match o with Some e => predictsb h (fst a) (ev_name e) | None => false end) evs.
Lemma confirm_ok : forall n ant, confirm n = Ok ant ->
  ant = filter (fun a => negb (seenIn (cells (n_mem n)) (map (recent (n_trace n)) (seq 0 (c_window (n_cfg n)))) a)) (n_ant n).
Proof.
  intros n ant. unfold confirm. generalize (seq 0 (c_window (n_cfg n))), (n_ant n). induction l as [|i l IH]; intros a0 H; cbn [rfold] in H.
  - assert (a0 = ant) by congruence. subst. simpl. clear H. induction ant as [|x l IH]; simpl; congruence.
  - destruct (recent (n_trace n) i) as [e|] eqn:E; cbn [rbind] in H.
    + destruct (rfilter _ a0) as [a1|] eqn:F; [|discriminate]. cbn [rbind] in H. apply rfilter_ok in F. destruct F as (F & ->).
      rewrite (IH _ H), filter_filter. apply filter_ext_in. intros a Ha. cbn [map seenIn existsb]. rewrite E.
      destruct (F a Ha) as (b & Hb). rewrite Hb. destruct (predIs _ _ a) as [b'|] eqn:P; [|discriminate]. cbn [rbind] in Hb. apply predIs_ok in P. destruct P as (-> & _).
      assert (b = negb (predictsb (cells (n_mem n)) (fst a) (ev_name e))) by congruence. subst b. now rewrite negb_orb.
    + rewrite (IH _ H). apply filter_ext. intros a. cbn [map seenIn existsb]. now rewrite E.
Qed.
Lemma recent_last : forall tr w e, (exists i, (i < w)%nat /\ recent tr i = Some e) <-> In e (lastEvents w tr).
Proof.
  intros tr w e. unfold lastEvents. split.
  - intros (i & Hi & H). apply recent_some in H. destruct H as (pre & post & -> & L). rewrite app_length. cbn [length].
    rewrite skipn_app. apply in_app_iff. right.
    replace (length pre + S (length post) - w - length pre)%nat with 0%nat by lia. now left.
  - intros H. apply in_split in H. destruct H as (p & q & H). exists (length q). rewrite <- (firstn_skipn (length tr - w) tr), H.
    assert (L : length (p ++ e :: q) = length (skipn (length tr - w) tr)) by now rewrite H. rewrite skipn_length, app_length in L. cbn [length] in L.
    split; [lia|]. apply recent_some. exists (firstn (length tr - w) tr ++ p), q. split; auto. now rewrite <- app_assoc.
Qed.
Lemma seenIn_iff : forall n a, seenIn (cells (n_mem n)) (map (recent (n_trace n)) (seq 0 (c_window (n_cfg n)))) a = true <-> seen n a.
Proof.
  intros n a. unfold seenIn, seen. rewrite existsb_exists. split.
  - intros (o & Ho & H). apply in_map_iff in Ho. destruct Ho as (i & Hi & Hs). destruct o as [e|]; [|discriminate].
    apply predictsb_iff in H. destruct H as (q & H). exists e, q. split; auto. apply recent_last. exists i. apply in_seq in Hs. split; [lia|auto].
  - intros (e & q & He & H). apply recent_last in He. destruct He as (i & Hi & R). exists (Some e). split.
    + apply in_map_iff. exists i. split; auto. apply in_seq. lia.
    + apply predictsb_iff. eauto.
Qed.

Lemma addMiss_0 : forall s, addMiss 0 s = s.
Proof. intros [tm t p st x e u]. unfold addMiss. simpl. destruct e as [[| ]|]; auto. now rewrite Z.add_0_r. Qed.
Lemma addMiss_S : forall k s p c, s_evi s = Some (CNT p c) -> addMiss k (setEvi s (s_stamp s) (CNT p (c + 1))) = addMiss (S k) s.
Proof. intros k s p c E. unfold addMiss. rewrite E. cbn [setEvi s_evi s_term s_t s_punct s_stamp s_expDt s_usage]. do 3 f_equal. lia. Qed.
Lemma rd_out : forall h b, (length h <= b)%nat -> rd h b = noSentence.
Proof. intros. unfold rd. now apply nth_overflow. Qed.
Lemma neg_one : forall h a h', negConfirm h a = Ok h' -> (fst a < length h)%nat /\ length h' = length h /\
  exists p c, s_evi (rd h (fst a)) = Some (CNT p c) /\ h' = wr h (fst a) (setEvi (rd h (fst a)) (s_stamp (rd h (fst a))) (CNT p (c + 1))).
Proof.
  intros h a h' H. unfold negConfirm in H. destruct (s_evi (rd h (fst a))) as [e|] eqn:E; [|discriminate]. cbn [unwrap rbind] in H.
  destruct (Nat.lt_ge_cases (fst a) (length h)) as [L|L].
  2:{ rewrite rd_out in E by assumption. discriminate. }
  destruct e as [p c|]; [|discriminate]. assert (h' = wr h (fst a) (setEvi (rd h (fst a)) (s_stamp (rd h (fst a))) (CNT p (c + 1)))) by congruence.
  subst. split; auto. split; [apply wr_length|]. eauto.
Qed.
Lemma neg_fold : forall l h h', rfold negConfirm l h = Ok h' -> length h' = length h /\
  forall b, rd h' b = addMiss (length (filter (fun a => Nat.eqb (fst a) b) l)) (rd h b).
Proof.
  induction l as [|a l IH]; intros h h' H; cbn [rfold] in H.
  - assert (h = h') by congruence. subst. split; auto. intros b. simpl. now rewrite addMiss_0.
  - destruct (negConfirm h a) as [h1|] eqn:E; [|discriminate]. cbn [rbind] in H. apply neg_one in E. destruct E as (L & L1 & p & c & E & ->).
    apply IH in H. destruct H as (L2 & H). split; [congruence|]. intros b. rewrite H, rd_wr by assumption. simpl.
    rewrite (Nat.eqb_sym (fst a) b). destruct (Nat.eqb_spec b (fst a)); auto. subst b. simpl. now apply addMiss_S.
Qed.

(** the first half step *)
Theorem step0_spec : forall n rs n' ms, narStep0 n rs = Ok (n', ms) ->
  exists keep late,
    (forall a, keep a = true <-> ~ seen n a /\ n_t n < snd a) /\ (forall a, late a = true <-> ~ seen n a /\ snd a <= n_t n) /\
    n_ant n' = filter keep (n_ant n) /\
    (forall b, rd (cells (n_mem n')) b = addMiss (length (filter (fun a => late a && Nat.eqb (fst a) b) (n_ant n))) (rd (cells (n_mem n)) b)) /\
    length (cells (n_mem n')) = length (cells (n_mem n)) /\ pcs (n_mem n') = pcs (n_mem n) /\
    n_trace n' = n_trace n /\ n_t n' = n_t n /\ n_ops n' = n_ops n /\ n_cfg n' = n_cfg n /\ n_table n' = n_table n /\
    n_goals n' = match List.rev (n_trace n) with [] => n_goals n | e :: _ => event_occurred (n_goals n) (ev_name e) end.
Proof.
  intros n rs n' ms H. unfold narStep0 in H. destruct (confirm n) as [ant|] eqn:C; [|discriminate]. cbn [rbind] in H.
  destruct (rfold negConfirm _ _) as [h|] eqn:N; [|discriminate]. cbn [rbind] in H.
  destruct (traceStep _ rs) as [(g, ms')|] eqn:T; [|discriminate]. cbn [rbind] in H.
  assert (E : n' = setGoals (setMem (setAnt n (filter (fun a => snd a >? n_t n) ant)) (mkPmem h (pcs (n_mem n)))) g) by congruence. subst n'. clear H.
  apply confirm_ok in C. set (sb := seenIn (cells (n_mem n)) (map (recent (n_trace n)) (seq 0 (c_window (n_cfg n))))) in C.
  apply neg_fold in N. destruct N as (L & N).
  assert (SB : forall a, negb (sb a) = true <-> ~ seen n a).
  { intros a. rewrite negb_true_iff. split.
    - intros H S. apply seenIn_iff in S. fold sb in S. congruence.
    - intros H. destruct (sb a) eqn:Q; auto. apply seenIn_iff in Q. contradiction. }
  exists (fun a => negb (sb a) && (snd a >? n_t n)), (fun a => negb (sb a) && (snd a <=? n_t n)).
  split. { intros a. rewrite andb_true_iff, SB, Z.gtb_lt. tauto. }
  split. { intros a. rewrite andb_true_iff, SB, Z.leb_le. tauto. }
  split. { cbn [setGoals setMem setAnt n_ant]. rewrite C, filter_filter. reflexivity. }
  split. { intros b. cbn [setGoals setMem n_mem cells]. rewrite N, C. f_equal. rewrite !filter_filter. f_equal. apply filter_ext. intros x. apply andb_assoc. }
  split; [exact L|]. repeat (split; [reflexivity|]). cbn [setGoals n_goals].
  unfold traceStep in T. cbn [setMem setAnt n_trace n_goals] in T.
  destruct (Nat.leb 3 _).
  - destruct (rmapM _ _); [|discriminate]. cbn [rbind] in T. congruence.
  - congruence.
Qed.

(** everything that is sent was observed *)
Lemma somes_in : forall A (l : list (option A)) a, In a (somes l) <-> In (Some a) l.
Proof.
  intros A l a. unfold somes. rewrite in_flat_map. split.
  - intros ([x|] & H & X); [|easy]. destruct X as [->|[]]. auto.
  - intros H. exists (Some a). split; auto. now left.
Qed.
Theorem step0_sends : forall n rs n' ms, narStep0 n rs = Ok (n', ms) -> (1 <= c_nOpsMax (n_cfg n))%nat ->
  (length ms <= c_samples (n_cfg n))%nat /\
  forall s now, In (s, now) ms -> now = n_t n /\ observation (n_ops n) (n_table n) (n_trace n) s.
Proof.
  intros n rs n' ms H Hc. unfold narStep0 in H. destruct (confirm n) as [ant|]; [|discriminate]. cbn [rbind] in H.
  destruct (rfold negConfirm _ _) as [h|]; [|discriminate]. cbn [rbind] in H. set (n1 := setMem _ _) in H.
  destruct (traceStep n1 rs) as [(g, ms')|] eqn:T; [|discriminate]. cbn [rbind] in H. assert (ms' = ms) by congruence. subst ms'. clear H.
  unfold traceStep in T. destruct (Nat.leb_spec 3 (length (n_trace n1))) as [L|L].
  2:{ assert (ms = []) by congruence. subst. split; [simpl; lia|intros s now []]. }
  destruct (rmapM _ _) as [os|] eqn:M; [|discriminate]. cbn [rbind] in T.
  assert (ms = map (fun s => (s, n_t n1)) (somes os)) by congruence. subst ms. clear T.
  apply rmapM_ok in M. split.
  - rewrite map_length. apply Forall2_len in M. rewrite seq_length in M. change (n_cfg n1) with (n_cfg n) in M. rewrite M.
    unfold somes. clear. induction os as [|[x|] os IH]; simpl; lia.
  - intros s now Hs. apply in_map_iff in Hs. destruct Hs as (s' & E & Hs). change (n_t n1) with (n_t n) in E. assert (s' = s /\ now = n_t n) by (split; congruence). destruct H as (-> & ->).
    split; auto. apply somes_in in Hs. apply In_nth_error in Hs. destruct Hs as (k & Hk).
    assert (exists i, perceive n1 (rs i) = Ok (Some s)).
    { clear - M Hk. revert k Hk. induction M as [|i o is os Hi M IH]; intros [|k] Hk; try discriminate; simpl in Hk; [|eauto]. exists i. congruence. }
    destruct H as (i & P). pose proof (perceive_sound n1 (rs i) L Hc) as Q. rewrite P in Q. exact Q.
Qed.

(** no panic, if the anticipations are about counted implications *)
Lemma addMiss_cnt : forall k s p c, s_evi s = Some (CNT p c) -> exists c', s_evi (addMiss k s) = Some (CNT p c').
Proof. intros k s p c E. unfold addMiss. rewrite E. simpl. eauto. Qed.
Lemma neg_total : forall l h, (forall a, In a l -> exists p c, s_evi (rd h (fst a)) = Some (CNT p c)) -> exists h', rfold negConfirm l h = Ok h'.
Proof.
  induction l as [|a l IH]; intros h H; cbn [rfold]; [eauto|]. destruct (H a) as (p & c & E); [now left|].
  destruct (negConfirm h a) as [h1|] eqn:N; [|unfold negConfirm in N; rewrite E in N; discriminate]. cbn [rbind].
  apply IH. intros b Hb. apply neg_one in N. destruct N as (L & _ & p' & c' & E' & ->). rewrite rd_wr by assumption.
  destruct (Nat.eqb_spec (fst b) (fst a)); [simpl; eauto|apply H; now right].
Qed.
Lemma confirm_total : forall n, (forall a, In a (n_ant n) -> exists q p, s_term (rd (cells (n_mem n)) (fst a)) = Stmt PREDIMPL q p) -> exists ant, confirm n = Ok ant.
Proof.
  intros n. unfold confirm. generalize (seq 0 (c_window (n_cfg n))), (n_ant n). induction l as [|i l IH]; intros a0 H; cbn [rfold]; [eauto|].
  destruct (recent (n_trace n) i) as [e|]; cbn [rbind]; [|auto].
  destruct (rfilter_total _ (fun a => do b <- predIs (cells (n_mem n)) (ev_name e) a; Ok (negb b)) a0) as (a1 & F).
  - intros a Ha. destruct (H a Ha) as (q & p & E). unfold predIs. rewrite E. cbn [retPred rbind]. eauto.
  - rewrite F. cbn [rbind]. apply IH. intros a Ha. apply rfilter_ok in F. destruct F as (_ & ->). apply filter_In in Ha. apply H. tauto.
Qed.
Theorem step0_total : forall n rs, (1 <= c_nOpsMax (n_cfg n))%nat ->
  (forall a, In a (n_ant n) -> exists q e p c, s_term (rd (cells (n_mem n)) (fst a)) = Stmt PREDIMPL q e /\ s_evi (rd (cells (n_mem n)) (fst a)) = Some (CNT p c)) ->
  exists r, narStep0 n rs = Ok r.
Proof.
  intros n rs Hc H. unfold narStep0. destruct (confirm_total n) as (ant & C).
  { intros a Ha. destruct (H a Ha) as (q & e & p & c & A & _). eauto. }
  rewrite C. cbn [rbind]. destruct (neg_total (filter (fun a => snd a <=? n_t n) ant) (cells (n_mem n))) as (h & N).
  { intros a Ha. apply filter_In in Ha. destruct Ha as (Ha & _). apply confirm_ok in C. rewrite C in Ha. apply filter_In in Ha.
    destruct (H a) as (q & e & p & c & _ & A); [tauto|]. eauto. }
  rewrite N. cbn [rbind]. set (n1 := setMem _ _). unfold traceStep. destruct (Nat.leb_spec 3 (length (n_trace n1))) as [L|L]; [|cbn [rbind]; eauto].
  destruct (rmapM_total _ _ (fun i => perceive n1 (rs i)) (seq 0 (c_samples (n_cfg n1)))) as (os & M).
  - intros i _. pose proof (perceive_sound n1 (rs i) L Hc) as P. destruct (perceive n1 (rs i)); [eauto|contradiction].
  - rewrite M. cbn [rbind]. eauto.
Qed.

(** * Storage worker *)
Lemma merge_hd : forall a b y, In y (firstn 1 b) -> In y (merge a b).
Proof.
  intros a [|z b] y H; [easy|]. destruct H as [<-|[]]. unfold merge. destruct a as [|x a]; cbn [interleave app length].
  - change (In z (firstn (Nat.min (S (length b)) 120) (z :: b))). destruct (Nat.min (S (length b)) 120) eqn:E; [lia|]. now left.
  - destruct (Nat.min (S (S (length (interleave a b)))) 120) as [|[|k]] eqn:E; [lia|lia|]. right. now left.
Qed.
Lemma merged_overlap : forall a b, b <> [] -> checkOverlap (merge a b) b = true.
Proof. intros a [|y b] H; [easy|]. apply checkOverlap_iff. exists y. split; [apply merge_hd|]; now left. Qed.

Definition supportsb (s e : sentence) : bool :=
  negb (checkOverlap (s_stamp e) (s_stamp s)) &&
  match s_expDt e, s_expDt s with Some d1, Some d2 => (d1 >=? d2) && checkEqTerm (s_term e) (s_term s) | _, _ => false end.
Lemma supportsb_iff : forall s e, supportsb s e = true <-> supports s e.
Proof.
  intros s e. unfold supportsb, supports. rewrite andb_true_iff, negb_true_iff, checkOverlap_false. split.
  - intros (O & H). destruct (s_expDt e) as [d1|]; [|discriminate]. destruct (s_expDt s) as [d2|]; [|discriminate].
    apply andb_true_iff in H. destruct H as (D & T). rewrite Z.geb_leb in D. apply Z.leb_le in D. apply checkEqTerm_eq in T. eauto 10.
  - intros (T & (d1 & d2 & -> & -> & D) & O). split; auto. apply andb_true_iff. split; [rewrite Z.geb_leb; now apply Z.leb_le|now apply checkEqTerm_eq].
Qed.
Lemma mergeInto_ok : forall s h a h' b, mergeInto s h a = Ok (h', b) ->
  b = supportsb s (rd h a) /\
  if b then exists e', countedOnce s (rd h a) e' /\ h' = wr h a e' else h' = h.
Proof.
  intros s h a h' b H. unfold mergeInto in H. unfold supportsb. destruct (checkOverlap _ _); cbn [negb andb] in *.
  { assert (h' = h /\ b = false) by (split; congruence). destruct H0 as (-> & ->). auto. }
  destruct (s_expDt (rd h a)) as [d1|]; [|discriminate]. cbn [unwrap rbind] in H. destruct (s_expDt s) as [d2|]; [|discriminate]. cbn [unwrap rbind] in H.
  destruct ((d1 >=? d2) && _).
  2:{ assert (h' = h /\ b = false) by (split; congruence). destruct H0 as (-> & ->). auto. }
  destruct (s_evi s) as [[p c|]|] eqn:E1; try discriminate. cbn [unwrap rbind] in H.
  destruct (s_evi (rd h a)) as [[pos cnt|]|] eqn:E2; try discriminate. cbn [unwrap rbind] in H.
  assert (b = true /\ h' = wr h a (setEvi (rd h a) (merge (s_stamp (rd h a)) (s_stamp s)) (CNT (pos + p) (cnt + c)))) by (split; congruence).
  destruct H0 as (-> & ->). split; auto. eexists. split; [|reflexivity]. exists p, c, pos, cnt. auto.
Qed.
Lemma counted_not_again : forall s e e', s_stamp s <> [] -> countedOnce s e e' -> supportsb s e' = false.
Proof.
  intros s e e' Hs (p & c & pos & cnt & _ & _ & ->). unfold supportsb. cbn [s_stamp]. now rewrite merged_overlap.
Qed.
Lemma mergeStep_inv : forall s st a st', mergeStep s st a = Ok st' -> exists h b, mergeInto s (fst st) a = Ok (h, b) /\ st' = (h, snd st || b).
Proof. intros s st a st' H. unfold mergeStep in H. destruct (mergeInto _ _ a) as [(h, b)|]; [|discriminate]. cbn [rbind] in H. exists h, b. split; congruence. Qed.
Lemma merge_fold : forall s l h b h' b', s_stamp s <> [] -> rfold (mergeStep s) l (h, b) = Ok (h', b') -> (forall a, In a l -> (a < length h)%nat) ->
  length h' = length h /\
  (forall a, (a < length h)%nat -> In a l -> supports s (rd h a) -> countedOnce s (rd h a) (rd h' a)) /\
  (forall a, ~ (In a l /\ supports s (rd h a)) -> rd h' a = rd h a) /\
  (b' = true <-> b = true \/ exists a, In a l /\ supports s (rd h a)).
Proof.
  intros s. induction l as [|x l IH]; intros h b h' b' Hs H Hl; cbn [rfold] in H.
  - assert (h = h' /\ b = b') by (split; congruence). destruct H0 as (<- & <-). split; auto. split; [intros a _ []|]. split; auto.
    split; [auto|intros [A|(a & [] & _)]; auto].
  - destruct (mergeStep s (h, b) x) as [[h1 b1]|] eqn:E; [|discriminate]. cbn [rbind] in H. apply mergeStep_inv in E. destruct E as (h2 & b2 & E & Q).
    cbn [fst snd] in *. assert (h1 = h2 /\ b1 = b || b2) by (split; congruence). destruct H0 as (-> & ->). clear Q.
    apply mergeInto_ok in E. destruct E as (Eb & E). destruct b2.
    + destruct E as (e' & Ce & ->). assert (Lx : (x < length h)%nat) by (apply Hl; now left). symmetry in Eb. apply supportsb_iff in Eb as Sx.
      apply IH in H; auto; [|intros a Ha; rewrite wr_length; apply Hl; now right]. destruct H as (A & B & C & D). rewrite wr_length in *.
      assert (No : ~ supports s e') by (intros X; apply supportsb_iff in X; apply counted_not_again in Ce; auto; congruence).
      split; auto. split; [|split].
      * intros a La Ha Sa. destruct (Nat.eq_dec a x) as [->|N].
        -- rewrite C; rewrite rd_wr by assumption; rewrite Nat.eqb_refl; auto. intros (_ & X). auto.
        -- rewrite <- (rd_wr_other h x e' a N). apply B; auto; [destruct Ha; congruence|now rewrite rd_wr_other].
      * intros a Na. destruct (Nat.eq_dec a x) as [->|N]; [exfalso; apply Na; split; [now left|auto]|].
        rewrite C; [now apply rd_wr_other|]. rewrite rd_wr_other by assumption. intros (X & Y). apply Na. split; [now right|auto].
      * rewrite D, orb_true_r. split; [|auto]. intros _. right. exists x. split; [now left|auto].
    + subst h2. rewrite orb_false_r in H. apply IH in H; auto; [|intros a Ha; apply Hl; now right]. destruct H as (A & B & C & D).
      assert (No : ~ supports s (rd h x)) by (intros X; apply supportsb_iff in X; congruence).
      split; auto. split; [|split].
      * intros a La [->|Ha] Sa; [contradiction|auto].
      * intros a Na. apply C. intros (X & Y). apply Na. split; [now right|auto].
      * rewrite D. split; [intros [X|(a & X & Y)]; [auto|right; exists a; split; [now right|auto]]|].
        intros [X|(a & [->|X] & Y)]; [auto|contradiction|eauto].
Qed.

Definition implOf (s : sentence) (cond pred : term) : Prop := exists rest, s_term s = Stmt PREDIMPL (Seq (cond :: rest)) pred.
Lemma retSeqCond_iff : forall t c, retSeqCond t = Ok c <-> exists rest p, t = Stmt PREDIMPL (Seq (c :: rest)) p.
Proof.
  intros t c. split.
  - destruct t as [k x y| | | | | | | | | | | | | |]; try discriminate. destruct k; try discriminate. destruct x; try discriminate.
    unfold retSeqCond. destruct l as [|z l]; [discriminate|]. cbn [idx nth_error unwrap rbind]. intros H.
    assert (z = c) by congruence. subst. eauto.
  - intros (rest & p & ->). reflexivity.
Qed.
Lemma targets_ok : forall m s cond pred, implOf s cond pred -> mergeTargets m s = Ok (pBeliefs m [cond; pred]).
Proof.
  intros m s cond pred (rest & E). unfold mergeTargets. rewrite E. rewrite (proj2 (retSeqCond_iff _ cond)) by eauto. cbn [rbind].
  rewrite (proj2 (retPred_iff _ pred)) by eauto. cbn [rbind]. now rewrite !term_clone_id.
Qed.


Lemma internal_ok : forall us m s nB now m', mem_add_evidence_internal us m s nB now = Ok m' ->
  exists cond pred, implOf s cond pred /\ pStoreInConcepts2 us m s (retSubterms cond ++ retSubterms pred) nB now = Ok m'.
Proof.
  intros us m s nB now m' H. unfold mem_add_evidence_internal in H.
  destruct (retSeqCond _) as [cond|] eqn:C; [|discriminate]. cbn [rbind] in H. destruct (retPred _) as [pred|] eqn:P; [|discriminate]. cbn [rbind] in H.
  exists cond, pred. split; auto. apply retSeqCond_iff in C. destruct C as (rest & p & C). apply retPred_iff in P. destruct P as (q & P).
  exists rest. congruence.
Qed.
Lemma internal_stable : forall us m s nB now m', mem_add_evidence_internal us m s nB now = Ok m' -> wfP m -> wfP m' /\ stable m m'.
Proof.
  intros us m s nB now m' H W. apply internal_ok in H. destruct H as (cond & pred & _ & H).
  pose proof (pStore_refines us m s (retSubterms cond ++ retSubterms pred) nB now W) as R. rewrite H in R. tauto.
Qed.
Lemma addFold_stable : forall us nB now vs m m', rfold (fun m s => mem_add_evidence_internal us m s nB now) vs m = Ok m' -> wfP m -> wfP m' /\ stable m m'.
Proof.
  intros us nB now. induction vs as [|v vs IH]; intros m m' H W; cbn [rfold] in H.
  - assert (m = m') by congruence. subst. split; auto. apply stable_refl.
  - destruct (mem_add_evidence_internal us m v nB now) as [m1|] eqn:E; [|discriminate]. cbn [rbind] in H. apply internal_stable in E; auto. destruct E as (W1 & S1).
    apply IH in H; auto. destruct H as (W2 & S2). split; auto. eapply stable_trans; eauto.
Qed.
Lemma add_stable : forall us m s nB now draws m', mem_add_evidence us m s nB now draws = Ok m' -> wfP m -> wfP m' /\ stable m m'.
Proof.
  intros us m s nB now draws m' H W. unfold mem_add_evidence in H. destruct (mem_add_evidence_internal _ _ _ _ _) as [m1|] eqn:E; [|discriminate]. cbn [rbind] in H.
  apply internal_stable in E; auto. destruct E as (W1 & S1). destruct (matchandintro_var1_sentence s draws) as [vs|]; [|discriminate]. cbn [rbind] in H.
  apply addFold_stable in H; auto. destruct H as (W2 & S2). split; auto. eapply stable_trans; eauto.
Qed.

(** one message *)
Theorem store_counts : forall us m s now nB draws m' cond pred, wfP m -> s_stamp s <> [] -> implOf s cond pred ->
  storeEvidence us m s now nB draws = Ok m' ->
  (forall a, In a (pBeliefs m [cond; pred]) -> supports s (rd (cells m) a) -> countedOnce s (rd (cells m) a) (rd (cells m') a)) /\
  (forall a, (a < length (cells m))%nat -> ~ (In a (pBeliefs m [cond; pred]) /\ supports s (rd (cells m) a)) -> rd (cells m') a = rd (cells m) a) /\
  ((exists a, In a (pBeliefs m [cond; pred]) /\ supports s (rd (cells m) a)) -> pcs m' = pcs m /\ length (cells m') = length (cells m)) /\
  (~ (exists a, In a (pBeliefs m [cond; pred]) /\ supports s (rd (cells m) a)) -> mem_add_evidence us m s nB now draws = Ok m').
Proof.
  intros us m s now nB draws m' cond pred W Hs Hi H. unfold storeEvidence in H. rewrite (targets_ok _ _ _ _ Hi) in H. cbn [rbind] in H.
  destruct (rfold (mergeStep s) _ _) as [(h, rv)|] eqn:F; [|discriminate]. cbn [rbind] in H.
  pose proof (fun a => pBeliefs_wf m [cond; pred] a W) as Bw.
  apply merge_fold in F; auto. destruct F as (L & A & B & C). destruct rv.
  - assert (m' = mkPmem h (pcs m)) by congruence. subst m'. cbn [cells pcs]. split; [intros a Ha; apply A; auto|]. split; [intros a La Ha; auto|].
    split; [auto|]. intros N. exfalso. destruct C as (C & _). destruct (C eq_refl) as [X|X]; [discriminate|]. auto.
  - assert (N : ~ exists a, In a (pBeliefs m [cond; pred]) /\ supports s (rd (cells m) a)).
    { intros X. assert (false = true) by (apply C; auto). discriminate. }
    assert (Hh : h = cells m).
    { apply nth_ext with (d := noSentence) (d' := noSentence); auto. intros k _. apply B. intros X. apply N. eauto. }
    subst h. replace (mkPmem (cells m) (pcs m)) with m in H by now destruct m.
    destruct (add_stable _ _ _ _ _ _ _ H W) as (W' & x & Sx).
    split; [intros a Ha Sa; exfalso; eauto|]. split; [|split; [intros X; exfalso; auto|auto]].
    intros a La _. rewrite Sx. now apply rd_app.
Qed.
