(** Perception: the trace and the implications observed in it. *)
From Coq Require Import String ZArith Bool Lia List Sorted Permutation.
From Verif Require Import Base F64_Model Sort_Proofs Term_Model Term_Spec Term_Proofs Stamp_Model Tv_Model Sentence_Model Mem_Model Mem_Proofs PMem_Model
  Goal_Model Goal_Spec Goal_Proofs Goal3_Proofs Proc_Model Proc_Spec ProcA_Proofs.
Import ListNotations.
Local Open Scope list_scope.

(** * Trace *)
Lemma limit_suffix : forall tr, exists pre, tr = pre ++ traceLimit tr.
Proof.
  intros tr. unfold traceLimit. destruct (Nat.ltb 20 (length tr)).
  - exists (firstn (length tr - 20) tr). symmetry. apply firstn_skipn.
  - now exists [].
Qed.
Lemma limit_length : forall tr, length (traceLimit tr) = Nat.min 20 (length tr).
Proof.
  intros tr. unfold traceLimit. destruct (Nat.ltb_spec 20 (length tr)); [rewrite skipn_length|]; lia.
Qed.
Lemma recent_some : forall tr i e, recent tr i = Some e <-> exists pre post, tr = pre ++ e :: post /\ length post = i.
Proof.
  intros tr i e. unfold recent. split.
  - destruct (Nat.ltb_spec i (length tr)); [|discriminate]. intros E. apply nth_error_split in E. destruct E as (pre & post & -> & L).
    exists pre, post. split; auto. rewrite app_length in *. simpl in *. lia.
  - intros (pre & post & -> & <-). rewrite app_length. simpl. destruct (Nat.ltb_spec (length post) (length pre + S (length post))); [|lia].
    replace (length pre + S (length post) - 1 - length post) with (length pre) by lia. rewrite nth_error_app2 by lia. now rewrite Nat.sub_diag.
Qed.

(** * Sorting indices *)
Lemma sort_nat_sorted : forall l, StronglySorted le (sort_by Nat.ltb l).
Proof.
  intros l. apply sort_sorted.
  - intros a b H. apply Nat.ltb_lt in H. lia.
  - intros a b H. apply Nat.ltb_ge in H. lia.
  - intros. lia.
Qed.
Lemma sorted_unique : forall l l', StronglySorted le l -> StronglySorted le l' -> Permutation l l' -> l = l'.
Proof.
  induction l as [|x l IH]; intros l' S S' P.
  - apply Permutation_nil in P. now subst.
  - destruct l' as [|y l']; [apply Permutation_sym, Permutation_nil in P; discriminate|].
    apply StronglySorted_inv in S. destruct S as (S & F). apply StronglySorted_inv in S'. destruct S' as (S' & F').
    rewrite Forall_forall in *.
    assert (x = y).
    { assert (In x (y :: l')) by (eapply Permutation_in; [exact P|now left]). assert (In y (x :: l)) by (eapply Permutation_in; [apply Permutation_sym, P|now left]).
      simpl in *. destruct H as [->|H]; auto. destruct H0 as [->|H0]; auto. apply F in H0. apply F' in H. lia. }
    subst. f_equal. apply IH; auto. now apply Permutation_cons_inv in P.
Qed.
Lemma sorted_app : forall (R : nat -> nat -> Prop) l l', StronglySorted R l -> StronglySorted R l' -> (forall a b, In a l -> In b l' -> R a b) -> StronglySorted R (l ++ l').
Proof.
  induction l as [|x l IH]; intros l' S S' H; simpl; auto. apply StronglySorted_inv in S. destruct S as (S & F).
  constructor.
  - apply IH; auto. intros a b Ha Hb. apply H; auto. now right.
  - apply Forall_forall. intros z Hz. apply in_app_iff in Hz. destruct Hz as [Hz|Hz]; [rewrite Forall_forall in F; auto|]. apply H; auto. now left.
Qed.
Lemma sorted_strict : forall l, StronglySorted le l -> NoDup l -> StronglySorted lt l.
Proof.
  induction 1 as [|x l S IH F]; intros N; constructor.
  - apply IH. now inversion N.
  - rewrite Forall_forall in *. intros y Hy. apply F in Hy as L. inversion N; subst. assert (x <> y) by congruence. lia.
Qed.
Lemma fold_min_le : forall l x, fold_left Nat.min l x <= x /\ (forall y, In y l -> fold_left Nat.min l x <= y) /\ (fold_left Nat.min l x = x \/ In (fold_left Nat.min l x) l).
Proof.
  induction l as [|z l IH]; intros x; simpl; [intuition lia|]. destruct (IH (Nat.min x z)) as (A & B & C). split; [lia|]. split.
  - intros y [<-|Hy]; [lia|auto].
  - destruct C as [C|C]; auto. destruct (Nat.min_spec x z) as [[? M]|[? M]]; rewrite M in *; auto.
Qed.
Lemma minOf_le : forall l y, In y l -> minOf l <= y.
Proof. intros [|x l] y H; [easy|]. simpl. destruct (fold_min_le l x) as (A & B & _). destruct H as [<-|H]; auto. Qed.
Lemma fold_max_ge : forall l x, x <= fold_left Nat.max l x /\ (forall y, In y l -> y <= fold_left Nat.max l x) /\ (fold_left Nat.max l x = x \/ In (fold_left Nat.max l x) l).
Proof.
  induction l as [|z l IH]; intros x; simpl; [intuition lia|]. destruct (IH (Nat.max x z)) as (A & B & C). split; [lia|]. split.
  - intros y [<-|Hy]; [lia|auto].
  - destruct C as [C|C]; auto. destruct (Nat.max_spec x z) as [[? M]|[? M]]; rewrite M in *; auto.
Qed.
Lemma maxOf_ge : forall l y, In y l -> y <= maxOf l.
Proof. intros l y H. unfold maxOf. destruct (fold_max_ge l 0) as (_ & B & _). auto. Qed.

(** * Selection of operations *)
Lemma calcIdxs_iff : forall ops tr i, In i (calcIdxsOfOps ops tr) <-> exists e, nth_error tr i = Some e /\ callable ops (ev_name e).
Proof.
  intros ops tr i. unfold calcIdxsOfOps. rewrite filter_In, in_seq. split.
  - intros (L & H). destruct (nth_error tr i) as [e|]; [|discriminate]. exists e. split; auto. now apply callable_iff.
  - intros (e & E & C). rewrite E. apply callable_iff in C. split; auto. split; [lia|]. apply nth_error_Some. congruence.
Qed.
Lemma selOps_spec : forall idxs n draws sel r, selOps idxs n draws sel = Some r -> idxs <> [] -> NoDup sel -> incl sel idxs ->
  NoDup r /\ incl r idxs /\ length r = n /\ r <> [].
Proof.
  intros idxs n. induction draws as [|d draws IH]; intros sel r H Hi N I; simpl in H; [discriminate|].
  set (i := nth (Nat.modulo d (length idxs)) idxs O) in *.
  assert (Hin : In i idxs). { apply nth_In. apply Nat.mod_upper_bound. destruct idxs; [easy|discriminate]. }
  set (sel' := if existsb (Nat.eqb i) sel then sel else sel ++ [i]) in *.
  assert (N' : NoDup sel' /\ incl sel' idxs /\ sel' <> []).
  { subst sel'. destruct (existsb (Nat.eqb i) sel) eqn:E.
    - split; auto. split; auto. intros ->. discriminate.
    - split; [|split; [|now destruct sel]].
      + apply (Permutation_NoDup (Permutation_cons_append sel i)). constructor; auto.
        intros Hx. assert (existsb (Nat.eqb i) sel = true) by (apply existsb_exists; exists i; split; auto; apply Nat.eqb_refl). congruence.
      + intros x Hx. apply in_app_iff in Hx. destruct Hx as [Hx|[<-|[]]]; auto. }
  destruct N' as (N' & I' & E'). destruct (Nat.eqb_spec (length sel') n).
  - assert (sel' = r) by congruence. subst r. auto.
  - eapply IH; eauto.
Qed.

Lemma middle_of : forall A (x y : A) l, firstn (length (x :: l ++ [y]) - 2) (skipn 1 (x :: l ++ [y])) = l.
Proof.
  intros. cbn [skipn length]. rewrite app_length. cbn [length]. replace (S (length l + 1) - 2) with (length l) by lia.
  rewrite firstn_app, Nat.sub_diag, firstn_all, firstn_O. apply app_nil_r.
Qed.
Lemma idx_last : forall A (l : list A) y, idx (l ++ [y]) (length (l ++ [y]) - 1) = Ok y.
Proof.
  intros. unfold idx. rewrite app_length. cbn [length]. replace (length l + 1 - 1) with (length l) by lia. rewrite nth_error_app2 by lia.
  now rewrite Nat.sub_diag.
Qed.
Lemma map_clone : forall l, map term_clone l = l.
Proof. intros. rewrite map_ext with (g := fun x => x) by apply term_clone_id. apply map_id. Qed.
Lemma try_build_spec : forall ops x m y, m <> [] ->
  try_build_implSeq ops (x :: m ++ [y]) = Ok (Some (Stmt PREDIMPL (Seq (x :: m)) y)) /\
    (forall e, In e m -> callable ops e) /\ ~ callable ops x /\ ~ callable ops y /\ x <> y \/
  try_build_implSeq ops (x :: m ++ [y]) = Ok None /\ ~ ((forall e, In e m -> callable ops e) /\ ~ callable ops x /\ ~ callable ops y /\ x <> y).
Proof.
  intros ops x m y Hm. unfold try_build_implSeq.
  replace (Nat.ltb (length (x :: m ++ [y])) 3) with false.
  2:{ symmetry. apply Nat.ltb_ge. cbn [length]. rewrite app_length. cbn [length]. destruct m; [easy|cbn [length]; lia]. }
  rewrite middle_of. change (x :: m ++ [y]) with ((x :: m) ++ [y]). rewrite idx_last. cbn [rbind app idx nth_error unwrap].
  unfold api_s, api_seq. rewrite map_clone, term_clone_id.
  destruct (forallb (checkIsCallableOp ops) m) eqn:A; simpl.
  - destruct (checkIsCallableOp ops x) eqn:B; simpl.
    + right. split; auto. intros (_ & H & _). apply H. now apply callable_iff.
    + destruct (checkIsCallableOp ops y) eqn:C; simpl.
      * right. split; auto. intros (_ & _ & H & _). apply H. now apply callable_iff.
      * destruct (checkEqTerm x y) eqn:D; simpl.
        -- right. split; auto. intros (_ & _ & _ & H). apply H. now apply checkEqTerm_eq.
        -- left. split; auto. split; [|split; [|split]].
           ++ rewrite forallb_forall in A. intros e He. apply callable_iff. auto.
           ++ now apply callable_false.
           ++ now apply callable_false.
           ++ intros ->. assert (checkEqTerm y y = true) by now apply checkEqTerm_eq. congruence.
  - right. split; auto. intros (H & _). assert (forallb (checkIsCallableOp ops) m = true); [|congruence].
    apply forallb_forall. intros e He. apply callable_iff. auto.
Qed.

Lemma sorted_idxs : forall i sel k, sel <> [] -> i < minOf sel -> maxOf sel <= k ->
  sort_by Nat.ltb (i :: sel ++ [k]) = i :: sort_by Nat.ltb sel ++ [k].
Proof.
  intros i sel k Hs Hi Hk. apply sorted_unique; [apply sort_nat_sorted| |].
  - constructor.
    + apply sorted_app; [apply sort_nat_sorted|repeat constructor|]. intros a b Ha [<-|[]]. apply sort_in in Ha. apply maxOf_ge in Ha. lia.
    + apply Forall_forall. intros z Hz. apply in_app_iff in Hz. destruct Hz as [Hz|[<-|[]]].
      * apply sort_in in Hz. apply minOf_le in Hz. lia.
      * destruct sel as [|s sel]; [easy|]. assert (minOf (s :: sel) <= s) by (apply minOf_le; now left). assert (s <= maxOf (s :: sel)) by (apply maxOf_ge; now left). lia.
  - rewrite <- sort_perm. apply perm_skip. apply Permutation_app_tail. apply sort_perm.
Qed.
Lemma rmapM_idx : forall A (tr : list A) is items, rmapM (idx tr) is = Ok items <-> Forall2 (fun i e => nth_error tr i = Some e) is items.
Proof.
  intros A tr is. induction is as [|i is IH]; intros items; cbn [rmapM].
  - split; intros H; [assert (items = []) by congruence; subst; constructor|inversion H; reflexivity].
  - unfold idx at 1. destruct (nth_error tr i) as [e|] eqn:E; cbn [unwrap rbind].
    + destruct (rmapM (idx tr) is) as [es|] eqn:E2; cbn [rbind].
      * split; intros H.
        -- assert (items = e :: es) by congruence. subst. constructor; auto. now apply IH.
        -- inversion H; subst. apply IH in H4. congruence.
      * split; intros H; [discriminate|]. inversion H; subst. apply IH in H4. discriminate.
    + split; intros H; [discriminate|]. inversion H; subst. congruence.
Qed.
Lemma Forall2_app_sing : forall A B (R : A -> B -> Prop) l k items, Forall2 R (l ++ [k]) items -> exists es e, items = es ++ [e] /\ Forall2 R l es /\ R k e.
Proof.
  intros A B R l k items H. apply Forall2_app_inv_l in H. destruct H as (es & l2 & H1 & H2 & ->). inversion H2 as [|? e ? ? H3 H4]; subst.
  inversion H4; subst. exists es, e. auto.
Qed.

Lemma Forall2_len : forall A B (R : A -> B -> Prop) l l', Forall2 R l l' -> length l = length l'.
Proof. induction 1; simpl; auto. Qed.
(** what [perceive] does once the operations are selected *)
Definition afterSel (n : pnar) (r : smp) (sel : list nat) : res (option sentence) :=
  let tr := n_trace n in
  let idxFirst := Nat.modulo (r_first r) (minOf sel) in
  do prev <- idx tr (length tr - 1 - 1);
  let idxLast :=
    if r_prev r && Nat.ltb (maxOf sel) (length tr - 1 - 1) && negb (checkIsCallableOp (n_ops n) (ev_name prev))
    then (length tr - 1 - 1)%nat else (length tr - 1)%nat in
  let is := sort_by Nat.ltb (idxFirst :: sel ++ [idxLast]) in
  do items <- rmapM (idx tr) is;
  do cand <- try_build_implSeq (n_ops n) (map ev_name items);
  match cand with
  | None => Ok None
  | Some candidateTerm =>
      do iLast <- idx items (length items - 1);
      do iPrev <- idx items (length items - 2);
      let expDt := findMinTableIdx (ev_occ iLast - ev_occ iPrev) (n_table n) in
      do opT <- retImplSeqOp candidateTerm;
      do dec <- unwrap (decodeOp opT);
      let eviCnt := match ret_op_by_name (n_ops n) (snd dec) with Some o => op_evi o | None => 3%Z end in
      Ok (Some (mkSentence (term_clone candidateTerm) None JUGEMENT (newStamp (map ev_evi items)) (Some expDt)
                           (Some (CNT eviCnt eviCnt)) (r_usage r)))
  end.

Lemma list_last : forall A (l : list A), l <> [] -> exists pre x, l = pre ++ [x].
Proof. intros A l H. destruct l as [|x l] using rev_ind; [easy|]. eauto. Qed.
Lemma idx_prev : forall A x (pre : list A) y z, idx (x :: (pre ++ [y]) ++ [z]) (length (x :: (pre ++ [y]) ++ [z]) - 2) = Ok y.
Proof.
  intros. unfold idx. cbn [length]. rewrite !app_length. cbn [length]. replace (S (length pre + 1 + 1) - 2) with (S (length pre)) by lia.
  cbn [nth_error]. rewrite <- app_assoc, nth_error_app2 by lia. now rewrite Nat.sub_diag.
Qed.

(** the core: selected operations [sel], all of them operations of the trace *)
Lemma afterSel_ok : forall n r sel, 3 <= length (n_trace n) -> NoDup sel -> sel <> [] -> incl sel (calcIdxsOfOps (n_ops n) (n_trace n)) -> 0 < minOf sel ->
  match afterSel n r sel with
  | Panic => False
  | Ok None => True
  | Ok (Some s) => observation (n_ops n) (n_table n) (n_trace n) s
  end.
Proof.
  intros n r sel L N Hs I Hm. unfold afterSel. set (tr := n_trace n) in *.
  destruct (nth_error tr (length tr - 1 - 1)) as [prev|] eqn:Ep; [|apply nth_error_None in Ep; lia].
  unfold idx at 1. rewrite Ep. cbn [unwrap rbind].
  assert (Hb : forall j, In j sel -> j < length tr).
  { intros j Hj. apply I in Hj. apply calcIdxs_iff in Hj. destruct Hj as (e & He & _). apply nth_error_Some. congruence. }
  assert (Hmax : maxOf sel <= length tr - 1).
  { unfold maxOf. destruct (fold_max_ge sel 0) as (_ & _ & [->|H]); [lia|]. apply Hb in H. lia. }
  set (idxLast := if r_prev r && Nat.ltb (maxOf sel) (length tr - 1 - 1) && negb (checkIsCallableOp (n_ops n) (ev_name prev))
    then length tr - 1 - 1 else length tr - 1).
  assert (Hk : maxOf sel <= idxLast < length tr /\ (idxLast = length tr - 1 \/ idxLast = length tr - 2)).
  { subst idxLast. destruct (r_prev r); simpl; [|lia]. destruct (Nat.ltb_spec (maxOf sel) (length tr - 1 - 1)); simpl; [|lia].
    destruct (negb _); lia. }
  set (i := Nat.modulo (r_first r) (minOf sel)). assert (Hi : i < minOf sel) by (apply Nat.mod_upper_bound; lia).
  rewrite sorted_idxs by (auto; lia).
  set (js := sort_by Nat.ltb sel).
  assert (Hjs : forall j, In j js <-> In j sel) by (intros; apply sort_in).
  destruct (rmapM (idx tr) (i :: js ++ [idxLast])) as [items|] eqn:Ei.
  2:{ destruct (rmapM_total _ _ (idx tr) (i :: js ++ [idxLast])) as (items & E); [|congruence].
      intros a Ha. assert (a < length tr).
      { destruct Ha as [Ha|Ha]; [destruct (list_last _ _ Hs) as (q & s0 & Hq); assert (Hx : In s0 sel) by (rewrite Hq; apply in_elt); apply minOf_le in Hx as H2; apply Hb in Hx; lia|].
        apply in_app_iff in Ha. destruct Ha as [Ha|[<-|[]]]; [apply Hb; now apply Hjs|lia]. }
      unfold idx. destruct (nth_error tr a) eqn:E; [eexists; reflexivity|]. apply nth_error_None in E. lia. }
  cbn [rbind]. apply rmapM_idx in Ei. inversion Ei as [|? e0 ? items1 Hi0 Ei1]; subst. clear Ei.
  apply Forall2_app_sing in Ei1. destruct Ei1 as (es & ek & -> & Hes & Hek).
  assert (Hnil : es <> []).
  { intros ->. apply Forall2_len in Hes. assert (Hl : length js = length sel) by apply sort_length. rewrite Hes in Hl. destruct sel; [easy|discriminate]. }
  rewrite map_cons, map_app. cbn [map].
  destruct (try_build_spec (n_ops n) (ev_name e0) (map ev_name es) (ev_name ek)) as [(T & C1 & C2 & C3 & C4)|(T & _)];
    [now destruct es| |rewrite T; exact Logic.I].
  rewrite T. cbn [rbind]. change (e0 :: es ++ [ek]) with ((e0 :: es) ++ [ek]) at 1 2. rewrite idx_last. cbn [rbind].
  destruct (list_last _ es Hnil) as (pre & lastOp & Hpre).
  replace (idx (e0 :: es ++ [ek]) (length (e0 :: es ++ [ek]) - 2)) with (Ok lastOp) by (rewrite Hpre; symmetry; apply idx_prev).
  cbn [rbind]. destruct es as [|op1 rest]; [easy|].
  assert (Hc : callable (n_ops n) (ev_name op1)) by (apply C1; now left).
  destruct (callable_named _ _ Hc) as (args & name & o & Hop & Hfn).
  cbn [retImplSeqOp map]. unfold idx. cbn [nth_error unwrap rbind]. apply decodeOp_some in Hop as Hd. rewrite Hd. cbn [unwrap rbind snd].
  apply ret_op_some in Hfn as Hr. rewrite Hr. rewrite term_clone_id.
  exists i, js, idxLast, e0, (op1 :: rest), ek, lastOp, o.
  assert (Hlt : maxOf sel < idxLast).
  { destruct (Nat.eq_dec (maxOf sel) idxLast) as [E|]; [|lia]. exfalso. apply C3. unfold maxOf in E. destruct (fold_max_ge sel 0) as (_ & _ & [H|H]).
    - destruct sel as [|s sel0]; [easy|]. assert (In s (s :: sel0)) by now left. apply minOf_le in H0 as H1. pose proof (maxOf_ge _ _ H0). unfold maxOf in *. lia.
    - rewrite E in H. apply I in H. apply calcIdxs_iff in H. destruct H as (e & He & Hc'). fold tr in He. assert (e = ek) by congruence. now subst. }
  split.
  { constructor.
    - apply sorted_app.
      + apply sorted_strict; [apply sort_nat_sorted|]. eapply Permutation_NoDup; [apply sort_perm|assumption].
      + repeat constructor.
      + intros a b Ha [<-|[]]. apply Hjs in Ha. apply maxOf_ge in Ha. lia.
    - apply Forall_forall. intros z Hz. apply in_app_iff in Hz. destruct Hz as [Hz|[<-|[]]].
      + apply Hjs in Hz. apply minOf_le in Hz. lia.
      + destruct sel as [|s sel0]; [easy|]. assert (In s (s :: sel0)) by now left. apply minOf_le in H as H1. apply maxOf_ge in H. lia. }
  repeat (split; [first [exact Hi0|exact Hes|exact Hek|tauto]|]).
  split. { exists op1, rest. split; auto. exists args, name. auto. }
  split. { intros e He. apply C1. now apply in_map. }
  split. { now exists pre. }
  repeat (split; [assumption|]). cbn [s_term s_stamp s_expDt s_evi s_punct s_t]. unfold newStamp. rewrite map_cons, map_app. cbn [map].
  split; [reflexivity|]. split; [reflexivity|]. split.
  { eexists. split; [reflexivity|]. intros. now apply find_quantised. }
  auto.
Qed.
Lemma perceive_cases : forall n r, (1 <= c_nOpsMax (n_cfg n)) -> perceive n r = Ok None \/
  exists sel, NoDup sel /\ sel <> [] /\ incl sel (calcIdxsOfOps (n_ops n) (n_trace n)) /\ 0 < minOf sel /\ perceive n r = afterSel n r sel.
Proof.
  intros n r Hc. unfold perceive. destruct (calcIdxsOfOps (n_ops n) (n_trace n)) as [|i0 idxs] eqn:E; [now left|]. rewrite <- E.
  match goal with |- context [selOps ?a ?b ?c ?d] => destruct (selOps a b c d) as [sel|] eqn:S end; [|now left].
  apply selOps_spec in S; [|congruence|constructor|intros x []]. destruct S as (A & B & _ & C).
  destruct (Nat.ltb_spec 0 (minOf sel)); [|now left]. right. exists sel. split; auto.
Qed.
Theorem perceive_sound : forall n r, 3 <= length (n_trace n) -> 1 <= c_nOpsMax (n_cfg n) ->
  match perceive n r with
  | Panic => False
  | Ok None => True
  | Ok (Some s) => observation (n_ops n) (n_table n) (n_trace n) s
  end.
Proof.
  intros n r L Hc. destruct (perceive_cases n r Hc) as [->|(sel & A & B & C & D & ->)]; auto. now apply afterSel_ok.
Qed.
Theorem perceive_complete : forall n i j k e0 ej ek, 3 <= length (n_trace n) -> c_nOpsMax (n_cfg n) = 1 -> i < j < k ->
  (k = length (n_trace n) - 1 \/ k = length (n_trace n) - 2) ->
  nth_error (n_trace n) i = Some e0 -> nth_error (n_trace n) j = Some ej -> nth_error (n_trace n) k = Some ek ->
  callable (n_ops n) (ev_name ej) -> ~ callable (n_ops n) (ev_name e0) -> ~ callable (n_ops n) (ev_name ek) -> ev_name e0 <> ev_name ek ->
  exists r s, perceive n r = Ok (Some s) /\ s_term s = Stmt PREDIMPL (Seq [ev_name e0; ev_name ej]) (ev_name ek) /\
    s_stamp s = [ev_evi e0; ev_evi ej; ev_evi ek].
Proof.
  intros n i j k e0 ej ek L Hc Hij Hk H0 Hj Hek C1 C2 C3 C4.
  assert (Hin : In j (calcIdxsOfOps (n_ops n) (n_trace n))) by (apply calcIdxs_iff; eauto).
  apply In_nth with (d := O) in Hin. destruct Hin as (p & Hp & Ep).
  set (r := mkSmp false [p] i (Nat.eqb k (length (n_trace n) - 2)) 0). exists r.
  assert (Q : perceive n r = afterSel n r [j]).
  { unfold perceive. destruct (calcIdxsOfOps (n_ops n) (n_trace n)) as [|i0 idxs] eqn:E; [now simpl in Hp|]. rewrite <- E in *.
    rewrite Hc. cbn [Nat.eqb selOps r_draws r app existsb]. rewrite Nat.mod_small by auto. rewrite Ep. cbn [length Nat.eqb].
    cbn [minOf fold_left]. destruct (Nat.ltb_spec 0 j); [reflexivity|lia]. }
  rewrite Q. unfold afterSel. cbn [minOf maxOf fold_left r r_first r_prev r_usage].
  destruct (nth_error (n_trace n) (length (n_trace n) - 1 - 1)) as [prev|] eqn:Ep2; [|apply nth_error_None in Ep2; lia].
  unfold idx at 1. rewrite Ep2. cbn [unwrap rbind]. rewrite Nat.mod_small by lia.
  match goal with |- context [sort_by Nat.ltb (i :: [j] ++ [?x])] => replace x with k end.
  2:{ destruct (Nat.eqb_spec k (length (n_trace n) - 2)) as [E|E]; simpl; [|lia].
      destruct (Nat.ltb_spec (maxOf [j]) (length (n_trace n) - 1 - 1)) as [M|M]; unfold maxOf in *; simpl in *; [|lia].
      destruct (Nat.ltb_spec j (length (n_trace n) - 1 - 1)); [|lia].
      replace (length (n_trace n) - 1 - 1) with k in Ep2 by lia. assert (prev = ek) by congruence. subst prev.
      apply callable_false in C3. rewrite C3. simpl. lia. }
  rewrite sorted_idxs; [|discriminate|simpl; lia|unfold maxOf; simpl; lia]. cbn [sort_by insert_by app].
  assert (R : rmapM (idx (n_trace n)) [i; j; k] = Ok [e0; ej; ek]) by (apply rmapM_idx; repeat constructor; assumption).
  rewrite R. cbn [rbind map].
  destruct (try_build_spec (n_ops n) (ev_name e0) [ev_name ej] (ev_name ek)) as [(T & _)|(_ & T)]; [discriminate| |exfalso; apply T; split; [intros e [<-|[]]; assumption|auto]].
  cbn [app] in T. rewrite T. cbn [rbind length Nat.sub idx nth_error unwrap retImplSeqOp].
  destruct (callable_named _ _ C1) as (args & name & o & Hop & Hfn). apply decodeOp_some in Hop. rewrite Hop. cbn [unwrap rbind].
  rewrite term_clone_id. eexists. split; [reflexivity|]. auto.
Qed.
