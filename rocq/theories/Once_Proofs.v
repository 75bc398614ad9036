(** Proofs for C91: no evidence is counted twice. *)
From Coq Require Import String ZArith Bool List Permutation Sorted Lia.
From Verif Require Import Base F64_Model Term_Model Term_Spec Unify_Model Unify_Spec Stamp_Model Stamp_Proofs Tv_Model Sentence_Model Mem_Model Mem_Proofs PMem_Model PMem_Proofs Goal_Model Goal_Spec
  Sort_Proofs Proc_Model Proc_Spec ProcP_Proofs ProcS_Model ProcS_Proofs ProcX_Model Parser_Model Nar_Model Live_Spec Live_Proofs.
Import ListNotations.
Local Open Scope nat_scope.

(** * Indices in stamps *)
Lemma inter_left : forall a b p v, nth_error a p = Some v -> exists p', p' <= p + length b /\ nth_error (interleave a b) p' = Some v.
Proof.
  induction a as [|x a IH]; intros b p v E; [destruct p; discriminate|]. destruct b as [|y b].
  - exists p. cbn [interleave length]. split; [lia|]. rewrite app_nil_r. exact E.
  - destruct p as [|p]; cbn [nth_error] in E; [exists 0; split; [lia|exact E]|]. destruct (IH b p v E) as (p' & L & N). exists (S (S p')). cbn [length interleave nth_error]. split; [lia|exact N].
Qed.
Lemma inter_right : forall b a p v, nth_error b p = Some v -> exists p', p' <= 2 * p + 1 /\ nth_error (interleave a b) p' = Some v.
Proof.
  induction b as [|y b IH]; intros a p v E; [destruct p; discriminate|]. destruct a as [|x a].
  - exists p. split; [lia|exact E].
  - destruct p as [|p]; cbn [nth_error] in E; [exists 1; split; [lia|exact E]|]. destruct (IH a p v E) as (p' & L & N). exists (S (S p')). cbn [interleave nth_error]. split; [lia|exact N].
Qed.
Lemma nth_firstn : forall (A : Type) (l : list A) n p, p < n -> nth_error (firstn n l) p = nth_error l p.
Proof. induction l as [|a l IH]; intros [|n] [|p] L; try lia; try reflexivity. cbn. apply IH. lia. Qed.
Lemma merge_at : forall a b p v, nth_error (interleave a b) p = Some v -> p < 120 -> nth_error (merge a b) p = Some v.
Proof.
  intros a b p v E L. unfold merge. assert (p < length (interleave a b)) by (apply nth_error_Some; congruence). rewrite nth_firstn by lia. exact E.
Qed.
(** the stamp of the evidence [l], latest first *)
Fixpoint stampOf (l : list (list Z)) : list Z :=
  match l with
  | [] => []
  | [a] => a
  | b :: l' => merge (stampOf l') b
  end.
Lemma stamp_index : forall I x rest v, In v x -> length (concat I) + 2 * length x <= 120 ->
  exists p, p < length (concat I) + 2 * length x /\ nth_error (stampOf (I ++ x :: rest)) p = Some v.
Proof.
  induction I as [|b I IH]; intros x rest v Hv L.
  - apply In_nth_error in Hv. destruct Hv as (p & E). assert (p < length x) by (apply nth_error_Some; congruence). cbn [app concat length] in *. destruct rest as [|y rest].
    + exists p. split; [lia|exact E].
    + destruct (inter_right x (stampOf (y :: rest)) p v E) as (p' & L' & N). exists p'. split; [lia|]. change (stampOf (x :: y :: rest)) with (merge (stampOf (y :: rest)) x). apply merge_at; [exact N|lia].
  - cbn [concat] in L. rewrite app_length in L. destruct (IH x rest v Hv ltac:(lia)) as (p & Lp & E). destruct (inter_left (stampOf (I ++ x :: rest)) b p v E) as (p' & L' & N).
    exists p'. cbn [concat]. rewrite app_length. split; [lia|]. cbn [app]. assert (S : stampOf (b :: I ++ x :: rest) = merge (stampOf (I ++ x :: rest)) b) by (destruct I; reflexivity).
    rewrite S. apply merge_at; [exact N|lia].
Qed.
Lemma stamp_keeps : forall I x rest v, In v x -> length (concat I) + 2 * length x <= 120 -> In v (stampOf (I ++ x :: rest)).
Proof. intros I x rest v Hv L. destruct (stamp_index I x rest v Hv L) as (p & _ & E). eapply nth_error_In; eauto. Qed.

(** * Counting *)
Section Count.
Variable ids : list Z.
Definition at_ (r : nat) : Z := nth r ids 0%Z.
Definition idsOf (ps : list nat) : list Z := map at_ ps.
Definition apartIds (a b : list Z) : Prop := forall v, In v a -> ~ In v b.
Lemma parts_nodup : forall I, Forall (@NoDup nat) I -> ForallOrdPairs (fun a b => apartIds (idsOf a) (idsOf b)) I -> NoDup (concat I).
Proof.
  induction I as [|a I IH]; intros N F; [constructor|]. inversion N; subst. inversion F as [|? ? F1 F2]; subst. cbn [concat].
  assert (D : forall r, In r a -> ~ In r (concat I)).
  { intros r Hr Hc. apply in_concat in Hc. destruct Hc as (b & Hb & Hrb). rewrite Forall_forall in F1. apply (F1 b Hb (at_ r)); now apply in_map. }
  clear - H1 D IH H2 F2. specialize (IH H2 F2). induction H1 as [|r a Nr Na IHa]; [exact IH|]. cbn [app]. constructor.
  - rewrite in_app_iff. intros [Hr|Hr]; [auto|]. apply (D r); [now left|auto].
  - apply IHa. intros z Hz. apply D. now right.
Qed.
Lemma split_length : forall (f : list nat -> bool) I, length (concat I) = length (concat (filter f I)) + length (concat (filter (fun x => negb (f x)) I)).
Proof. induction I as [|a I IH]; [reflexivity|]. cbn [concat filter]. destruct (f a); cbn [negb concat]; rewrite ?app_length; lia. Qed.
Lemma pairs_filter : forall (A : Type) (R : A -> A -> Prop) f l, ForallOrdPairs R l -> ForallOrdPairs R (filter f l).
Proof.
  induction l as [|a l IH]; intros F; [constructor|]. inversion F as [|? ? F1 F2]; subst. cbn [filter]. destruct (f a); [|auto]. constructor; auto.
  rewrite Forall_forall in *. intros x Hx. apply F1. now apply filter_In in Hx.
Qed.
Lemma count_parts : forall I lo1 n1 lo2 n2 b now Lm, Forall (@NoDup nat) I -> ForallOrdPairs (fun x y => apartIds (idsOf x) (idsOf y)) I -> (forall ps, In ps I -> length ps <= Lm) ->
  (forall ps r, In ps I -> In r ps -> (lo1 <= r < lo1 + n1) \/ (lo2 <= r < lo2 + n2) \/ (b <= r /\ at_ r = now)) -> length (concat I) <= n1 + n2 + Lm.
Proof.
  intros I lo1 n1 lo2 n2 b now Lm N F Ln C. set (late := fun ps => existsb (fun r => Nat.leb b r && Z.eqb (at_ r) now) ps).
  rewrite (split_length late).
  assert (A : length (concat (filter late I)) <= Lm).
  { assert (Q := pairs_filter _ _ late I F). assert (K : forall ps, In ps (filter late I) -> In now (idsOf ps) /\ length ps <= Lm).
    { intros ps Hp. apply filter_In in Hp. destruct Hp as (Hp & E). split; [|auto]. unfold late in E. apply existsb_exists in E. destruct E as (r & Hr & E). apply andb_true_iff in E.
      destruct E as (_ & E). apply Z.eqb_eq in E. subst now. now apply in_map. }
    destruct (filter late I) as [|x [|y l]]; [cbn; lia| |].
    - cbn [concat]. rewrite app_nil_r. apply K. now left.
    - exfalso. inversion Q as [|? ? Q1 _]; subst. inversion Q1 as [|? ? Q2 _]; subst. apply (Q2 now); apply K; [now left|right; now left]. }
  assert (B : length (concat (filter (fun x => negb (late x)) I)) <= n1 + n2).
  { assert (Nd : NoDup (concat (filter (fun x => negb (late x)) I))).
    { apply parts_nodup; [|now apply pairs_filter]. rewrite Forall_forall in *. intros x Hx. apply filter_In in Hx. apply N, Hx. }
    rewrite <- (seq_length n1 lo1), <- (seq_length n2 lo2), <- app_length. apply NoDup_incl_length; [exact Nd|]. intros r Hr. apply in_concat in Hr. destruct Hr as (ps & Hp & Hr).
    apply filter_In in Hp. destruct Hp as (Hp & E). apply in_app_iff. rewrite !in_seq. destruct (C ps r Hp Hr) as [X|[X|(X1 & X2)]]; [auto|auto|]. exfalso.
    apply negb_true_iff in E. unfold late in E. assert (T : existsb (fun r => Nat.leb b r && Z.eqb (at_ r) now) ps = true); [|congruence].
    apply existsb_exists. exists r. split; auto. apply andb_true_iff. split; [now apply Nat.leb_le|now apply Z.eqb_eq]. }
  lia.
Qed.

(** * Windows *)
(** an observation made when the trace held the events from [ia] on, [im] events had
    happened and those from [ib] on were of the current time; it used the places [ips] *)
Record item := mkItem { ia : nat; ib : nat; im : nat; ips : list nat }.
Definition later (i j : item) : Prop := ia i <= ia j /\ im i <= im j.
Variable Lm : nat.
Definition itemOk (i : item) : Prop :=
  ia i <= ib i /\ ib i <= im i /\ im i <= length ids /\ ib i - ia i <= 20 /\ (exists now, forall r, ib i <= r < im i -> at_ r = now) /\
  NoDup (ips i) /\ length (ips i) <= Lm /\ forall r, In r (ips i) -> ia i <= r < im i.
Definition sortedIds : Prop := forall p q, p <= q < length ids -> (at_ p <= at_ q)%Z.
Hypothesis Hs : sortedIds.
Hypothesis HL : 3 * Lm + 40 <= 120.
(** everything counted since [j] is near [j] or near [x] *)
Lemma between_parts : forall (x j : item) I v, itemOk x -> itemOk j -> Forall itemOk I -> Forall (fun i => later j i /\ later i x) I ->
  ForallOrdPairs (fun a b => apartIds (idsOf (ips a)) (idsOf (ips b))) I -> Forall (fun i => apartIds (idsOf (ips i)) (idsOf (ips j))) I ->
  In v (idsOf (ips x)) -> In v (idsOf (ips j)) -> length (concat (map ips I)) <= 40 + Lm.
Proof.
  intros x j I v (X1 & X2 & X3 & X4 & (nowx & X5) & X6 & X7 & X8) (J1 & J2 & J3 & J4 & (nowj & J5) & J6 & J7 & J8) Ok Lt Pw Aj Vx Vj.
  apply in_map_iff in Vx. destruct Vx as (p & Ep & Hp). apply in_map_iff in Vj. destruct Vj as (q & Eq & Hq). specialize (X8 p Hp). assert (Jq := J8 q Hq).
  rewrite Forall_forall in Ok, Lt, Aj.
  apply Nat.le_trans with (m := (ib j - ia j) + (ib x - ia x) + Lm); [|lia].
  apply count_parts with (lo1 := ia j) (lo2 := ia x) (b := ib x) (now := nowx).
  - rewrite Forall_map. apply Forall_forall. intros i Hi. apply (Ok i Hi).
  - clear - Pw. induction Pw as [|a l F _ IH]; cbn [map]; constructor; auto. now rewrite Forall_map.
  - intros ps Hps. apply in_map_iff in Hps. destruct Hps as (i & <- & Hi). apply (Ok i Hi).
  - intros ps r Hps Hr. apply in_map_iff in Hps. destruct Hps as (i & <- & Hi). destruct (Ok i Hi) as (I1 & I2 & I3 & I4 & _ & _ & _ & I8). specialize (I8 r Hr). destruct (Lt i Hi) as ((L1 & L2) & (L3 & L4)).
    destruct (Nat.lt_ge_cases r (ib j)) as [B1|B1]; [left; lia|]. destruct (Nat.lt_ge_cases r (ia x)) as [B2|B2].
    + exfalso. assert (E : at_ r = v).
      { assert (at_ r <= v)%Z by (rewrite <- Ep; apply Hs; lia). destruct (Nat.le_gt_cases q r) as [B3|B3].
        - assert (v <= at_ r)%Z by (rewrite <- Eq; apply Hs; lia). lia.
        - rewrite <- Eq. rewrite (J5 r), (J5 q) by lia. reflexivity. }
      apply (Aj i Hi v); [rewrite <- E; now apply in_map|rewrite <- Eq; now apply in_map].
    + right. destruct (Nat.lt_ge_cases r (ib x)) as [B3|B3]; [left; lia|right]. split; [auto|]. apply X5. lia.
Qed.
(** what shares no id with the stamp shares none with the evidence *)
Lemma once : forall its x, Forall itemOk its -> itemOk x -> StronglySorted (fun i j => later j i) its -> Forall (fun i => later i x) its ->
  ForallOrdPairs (fun a b => apartIds (idsOf (ips a)) (idsOf (ips b))) its -> apartIds (stampOf (map (fun i => idsOf (ips i)) its)) (idsOf (ips x)) ->
  Forall (fun i => apartIds (idsOf (ips x)) (idsOf (ips i))) its.
Proof.
  intros its x Ok Okx Sr Lt Pw Ap. apply Forall_forall. intros j Hj v Vx Vj. apply in_split in Hj. destruct Hj as (I & rest & ->).
  rewrite Forall_app in Ok, Lt. destruct Ok as (Ok1 & Ok2). destruct Lt as (Lt1 & Lt2). inversion Ok2 as [|? ? Okj _]; subst.
  assert (B : length (concat (map ips I)) <= 40 + Lm).
  { apply between_parts with (x := x) (j := j) (v := v); auto.
    - rewrite Forall_forall in *. intros i Hi. split; [|now apply Lt1]. clear - Sr Hi. induction I as [|a I IH]; [destruct Hi|]. inversion Sr as [|? ? S1 S2]; subst.
      destruct Hi as [<-|Hi]; [|auto]. rewrite Forall_forall in S2. apply S2. apply in_app_iff. right. now left.
    - clear - Pw. induction I as [|a I IH]; [constructor|]. inversion Pw as [|? ? P1 P2]; subst. constructor; [now apply Forall_app in P1|auto].
    - clear - Pw. induction I as [|a I IH]; [constructor|]. inversion Pw as [|? ? P1 P2]; subst. constructor; [|auto]. rewrite Forall_forall in P1. apply P1. apply in_app_iff. right. now left. }
  apply (Ap v); auto. rewrite map_app. cbn [map]. apply stamp_keeps; auto.
  assert (E : length (concat (map (fun i => idsOf (ips i)) I)) = length (concat (map ips I))).
  { clear. induction I as [|a I IH]; [reflexivity|]. cbn [map concat]. unfold idsOf at 1. now rewrite !app_length, map_length, IH. }
  rewrite E. unfold idsOf. rewrite map_length. destruct Okj as (_ & _ & _ & _ & _ & _ & J7 & _). lia.
Qed.
End Count.
