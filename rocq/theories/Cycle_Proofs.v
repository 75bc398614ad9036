(** Proofs about revision, selection and question answering. *)
From Coq Require Import ZArith Bool Lia List Permutation Sorted Relations.
From Verif Require Import Base F64_Model Sort_Proofs Term_Model Term_Spec Term_Proofs Unify_Model Unify_Spec Unify_Proofs
  Stamp_Model Stamp_Proofs Tv_Model Sentence_Model Sentence_Proofs Infer_Model Mem_Model Mem_Spec Mem_Proofs Cycle_Model Cycle_Spec.
Import ListNotations.

(** * Revision of one table *)
Lemma findRevisable_spec : forall s l i,
  match findRevisable s i l with
  | None => forall b, In b l -> ~ revisable s b
  | Some (j, b) => exists l1 l2, l = l1 ++ b :: l2 /\ j = i + length l1 /\ revisable s b /\ forall x, In x l1 -> ~ revisable s x
  end.
Proof.
  assert (D : forall s b, checkEqTerm (s_term b) (s_term s) && negb (checkOverlap (s_stamp b) (s_stamp s)) = true <-> revisable s b).
  { intros s b. unfold revisable. rewrite andb_true_iff, negb_true_iff, <- not_true_iff_false, checkOverlap_iff, checkEqTerm_eq.
    reflexivity. }
  induction l as [|b l IH]; intros i; simpl; [intros b []|].
  destruct (checkEqTerm (s_term b) (s_term s) && negb (checkOverlap (s_stamp b) (s_stamp s))) eqn:E.
  - apply D in E. exists [], l. simpl. split; [auto|]. split; [lia|]. split; [auto|]. intros x [].
  - assert (N : ~ revisable s b) by (rewrite <- D, E; discriminate).
    specialize (IH (S i)). destruct (findRevisable s (S i) l) as [[j b']|].
    + destruct IH as (l1 & l2 & -> & -> & R & F). exists (b :: l1), l2. simpl. split; [auto|]. split; [lia|]. split; auto.
      intros x [<-|Hx]; auto.
    + intros x [<-|Hx]; auto.
Qed.
Lemma remove_at_app : forall A (l1 : list A) b l2, remove_at (length l1) (l1 ++ b :: l2) = l1 ++ l2.
Proof. induction l1; simpl; intros; congruence. Qed.

Lemma reviseTable_spec : forall s l u l' o, reviseTable s l u = Ok (l', o) ->
  match o with
  | None => l' = l /\ forall b, In b l -> ~ revisable s b
  | Some nb => replaced s l l' nb /\ s_usage nb = u
  end.
Proof.
  intros s l u l' o H. unfold reviseTable in H. assert (F := findRevisable_spec s l 0).
  destruct (findRevisable s 0 l) as [[i b]|].
  - destruct F as (l1 & l2 & -> & -> & R & F). simpl in H.
    destruct (retTv b) as [va|] eqn:Tb; [|discriminate]. destruct (retTv s) as [vs|] eqn:Ts; [|discriminate].
    cbn [unwrap rbind] in H. rewrite !shallow_id in H. injection H as <- <-. rewrite remove_at_app. rewrite <- app_assoc. split; [|reflexivity].
    constructor; auto. exists va, vs. simpl. repeat split; auto. apply R.
  - injection H as <- <-. auto.
Qed.
Lemma reviseTable_panic : forall s l u, reviseTable s l u = Panic <->
  exists l1 b l2, l = l1 ++ b :: l2 /\ (forall x, In x l1 -> ~ revisable s x) /\ revisable s b /\ (retTv b = None \/ retTv s = None).
Proof.
  intros s l u. unfold reviseTable. assert (F := findRevisable_spec s l 0).
  destruct (findRevisable s 0 l) as [[i b]|].
  - destruct F as (l1 & l2 & -> & -> & R & F). split.
    + intros H. exists l1, b, l2. split; [auto|]. split; [auto|]. split; [auto|].
      destruct (retTv b); [|auto]. destruct (retTv s); [discriminate|auto].
    + intros (l1' & b' & l2' & E & F' & R' & H).
      assert (b' = b).
      { clear - E F R F' R'. revert l1' E F'. induction l1 as [|x l1 IH]; intros [|y l1'] E F'; simpl in E; injection E.
        - intros _ <-. reflexivity.
        - intros _ <-. destruct (F' b); [now left|auto].
        - intros _ <-. destruct (F x); [now left|auto].
        - intros E' <-. apply (IH (fun z Hz => F z (or_intror Hz)) l1' E'). intros z Hz. apply F'. now right. }
      subst b'. destruct H as [->| ->]; [reflexivity|]. destruct (retTv b); reflexivity.
  - split; [discriminate|]. intros (l1 & b & l2 & -> & _ & R & _). destruct (F b); auto. apply in_or_app. right. now left.
Qed.

Lemma replaced_length : forall s l l' nb, replaced s l l' nb -> length l' = length l.
Proof. intros s l l' nb H. destruct H. rewrite !app_length. simpl. lia. Qed.
Lemma replaced_terms : forall s l l' nb, replaced s l l' nb -> Permutation (map s_term l) (map s_term l').
Proof.
  intros s l l' nb H. destruct H as [l1 b l2 nb F R (va & vs & _ & _ & _ & _ & E & _)].
  rewrite !map_app. simpl. apply Permutation_app_head. rewrite E, (proj1 R).
  rewrite Permutation_app_comm. reflexivity.
Qed.
Lemma revised_length : forall s l l', revisedTable s l l' -> length l' = length l.
Proof. intros s l l' H. induction H as [x y (nb & R)|x|x y z H1 IH1 H2 IH2]; [now apply replaced_length in R|auto|congruence]. Qed.
Lemma revised_terms : forall s l l', revisedTable s l l' -> Permutation (map s_term l) (map s_term l').
Proof.
  intros s l l' H. induction H as [x y (nb & R)|x|x y z H1 IH1 H2 IH2]; [now apply replaced_terms in R|reflexivity|].
  now transitivity (map s_term y).
Qed.
(** every belief of the new table is an old one or a revision of s *)
Lemma replaced_in : forall s l l' nb x, replaced s l l' nb -> In x l' -> In x l \/ (x = nb /\ exists b, In b l /\ revisable s b /\ isRevision s b nb).
Proof.
  intros s l l' nb x H Hx. destruct H as [l1 b l2 nb F R I]. rewrite !in_app_iff in *. simpl in *.
  destruct Hx as [Hx|[Hx|[<-|[]]]]; auto. right. split; auto. exists b. rewrite in_app_iff. simpl. auto.
Qed.

(** * Revision of the memory *)
Definition revMem (s : sentence) (m m' : mem) : Prop :=
  map fst m = map fst m' /\
  (forall t c', mget t m' = Some c' -> exists c, mget t m = Some c /\ c_name c' = c_name c /\
      revisedTable s (byExp c) (byExp c') /\ revisedTable s (byUsage c) (byUsage c')).

Lemma mset_same_keys : forall A t (a : A) m, mget t m <> None -> map fst (mset t a m) = map fst m.
Proof.
  intros A t a m H. destruct (mset_keys A t a m) as [E|[N _]]; auto. apply mget_none in N. contradiction.
Qed.

Lemma reviseConcept_spec : forall s m r u t m' r' u', reviseConcept s (m, r, u) t = Ok (m', r', u') ->
  map fst m' = map fst m /\ u <= u' /\
  (forall t', t' <> t -> mget t' m' = mget t' m) /\
  ((mget t m = None /\ m' = m /\ r' = r /\ u' = u) \/
   exists c e x oe ox, mget t m = Some c /\ reviseTable s (byExp c) u = Ok (e, oe) /\
     reviseTable s (byUsage c) (used oe u) = Ok (x, ox) /\
     mget t m' = Some (mkConcept (c_name c) e x) /\ r' = orElse ox (orElse oe r) /\ u' = used ox (used oe u) /\
     (oe = None -> ox = None -> mget t m' = Some c)).
Proof.
  intros s m r u t m' r' u' H. unfold reviseConcept in H. rewrite term_clone_id in H.
  destruct (mget t m) as [c|] eqn:G.
  - destruct (reviseTable s (byExp c) u) as [[e oe]|] eqn:E1; [|discriminate]. cbn [rbind snd fst] in H.
    destruct (reviseTable s (byUsage c) (used oe u)) as [[x ox]|] eqn:E2; [|discriminate]. cbn [rbind snd fst] in H.
    injection H as <- <- <-. split; [apply mset_same_keys; congruence|]. split; [unfold used; destruct oe, ox; lia|]. split.
    + intros t' Ht. rewrite mget_mset. destruct (checkEqTerm t t') eqn:E; auto. apply checkEqTerm_eq in E. congruence.
    + right. exists c, e, x, oe, ox. rewrite mget_mset, checkEqTerm_refl. do 6 (split; [reflexivity || assumption|]).
      intros -> ->. apply reviseTable_spec in E1, E2. destruct E1 as [-> _], E2 as [-> _]. destruct c; reflexivity.
  - injection H as <- <- <-. repeat split; auto.
Qed.

Lemma revMem_refl : forall s m, revMem s m m.
Proof. intros s m. split; auto. intros t c H. exists c. repeat split; auto; apply rt_refl. Qed.
Lemma revMem_trans : forall s a b c, revMem s a b -> revMem s b c -> revMem s a c.
Proof.
  intros s a b c [K1 H1] [K2 H2]. split; [congruence|]. intros t c2 G. destruct (H2 _ _ G) as (c1 & G1 & N1 & E1 & U1).
  destruct (H1 _ _ G1) as (c0 & G0 & N0 & E0 & U0). exists c0. split; auto. split; [congruence|].
  split; eapply rt_trans; eauto.
Qed.
Lemma revised_of : forall s l u l' o, reviseTable s l u = Ok (l', o) -> revisedTable s l l'.
Proof.
  intros s l u l' o H. apply reviseTable_spec in H. destruct o as [nb|].
  - apply rt_step. exists nb. apply H.
  - destruct H as [-> _]. apply rt_refl.
Qed.
Lemma reviseConcept_revMem : forall s m r u t m' r' u', reviseConcept s (m, r, u) t = Ok (m', r', u') -> revMem s m m'.
Proof.
  intros s m r u t m' r' u' H. apply reviseConcept_spec in H. destruct H as (K & _ & F & [(G & -> & _)|(c & e & x & oe & ox & G & E1 & E2 & G' & _)]).
  - apply revMem_refl.
  - split; [auto|]. intros t' c' Hg. destruct (term_eq_dec t' t) as [->|Hn].
    + rewrite G' in Hg. injection Hg as <-. exists c. simpl. repeat split; auto; eapply revised_of; eauto.
    + rewrite (F _ Hn) in Hg. exists c'. repeat split; auto; apply rt_refl.
Qed.

Lemma reviseFold_revMem : forall s ts m r u m' r' u', rfold (reviseConcept s) ts (m, r, u) = Ok (m', r', u') ->
  revMem s m m' /\ u <= u' /\ (forall t, ~ In t ts -> mget t m' = mget t m).
Proof.
  induction ts as [|t ts IH]; cbn [rfold]; intros m r u m' r' u' H.
  - injection H as <- <- <-. split; [apply revMem_refl|]. auto.
  - destruct (reviseConcept s (m, r, u) t) as [[[m1 r1] u1]|] eqn:E; [|discriminate]. cbn [rbind] in H.
    destruct (IH _ _ _ _ _ _ H) as (A & B & C). assert (R := reviseConcept_revMem _ _ _ _ _ _ _ _ E).
    apply reviseConcept_spec in E. destruct E as (_ & L & F & _). split; [eapply revMem_trans; eauto|]. split; [lia|].
    intros t' Hn. simpl in Hn. rewrite C by tauto. apply F. intros ->. tauto.
Qed.

(** a revision happened iff some table of a subterm had a revisable belief *)
Definition hasRevisable (s : sentence) (c : concept) : Prop :=
  exists b, (In b (byExp c) \/ In b (byUsage c)) /\ revisable s b.

Lemma reviseConcept_none : forall s m r u t m' u', reviseConcept s (m, r, u) t = Ok (m', None, u') ->
  r = None /\ (forall t', mget t' m' = mget t' m) /\ u' = u /\ (forall c, mget t m = Some c -> ~ hasRevisable s c).
Proof.
  intros s m r u t m' u' H. apply reviseConcept_spec in H.
  destruct H as (K & _ & F & [(G & -> & <- & ->)|(c & e & x & oe & ox & G & E1 & E2 & G' & Er & -> & Id)]).
  - repeat split; auto. intros c Hc. congruence.
  - destruct ox; [discriminate|]. destruct oe; [discriminate|]. simpl in Er. subst r.
    split; [auto|]. split; [|split; [auto|]].
    + intros t'. destruct (term_eq_dec t' t) as [->|Hn]; [|auto]. rewrite (Id eq_refl eq_refl), G. reflexivity.
    + intros c0 Hc (b & Hb & R). rewrite G in Hc. injection Hc as <-. apply reviseTable_spec in E1, E2.
      destruct E1 as [_ N1], E2 as [_ N2]. destruct Hb as [Hb|Hb]; [exact (N1 _ Hb R)|exact (N2 _ Hb R)].
Qed.
Lemma mget_ext : forall A (m m' : list (term * A)), NoDup (map fst m) -> map fst m = map fst m' ->
  (forall t, mget t m' = mget t m) -> m' = m.
Proof.
  induction m as [|[k a] m IH]; intros [|[k' a'] m'] N E H; simpl in *; try discriminate; auto.
  injection E as <- E. inversion N as [|? ? N1 N2]; subst.
  assert (Hk := H k). rewrite checkEqTerm_refl in Hk. injection Hk as ->. f_equal. apply IH; auto.
  intros t. specialize (H t). destruct (checkEqTerm k t) eqn:Q; auto. apply checkEqTerm_eq in Q. subst t.
  rewrite (proj2 (mget_none _ k m) N1). apply mget_none. now rewrite <- E.
Qed.
Lemma reviseFold_none : forall s ts m r u m' u', rfold (reviseConcept s) ts (m, r, u) = Ok (m', None, u') ->
  r = None /\ (forall t, mget t m' = mget t m) /\ u' = u /\ (forall t c, In t ts -> mget t m = Some c -> ~ hasRevisable s c).
Proof.
  induction ts as [|t ts IH]; cbn [rfold]; intros m r u m' u' H.
  - injection H as <- -> <-. split; [auto|]. split; [auto|]. split; [auto|]. intros t c [].
  - destruct (reviseConcept s (m, r, u) t) as [[[m1 r1] u1]|] eqn:E; [|discriminate]. cbn [rbind] in H.
    destruct (IH _ _ _ _ _ H) as (-> & G & -> & N). apply reviseConcept_none in E. destruct E as (-> & G1 & -> & N1).
    split; [auto|]. split; [congruence|]. split; [auto|]. intros t' c [<-|Hin] Hc; [auto|]. apply (N t'); auto. rewrite G1. auto.
Qed.
Lemma reviseFold_some : forall s ts m u m' r u', rfold (reviseConcept s) ts (m, None, u) = Ok (m', Some r, u') ->
  exists b, revisable s b /\ isRevision s b r /\ u <= s_usage r < u'.
Proof.
  intros s ts m u m' r u' H.
  assert (G : forall ts m o u m' r u', rfold (reviseConcept s) ts (m, o, u) = Ok (m', Some r, u') ->
     o = Some r \/ exists b, revisable s b /\ isRevision s b r /\ u <= s_usage r < u').
  { clear. induction ts as [|t ts IH]; cbn [rfold]; intros m o u m' r u' H.
    - injection H as <- -> <-. auto.
    - destruct (reviseConcept s (m, o, u) t) as [[[m1 r1] u1]|] eqn:E; [|discriminate]. cbn [rbind] in H.
      assert (L := proj1 (proj2 (reviseFold_revMem _ _ _ _ _ _ _ _ H))).
      destruct (IH _ _ _ _ _ _ H) as [->|(b & A & B & C)].
      + apply reviseConcept_spec in E.
        destruct E as (K & L0 & F & [(G & -> & <- & ->)|(c & e & x & oe & ox & G & E1 & E2 & G' & Er & -> & Id)]); [auto|].
        apply reviseTable_spec in E1, E2. destruct ox as [nb|].
        * simpl in Er. injection Er as <-. right. destruct E2 as [R U]. destruct R as [l1 b l2 nb F' R I]. exists b. split; [auto|]. split; [auto|]. unfold used in *; destruct oe; lia.
        * destruct oe as [nb|].
          -- simpl in Er. injection Er as <-. right. destruct E1 as [R U]. destruct R as [l1 b l2 nb F' R I]. exists b. split; [auto|]. split; [auto|]. simpl in *. lia.
          -- simpl in Er. auto.
      + right. exists b. apply reviseConcept_spec in E. destruct E as (_ & L0 & _). split; [auto|]. split; [auto|]. lia. }
  destruct (G _ _ _ _ _ _ _ H) as [K|K]; [discriminate|auto].
Qed.

(** the reported revision is in the memory *)
Lemma replaced_has : forall s l l' nb, replaced s l l' nb -> In nb l'.
Proof. intros s l l' nb H. destruct H. apply in_or_app. right. apply in_or_app. right. now left. Qed.
Lemma reviseFold_stored : forall s ts m o u m' r u', rfold (reviseConcept s) ts (m, o, u) = Ok (m', Some r, u') ->
  (o = Some r /\ (forall t, mget t m' = mget t m)) \/
  exists t c, In t ts /\ mget t m' = Some c /\ (In r (byExp c) \/ In r (byUsage c)).
Proof.
  induction ts as [|t ts IH]; cbn [rfold]; intros m o u m' r u' H.
  - injection H as <- -> <-. auto.
  - destruct (reviseConcept s (m, o, u) t) as [[[m1 r1] u1]|] eqn:E; [|discriminate]. cbn [rbind] in H.
    destruct (IH _ _ _ _ _ _ H) as [[-> Same]|(t' & c & Ht & K)]; [|right; exists t', c; split; [now right|auto]].
    apply reviseConcept_spec in E.
    destruct E as (K & L0 & F & [(G & -> & <- & ->)|(c & e & x & oe & ox & G & E1 & E2 & G' & Er & -> & Id)]); [auto|].
    apply reviseTable_spec in E1, E2. destruct ox as [nb|].
    + simpl in Er. injection Er as <-. right. eexists t, _. split; [now left|]. rewrite Same. split; [exact G'|]. right. simpl.
      eapply replaced_has, E2.
    + destruct oe as [nb|].
      * simpl in Er. injection Er as <-. right. eexists t, _. split; [now left|]. rewrite Same. split; [exact G'|]. left. simpl.
        eapply replaced_has, E1.
      * simpl in Er. subst o. left. split; auto. intros t'. rewrite Same. destruct (term_eq_dec t' t) as [->|Hn]; auto.
        rewrite G, (Id eq_refl eq_refl). auto.
Qed.

Theorem revise_spec : forall m s u m' r u', mapOk m -> memReviseBelief m s u = Ok (m', r, u') ->
  mapOk m' /\ map fst m' = map fst m /\ u <= u' /\
  (forall t c', holds m' t c' -> exists c, holds m t c /\
     (~ occurs t (s_term s) -> c' = c) /\
     revisedTable s (byExp c) (byExp c') /\ revisedTable s (byUsage c) (byUsage c') /\
     length (byExp c') = length (byExp c) /\ length (byUsage c') = length (byUsage c)) /\
  match r with
  | None => m' = m /\ u' = u /\ (s_punct s = JUGEMENT -> forall t c, holds m t c -> occurs t (s_term s) -> ~ hasRevisable s c)
  | Some nb => s_punct s = JUGEMENT /\ (exists b, revisable s b /\ isRevision s b nb /\ u <= s_usage nb < u') /\
      exists t c, holds m' t c /\ occurs t (s_term s) /\ (In nb (byExp c) \/ In nb (byUsage c))
  end.
Proof.
  intros m s u m' r u' [N Nm] H. unfold memReviseBelief in H.
  destruct (s_punct s) eqn:P.
  2,3: injection H as <- <- <-; split; [split; auto|]; split; [auto|]; split; [auto|]; split;
    [intros t c' Hc; exists c'; repeat split; auto; apply rt_refl|split; [auto|split; [auto|discriminate]]].
  assert (R := reviseFold_revMem _ _ _ _ _ _ _ _ H). destruct R as ((K & R) & L & F).
  assert (N' : NoDup (map fst m')) by (rewrite <- K; auto).
  split; [split; [auto|]|split; [auto|split; [auto|split]]].
  - intros t c' Hc. apply in_mget in Hc; auto. destruct (R _ _ Hc) as (c & G & E & _). rewrite E. apply Nm. now apply mget_in.
  - intros t c' Hc. apply in_mget in Hc; auto. destruct (R _ _ Hc) as (c & G & E & R1 & R2). exists c.
    split; [now apply mget_in|]. split; [|repeat split; auto; eapply revised_length; eauto].
    intros No. rewrite F in Hc; [congruence|]. now rewrite retSubterms_iff.
  - destruct r as [nb|].
    + split; [auto|]. split; [eapply reviseFold_some; eauto|].
      apply reviseFold_stored in H. destruct H as [[K1 _]|(t & c & Ht & Hc & Hin)]; [discriminate|].
      exists t, c. split; [now apply mget_in|]. split; [now apply retSubterms_iff|auto].
    + apply reviseFold_none in H. destruct H as (_ & G & -> & X). split; [apply mget_ext; auto|]. split; [auto|].
      intros _ t c Hc O. apply (X t); [now apply retSubterms_iff|now apply in_mget].
Qed.

(** revision never panics on memories whose beliefs carry truth values *)
Theorem revise_total : forall m s u, mapOk m -> (s_punct s = JUGEMENT -> retTv s <> None) ->
  (forall t c b, holds m t c -> In b (byExp c) \/ In b (byUsage c) -> retTv b <> None) ->
  exists x, memReviseBelief m s u = Ok x.
Proof.
  intros m s u [N Nm] Hs Hm. unfold memReviseBelief. destruct (s_punct s) eqn:P; try (eexists; reflexivity).
  specialize (Hs eq_refl). set (Q := fun m : mem => forall t c b, mget t m = Some c -> In b (byExp c) \/ In b (byUsage c) -> retTv b <> None).
  assert (Qm : Q m) by (intros t c b G; apply (Hm t); now apply mget_in). clear Hm N Nm.
  generalize (retSubterms (s_term s)) as ts, (@None sentence) as r. intros ts. revert m Qm u.
  induction ts as [|t ts IH]; cbn [rfold]; intros m Qm u r; [eexists; reflexivity|].
  destruct (reviseConcept s (m, r, u) t) as [[[m1 r1] u1]|] eqn:E.
  - cbn [rbind]. apply IH. intros t' c' b G Hb. destruct (reviseConcept_revMem _ _ _ _ _ _ _ _ E) as [_ R].
    destruct (R _ _ G) as (c & G0 & _ & R1 & R2).
    assert (X : forall l l', revisedTable s l l' -> (forall x, In x l -> retTv x <> None) -> forall x, In x l' -> retTv x <> None).
    { intros l l' T. induction T as [l l' (nb & T)|l|l1 l2 l3 T1 IH1 T2 IH2]; auto.
      intros A x Hx. destruct (replaced_in _ _ _ _ _ T Hx) as [Hx'|(-> & b' & _ & _ & va & vs & _ & _ & Ev & _)]; auto.
      unfold retTv. rewrite Ev. discriminate. }
    destruct Hb as [Hb|Hb]; [apply (X _ _ R1)|apply (X _ _ R2)]; auto; intros x Hx; apply (Qm t' c); auto.
  - exfalso. unfold reviseConcept in E. rewrite term_clone_id in E. destruct (mget t m) as [c|] eqn:G; [|discriminate].
    destruct (reviseTable s (byExp c) u) as [[e oe]|] eqn:E1.
    + cbn [rbind fst snd] in E. destruct (reviseTable s (byUsage c) (used oe u)) as [[x ox]|] eqn:E2; [discriminate|].
      apply reviseTable_panic in E2. destruct E2 as (l1 & b & l2 & El & _ & _ & [T|T]); [|contradiction].
      apply (Qm t c b G); auto. right. rewrite El. apply in_or_app. right. now left.
    + apply reviseTable_panic in E1. destruct E1 as (l1 & b & l2 & El & _ & _ & [T|T]); [|contradiction].
      apply (Qm t c b G); auto. left. rewrite El. apply in_or_app. right. now left.
Qed.
