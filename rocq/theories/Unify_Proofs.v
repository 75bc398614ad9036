From Coq Require Import String ZArith Bool Lia List Relations.
From Verif Require Import Base Term_Model Term_Spec Term_Proofs Unify_Model Unify_Spec.
Import ListNotations.

Lemma checkAssigned_in : forall v u, checkAssigned v u = true <-> In v (map fst u).
Proof.
  intros v u. unfold checkAssigned. rewrite existsb_exists, in_map_iff. split.
  - intros ([x y] & Hin & E). apply checkEqTerm_eq in E. exists (x, y). auto.
  - intros ([x y] & E & Hin). exists (x, y). split; auto. apply checkEqTerm_eq. auto.
Qed.

Lemma lookup_app_in : forall v u e, In v (map fst u) -> lookupVar v (u ++ e) = lookupVar v u.
Proof.
  induction u as [|[x y] u IH]; simpl; [tauto|]. intros e H.
  destruct (checkEqTerm v x) eqn:E; [reflexivity|]. apply IH.
  destruct H as [->|H]; auto. now rewrite checkEqTerm_refl in E.
Qed.

Lemma lookup_app_notin : forall v u e, ~ In v (map fst u) -> lookupVar v (u ++ e) = lookupVar v e.
Proof.
  induction u as [|[x y] u IH]; simpl; [tauto|]. intros e H.
  destruct (checkEqTerm v x) eqn:E; [|apply IH; tauto].
  apply checkEqTerm_eq in E. subst. tauto.
Qed.

Lemma checkSameVal_lookup : forall v w u,
  checkSameVal v w u = true -> In v (map fst u) /\ lookupVar v u = w.
Proof.
  induction u as [|[x y] u IH]; simpl; [congruence|].
  rewrite (checkEqTerm_sym v x).
  destruct (checkEqTerm x v) eqn:E; intros H.
  - apply checkEqTerm_eq in E, H. subst. auto.
  - apply IH in H. tauto.
Qed.

Lemma checkSameVal_complete : forall v u (sg : term -> term),
  (forall x y, In (x, y) u -> sg x = y) -> In v (map fst u) -> checkSameVal v (sg v) u = true.
Proof.
  induction u as [|[x y] u IH]; simpl; [tauto|]. intros sg Hs H.
  destruct (checkEqTerm x v) eqn:E.
  - apply checkEqTerm_eq in E. subst. apply checkEqTerm_eq. symmetry. apply Hs. auto.
  - apply IH; auto. destruct H as [->|H]; auto. now rewrite checkEqTerm_refl in E.
Qed.

(** What a successful call establishes. [vs] is the set of variables met. *)
Record ustep (vs : term -> Prop) (u u' : list asgn) : Prop := {
  us_ext : exists d, u' = u ++ d;
  us_val : (forall x y, In (x, y) u -> ~ isVar y) -> forall x y, In (x, y) u' -> ~ isVar y;
  us_nodup : NoDup (map fst u) -> NoDup (map fst u');
  us_dom : forall v, In v (map fst u') <-> In v (map fst u) \/ vs v
}.

Lemma ustep_refl : forall vs u, (forall v, ~ vs v) -> ustep vs u u.
Proof.
  intros vs u H. split; auto.
  - exists []. now rewrite app_nil_r.
  - intros v. specialize (H v). tauto.
Qed.

Lemma ustep_trans : forall (vs1 vs2 vs : term -> Prop) u u1 u2,
  (forall v, vs v <-> vs1 v \/ vs2 v) ->
  ustep vs1 u u1 -> ustep vs2 u1 u2 -> ustep vs u u2.
Proof.
  intros vs1 vs2 vs u u1 u2 Hv [E1 V1 N1 D1] [E2 V2 N2 D2]. split; auto.
  - destruct E1 as [d1 ->], E2 as [d2 ->]. exists (d1 ++ d2). now rewrite app_assoc.
  - intros H. exact (V2 (V1 H)).
  - intros v. rewrite D2, D1, Hv. tauto.
Qed.

Definition vocc (a v : term) : Prop := isVar v /\ occurs v a.
Definition usound (a : term) : Prop := forall b u u', unify2 a b u = Some u' ->
  ustep (vocc a) u u' /\ forall e, unifySubst a (u' ++ e) = b.

Lemma unifyList_sound : forall l1, Forall usound l1 -> forall l2 u u',
  unifyList unify2 l1 l2 u = Some u' ->
  ustep (fun v => isVar v /\ exists x, In x l1 /\ occurs v x) u u' /\
  forall e, map (fun x => unifySubst x (u' ++ e)) l1 = l2.
Proof.
  induction 1 as [|x l1 Hx Hl IH]; intros [|y l2] u u'; simpl; try discriminate.
  - intros [= <-]. split; auto. apply ustep_refl. intros v (_ & x & [] & _).
  - destruct (unify2 x y u) as [u1|] eqn:E1; [|discriminate]. intros E2.
    destruct (Hx _ _ _ E1) as [S1 A1]. destruct (IH _ _ _ E2) as [S2 A2]. split.
    + eapply ustep_trans; [|exact S1|exact S2]. unfold vocc. intros v. split.
      * intros (Hv & z & [<-|Hz] & Ho); [left|right]; eauto.
      * intros [[Hv Ho]|(Hv & z & Hz & Ho)]; eauto.
    + intros e. rewrite A2. f_equal.
      destruct (us_ext _ _ _ S2) as [d ->]. rewrite <- app_assoc. apply A1.
Qed.

Lemma ustep_ext : forall (vs vs' : term -> Prop) u u',
  (forall v, vs v <-> vs' v) -> ustep vs u u' -> ustep vs' u u'.
Proof.
  intros vs vs' u u' H [? ? ? D]. split; auto. intros v. now rewrite D, H.
Qed.

Lemma unifyVar_sound : forall a b u u', isVar a -> unifyVar a b u = Some u' ->
  ustep (vocc a) u u' /\ forall e, lookupVar a (u' ++ e) = b.
Proof.
  intros a b u u' Ha H.
  assert (Hv : forall v, vocc a v <-> v = a).
  { intros v. unfold vocc. split.
    - intros [Hv Ho]. apply occurs_inv in Ho. destruct Ho as [->|(z & Hz & _)]; auto.
      destruct a; simpl in Ha; try tauto; inversion Hz.
    - intros ->. split; auto. apply occurs_refl. }
  assert (Hb : ~ isVar b) by (destruct b; simpl in *; try discriminate; tauto).
  assert (H' : (if checkAssigned a u then if checkSameVal a b u then Some u else None
                else Some (u ++ [(a, b)])) = Some u')
    by (destruct b; simpl in H; try discriminate; exact H).
  clear H. destruct (checkAssigned a u) eqn:Ea.
  - destruct (checkSameVal a b u) eqn:Es; [|discriminate]. injection H' as <-.
    apply checkSameVal_lookup in Es. destruct Es as [Hin Hl].
    split; [|intros e; rewrite lookup_app_in; auto].
    split; auto; [exists []; now rewrite app_nil_r|].
    intros v. rewrite Hv. split; [tauto|]. intros [?| ->]; auto.
  - injection H' as <-.
    assert (Hn : ~ In a (map fst u)) by (rewrite <- checkAssigned_in, Ea; discriminate).
    split.
    + split.
      * eauto.
      * intros Hall x y Hin. apply in_app_iff in Hin. destruct Hin as [Hin|[[= <- <-]|[]]]; eauto.
      * intros Hnd. rewrite map_app. simpl. now apply NoDup_snoc.
      * intros v. rewrite map_app, in_app_iff, Hv. simpl. intuition.
    + intros e. rewrite <- app_assoc. rewrite lookup_app_notin by assumption. simpl.
      now rewrite checkEqTerm_refl.
Qed.

Ltac ul_case H :=
  match type of H with
  | (if Nat.eqb ?x ?y then _ else _) = _ => destruct (Nat.eqb x y); [|discriminate]
  end.

Lemma vocc_list : forall (C : list term -> term),
  (forall x l, component x (C l) <-> In x l) -> (forall l, ~ isVar (C l)) ->
  forall l v, vocc (C l) v <-> isVar v /\ exists x, In x l /\ occurs v x.
Proof.
  intros C HC HV l v. unfold vocc. split.
  - intros [Hv Ho]. split; auto. apply occurs_inv in Ho.
    destruct Ho as [->|(z & Hz & Ho)]; [now apply HV in Hv|].
    exists z. split; auto. now apply HC.
  - intros (Hv & x & Hx & Ho). split; auto. eapply occurs_step; [exact Ho|]. now apply HC.
Qed.
Lemma unify2_sound : forall a, usound a.
Proof.
  Ltac listcase b H C Hin :=
    destruct b; try discriminate; simpl in H; ul_case H;
    eapply unifyList_sound in H; [|exact Hin];
    let S1 := fresh "S1" in let A1 := fresh "A1" in destruct H as [S1 A1];
    split; [eapply ustep_ext; [|exact S1]; intros v; symmetry; apply (vocc_list C);
            [intros; split; [intros HH; now inversion HH|now constructor]|intros ? HH; exact HH]
           |intros e; simpl; now rewrite A1].
  induction a as [c s p IHs IHp|n|l IH|l IH|l IH|n|n|n|l IH|l IH|r i l IHr IH|l IH|l IH|l IH|x IHx] using term_ind2; intros b u u' H;
    try (apply unifyVar_sound; [exact I|exact H]).
  - destruct b; try discriminate. simpl in H.
    destruct (copula_eqb c c0) eqn:Ec; [|discriminate]. apply copula_eqb_eq in Ec. subst c0.
    destruct (unify2 s b1 u) as [u1|] eqn:E1; [|discriminate].
    destruct (IHs _ _ _ E1) as [S1 A1]. destruct (IHp _ _ _ H) as [S2 A2]. split.
    + eapply ustep_trans; [|exact S1|exact S2]. unfold vocc. intros v. split.
      * intros [Hv Ho]. apply occurs_inv in Ho. destruct Ho as [->|(z & Hz & Ho)]; [destruct Hv|].
        inversion Hz; subst; auto.
      * intros [[Hv Ho]|[Hv Ho]]; (split; [auto|]); (eapply occurs_step; [exact Ho|]); constructor.
    + intros e. simpl. rewrite A2. f_equal.
      destruct (us_ext _ _ _ S2) as [d ->]. rewrite <- app_assoc. apply A1.
  - destruct b; try discriminate. simpl in H. destruct (String.eqb n n0) eqn:E; [|discriminate].
    injection H as <-. apply String.eqb_eq in E. subst. split; auto.
    apply ustep_refl. intros v [Hv Ho]. apply occurs_inv in Ho.
    destruct Ho as [->|(z & Hz & _)]; [destruct Hv|inversion Hz].
  - listcase b H Seq IH.
  - listcase b H SetInt IH.
  - listcase b H SetExt IH.
  - listcase b H Conj IH.
  - listcase b H Prod IH.
  - destruct b; try discriminate. simpl in H. 
    match type of H with (if Nat.eqb ?x ?y then _ else _) = _ => destruct (Nat.eqb x y) eqn:Ei; [|discriminate] end.
    apply Nat.eqb_eq in Ei. subst.
    destruct (unify2 r b u) as [u1|] eqn:E1; [|discriminate]. ul_case H.
    destruct (IHr _ _ _ E1) as [S1 A1]. eapply unifyList_sound in H; [|exact IH].
    destruct H as [S2 A2]. split.
    + eapply ustep_trans; [|exact S1|exact S2]. unfold vocc. intros v. split.
      * intros [Hv Ho]. apply occurs_inv in Ho. destruct Ho as [->|(z & Hz & Ho)]; [destruct Hv|].
        inversion Hz; subst; eauto.
      * intros [[Hv Ho]|(Hv & z & Hz & Ho)]; (split; [auto|]); (eapply occurs_step; [exact Ho|]).
        { apply comp_imgrel. } { now apply comp_img. }
    + intros e. simpl. rewrite A2. f_equal.
      destruct (us_ext _ _ _ S2) as [d ->]. rewrite <- app_assoc. apply A1.
  - listcase b H IntInt IH.
  - listcase b H ExtInt IH.
  - listcase b H Par IH.
  - destruct b; try discriminate. simpl in H. destruct (IHx _ _ _ H) as [S1 A1]. split.
    + eapply ustep_ext; [|exact S1]. intros v. unfold vocc. split.
      * intros [Hv Ho]. split; auto. eapply occurs_step; [exact Ho|constructor].
      * intros [Hv Ho]. split; auto. apply occurs_inv in Ho. destruct Ho as [->|(z & Hz & Ho)]; [destruct Hv|].
        now inversion Hz; subst.
    + intros e. simpl. now rewrite A1.
Qed.

Definition ucomplete (sg : term -> term) (a : term) : Prop :=
  (forall v, isVar v -> occurs v a -> ~ isVar (sg v)) ->
  forall u, (forall x y, In (x, y) u -> sg x = y) ->
  exists u', unify2 a (inst sg a) u = Some u' /\ (forall x y, In (x, y) u' -> sg x = y).

Lemma unifyList_complete : forall sg l, Forall (ucomplete sg) l ->
  (forall v x, isVar v -> In x l -> occurs v x -> ~ isVar (sg v)) ->
  forall u, (forall x y, In (x, y) u -> sg x = y) ->
  exists u', unifyList unify2 l (map (inst sg) l) u = Some u' /\ (forall x y, In (x, y) u' -> sg x = y).
Proof.
  induction 1 as [|x l Hx Hl IH]; simpl; intros Hv u Hu; [eauto|].
  destruct (Hx (fun v Hv1 Ho => Hv v x Hv1 (or_introl eq_refl) Ho) u Hu) as (u1 & -> & H1).
  apply IH; auto. intros v z Hv1 Hz. apply (Hv v z); auto.
Qed.

Lemma unifyVar_complete : forall sg a u, isVar a -> ~ isVar (sg a) ->
  (forall x y, In (x, y) u -> sg x = y) ->
  exists u', unifyVar a (sg a) u = Some u' /\ (forall x y, In (x, y) u' -> sg x = y).
Proof.
  intros sg a u Ha Hn Hu.
  assert (E : unifyVar a (sg a) u = if checkAssigned a u then if checkSameVal a (sg a) u then Some u else None
                else Some (u ++ [(a, sg a)]))
    by (destruct (sg a); simpl in *; tauto).
  rewrite E. destruct (checkAssigned a u) eqn:Ea.
  - apply checkAssigned_in in Ea. rewrite (checkSameVal_complete a u sg Hu Ea). eauto.
  - eexists. split; [reflexivity|]. intros x y Hin. apply in_app_iff in Hin.
    destruct Hin as [Hin|[[= <- <-]|[]]]; auto.
Qed.

Lemma unify2_complete : forall sg a, ucomplete sg a.
Proof.
  intros sg.
  induction a as [c s p IHs IHp|n|l IH|l IH|l IH|n|n|n|l IH|l IH|r i l IHr IH|l IH|l IH|l IH|x IHx] using term_ind2; intros Hv u Hu;
  try (simpl; apply (unifyVar_complete sg _ u); [exact I|apply Hv; [exact I|apply occurs_refl]|exact Hu]);
  try (simpl; rewrite map_length, Nat.eqb_refl; apply unifyList_complete; auto;
    intros v z Hv1 Hz Ho; apply Hv; auto; (eapply occurs_step; [exact Ho|now constructor])).
  - simpl. replace (copula_eqb c c) with true by (symmetry; now apply copula_eqb_eq).
    destruct (IHs (fun v H1 H2 => Hv v H1 (occurs_step _ _ _ H2 (comp_subj _ _ _))) u Hu) as (u1 & -> & H1).
    apply IHp; auto. intros v Hv1 Ho. apply Hv; auto. eapply occurs_step; [exact Ho|constructor].
  - simpl. rewrite String.eqb_refl. eauto.
  - simpl. rewrite Nat.eqb_refl.
    destruct (IHr (fun v H1 H2 => Hv v H1 (occurs_step _ _ _ H2 (comp_imgrel _ _ _))) u Hu) as (u1 & -> & H1).
    rewrite map_length, Nat.eqb_refl. apply unifyList_complete; auto.
    intros v z Hv1 Hz Ho. apply Hv; auto. eapply occurs_step; [exact Ho|now apply comp_img].
  - simpl. apply IHx; auto. intros v Hv1 Ho. apply Hv; auto. eapply occurs_step; [exact Ho|constructor].
Qed.

(** unifySubst is instantiation by the first binding of each variable. *)
Lemma map_ext_Forall : forall (A B : Type) (f g : A -> B) l, Forall (fun x => f x = g x) l -> map f l = map g l.
Proof. induction 1; simpl; congruence. Qed.

Lemma subst_inst : forall t s, unifySubst t s = inst (fun v => lookupVar v s) t.
Proof.
  intros t s. induction t using term_ind2; simpl; f_equal; auto;
   apply map_ext_Forall; assumption.
Qed.

Lemma lookup_binds : forall s v, (exists w, binds s v w /\ lookupVar v s = w) \/ (~ In v (map fst s) /\ lookupVar v s = v).
Proof.
  induction s as [|[x y] s IH]; intros v; [right; simpl; auto|]. simpl.
  destruct (checkEqTerm v x) eqn:E.
  - apply checkEqTerm_eq in E. subst x. left. exists y. split; auto. exists [], s. auto.
  - apply checkEqTerm_neq in E. destruct (IH v) as [(w & (u1 & u2 & -> & Hn) & Hl)|[Hn Hl]].
    + left. exists w. split; auto. exists ((x, y) :: u1), u2. split; auto. simpl. intros [?|?]; auto.
    + right. split; auto. intros [?|?]; auto.
Qed.

Lemma binds_lookup : forall s v w, binds s v w -> lookupVar v s = w.
Proof.
  intros s v w (u1 & u2 & -> & Hn). rewrite lookup_app_notin by assumption. simpl. now rewrite checkEqTerm_refl.
Qed.

Lemma unify_sound : forall a b u, unify a b = Some u -> unifySubst a u = b.
Proof.
  intros a b u H. apply unify2_sound in H. destruct H as [_ H]. specialize (H []). now rewrite app_nil_r in H.
Qed.

Lemma unify_dom : forall a b u, unify a b = Some u ->
  NoDup (map fst u) /\ (forall v, In v (map fst u) <-> isVar v /\ occurs v a) /\
  (forall v w, In (v, w) u -> ~ isVar w).
Proof.
  intros a b u H. apply unify2_sound in H. destruct H as [[_ V N D] _]. repeat split.
  - apply N. constructor.
  - apply D in H. simpl in H. unfold vocc in H. tauto.
  - apply D in H. simpl in H. unfold vocc in H. tauto.
  - intros H. apply D. right. exact H.
  - intros v w. apply V. intros x y [].
Qed.

Lemma unify_iff : forall a b, (exists u, unify a b = Some u) <-> instanceOf b a.
Proof.
  intros a b. split.
  - intros [u H]. exists (fun v => lookupVar v u). rewrite <- subst_inst.
    split; [|now apply unify_sound].
    destruct (unify_dom _ _ _ H) as (_ & D & V). intros v Hv Ho.
    destruct (lookup_binds u v) as [(w & Hb & ->)|[Hn _]].
    + destruct Hb as (u1 & u2 & -> & _). apply (V v). apply in_or_app. right. now left.
    + exfalso. apply Hn, D. auto.
  - intros (sg & Hs & <-).
    destruct (unify2_complete sg a Hs [] (fun x y H => match H with end)) as (u' & H & _). eauto.
Qed.

Lemma ground_inst : forall sg t, ground t -> inst sg t = t.
Proof.
  unfold ground. intros sg t. induction t using term_ind2; intros Hg; simpl;
   try (exfalso; apply (Hg _ (occurs_refl _)); exact I); auto.
  all: try (f_equal; transitivity (map (fun x : term => x) l); [|apply map_id]; apply map_ext_in; intros x Hx;
       rewrite Forall_forall in H; apply (H x Hx); intros z Hz; apply Hg; eapply occurs_step; [exact Hz|now constructor]).
  - rewrite IHt1, IHt2; auto; intros z Hz; apply Hg; (eapply occurs_step; [exact Hz|constructor]).
  - f_equal.
    + apply IHt. intros z Hz. apply Hg. eapply occurs_step; [exact Hz|apply comp_imgrel].
    + transitivity (map (fun x : term => x) l); [|apply map_id]. apply map_ext_in. intros x Hx.
      rewrite Forall_forall in H. apply (H x Hx). intros z Hz. apply Hg. eapply occurs_step; [exact Hz|now apply comp_img].
  - f_equal. apply IHt. intros z Hz. apply Hg. eapply occurs_step; [exact Hz|constructor].
Qed.

Lemma ground_unify : forall a b, ground a -> unify a b = if checkEqTerm a b then Some [] else None.
Proof.
  intros a b Hg. destruct (unify a b) as [u|] eqn:E.
  - assert (Hs := unify_sound _ _ _ E). rewrite subst_inst, ground_inst in Hs by assumption. subst b.
    rewrite checkEqTerm_refl. destruct (unify_dom _ _ _ E) as (_ & D & _).
    destruct u as [|[v w] u]; auto. exfalso.
    destruct (proj1 (D v) (or_introl eq_refl)) as [Hv Ho]. now apply (Hg v).
  - destruct (checkEqTerm a b) eqn:Eq; auto. apply checkEqTerm_eq in Eq. subst b.
    assert (H : exists u, unify a a = Some u).
    { apply unify_iff. exists (fun v => v). split; [|now apply ground_inst]. intros v Hv Ho. exfalso. now apply (Hg v). }
    destruct H as [u H]. congruence.
Qed.

Lemma inst_vars : forall sg t x, isVar x -> occurs x (inst sg t) ->
  exists v, isVar v /\ occurs v t /\ occurs x (sg v).
Proof.
  intros sg t x Hx.
  assert (Hstep : forall s, (exists v, isVar v /\ occurs v s /\ occurs x (sg v)) -> component s t -> True) by auto.
  clear Hstep.
  assert (L : forall C, (forall l z, component z (C l) <-> In z l) -> (forall l, ~ isVar (C l)) ->
     forall l, Forall (fun t => occurs x (inst sg t) -> exists v, isVar v /\ occurs v t /\ occurs x (sg v)) l ->
     occurs x (C (map (inst sg) l)) -> exists v, isVar v /\ occurs v (C l) /\ occurs x (sg v)).
  { intros C HC HV l Hl Ho. apply occurs_inv in Ho. destruct Ho as [->|(z & Hz & Ho)]; [now apply HV in Hx|].
    apply HC in Hz. apply in_map_iff in Hz. destruct Hz as (y & <- & Hy).
    rewrite Forall_forall in Hl. destruct (Hl y Hy Ho) as (v & Hv & Hov & Hs).
    exists v. repeat split; auto. eapply occurs_step; [exact Hov|now apply HC]. }
  induction t using term_ind2; simpl; intros Ho;
    try (eexists; repeat split; [| apply occurs_refl | exact Ho]; exact I);
    try (match goal with |- context [occurs _ (?C ?ll)] => apply (L C); [intros; split; [intros HH; now inversion HH|now constructor]|intros ? HH; exact HH|assumption|assumption] end).
  - apply occurs_inv in Ho. destruct Ho as [->|(z & Hz & Ho)]; [destruct Hx|].
    inversion Hz; subst.
    + destruct (IHt1 Ho) as (v & Hv & Hov & Hs). exists v. repeat split; auto. eapply occurs_step; [exact Hov|constructor].
    + destruct (IHt2 Ho) as (v & Hv & Hov & Hs). exists v. repeat split; auto. eapply occurs_step; [exact Hov|constructor].
  - apply occurs_inv in Ho. destruct Ho as [->|(z & Hz & Ho)]; [destruct Hx|inversion Hz].
  - apply occurs_inv in Ho. destruct Ho as [->|(z & Hz & Ho)]; [destruct Hx|].
    inversion Hz; subst.
    + match goal with HH : In _ (map _ _) |- _ => apply in_map_iff in HH; destruct HH as (y & <- & Hy) end. rewrite Forall_forall in H.
      destruct (H y Hy Ho) as (v & Hv & Hov & Hs). exists v. repeat split; auto. eapply occurs_step; [exact Hov|now apply comp_img].
    + destruct (IHt Ho) as (v & Hv & Hov & Hs). exists v. repeat split; auto. eapply occurs_step; [exact Hov|apply comp_imgrel].
  - apply occurs_inv in Ho. destruct Ho as [->|(z & Hz & Ho)]; [destruct Hx|].
    inversion Hz; subst.
    destruct (IHt Ho) as (v & Hv & Hov & Hs). exists v. repeat split; auto. eapply occurs_step; [exact Hov|constructor].
Qed.

Lemma subst_removes : forall t s, (forall v w, In (v, w) s -> ground w) ->
  forall x, isVar x -> occurs x (unifySubst t s) -> occurs x t /\ ~ In x (map fst s).
Proof.
  intros t s Hg x Hx Ho. rewrite subst_inst in Ho. apply inst_vars in Ho; auto.
  destruct Ho as (v & Hv & Hov & Hs).
  destruct (lookup_binds s v) as [(w & Hb & Hl)|[Hn Hl]]; rewrite Hl in Hs.
  - exfalso. destruct Hb as (u1 & u2 & -> & _). eapply Hg; [apply in_or_app; right; left; reflexivity|exact Hs|exact Hx].
  - apply occurs_inv in Hs. destruct Hs as [->|(z & Hz & _)]; auto.
    destruct v; simpl in Hv; try tauto; inversion Hz.
Qed.

Lemma inst_comp : forall sg tau t, inst tau (inst sg t) = inst (fun v => inst tau (sg v)) t.
Proof.
  intros. induction t using term_ind2; simpl; auto; f_equal; auto;
    rewrite map_map; apply map_ext_Forall; assumption.
Qed.
