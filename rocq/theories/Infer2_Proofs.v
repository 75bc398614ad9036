(** What swapping the premises does to the truth values. *)
From Coq Require Import ZArith Lia List Permutation.
From Verif Require Import Base F64_Model Term_Model Term_Spec Unify_Spec Tv_Model Sentence_Model Infer_Model Infer_Spec Infer_Proofs.
Import ListNotations.

Definition valued (x y : tv) (c : term * (tv -> tv -> tv)) : concl := (fst c, snd c x y, JUGEMENT).

Lemma push_values : forall specs (rs : tv -> tv -> list (unit -> res (option concl))),
  (forall x y, Forall2 (fun r s => computes (r tt) (fst s) (Some x) (Some y) (snd s)) (rs x y) specs) ->
  Forall (fun s : truth * (term -> Prop) => fst s = TSecond -> forall t, ~ snd s t) specs ->
  exists L, (forall x y l0 g0, exists g, pushRules (rs x y) (l0, g0) = Ok (l0 ++ map (valued x y) L, g)) /\
    forall t f, In (t, f) L -> exists P, In (TBoth f, P) specs /\ P t.
Proof.
  intros specs. induction specs as [|[tr P] specs IH]; intros rs F N.
  - exists []. split; [|intros t f []]. intros x y l0 g0. specialize (F x y). inversion F. exists g0. simpl. now rewrite app_nil_r.
  - inversion N as [|? ? N1 N2]; subst. pose (tl x y := match rs x y with [] => [] | _ :: q => q end).
    destruct (IH tl) as (L & HL & HS); [|exact N2|].
    { intros x y. specialize (F x y). unfold tl. inversion F; subst. assumption. }
    assert (x0 : tv) by exact (mkTv f0 f0).
    assert (D : (exists t, forall t', P t' <-> t' = t) \/ forall t, ~ P t).
    { specialize (F x0 x0). inversion F as [|r ? q ? C _]; subst. destruct C as [(t & K & _)|(K & _)]; eauto. }
    destruct D as [(t & K)|K].
    + destruct tr as [f|]; [|destruct (N1 eq_refl t); now apply K].
      exists ((t, f) :: L). split.
      * intros x y l0 g0. assert (Fx := F x y). inversion Fx as [|r ? q ? C F' E]; subst. cbn [fst snd] in C. rewrite pushRules_cons.
        destruct C as [(t' & K' & E')|(K' & _)]; [|destruct (K' t); now apply K].
        assert (t' = t) by (apply K; now apply K'). subst t'. cbn [truthVal] in E'. rewrite E'. cbn [rbind fst]. cbn match.
        destruct (HL x y (l0 ++ [(t, f x y, JUGEMENT)]) true) as (g & Hg). unfold tl in Hg. rewrite <- E in Hg. cbn match in Hg. exists g. etransitivity; [exact Hg|]. rewrite <- app_assoc. reflexivity.
      * intros t' f' [[= <- <-]|H]; [exists P; split; [now left|now apply K]|]. destruct (HS t' f' H) as (Q & A & B). exists Q. split; [now right|exact B].
    + exists L. split.
      * intros x y l0 g0. assert (Fx := F x y). inversion Fx as [|r ? q ? C F' E]; subst. cbn [fst snd] in C. rewrite pushRules_cons.
        destruct C as [(t' & K' & _)|(_ & E')]; [destruct (K t'); now apply K'|]. rewrite E'. cbn [rbind].
        destruct (HL x y l0 g0) as (g & Hg). unfold tl in Hg. rewrite <- E in Hg. cbn match in Hg. exists g. exact Hg.
      * intros t' f' H. destruct (HS t' f' H) as (Q & A & B). exists Q. split; [now right|exact B].
Qed.

Lemma specs_schema : forall a b f P t, In (TBoth f, P) (binSpecs a JUGEMENT b JUGEMENT) -> P t -> schema JUGEMENT a JUGEMENT b t (TBoth f).
Proof.
  intros a b f P t H. unfold binSpecs in H. repeat (destruct H as [[= <- <-]|H]); [..|destruct H].
  - intros (_ & _ & s & l1 & l2 & -> & -> & ->). constructor.
  - intros (_ & _ & l1 & c & l2 & p & sg & L & -> & M & [(x & E & ->)|[N ->]]); econstructor; eauto; lia.
  - intros (_ & _ & l1 & c & l2 & p & sg & L & -> & M & [(x & E & ->)|[N ->]]); econstructor; eauto; lia.
  - intros (_ & _ & l1 & c & l2 & p & sg & L & -> & M & [(x & E & ->)|[N ->]]); econstructor; eauto; lia.
  - intros (_ & _ & l1 & c & l2 & p & sg & L & -> & M & [(x & E & ->)|[N ->]]); econstructor; eauto; lia.
  - intros (_ & _ & s & p & sg & -> & M & ->). now constructor.
  - intros (_ & _ & s & p & q & -> & -> & N & ->). now constructor.
  - intros (_ & _ & c1 & c2 & s & p & q & -> & -> & C1 & C2 & N & ->). now constructor.
  - intros (_ & _ & c1 & c2 & s & p & q & -> & -> & C1 & C2 & N & ->). now constructor.
  - intros (_ & _ & s & p & s' & p' & -> & -> & E & N & ->). simpl in *. subst. constructor; auto.
  - intros (_ & _ & s & p & s' & p' & -> & -> & E & N & ->). simpl in *. subst. constructor; auto.
  - intros (_ & _ & s & p & s' & p' & -> & -> & E & N & ->). simpl in *. subst. constructor; auto.
  - intros (_ & _ & s & p & s' & p' & -> & -> & E & N & ->). simpl in *. subst. constructor; auto.
  - intros (_ & _ & s & p & s' & p' & -> & -> & E & N & ->). simpl in *. subst. constructor; auto.
Qed.
Lemma inner_values : forall a b, exists L, (forall x y f, exists g, infBinaryInner a JUGEMENT (Some x) b JUGEMENT (Some y) f = Ok (map (valued x y) L, g)) /\
  forall t f, In (t, f) L -> schema JUGEMENT a JUGEMENT b t (TBoth f).
Proof.
  intros a b. destruct (push_values (binSpecs a JUGEMENT b JUGEMENT) (fun x y => binaryRules a JUGEMENT (Some x) b JUGEMENT (Some y))) as (L & HL & HS).
  - intros x y. apply rules_specs.
  - unfold binSpecs. repeat apply Forall_cons; try apply Forall_nil; cbn [fst snd]; try discriminate; intros _ t; [tauto|]. intros (K & _). discriminate.
  - exists L. split; [intros x y f; unfold infBinaryInner; exact (HL x y [] f)|]. intros t f H. destruct (HS t f H) as (P & A & B). eapply specs_schema; eassumption.
Qed.

Theorem order_values : forall a b, exists L L', Permutation L L' /\
  (forall t f, In (t, f) L -> schema JUGEMENT a JUGEMENT b t (TBoth f) \/ schema JUGEMENT b JUGEMENT a t (TBoth f)) /\
  forall x y, exists g g', infBinary a JUGEMENT (Some x) b JUGEMENT (Some y) = Ok (map (valued x y) L, g) /\
                           infBinary b JUGEMENT (Some x) a JUGEMENT (Some y) = Ok (map (valued x y) L', g').
Proof.
  intros a b. destruct (inner_values a b) as (L1 & H1 & S1). destruct (inner_values b a) as (L2 & H2 & S2).
  exists (L1 ++ L2), (L2 ++ L1). split; [apply Permutation_app_comm|]. split; [intros t f H; apply in_app_iff in H; destruct H; auto|]. intros x y. unfold infBinary.
  destruct (H1 x y false) as (g1 & E1). destruct (H2 x y g1) as (g2 & E2). destruct (H2 x y false) as (g3 & E3). destruct (H1 x y g3) as (g4 & E4).
  exists g2, g4. rewrite E1. cbn [rbind fst snd]. rewrite E2. cbn [rbind fst snd]. rewrite E3. cbn [rbind fst snd]. rewrite E4. cbn [rbind fst snd].
  now rewrite !map_app.
Qed.
