(** Terms with a text: which terms have one, and that printing them does not panic. *)
From Coq Require Import String ZArith Bool Lia List Relations.
From Verif Require Import Base Term_Model Term_Spec Term_Proofs Unify_Model Unify_Spec Unify_Proofs Proc_Model Speak_Spec.
Import ListNotations.
Local Open Scope list_scope.

Lemma sp_part : forall x t, speakable t -> occurs x t -> speakable x.
Proof. intros x t H O y Oy. apply H. eapply occurs_trans; eauto. Qed.
Lemma sp_comp : forall x t, speakable t -> component x t -> speakable x.
Proof. intros x t H C. eapply sp_part; [exact H|now apply rt_step]. Qed.
Lemma sp_build : forall t, ~ blank t -> (forall x, component x t -> speakable x) -> speakable t.
Proof. intros t P C x O. apply occurs_inv in O. destruct O as [->|(y & Cy & O)]; [auto|]. now apply (C y Cy). Qed.
Lemma sp_full : forall t, speakable t -> ~ blank t.
Proof. intros t H. apply H, occurs_refl. Qed.
Lemma sp_var : forall v, isVar v -> speakable v.
Proof. intros v H. destruct v; try contradiction; (apply sp_build; [intros []|]; intros x C; inversion C). Qed.
Lemma sp_name : forall n, speakable (Name n).
Proof. intros n. apply sp_build; [intros []|]. intros x C. inversion C. Qed.
Lemma sp_stmt : forall c a b, speakable (Stmt c a b) <-> speakable a /\ speakable b.
Proof.
  intros c a b. split.
  - intros H. split; apply (sp_comp _ _ H); constructor.
  - intros [A B]. apply sp_build; [intros []|]. intros x C. inversion C; subst; auto.
Qed.
Lemma sp_neg : forall x, speakable (Neg x) <-> speakable x.
Proof. intros x. split; [intros H; apply (sp_comp _ _ H); constructor|intros H; apply sp_build; [intros []|]; intros y C; inversion C; now subst]. Qed.
Ltac splist l := intros l; split; [intros H; split; [intros ->; exact (sp_full _ H I)|]; apply Forall_forall; intros x K; apply (sp_comp _ _ H); now constructor
  |intros [P F]; apply sp_build; [destruct l; [congruence|intros []]|]; intros x C; inversion C; subst; rewrite Forall_forall in F; auto].
Lemma sp_seq : forall l, speakable (Seq l) <-> l <> [] /\ Forall speakable l. Proof. let l := fresh "l0" in splist l. Qed.
Lemma sp_setint : forall l, speakable (SetInt l) <-> l <> [] /\ Forall speakable l. Proof. let l := fresh "l0" in splist l. Qed.
Lemma sp_setext : forall l, speakable (SetExt l) <-> l <> [] /\ Forall speakable l. Proof. let l := fresh "l0" in splist l. Qed.
Lemma sp_intint : forall l, speakable (IntInt l) <-> l <> [] /\ Forall speakable l. Proof. let l := fresh "l0" in splist l. Qed.
Lemma sp_extint : forall l, speakable (ExtInt l) <-> l <> [] /\ Forall speakable l. Proof. let l := fresh "l0" in splist l. Qed.
Lemma sp_par : forall l, speakable (Par l) <-> l <> [] /\ Forall speakable l. Proof. let l := fresh "l0" in splist l. Qed.
Lemma sp_conj : forall l, speakable (Conj l) <-> l <> [] /\ Forall speakable l. Proof. let l := fresh "l0" in splist l. Qed.
Lemma sp_prod : forall l, speakable (Prod l) <-> l <> [] /\ Forall speakable l. Proof. let l := fresh "l0" in splist l. Qed.
Lemma sp_img : forall r i l, speakable (Img r i l) <-> l <> [] /\ speakable r /\ Forall speakable l.
Proof.
  intros r i l. split.
  - intros H. split; [intros ->; exact (sp_full _ H I)|]. split; [apply (sp_comp _ _ H); apply comp_imgrel|].
    apply Forall_forall. intros x K. apply (sp_comp _ _ H). now apply comp_img.
  - intros (P & R & F). apply sp_build; [destruct l; [congruence|intros []]|]. intros x C. rewrite Forall_forall in F. inversion C; subst; auto.
Qed.
Lemma map_ne : forall A B (f : A -> B) l, l <> [] -> map f l <> [].
Proof. intros A B f [|x l] H; [congruence|discriminate]. Qed.
Ltac split_sp H := first [rewrite sp_stmt in H|rewrite sp_seq in H|rewrite sp_setint in H|rewrite sp_setext in H|rewrite sp_intint in H
  |rewrite sp_extint in H|rewrite sp_par in H|rewrite sp_conj in H|rewrite sp_prod in H|rewrite sp_img in H|rewrite sp_neg in H].
Ltac goal_sp := first [rewrite sp_stmt|rewrite sp_seq|rewrite sp_setint|rewrite sp_setext|rewrite sp_intint
  |rewrite sp_extint|rewrite sp_par|rewrite sp_conj|rewrite sp_prod|rewrite sp_img|rewrite sp_neg].
Lemma map_sp : forall f l, Forall (fun x => speakable x -> speakable (f x)) l -> Forall speakable l -> Forall speakable (map f l).
Proof.
  intros f l F S. apply Forall_forall. intros y Hy. apply in_map_iff in Hy. destruct Hy as (z & <- & Hz). rewrite Forall_forall in F, S. auto.
Qed.
Lemma sp_inst : forall sg, (forall v, isVar v -> speakable (sg v)) -> forall t, speakable t -> speakable (inst sg t).
Proof.
  intros sg S t. induction t as [c a b IHa IHb|nm|l IH|l IH|l IH|nm|nm|nm|l IH|l IH|r i l IHr IH|l IH|l IH|l IH|x IHx] using term_ind2; cbn [inst]; intros H;
    try (apply S; exact I); auto; split_sp H; goal_sp; try (split; [apply map_ne, H|]); try (apply map_sp; [assumption|apply H]).
  - destruct H; auto.
  - split; [apply IHr, H|apply map_sp; [assumption|apply H]].
  - auto.
Qed.
Lemma sp_intro : forall repl w, speakable w -> forall t, speakable t -> speakable (introHelper repl w t).
Proof.
  intros repl w W t. induction t as [c a b IHa IHb|nm|l IH|l IH|l IH|nm|nm|nm|l IH|l IH|r i l IHr IH|l IH|l IH|l IH|x IHx] using term_ind2; cbn [introHelper]; intros H;
    (destruct (checkEqTerm _ repl); [exact W|]); auto; split_sp H; goal_sp; try (split; [apply map_ne, H|]); try (apply map_sp; [assumption|apply H]).
  - destruct H; auto.
  - split; [rewrite term_clone_id; apply H|apply map_sp; [assumption|apply H]].
  - auto.
Qed.
Lemma inst_occ : forall sg x t, occurs x t -> occurs (inst sg x) (inst sg t).
Proof.
  intros sg x t H. induction H as [x t H|x|x y z H IH H2 IH2]; [|apply rt_refl|eapply rt_trans; eauto].
  apply rt_step. destruct H; cbn [inst]; try (apply comp_imgrel); constructor; now apply in_map.
Qed.
Lemma sp_subst : forall pat t asg x, unify pat t = Some asg -> speakable t -> speakable x -> speakable (unifySubst x asg).
Proof.
  intros pat t asg x U S X. rewrite subst_inst. apply sp_inst; auto. intros v V.
  destruct (lookup_binds asg v) as [(w & B & E)|(N & E)]; rewrite E; [|now apply sp_var].
  assert (In v (map fst asg)) as D.
  { destruct B as (u1 & u2 & -> & _). rewrite map_app. apply in_app_iff. right. now left. }
  pose proof (unify_sound _ _ _ U) as Sn. rewrite subst_inst in Sn.
  assert (O : occurs v pat) by (apply (unify_dom _ _ _ U) in D; tauto).
  apply (inst_occ (fun v => lookupVar v asg)) in O. rewrite Sn in O.
  replace (inst (fun v => lookupVar v asg) v) with w in O by (destruct v; try contradiction; cbn [inst]; auto).
  exact (sp_part _ _ S O).
Qed.
Lemma join_ok : forall sep l, l <> [] -> Forall (fun r => exists s : string, r = Ok s) l -> exists s, joinWith sep l = Ok s.
Proof.
  intros sep [|x l] N F; [congruence|]. inversion F as [|? ? (h & ->) F2]; subst. cbn [joinWith rbind]. clear N F. revert h.
  induction F2 as [|y l (s & ->) F2 IH]; intros h; cbn [rfold rbind]; [eauto|apply IH].
Qed.
Lemma sp_text : forall t, speakable t -> exists s, convTermToStr t = Ok s.
Proof.
  intros t. induction t as [c a b IHa IHb|nm|l IH|l IH|l IH|nm|nm|nm|l IH|l IH|r i l IHr IH|l IH|l IH|l IH|x IHx] using term_ind2; cbn [convTermToStr]; intros H;
    try (eexists; reflexivity); split_sp H;
    try (assert (Fl : Forall (fun r => exists s : string, r = Ok s) (map convTermToStr l)) by
      (apply Forall_forall; intros y Hy; apply in_map_iff in Hy; destruct Hy as (z & <- & Hz); rewrite Forall_forall in IH;
       apply IH; [auto|]; destruct H as (_ & H); try destruct H as (_ & H); rewrite Forall_forall in H; auto);
      match goal with |- context [joinWith ?sep _] => destruct (join_ok sep _ (map_ne _ _ convTermToStr _ (proj1 H)) Fl) as (sj & ->) end; cbn [rbind];
      try (eexists; reflexivity)).
  - destruct H as [H1 H2]. destruct (IHa H1) as (sa & ->). destruct (IHb H2) as (sb & ->). eexists; reflexivity.
  - destruct H as (_ & H & _). destruct (IHr H) as (sr & ->). eexists; reflexivity.
  - destruct (IHx H) as (sx & ->). eexists; reflexivity.
Qed.
