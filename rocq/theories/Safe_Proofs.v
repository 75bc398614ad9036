(** Proper terms: preserved by every rule, printable, of positive complexity. *)
From Coq Require Import String ZArith Bool Lia List Relations.
From Verif Require Import Base F64_Model Term_Model Term_Spec Term_Proofs Unify_Spec Stamp_Model Tv_Model Tv_Spec Sentence_Model
  Infer_Model Infer_Spec Mem_Model Mem_Spec Cycle_Model Cycle_Spec Sched_Model Sched_Spec Safe_Spec.
Import ListNotations.

Lemma wf_part : forall x t, wf t -> occurs x t -> wf x.
Proof. intros x t H O y Oy. apply H. eapply occurs_trans; eauto. Qed.
Lemma comp_occurs : forall x t, component x t -> occurs x t.
Proof. intros x t H. now apply rt_step. Qed.
Lemma wf_comp : forall x t, wf t -> component x t -> wf x.
Proof. intros x t H C. eapply wf_part; [exact H|now apply comp_occurs]. Qed.
Lemma wf_build : forall t, proper t -> (forall x, component x t -> wf x) -> wf t.
Proof. intros t P C x O. apply occurs_inv in O. destruct O as [->|(y & Cy & O)]; [auto|]. now apply (C y Cy). Qed.
Lemma wf_proper : forall t, wf t -> proper t.
Proof. intros t H. apply H, occurs_refl. Qed.
Lemma wf_var : forall v, isVar v -> wf v.
Proof. intros v H. destruct v; try contradiction; (apply wf_build; [exact I|]; intros x C; inversion C). Qed.
Lemma wf_stmt : forall c a b, wf (Stmt c a b) <-> wf a /\ wf b.
Proof.
  intros c a b. split.
  - intros H. split; apply (wf_comp _ _ H); constructor.
  - intros [A B]. apply wf_build; [exact I|]. intros x C. inversion C; subst; auto.
Qed.
Ltac lists := intros; split; [intros H; split; [exact (wf_proper _ H)|]; apply Forall_forall; intros x K; apply (wf_comp _ _ H); now constructor
  |intros [P F]; apply wf_build; [exact P|]; intros x C; inversion C; subst; rewrite Forall_forall in F; auto].
Lemma wf_seq : forall l, wf (Seq l) <-> l <> [] /\ Forall wf l. Proof. lists. Qed.
Lemma wf_setint : forall l, wf (SetInt l) <-> l <> [] /\ Forall wf l. Proof. lists. Qed.
Lemma wf_setext : forall l, wf (SetExt l) <-> l <> [] /\ Forall wf l. Proof. lists. Qed.
Lemma wf_intint : forall l, wf (IntInt l) <-> l <> [] /\ Forall wf l. Proof. lists. Qed.
Lemma wf_extint : forall l, wf (ExtInt l) <-> l <> [] /\ Forall wf l. Proof. lists. Qed.
Lemma wf_par : forall l, wf (Par l) <-> l <> [] /\ Forall wf l. Proof. lists. Qed.
Lemma wf_conj : forall l, wf (Conj l) <-> (2 <= length l)%nat /\ Forall wf l. Proof. lists. Qed.
Lemma wf_prod : forall l, wf (Prod l) <-> (2 <= length l)%nat /\ Forall wf l. Proof. lists. Qed.
Lemma wf_img : forall r i l, wf (Img r i l) <-> l <> [] /\ wf r /\ Forall wf l.
Proof.
  intros r i l. split.
  - intros H. split; [exact (wf_proper _ H)|]. split; [apply (wf_comp _ _ H); apply comp_imgrel|].
    apply Forall_forall. intros x K. apply (wf_comp _ _ H). now apply comp_img.
  - intros (P & R & F). apply wf_build; [exact P|]. intros x C. rewrite Forall_forall in F. inversion C; subst; auto.
Qed.
Lemma wf_neg : forall x, wf (Neg x) <-> wf x.
Proof.
  intros x. split; [intros H; apply (wf_comp _ _ H); constructor|].
  intros H. apply wf_build; [exact I|]. intros y C. inversion C; subst; auto.
Qed.

(** * Instances *)
Lemma inst_component : forall sg x t, component x t -> component (inst sg x) (inst sg t).
Proof. intros sg x t H. destruct H; cbn [inst]; try (apply comp_imgrel); constructor; now apply in_map. Qed.
Lemma inst_occurs : forall sg x t, occurs x t -> occurs (inst sg x) (inst sg t).
Proof.
  intros sg x t H. induction H; [now apply rt_step, inst_component|apply rt_refl|eapply rt_trans; eauto].
Qed.
Lemma map_nil : forall A B (f : A -> B) l, l <> [] -> map f l <> [].
Proof. intros A B f [|x l] H; [congruence|discriminate]. Qed.
Lemma wf_inst : forall sg, (forall v, isVar v -> wf (sg v)) -> forall t, wf t -> wf (inst sg t).
Proof.
  intros sg S t. induction t as [c a b IHa IHb|nm|l IH|l IH|l IH|nm|nm|nm|l IH|l IH|r i l IHr IH|l IH|l IH|l IH|x IHx] using term_ind2; cbn [inst]; intros H;
    try (apply S; exact I); auto;
    try (assert (Fl : Forall wf (map (inst sg) l)) by
      (apply Forall_forall; intros y Hy; apply in_map_iff in Hy; destruct Hy as (z & <- & Hz); rewrite Forall_forall in IH;
       apply IH; [auto|]; apply (wf_comp _ _ H); now constructor)).
  - apply wf_stmt in H. apply wf_stmt. destruct H. auto.
  - apply wf_seq in H. apply wf_seq. split; [now apply map_nil|auto].
  - apply wf_setint in H. apply wf_setint. split; [now apply map_nil|auto].
  - apply wf_setext in H. apply wf_setext. split; [now apply map_nil|auto].
  - apply wf_conj in H. apply wf_conj. rewrite map_length. split; [apply H|auto].
  - apply wf_prod in H. apply wf_prod. rewrite map_length. split; [apply H|auto].
  - apply wf_img in H. apply wf_img. split; [now apply map_nil|]. destruct H as (_ & R & _). auto.
  - apply wf_intint in H. apply wf_intint. split; [now apply map_nil|auto].
  - apply wf_extint in H. apply wf_extint. split; [now apply map_nil|auto].
  - apply wf_par in H. apply wf_par. split; [now apply map_nil|auto].
  - rewrite wf_neg in *. auto.
Qed.
Lemma inst_var : forall sg v, isVar v -> inst sg v = sg v.
Proof. intros sg v H. destruct v; try contradiction; reflexivity. Qed.
Lemma var_dec : forall v t, occurs v t \/ ~ occurs v t.
Proof.
  intros v t. destruct (in_dec term_eq_dec v (retSubterms t)) as [H|H]; [left|right]; [now apply retSubterms_iff|].
  intros K. apply H. now apply retSubterms_iff.
Qed.
Lemma match_wf : forall sg pat t, matchBy sg pat t -> wf t -> forall v, isVar v -> wf (sg v).
Proof.
  intros sg pat t (_ & N & E) W v V. destruct (var_dec v pat) as [O|O].
  - apply (wf_part _ t W). rewrite <- E, <- (inst_var sg v V). now apply inst_occurs.
  - rewrite (N v V O). now apply wf_var.
Qed.

(** * Rules *)
Lemma schema_wf : forall pA a pB b t tr, schema pA a pB b t tr -> wf a -> wf b -> wf t.
Proof.
  intros pA a pB b t tr H. destruct H as [s l1 l2|l1 c l2 p sg b x L M E|l1 c l2 p sg b L M E|s p sg b M|s p sg b M|s p q N|c1 c2 s p q C1 C2 N|c1 c2 s r p C1 C2 N|c a b d C N|a b m N|a b m N];
    intros WA WB; rewrite ?wf_stmt in *.
  - destruct WA as [Ws W1], WB as [_ W2]. split; [auto|]. apply wf_setint in W1, W2. apply wf_setint. split.
    + destruct l1; [destruct W1; congruence|discriminate].
    + apply Forall_app. split; [apply W1|apply W2].
  - destruct WA as [Wc Wp]. assert (S := match_wf _ _ _ M WB). apply wf_conj in Wc. destruct Wc as [_ F].
    assert (Wx : wf x).
    { rewrite Forall_forall in F. apply F. assert (In x (l1 ++ l2)) by (rewrite E; now left).
      apply in_app_iff in H. apply in_app_iff. destruct H; [now left|right; now right]. }
    split; now apply wf_inst.
  - destruct WA as [Wc Wp]. assert (S := match_wf _ _ _ M WB). apply wf_conj in Wc. destruct Wc as [L2 F].
    split; [|now apply wf_inst]. apply wf_conj. rewrite map_length. split.
    + rewrite app_length in *. simpl in L2. lia.
    + apply Forall_forall. intros y Hy. apply in_map_iff in Hy. destruct Hy as (z & <- & Hz). apply wf_inst; [auto|].
      rewrite Forall_forall in F. apply F. apply in_app_iff in Hz. apply in_app_iff. destruct Hz; [now left|right; now right].
  - destruct WA as [Ws Wp]. apply wf_inst; [exact (match_wf _ _ _ M WB)|auto].
  - destruct WA as [Ws Wp]. split; (apply wf_inst; [exact (match_wf _ _ _ M WB)|auto]).
  - destruct WA as [Ws Wp], WB as [_ Wq]. split; [auto|]. apply wf_extint. split; [discriminate|auto].
  - tauto.
  - tauto.
  - tauto.
  - tauto.
  - tauto.
Qed.
Lemma struct_wf : forall p a t mir bias, struct p a t mir bias -> wf a -> wf t.
Proof.
  intros p a t mir bias H W. destruct H; rewrite ?wf_stmt, ?wf_neg, ?wf_intint, ?wf_prod, ?wf_img, ?wf_setint, ?wf_setext, ?wf_par in *.
  - auto.
  - destruct W as ((_ & F) & Wp). split; [|auto]. rewrite Forall_forall in F. apply F, in_elt.
  - destruct W as (Ws & (_ & F)). split; [auto|]. rewrite Forall_forall in F. apply F, in_elt.
  - destruct W as ((_ & F) & Wr). inversion F as [|? ? Wx F2]; subst. inversion F2; subst. split; [auto|]. split; [discriminate|auto].
  - destruct W as ((_ & F) & Wr). inversion F as [|? ? Wx F2]; subst. inversion F2; subst. split; [auto|]. split; [discriminate|auto].
  - destruct W as (Wx & _ & Wr & F). inversion F; subst. split; [|auto]. split; [simpl; lia|auto].
  - destruct W as (Wy & _ & Wr & F). inversion F; subst. split; [|auto]. split; [simpl; lia|auto].
  - destruct W as ((_ & F1) & (_ & F2)). inversion F1; inversion F2; subst; auto.
  - destruct W as ((_ & F1) & (_ & F2)). inversion F1; inversion F2; subst; auto.
  - destruct W as (Ws & (_ & F)). rewrite Forall_forall in F. auto.
Qed.
Lemma wf_long : forall p a, wf a -> ~ shortProd p a.
Proof. intros p a W (_ & l & r & -> & L). apply wf_stmt in W. destruct W as [W _]. apply wf_prod in W. lia. Qed.

(** * Printing and complexity *)
Lemma join_total : forall sep l, l <> [] -> Forall (fun r => exists s : string, r = Ok s) l -> exists s, joinWith sep l = Ok s.
Proof.
  intros sep [|x l] N F; [congruence|]. inversion F as [|? ? (h & ->) F2]; subst. cbn [joinWith rbind]. clear N F. revert h.
  induction F2 as [|y l (s & ->) F2 IH]; intros h; cbn [rfold rbind]; [eauto|apply IH].
Qed.
Lemma print_total : forall t, wf t -> exists s, convTermToStr t = Ok s.
Proof.
  intros t. induction t as [c a b IHa IHb|nm|l IH|l IH|l IH|nm|nm|nm|l IH|l IH|r i l IHr IH|l IH|l IH|l IH|x IHx] using term_ind2; cbn [convTermToStr]; intros H;
    try (eexists; reflexivity);
    try (assert (Fl : Forall (fun r => exists s : string, r = Ok s) (map convTermToStr l)) by
      (apply Forall_forall; intros y Hy; apply in_map_iff in Hy; destruct Hy as (z & <- & Hz); rewrite Forall_forall in IH;
       apply IH; [auto|]; apply (wf_comp _ _ H); now constructor));
    try (assert (Nl : l <> []) by (apply wf_proper in H; simpl in H; destruct l; [simpl in H; (congruence || lia)|discriminate]);
         match goal with |- context [joinWith ?sep _] => destruct (join_total sep _ (map_nil _ _ convTermToStr _ Nl) Fl) as (sj & ->) end; cbn [rbind];
         try (eexists; reflexivity)).
  - apply wf_stmt in H. destruct H as [H1 H2]. destruct (IHa H1) as (sa & ->). destruct (IHb H2) as (sb & ->). eexists; reflexivity.
  - apply wf_img in H. destruct H as (_ & H & _). destruct (IHr H) as (sr & ->). eexists; reflexivity.
  - rewrite wf_neg in H. destruct (IHx H) as (sx & ->). eexists; reflexivity.
Qed.
Lemma wf_complexity : forall t, wf t -> (1 <= calcComplexity t)%Z.
Proof.
  intros t. induction t as [c a b IHa IHb|nm|l IH|l IH|l IH|nm|nm|nm|l IH|l IH|r i l IHr IH|l IH|l IH|l IH|x IHx] using term_ind2; intros H;
    try (cbn [calcComplexity]; lia);
    try (assert (Hl : exists y, In y l /\ (1 <= calcComplexity y)%Z) by
      (assert (Nl : l <> []) by (apply wf_proper in H; simpl in H; destruct l; [simpl in H; (congruence || lia)|discriminate]);
       destruct l as [|y l']; [congruence|]; exists y; split; [now left|]; inversion IH; subst; auto;
       match goal with K : wf y -> _ |- _ => apply K end; apply (wf_comp _ _ H); constructor; now left);
      destruct Hl as (y & Hy & Cy); simpl; rewrite complexity_list; assert (K := sumC_in _ _ Hy); try lia).
  - simpl. apply wf_stmt in H. destruct H as [H1 H2]. specialize (IHa H1). specialize (IHb H2). lia.
  - assert (K2 := complexity_nonneg r). lia.
  - simpl. rewrite wf_neg in H. specialize (IHx H). lia.
Qed.

(** * What follows from fair inputs *)
Lemma derivable_wf : forall Inp : sentence -> Prop, (forall s, Inp s -> wf (s_term s)) -> forall s, derivable Inp s -> wf (s_term s).
Proof.
  intros Inp HI s D. induction D as [s I _|p c mir bias w D IH S _ _ _ _ _ _|a b c tr v Da IHa Db IHb _ S _ _ _ _ _ _|s b nb Ds IHs Db IHb R I].
  - auto.
  - eapply struct_wf; eauto.
  - destruct S as [S|S]; eapply schema_wf; eauto.
  - destruct I as (va & vs & _ & _ & _ & _ & E & _). now rewrite E.
Qed.
