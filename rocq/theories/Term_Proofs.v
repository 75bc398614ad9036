From Coq Require Import String Ascii ZArith Bool Lia List Relations.
From Verif Require Import Base Term_Model Term_Spec.
Import ListNotations.
Local Open Scope Z_scope.

(** Induction principle through the nested lists. *)
Section TermInd.
  Variable P : term -> Prop.
  Hypothesis HStmt : forall c s p, P s -> P p -> P (Stmt c s p).
  Hypothesis HName : forall n, P (Name n).
  Hypothesis HSeq : forall l, Forall P l -> P (Seq l).
  Hypothesis HSetInt : forall l, Forall P l -> P (SetInt l).
  Hypothesis HSetExt : forall l, Forall P l -> P (SetExt l).
  Hypothesis HQVar : forall n, P (QVar n).
  Hypothesis HDepVar : forall n, P (DepVar n).
  Hypothesis HIndepVar : forall n, P (IndepVar n).
  Hypothesis HConj : forall l, Forall P l -> P (Conj l).
  Hypothesis HProd : forall l, Forall P l -> P (Prod l).
  Hypothesis HImg : forall r i l, P r -> Forall P l -> P (Img r i l).
  Hypothesis HIntInt : forall l, Forall P l -> P (IntInt l).
  Hypothesis HExtInt : forall l, Forall P l -> P (ExtInt l).
  Hypothesis HPar : forall l, Forall P l -> P (Par l).
  Hypothesis HNeg : forall x, P x -> P (Neg x).
  Fixpoint term_ind2 (t : term) : P t :=
    let fl := fix fl (l : list term) : Forall P l :=
      match l with
      | [] => Forall_nil P
      | x :: l' => Forall_cons x (term_ind2 x) (fl l')
      end in
    match t with
    | Stmt c s p => HStmt c s p (term_ind2 s) (term_ind2 p)
    | Name n => HName n
    | Seq l => HSeq l (fl l)
    | SetInt l => HSetInt l (fl l)
    | SetExt l => HSetExt l (fl l)
    | QVar n => HQVar n
    | DepVar n => HDepVar n
    | IndepVar n => HIndepVar n
    | Conj l => HConj l (fl l)
    | Prod l => HProd l (fl l)
    | Img r i l => HImg r i l (term_ind2 r) (fl l)
    | IntInt l => HIntInt l (fl l)
    | ExtInt l => HExtInt l (fl l)
    | Par l => HPar l (fl l)
    | Neg x => HNeg x (term_ind2 x)
    end.
End TermInd.

Lemma copula_eqb_eq : forall a b, copula_eqb a b = true <-> a = b.
Proof. destruct a, b; simpl; split; congruence. Qed.

Lemma eql_eq : forall l1, Forall (fun a => forall b, checkEqTerm a b = true <-> a = b) l1 ->
  forall l2, Nat.eqb (length l1) (length l2) && forallb2 checkEqTerm l1 l2 = true <-> l1 = l2.
Proof.
  induction 1 as [|x l1 Hx Hl IH]; intros [|y l2]; simpl; try (split; congruence).
  specialize (IH l2).
  rewrite andb_true_iff in *.
  rewrite andb_true_iff, Hx.
  split.
  - intros (Hn & -> & Hf). f_equal. apply IH. auto.
  - intros E. injection E as <- E2. apply IH in E2. tauto.
Qed.

Lemma checkEqTerm_eq : forall a b, checkEqTerm a b = true <-> a = b.
Proof.
  induction a using term_ind2; intros b; destruct b; simpl;
    try (split; congruence);
    try (rewrite String.eqb_eq; split; congruence);
    try (match goal with H : Forall _ _ |- _ => rewrite (eql_eq _ H) end; split; congruence).
  - rewrite !andb_true_iff, copula_eqb_eq, IHa1, IHa2. split; [intros [[-> ->] ->]|intros [=]]; auto.
  - match goal with H : Forall _ _ |- _ => rewrite andb_true_iff, (eql_eq _ H) end.
    rewrite andb_true_iff, Nat.eqb_eq, IHa. split; [intros [[-> ->] ->]|intros [=]]; auto.
  - rewrite IHa. split; congruence.
Qed.

Lemma checkEqTerm_refl : forall a, checkEqTerm a a = true.
Proof. intros; now apply checkEqTerm_eq. Qed.

Lemma checkEqTerm_neq : forall a b, checkEqTerm a b = false <-> a <> b.
Proof.
  intros. rewrite <- checkEqTerm_eq. destruct (checkEqTerm a b); split; congruence.
Qed.

Lemma checkEqTerm_sym : forall a b, checkEqTerm a b = checkEqTerm b a.
Proof.
  intros. destruct (checkEqTerm b a) eqn:E.
  - apply checkEqTerm_eq in E. subst. apply checkEqTerm_refl.
  - apply checkEqTerm_neq in E. apply checkEqTerm_neq. congruence.
Qed.

Lemma term_eq_dec : forall a b : term, {a = b} + {a <> b}.
Proof.
  intros a b. destruct (checkEqTerm a b) eqn:E.
  - left. now apply checkEqTerm_eq.
  - right. now apply checkEqTerm_neq.
Defined.

Lemma map_id_Forall : forall (f : term -> term) l, Forall (fun x => f x = x) l -> map f l = l.
Proof. induction 1; simpl; congruence. Qed.

Lemma term_clone_id : forall t, term_clone t = t.
Proof.
  induction t using term_ind2; simpl; try reflexivity;
    try (rewrite map_id_Forall; auto); congruence.
Qed.

Lemma map_clone_id : forall l, map term_clone l = l.
Proof. intros. apply map_id_Forall. apply Forall_forall. intros; apply term_clone_id. Qed.

(** * Subterms *)
Lemma occurs_refl : forall t, occurs t t.
Proof. intros; apply rt_refl. Qed.

Lemma occurs_step : forall x y t, occurs x y -> component y t -> occurs x t.
Proof. intros. eapply rt_trans; [eassumption|now apply rt_step]. Qed.

Lemma occurs_trans : forall x y t, occurs x y -> occurs y t -> occurs x t.
Proof. intros. eapply rt_trans; eassumption. Qed.

(** inversion of [occurs] at the top *)
Lemma occurs_inv : forall x t, occurs x t -> x = t \/ exists y, component y t /\ occurs x y.
Proof.
  intros x t H. apply clos_rt_rtn1 in H.
  destruct H as [|y z Hyz Hxy].
  - now left.
  - right. exists y. split; auto. now apply clos_rtn1_rt.
Qed.

Lemma retSubterms_occurs : forall t x, In x (retSubterms t) -> occurs x t.
Proof.
  assert (HL : forall l (K : term -> Prop), Forall (fun t => forall x, In x (retSubterms t) -> occurs x t) l ->
    forall x, In x (flat_map retSubterms l) -> exists y, In y l /\ occurs x y).
  { intros l K HF x Hx. apply in_flat_map in Hx. destruct Hx as (y & Hy & Hx).
    rewrite Forall_forall in HF. exists y; split; auto. }
  induction t using term_ind2; simpl; intros x [<-|Hx]; try apply occurs_refl; try tauto;
    try (apply (HL _ (fun _ => True)) in Hx; [|assumption];
         destruct Hx as (y & Hy & Ho); eapply occurs_step; [exact Ho|]; constructor; assumption).
  - apply in_app_iff in Hx. destruct Hx as [Hx|Hx].
    + eapply occurs_step; [apply IHt1; exact Hx|constructor].
    + eapply occurs_step; [apply IHt2; exact Hx|constructor].
  - apply in_app_iff in Hx. destruct Hx as [Hx|Hx].
    + apply (HL _ (fun _ => True)) in Hx; [|assumption].
      destruct Hx as (y & Hy & Ho). eapply occurs_step; [exact Ho|]. now constructor.
    + eapply occurs_step; [apply IHt; exact Hx|apply comp_imgrel].
  - eapply occurs_step; [apply IHt; exact Hx|constructor].
Qed.

Lemma retSubterms_self : forall t, In t (retSubterms t).
Proof. destruct t; simpl; auto. Qed.

Lemma component_in : forall y t x, component y t -> In x (retSubterms y) -> In x (retSubterms t).
Proof.
  intros y t x H Hx. destruct H; simpl; right; try (apply in_flat_map; eauto; fail);
    try (apply in_app_iff; auto; fail); auto.
  apply in_app_iff. left. apply in_flat_map; eauto.
Qed.

Lemma occurs_retSubterms : forall t x, occurs x t -> In x (retSubterms t).
Proof.
  intros t x H. apply clos_rt_rtn1 in H. induction H.
  - apply retSubterms_self.
  - eapply component_in; eassumption.
Qed.

Lemma retSubterms_iff : forall t x, In x (retSubterms t) <-> occurs x t.
Proof. split; [apply retSubterms_occurs|apply occurs_retSubterms]. Qed.

Lemma retSubterms_head : forall t, exists l, retSubterms t = t :: l.
Proof. destruct t; simpl; eauto. Qed.

Lemma uniqueStep_in : forall res t x, In x (uniqueStep res t) <-> In x res \/ x = t.
Proof.
  intros res t x. unfold uniqueStep. destruct (existsb _ res) eqn:E.
  - apply existsb_exists in E. destruct E as (y & Hy & Ey). apply checkEqTerm_eq in Ey. subst.
    split; [auto|]. intros [H| ->]; auto.
  - rewrite in_app_iff. simpl. intuition.
Qed.

Lemma uniqueFold_in : forall l res x, In x (fold_left uniqueStep l res) <-> In x res \/ In x l.
Proof.
  induction l as [|t l IH]; intros res x; simpl.
  - tauto.
  - rewrite IH, uniqueStep_in. intuition.
Qed.

Lemma NoDup_snoc : forall (A : Type) (l : list A) x, NoDup l -> ~ In x l -> NoDup (l ++ [x]).
Proof.
  induction l as [|y l IH]; intros x Hn Hx; simpl.
  - constructor; [simpl; tauto|constructor].
  - inversion_clear Hn. constructor.
    + rewrite in_app_iff. simpl in *. intros [?|[->|[]]]; auto.
    + apply IH; auto. intros H1. apply Hx. now right.
Qed.

Lemma uniqueStep_nodup : forall res t, NoDup res -> NoDup (uniqueStep res t).
Proof.
  intros res t H. unfold uniqueStep. destruct (existsb _ res) eqn:E; auto.
  apply NoDup_snoc; auto. intros Hin.
  assert (existsb (fun t2 => checkEqTerm t t2) res = true); [|congruence].
  apply existsb_exists. exists t. split; auto. apply checkEqTerm_refl.
Qed.

Lemma uniqueFold_nodup : forall l res, NoDup res -> NoDup (fold_left uniqueStep l res).
Proof.
  induction l; intros; simpl; auto. apply IHl. now apply uniqueStep_nodup.
Qed.

Lemma retUniqueSubterms_in : forall t x, In x (retUniqueSubterms t) <-> occurs x t.
Proof.
  intros. unfold retUniqueSubterms. rewrite uniqueFold_in, retSubterms_iff. simpl. tauto.
Qed.

Lemma retUniqueSubterms_nodup : forall t, NoDup (retUniqueSubterms t).
Proof. intros. apply uniqueFold_nodup. constructor. Qed.

Lemma uniqueFold_prefix : forall l res, exists r, fold_left uniqueStep l res = res ++ r.
Proof.
  induction l as [|t l IH]; intros res; simpl.
  - exists []. now rewrite app_nil_r.
  - destruct (IH (uniqueStep res t)) as (r & Hr). rewrite Hr. unfold uniqueStep.
    destruct (existsb _ res); eauto. exists (t :: r). rewrite <- app_assoc. reflexivity.
Qed.

(** * Complexity *)
Definition sumC (l : list term) : Z := fold_right (fun x c => calcComplexity x + c) 0 l.

Lemma fold_sum_gen : forall (f : term -> Z) l a,
  fold_left (fun c x => c + f x) l a = a + fold_right (fun x c => f x + c) 0 l.
Proof.
  induction l; intros; simpl; [lia|]. rewrite IHl. lia.
Qed.

Lemma complexity_list : forall l, fold_left (fun c x => c + calcComplexity x) l 0 = sumC l.
Proof. intros. now rewrite fold_sum_gen. Qed.

Definition atomsL := fix suml (l : list term) : Z :=
     match l with [] => 0%Z | x :: l' => (atoms x + suml l')%Z end.
Definition connL := fix suml (l : list term) : Z :=
     match l with [] => 0%Z | x :: l' => (connectives x + suml l')%Z end.

Lemma complexity_split_list : forall l,
  Forall (fun t => calcComplexity t = atoms t + connectives t) l -> sumC l = atomsL l + connL l.
Proof. induction 1; simpl; lia. Qed.

Lemma complexity_split : forall t, calcComplexity t = atoms t + connectives t.
Proof.
  induction t using term_ind2; simpl; fold atomsL; fold connL; rewrite ?complexity_list; try lia;
    rewrite complexity_split_list by assumption; lia.
Qed.

Lemma atomsL_nonneg : forall l, Forall (fun t => 0 <= atoms t) l -> 0 <= atomsL l.
Proof. induction 1; simpl; lia. Qed.
Lemma connL_nonneg : forall l, Forall (fun t => 0 <= connectives t) l -> 0 <= connL l.
Proof. induction 1; simpl; lia. Qed.

Lemma atoms_nonneg : forall t, 0 <= atoms t.
Proof.
  induction t using term_ind2; simpl; fold atomsL; try lia;
    try (apply atomsL_nonneg; assumption).
  pose proof (atomsL_nonneg l H). lia.
Qed.
Lemma conn_nonneg : forall t, 0 <= connectives t.
Proof.
  induction t using term_ind2; simpl; fold connL; try lia;
    try (apply connL_nonneg; assumption).
  pose proof (connL_nonneg l H). lia.
Qed.
Lemma complexity_nonneg : forall t, 0 <= calcComplexity t.
Proof. intros. rewrite complexity_split. pose proof (atoms_nonneg t). pose proof (conn_nonneg t). lia. Qed.

Lemma sumC_nonneg : forall l, 0 <= sumC l.
Proof. induction l; simpl; [lia|]. pose proof (complexity_nonneg a). lia. Qed.

Lemma sumC_in : forall x l, In x l -> calcComplexity x <= sumC l.
Proof.
  induction l; simpl; [tauto|]. intros [->|H].
  - pose proof (sumC_nonneg l). lia.
  - apply IHl in H. pose proof (complexity_nonneg a). lia.
Qed.

Lemma component_complexity : forall x t, component x t -> calcComplexity x <= calcComplexity t.
Proof.
  intros x t H. destruct H; simpl; rewrite ?complexity_list;
    try (apply sumC_in; assumption);
    try (pose proof (complexity_nonneg s); pose proof (complexity_nonneg p); lia).
  - pose proof (sumC_in _ _ H). pose proof (complexity_nonneg r). lia.
  - pose proof (sumC_nonneg l). lia.
  - lia.
Qed.

Lemma occurs_complexity : forall x t, occurs x t -> calcComplexity x <= calcComplexity t.
Proof.
  intros x t H. induction H.
  - now apply component_complexity.
  - lia.
  - lia.
Qed.

Lemma wf_component : forall x t, wellFormed t -> component x t -> wellFormed x.
Proof. intros x t H Hc y Hy. apply H. eapply occurs_step; eassumption. Qed.

Lemma sumC_pos : forall l, l <> [] -> Forall (fun t => 1 <= calcComplexity t) l -> 1 <= sumC l.
Proof.
  intros [|x l] Hn HF; [congruence|]. inversion_clear HF. simpl.
  pose proof (sumC_nonneg l). lia.
Qed.

Lemma complexity_pos : forall t, wellFormed t -> 1 <= calcComplexity t.
Proof.
  assert (Hl : forall (K : list term -> term) l,
     (forall x, In x l -> component x (K l)) ->
     (K [] = K l -> emptyCompound (K l)) ->
     wellFormed (K l) ->
     Forall (fun t => wellFormed t -> 1 <= calcComplexity t) l -> l <> [] -> 1 <= sumC l).
  { intros K l Hc He Hw HF Hn. apply sumC_pos; auto. rewrite Forall_forall in *. intros x Hx.
    apply HF; auto. eapply wf_component; eauto. }
  assert (Hne : forall (K : list term -> term), emptyCompound (K []) -> forall l, wellFormed (K l) -> l <> []).
  { intros K He l Hw ->. apply (Hw (K [])); [apply occurs_refl|assumption]. }
  induction t using term_ind2; intros Hw; simpl; rewrite ?complexity_list; try lia.
  - pose proof (complexity_nonneg t1). pose proof (complexity_nonneg t2). lia.
  - apply (Hl Seq); auto; [intros; now constructor|intros E; injection E as <-; simpl; auto|apply (Hne Seq); simpl; auto].
  - apply (Hl SetInt); auto; [intros; now constructor|intros E; injection E as <-; simpl; auto|apply (Hne SetInt); simpl; auto].
  - apply (Hl SetExt); auto; [intros; now constructor|intros E; injection E as <-; simpl; auto|apply (Hne SetExt); simpl; auto].
  - apply (Hl Conj); auto; [intros; now constructor|intros E; injection E as <-; simpl; auto|apply (Hne Conj); simpl; auto].
  - apply (Hl Prod); auto; [intros; now constructor|intros E; injection E as <-; simpl; auto|apply (Hne Prod); simpl; auto].
  - assert (1 <= calcComplexity t) by (apply IHt; eapply wf_component; [exact Hw|apply comp_imgrel]).
    pose proof (sumC_nonneg l). lia.
  - apply (Hl IntInt); auto; [intros; now constructor|intros E; injection E as <-; simpl; auto|apply (Hne IntInt); simpl; auto].
  - apply (Hl ExtInt); auto; [intros; now constructor|intros E; injection E as <-; simpl; auto|apply (Hne ExtInt); simpl; auto].
  - apply (Hl Par); auto; [intros; now constructor|intros E; injection E as <-; simpl; auto|apply (Hne Par); simpl; auto].
  - pose proof (complexity_nonneg t). lia.
Qed.

(** * Operators *)
Lemma decode_encode : forall args name, args <> [] -> decodeOp (encodeOp args name) = Some (args, name).
Proof.
  intros args name H. unfold decodeOp, encodeOp. rewrite !map_clone_id.
  destruct args; [congruence|]. reflexivity.
Qed.

Lemma decode_inv : forall t args name, decodeOp t = Some (args, name) -> t = encodeOp args name /\ args <> [].
Proof.
  unfold decodeOp, encodeOp. intros t args name H.
  destruct t; try discriminate. destruct c; try discriminate. destruct t2; try discriminate.
  destruct t1; try discriminate. destruct l as [|x [|y l]]; try discriminate; destruct x; try discriminate.
  rewrite !map_clone_id in *.
  destruct l; simpl in H; try discriminate. injection H as <- <-. split; congruence.
Qed.

(** * Occurrence count *)
Lemma count_le : forall t s, 0 <= count_occurence_subterms t s.
Proof.
  assert (HL : forall s l, Forall (fun t => forall s, 0 <= count_occurence_subterms t s) l ->
     0 <= fold_left (fun n x => n + count_occurence_subterms x s) l 0).
  { intros s l H. rewrite fold_sum_gen with (f := fun x => count_occurence_subterms x s).
    rewrite Z.add_0_l. induction H as [|x l Hx Hl IH]; simpl; [lia|]. specialize (Hx s). lia. }
  induction t using term_ind2; intros s; simpl;
    match goal with |- context [if ?b then _ else _] => destruct b end; try lia; auto.
  - specialize (IHt1 s); specialize (IHt2 s). lia.
Qed.

(** * Counting occurrences *)
Lemma voccurs_inv : forall x t, voccurs x t -> x = t \/ exists c, vcomponent c t /\ voccurs x c.
Proof.
  intros x t H. apply clos_rt_rtn1 in H. destruct H as [|y z H1 H2]; [now left|].
  right. exists y. split; auto. now apply clos_rtn1_rt.
Qed.
Lemma voccurs_step : forall x c t, vcomponent c t -> voccurs x c -> voccurs x t.
Proof. intros x c t H1 H2. eapply rt_trans; [exact H2|]. now apply rt_step. Qed.

Definition csum (s : term) (l : list term) (a : Z) : Z := fold_left (fun n x => (n + count_occurence_subterms x s)%Z) l a.
Lemma csum_facts : forall s l a, Forall (fun t => (0 <= count_occurence_subterms t s)%Z) l ->
  (a <= csum s l a)%Z /\ (forall x, In x l -> a + count_occurence_subterms x s <= csum s l a)%Z /\
  ((forall x, In x l -> count_occurence_subterms x s = 0%Z) -> csum s l a = a) /\
  (forall l1 x l2 y l3, l = l1 ++ x :: l2 ++ y :: l3 -> a + count_occurence_subterms x s + count_occurence_subterms y s <= csum s l a)%Z.
Proof.
  assert (M : forall s l a, Forall (fun t => (0 <= count_occurence_subterms t s)%Z) l -> (a <= csum s l a)%Z).
  { induction l as [|z l IH]; intros a H; simpl; [lia|]. inversion H as [|? ? H1 H2]; subst. unfold csum. simpl.
    specialize (IH (a + count_occurence_subterms z s)%Z H2). unfold csum in IH. lia. }
  assert (One : forall s l a, Forall (fun t => (0 <= count_occurence_subterms t s)%Z) l ->
     forall x, In x l -> (a + count_occurence_subterms x s <= csum s l a)%Z).
  { induction l as [|z l IH]; intros a H x Hx; simpl in Hx; [contradiction|]. inversion H as [|? ? H1 H2]; subst. unfold csum. simpl.
    destruct Hx as [<-|Hx].
    - apply (M s l _ H2).
    - specialize (IH (a + count_occurence_subterms z s)%Z H2 x Hx). unfold csum in IH. lia. }
  intros s l a H. split; [auto|]. split; [auto|]. split.
  - intros H0. revert a. clear H. induction l as [|z l IH]; intros a; [reflexivity|]. unfold csum. simpl.
    rewrite (H0 z) by now left. rewrite Z.add_0_r. apply IH. intros; apply H0; now right.
  - intros l1 x l2 y l3 ->. apply Forall_app in H. destruct H as [Ha Hb]. inversion Hb as [|? ? Hx Hc]; subst.
    unfold csum. rewrite fold_left_app. simpl.
    assert (K1 := M s l1 a Ha). assert (K2 := One s (l2 ++ y :: l3) (csum s l1 a + count_occurence_subterms x s)%Z Hc y).
    unfold csum in *. specialize (K2 ltac:(apply in_or_app; right; now left)). lia.
Qed.

Definition vargs (t : term) : list term :=
  match t with
  | Stmt _ s p => [s; p]
  | Seq l | SetInt l | SetExt l | Conj l | Prod l | IntInt l | ExtInt l | Par l | Img _ _ l => l
  | Neg x => [x]
  | _ => []
  end.
Lemma vargs_iff : forall x t, vcomponent x t <-> In x (vargs t).
Proof.
  intros x t. split.
  - intros [H1 H2]. inversion H1; subst; simpl; auto. eapply H2. reflexivity.
  - intros H. split.
    + destruct t; simpl in H; try contradiction; try (constructor; auto; fail).
      * destruct H as [<-|[<-|[]]]; constructor.
      * destruct H as [<-|[]]; constructor.
    + intros r i l ->. exact H.
Qed.
Lemma count_step : forall t s, count_occurence_subterms t s = if checkEqTerm t s then 1%Z else csum s (vargs t) 0.
Proof.
  intros t s. destruct t; cbn [count_occurence_subterms vargs]; unfold csum;
    match goal with |- context [checkEqTerm ?a s] => destruct (checkEqTerm a s) end; reflexivity.
Qed.
Lemma count_nonneg : forall s t, (0 <= count_occurence_subterms t s)%Z.
Proof.
  intros s. induction t using term_ind2; rewrite count_step;
    match goal with |- context [checkEqTerm ?a s] => destruct (checkEqTerm a s) end; try lia;
    apply csum_facts; simpl; auto.
Qed.
Lemma count_nonneg_all : forall s l, Forall (fun t => (0 <= count_occurence_subterms t s)%Z) l.
Proof. intros s l. apply Forall_forall. intros; apply count_nonneg. Qed.
Lemma count_pos_iff : forall s t, (0 < count_occurence_subterms t s)%Z <-> voccurs s t.
Proof.
  intros s t. split.
  - assert (G : forall t, (forall x, In x (vargs t) -> (0 < count_occurence_subterms x s)%Z -> voccurs s x) ->
       (0 < count_occurence_subterms t s)%Z -> voccurs s t).
    { intros t0 IH H. rewrite count_step in H. destruct (checkEqTerm t0 s) eqn:E.
      - apply checkEqTerm_eq in E. subst. apply rt_refl.
      - destruct (Forall_Exists_dec (fun x => count_occurence_subterms x s = 0%Z) (fun x => Z.eq_dec _ _) (vargs t0)) as [F|F].
        + rewrite (proj1 (proj2 (proj2 (csum_facts s (vargs t0) 0 (count_nonneg_all _ _))))) in H; [lia|].
          rewrite Forall_forall in F. exact F.
        + apply Exists_exists in F. destruct F as (x & Hx & Hn). apply (voccurs_step _ x); [now apply vargs_iff|].
          apply IH; auto. assert (K := count_nonneg s x). lia. }
    induction t using term_ind2; apply G; simpl; try tauto;
      try (intros x Hx; match goal with F : Forall _ _ |- _ => rewrite Forall_forall in F; exact (F x Hx) end).
    + intros x [<-|[<-|[]]]; auto.
    + intros x [<-|[]]; auto.
  - intros H. apply clos_rt_rtn1 in H. induction H as [|y z H1 H2 IH].
    + rewrite count_step, checkEqTerm_refl. lia.
    + rewrite count_step. destruct (checkEqTerm z s); [lia|]. apply vargs_iff in H1.
      assert (K := proj1 (proj2 (csum_facts s (vargs z) 0 (count_nonneg_all _ _))) _ H1). lia.
Qed.
Lemma count_self : forall t, count_occurence_subterms t t = 1%Z.
Proof. intros t. rewrite count_step, checkEqTerm_refl. reflexivity. Qed.
(** two parts at different positions *)
Lemma count_two : forall s t l1 x l2 y l3, t <> s -> vargs t = l1 ++ x :: l2 ++ y :: l3 ->
  voccurs s x -> voccurs s y -> (2 <= count_occurence_subterms t s)%Z.
Proof.
  intros s t l1 x l2 y l3 N E Hx Hy. apply count_pos_iff in Hx, Hy. rewrite count_step.
  destruct (checkEqTerm t s) eqn:Q; [apply checkEqTerm_eq in Q; contradiction|].
  assert (K := proj2 (proj2 (proj2 (csum_facts s (vargs t) 0 (count_nonneg_all _ _)))) _ _ _ _ _ E). lia.
Qed.
