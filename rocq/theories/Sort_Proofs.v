(** Facts about the stable sort of Base.v and about sorting by f64 keys. No
    axioms are needed: comparison of binary64 numbers is a lexicographic
    comparison of (class, exponent, mantissa). *)
From Coq Require Import ZArith Bool Lia List Permutation Sorted.
From Coq Require Import Floats.SpecFloat.
From Verif Require Import Base F64_Model.
Import ListNotations.
Local Open Scope Z_scope.

(** * Order of f64 *)
Definition frank (x : f64) : Z * Z * Z :=
  match x with
  | S754_zero _ => (0, 0, 0)
  | S754_infinity true => (-2, 0, 0)
  | S754_infinity false => (2, 0, 0)
  | S754_nan => (0, 0, 0)
  | S754_finite true m e => (-1, - e, - Zpos m)
  | S754_finite false m e => (1, e, Zpos m)
  end.
Definition lexlt (a b : Z * Z * Z) : Prop :=
  match a, b with (a1, a2, a3), (b1, b2, b3) => a1 < b1 \/ (a1 = b1 /\ (a2 < b2 \/ (a2 = b2 /\ a3 < b3))) end.

Lemma fltb_rank : forall x y, fis_nan x = false -> fis_nan y = false ->
  (fltb x y = true <-> lexlt (frank x) (frank y)).
Proof.
  intros x y Hx Hy. unfold fltb, SFltb, SFcompare.
  destruct x as [sx|sx| |sx mx ex]; destruct y as [sy|sy| |sy my ey]; try discriminate;
    try (destruct sx); try (destruct sy); simpl; try (split; [discriminate|lia]); try (split; [lia|reflexivity]);
    try (split; [intros _; lia|reflexivity]).
  - destruct (Z.compare_spec ex ey); simpl.
    + subst. change (Pos.compare_cont Eq mx my) with (Pos.compare mx my). destruct (Pos.compare_spec mx my); simpl; split; try discriminate; try lia; auto.
    + split; [discriminate|lia].
    + split; [lia|auto].
  - destruct (Z.compare_spec ex ey); simpl.
    + subst. change (Pos.compare_cont Eq mx my) with (Pos.compare mx my). destruct (Pos.compare_spec mx my); simpl; split; try discriminate; try lia; auto.
    + split; [lia|auto].
    + split; [discriminate|lia].
Qed.

Lemma fleb_rank : forall x y, fis_nan x = false -> fis_nan y = false ->
  (fleb x y = true <-> ~ lexlt (frank y) (frank x)).
Proof.
  intros x y Hx Hy. unfold fleb, SFleb, SFcompare.
  destruct x as [sx|sx| |sx mx ex]; destruct y as [sy|sy| |sy my ey]; try discriminate;
    try (destruct sx); try (destruct sy); simpl; try (split; [discriminate|lia]); try (split; [lia|reflexivity]);
    try (split; [intros _; lia|reflexivity]).
  - destruct (Z.compare_spec ex ey); simpl.
    + subst. change (Pos.compare_cont Eq mx my) with (Pos.compare mx my). destruct (Pos.compare_spec mx my); simpl; split; try discriminate; try lia; auto.
    + split; [discriminate|lia].
    + split; [lia|auto].
  - destruct (Z.compare_spec ex ey); simpl.
    + subst. change (Pos.compare_cont Eq mx my) with (Pos.compare mx my). destruct (Pos.compare_spec mx my); simpl; split; try discriminate; try lia; auto.
    + split; [lia|auto].
    + split; [discriminate|lia].
Qed.

Lemma fgtb_flip : forall x y, fgtb x y = fltb y x.
Proof. reflexivity. Qed.
Lemma fgeb_flip : forall x y, fgeb x y = fleb y x.
Proof. reflexivity. Qed.

Lemma fltb_nan_l : forall x y, fltb x y = true -> fis_nan x = false /\ fis_nan y = false.
Proof. intros [] []; unfold fltb, SFltb; simpl; intros; split; try reflexivity; discriminate. Qed.
Lemma fleb_nan_l : forall x y, fleb x y = true -> fis_nan x = false /\ fis_nan y = false.
Proof. intros [] []; unfold fleb, SFleb; simpl; intros; split; try reflexivity; discriminate. Qed.

Lemma fleb_not_lt : forall x y, fis_nan x = false -> fis_nan y = false -> fleb x y = negb (fltb y x).
Proof.
  intros x y Hx Hy. destruct (fltb y x) eqn:E.
  - apply fltb_rank in E; auto. destruct (fleb x y) eqn:F; auto. apply fleb_rank in F; auto. contradiction.
  - destruct (fleb x y) eqn:F; auto. exfalso.
    assert (~ lexlt (frank y) (frank x)) by (intros K; apply fltb_rank in K; auto; congruence).
    apply fleb_rank in H; auto. congruence.
Qed.
Lemma fleb_refl : forall x, fis_nan x = false -> fleb x x = true.
Proof. intros x H. apply fleb_rank; auto. destruct (frank x) as [[a b] c]. simpl. lia. Qed.
Lemma fleb_trans : forall x y z, fleb x y = true -> fleb y z = true -> fleb x z = true.
Proof.
  intros x y z H1 H2. destruct (fleb_nan_l _ _ H1), (fleb_nan_l _ _ H2).
  apply fleb_rank in H1; auto. apply fleb_rank in H2; auto. apply fleb_rank; auto.
  destruct (frank x) as [[a1 a2] a3], (frank y) as [[b1 b2] b3], (frank z) as [[c1 c2] c3]. simpl in *. lia.
Qed.
Lemma fleb_total : forall x y, fis_nan x = false -> fis_nan y = false -> fleb x y = true \/ fleb y x = true.
Proof.
  intros x y Hx Hy. destruct (fleb x y) eqn:E; auto. right. destruct (fleb y x) eqn:F; auto. exfalso.
  assert (A : ~ ~ lexlt (frank y) (frank x)) by (intros K; apply fleb_rank in K; auto; congruence).
  assert (B : ~ ~ lexlt (frank x) (frank y)) by (intros K; apply fleb_rank in K; auto; congruence).
  destruct (frank x) as [[a1 a2] a3], (frank y) as [[b1 b2] b3]. simpl in *. lia.
Qed.
Lemma fltb_leb : forall x y, fltb x y = true -> fleb x y = true.
Proof.
  intros x y H. destruct (fltb_nan_l _ _ H). apply fltb_rank in H; auto. apply fleb_rank; auto.
  destruct (frank x) as [[a1 a2] a3], (frank y) as [[b1 b2] b3]. simpl in *. lia.
Qed.
Lemma fltb_leb_trans : forall x y z, fltb x y = true -> fleb y z = true -> fltb x z = true.
Proof.
  intros x y z H1 H2. destruct (fltb_nan_l _ _ H1), (fleb_nan_l _ _ H2).
  apply fltb_rank in H1; auto. apply fleb_rank in H2; auto. apply fltb_rank; auto.
  destruct (frank x) as [[a1 a2] a3], (frank y) as [[b1 b2] b3], (frank z) as [[c1 c2] c3]. simpl in *. lia.
Qed.
Lemma fleb_ltb_trans : forall x y z, fleb x y = true -> fltb y z = true -> fltb x z = true.
Proof.
  intros x y z H1 H2. destruct (fleb_nan_l _ _ H1), (fltb_nan_l _ _ H2).
  apply fleb_rank in H1; auto. apply fltb_rank in H2; auto. apply fltb_rank; auto.
  destruct (frank x) as [[a1 a2] a3], (frank y) as [[b1 b2] b3], (frank z) as [[c1 c2] c3]. simpl in *. lia.
Qed.
Lemma fltb_irrefl : forall x, fltb x x = false.
Proof.
  intros x. destruct (fltb x x) eqn:E; auto. destruct (fltb_nan_l _ _ E). apply fltb_rank in E; auto.
  destruct (frank x) as [[a1 a2] a3]. simpl in *. lia.
Qed.

(** * The stable sort *)
Section SortFacts.
  Context {A : Type}.
  Variable lt : A -> A -> bool.

  Lemma insert_perm : forall x l, Permutation (x :: l) (insert_by lt x l).
  Proof.
    induction l as [|y l IH]; simpl; [reflexivity|]. destruct (lt y x); [|reflexivity].
    rewrite perm_swap. now apply perm_skip.
  Qed.
  Lemma sort_perm : forall l, Permutation l (sort_by lt l).
  Proof.
    induction l as [|x l IH]; simpl; [reflexivity|]. rewrite <- insert_perm. now apply perm_skip.
  Qed.
  Lemma sort_length : forall l, length (sort_by lt l) = length l.
  Proof. intros. symmetry. apply Permutation_length, sort_perm. Qed.
  Lemma sort_in : forall l x, In x (sort_by lt l) <-> In x l.
  Proof. intros l x. split; apply Permutation_in; [symmetry|]; apply sort_perm. Qed.

  (** sortedness for a relation implied by the comparison *)
  Variable R : A -> A -> Prop.
  Hypothesis lt_R : forall a b, lt a b = true -> R a b.
  Hypothesis ge_R : forall a b, lt b a = false -> R a b.
  Hypothesis R_trans : forall a b c, R a b -> R b c -> R a c.
  Lemma insert_sorted : forall x l, StronglySorted R l -> StronglySorted R (insert_by lt x l).
  Proof.
    induction l as [|y l IH]; intros H; simpl; [constructor; constructor|].
    inversion H as [|? ? H1 H2]; subst. destruct (lt y x) eqn:E.
    - constructor; [auto|]. apply Forall_forall. intros z Hz.
      apply (Permutation_in _ (Permutation_sym (insert_perm x l))) in Hz. destruct Hz as [<-|Hz]; auto.
      rewrite Forall_forall in H2. auto.
    - constructor; [auto|]. constructor; [auto|]. rewrite Forall_forall in *. intros z Hz. eauto.
  Qed.
  Lemma sort_sorted : forall l, StronglySorted R (sort_by lt l).
  Proof. induction l; simpl; [constructor|]. now apply insert_sorted. Qed.
End SortFacts.

(** Sorting a list all of whose elements satisfy [P] only needs the order laws
    on [P]. *)
Section SortOn.
  Context {A : Type}.
  Variables (lt : A -> A -> bool) (R : A -> A -> Prop) (P : A -> Prop).
  Hypothesis lt_R : forall a b, P a -> P b -> lt a b = true -> R a b.
  Hypothesis ge_R : forall a b, P a -> P b -> lt b a = false -> R a b.
  Hypothesis R_trans : forall a b c, P a -> P b -> P c -> R a b -> R b c -> R a c.
  Lemma insert_sorted_on : forall x l, P x -> Forall P l -> StronglySorted R l -> StronglySorted R (insert_by lt x l).
  Proof.
    induction l as [|y l IH]; intros Px Pl H; simpl; [constructor; constructor|].
    inversion H as [|? ? H1 H2]; subst. inversion Pl as [|? ? Py Pl']; subst.
    rewrite Forall_forall in H2. assert (Pl2 := Pl'). rewrite Forall_forall in Pl2. destruct (lt y x) eqn:E.
    - constructor; [auto|]. apply Forall_forall. intros z Hz.
      apply (Permutation_in _ (Permutation_sym (insert_perm lt x l))) in Hz. destruct Hz as [<-|Hz]; auto.
    - constructor; [auto|]. constructor; [auto|]. apply Forall_forall. intros z Hz.
      apply R_trans with y; auto.
  Qed.
  Lemma sort_sorted_on : forall l, Forall P l -> StronglySorted R (sort_by lt l).
  Proof.
    induction 1; simpl; [constructor|]. apply insert_sorted_on; auto.
    apply Forall_forall. intros z Hz. apply sort_in in Hz. rewrite Forall_forall in H0. auto.
  Qed.
End SortOn.

(** * Descending sort by an f64 key *)
Definition keyGe {A} (key : A -> f64) (a b : A) : Prop := fleb (key b) (key a) = true.

Lemma fsort_desc_ok : forall A (key : A -> f64) l l', fsort_desc key l = Ok l' ->
  Permutation l l' /\ StronglySorted (keyGe key) l' /\
  (2 <= length l -> Forall (fun a => fis_nan (key a) = false) l)%nat.
Proof.
  intros A key l l' H. unfold fsort_desc in H.
  destruct ((2 <=? Z.of_nat (length l)) && existsb (fun a => fis_nan (key a)) l) eqn:E; [discriminate|].
  injection H as <-. split; [apply sort_perm|].
  apply andb_false_iff in E. destruct E as [E|E].
  - apply Z.leb_gt in E. destruct l as [|x [|y l]]; simpl in *; [split; [constructor|lia]| |lia].
    split; [constructor; constructor|lia].
  - assert (F : Forall (fun a => fis_nan (key a) = false) l).
    { apply Forall_forall. intros x Hx. destruct (fis_nan (key x)) eqn:N; auto.
      assert (K : existsb (fun a => fis_nan (key a)) l = true) by (apply existsb_exists; eauto). congruence. }
    split; [|intros _; exact F].
    apply sort_sorted_on with (P := fun a => fis_nan (key a) = false); auto.
    + intros a b _ _ K. apply fltb_leb. rewrite <- fgtb_flip. exact K.
    + intros a b Ha Hb K. unfold keyGe. rewrite fleb_not_lt; auto. rewrite fgtb_flip in K. now rewrite K.
    + intros a b c _ _ _ H1 H2. unfold keyGe in *. eapply fleb_trans; eauto.
Qed.

Lemma fsort_desc_panic : forall A (key : A -> f64) l, fsort_desc key l = Panic <->
  (2 <= length l)%nat /\ exists a, In a l /\ fis_nan (key a) = true.
Proof.
  intros A key l. unfold fsort_desc.
  destruct ((2 <=? Z.of_nat (length l)) && existsb (fun a => fis_nan (key a)) l) eqn:E.
  - split; [intros _|reflexivity]. apply andb_true_iff in E. destruct E as [E1 E2]. apply Z.leb_le in E1.
    apply existsb_exists in E2. split; [lia|exact E2].
  - split; [discriminate|]. intros [H1 H2]. apply existsb_exists in H2. rewrite H2, andb_true_r in E.
    apply Z.leb_gt in E. lia.
Qed.

(** The first [n] elements of a sorted list are the best ones. *)
Lemma sorted_firstn_best : forall A (R : A -> A -> Prop) l n, StronglySorted R l ->
  forall a b, In a (firstn n l) -> In b (skipn n l) -> R a b.
Proof.
  induction l as [|x l IH]; intros n H a b Ha Hb.
  - destruct n; simpl in *; contradiction.
  - destruct n as [|n]; simpl in *; [contradiction|]. inversion H as [|? ? H1 H2]; subst.
    destruct Ha as [<-|Ha]; [|eauto]. rewrite Forall_forall in H2. apply H2.
    rewrite <- (firstn_skipn n l). apply in_or_app. now right.
Qed.
Lemma sorted_firstn : forall A (R : A -> A -> Prop) l n, StronglySorted R l -> StronglySorted R (firstn n l).
Proof.
  induction l as [|x l IH]; intros [|n] H; simpl; try constructor; inversion H as [|? ? H1 H2]; subst.
  - auto.
  - rewrite Forall_forall in *. intros z Hz. apply H2. rewrite <- (firstn_skipn n l). apply in_or_app. now left.
Qed.
