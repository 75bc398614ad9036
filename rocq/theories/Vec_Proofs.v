(** The vector helpers: every element is the pointwise result, a shorter second vector panics. *)
From Coq Require Import ZArith Lia List Bool.
From Verif Require Import Base F64_Model Tv_Model Tv_Proofs Ad_Model.
Import ListNotations.
Local Open Scope nat_scope.

Section Zip.
  Context {X Y : Type} (g : X -> X -> Y).
  Definition at2 (a b : list X) (i : nat) : res Y := do x <- idx a i; do y <- idx b i; Ok (g x y).

  Lemma at2_shift : forall x y a b s k, rmapM (at2 (x :: a) (y :: b)) (seq (S s) k) = rmapM (at2 a b) (seq s k).
  Proof.
    intros x y a b s k. revert s. induction k; intros s; [reflexivity|].
    cbn [seq rmapM]. rewrite IHk. reflexivity.
  Qed.

  Lemma zip_spec : forall a b, rmapM (at2 a b) (seq 0 (length a)) =
    if length b <? length a then Panic else Ok (map (fun '(x, y) => g x y) (combine a b)).
  Proof.
    induction a as [|x a IH]; intros b; [destruct b; reflexivity|].
    destruct b as [|y b]; [reflexivity|].
    cbn [length seq rmapM]. rewrite at2_shift, IH. unfold at2 at 1. cbn [idx nth_error unwrap rbind].
    change (S (length b) <? S (length a)) with (length b <? length a).
    destruct (length b <? length a); reflexivity.
  Qed.

  Definition at2f (h : Y -> X -> X -> Y) (a b : list X) (acc : Y) (i : nat) : res Y :=
    do x <- idx a i; do y <- idx b i; Ok (h acc x y).

  Lemma at2f_shift : forall h x y a b k s acc,
    rfold (at2f h (x :: a) (y :: b)) (seq (S s) k) acc = rfold (at2f h a b) (seq s k) acc.
  Proof.
    induction k; intros s acc; [reflexivity|]. cbn [seq rfold]. unfold at2f at 1 3. cbn [idx nth_error].
    unfold idx. cbn [nth_error]. destruct (nth_error a s); [|reflexivity]. destruct (nth_error b s); [|reflexivity].
    cbn [unwrap rbind]. apply IHk.
  Qed.

  Lemma zipf_spec : forall h a b acc, rfold (at2f h a b) (seq 0 (length a)) acc =
    if length b <? length a then Panic else Ok (fold_left (fun acc '(x, y) => h acc x y) (combine a b) acc).
  Proof.
    intros h. induction a as [|x a IH]; intros b acc; [destruct b; reflexivity|].
    destruct b as [|y b]; [reflexivity|].
    cbn [length seq rfold]. unfold at2f at 1. cbn [idx nth_error unwrap rbind].
    rewrite at2f_shift, IH. reflexivity.
  Qed.
End Zip.

Lemma vecAddScale_spec : forall a b w, vecAddScale a b w =
  if length b <? length a then Panic else Ok (map (fun '(x, y) => fadd x (fmul y w)) (combine a b)).
Proof. intros. exact (zip_spec (fun x y => fadd x (fmul y w)) a b). Qed.

Lemma vecAdd_spec : forall a b, vecAdd a b =
  if length b <? length a then Panic else Ok (map (fun '(x, y) => fadd x y) (combine a b)).
Proof. intros. exact (zip_spec fadd a b). Qed.

Lemma vecDot_spec : forall a b, vecDot a b =
  if length b <? length a then Panic else Ok (fold_left (fun acc '(x, y) => fadd acc (fmul x y)) (combine a b) f0).
Proof. intros. exact (zipf_spec (fun acc x y => fadd acc (fmul x y)) a b f0). Qed.

Lemma vecScale_spec : forall a w, vecScale a w = Ok (map (fun x => fmul x w) a).
Proof.
  intros a w. unfold vecScale.
  assert (G : forall k (l r : list f64), length r = k ->
     rmapM (fun i => do x <- idx (l ++ r) i; Ok (fmul x w)) (seq (length l) k) = Ok (map (fun x => fmul x w) r)).
  { induction k; intros l [|x r] H; try discriminate; [reflexivity|].
    cbn [seq rmapM]. unfold idx at 1. rewrite nth_error_app2, Nat.sub_diag by lia. cbn [nth_error unwrap rbind].
    specialize (IHk (l ++ [x]) r ltac:(simpl in H; congruence)).
    rewrite app_length, <- app_assoc in IHk. simpl in IHk. rewrite Nat.add_1_r in IHk. rewrite IHk. reflexivity. }
  exact (G (length a) [] a eq_refl).
Qed.

Lemma combine_swap : forall (X : Type) (a b : list X), combine b a = map (fun '(x, y) => (y, x)) (combine a b).
Proof. induction a; destruct b; simpl; intros; try reflexivity. f_equal. apply IHa. Qed.

Lemma vecAdd_comm : forall a b, length a = length b -> vecAdd a b = vecAdd b a.
Proof.
  intros a b H. rewrite !vecAdd_spec, H, Nat.ltb_irrefl, (combine_swap _ a b), map_map.
  f_equal. apply map_ext. intros [x y]. apply fadd_comm.
Qed.

Lemma vecDot_comm : forall a b, length a = length b -> vecDot a b = vecDot b a.
Proof.
  intros a b H. rewrite !vecDot_spec, H, Nat.ltb_irrefl, (combine_swap _ a b).
  f_equal. generalize f0. induction (combine a b) as [|[x y] l IH]; intros acc; [reflexivity|].
  cbn [fold_left map]. rewrite fmul_comm. apply IH.
Qed.

Lemma vecAddScale_two : forall a b w s, vecScale b w = Ok s -> vecAddScale a b w = vecAdd a s.
Proof.
  intros a b w s H. rewrite vecScale_spec in H. injection H as <-.
  rewrite vecAddScale_spec, vecAdd_spec, map_length. destruct (length b <? length a); [reflexivity|].
  f_equal. revert b. induction a as [|x a IH]; intros [|y b]; try reflexivity. cbn. f_equal. apply IH.
Qed.
