(** Learning of the language network. *)
From Coq Require Import ZArith Reals Lra Lia List Bool.
From Verif Require Import Base F64_Model Tv_Model Parser_Model Nar_Model Ad_Model Goal_Proofs Vision_Proofs Nlp_Model Nlp_Spec Nlp_Proofs Nlp2_Proofs.
Import ListNotations.
Local Open Scope nat_scope.

Definition same (l j : nat) (k : option nat) (l' j' : nat) (k' : option nat) : bool :=
  Nat.eqb l' l && Nat.eqb j' j && match k', k with Some a, Some b => Nat.eqb a b | None, None => true | _, _ => false end.
Section Update.
  Context {F : Type}.
  Lemma nth_repl : forall X (l : list X) i j v, nth_error (replace_at i v l) j = if Nat.eqb j i then match nth_error l j with Some _ => Some v | None => None end else nth_error l j.
  Proof.
    induction l as [|x l IH]; intros [|i] [|j] v; cbn; auto. now destruct (Nat.eqb j i).
  Qed.
  Lemma upd_ok : forall l j k (f : F * F -> F * F) (nn : nlpnet F) p, number nn l j k = Some p ->
    exists nn', updNet l j k f nn = Ok nn' /\ (forall l' j' k', number nn' l' j' k' = if same l j k l' j' k' then Some (f p) else number nn l' j' k') /\
      (forall n0 n1, shaped n0 n1 nn -> shaped n0 n1 nn').
  Proof.
    intros l j k f nn p H. unfold number in H. destruct (nth_error nn l) as [layer|] eqn:L; [|discriminate]. destruct (nth_error layer j) as [n|] eqn:N; [|discriminate].
    assert (U : exists n', updWeight k f n = Ok n' /\ length (w_weights n') = length (w_weights n) /\
      forall k', match k' with Some k' => nth_error (w_weights n') k' | None => Some (w_bias n') end =
        if match k', k with Some a, Some b => Nat.eqb a b | None, None => true | _, _ => false end then Some (f p) else match k' with Some k' => nth_error (w_weights n) k' | None => Some (w_bias n) end).
    { destruct k as [k|]; cbn [updWeight].
      - unfold idx. rewrite H. cbn [unwrap rbind]. eexists. split; [reflexivity|]. cbn [w_weights w_bias]. split; [apply replace_at_length|]. intros [k'|]; auto. rewrite nth_repl. destruct (Nat.eqb_spec k' k); auto. subst. now rewrite H.
      - injection H as <-. eexists. split; [reflexivity|]. cbn [w_weights w_bias]. split; auto. intros [k'|]; auto. }
    destruct U as (n' & U & Lw & Nw). exists (replace_at l (replace_at j n' layer) nn). split; [|split].
    - unfold updNet, idx. rewrite L. cbn [unwrap rbind]. rewrite N. cbn [unwrap rbind]. rewrite U. reflexivity.
    - intros l' j' k'. unfold number, same. rewrite nth_repl. destruct (Nat.eqb_spec l' l) as [->|]; cbn [andb]; auto. rewrite L, nth_repl. destruct (Nat.eqb_spec j' j) as [->|]; cbn [andb]; auto. rewrite N. apply Nw.
    - intros n0 n1 (l0 & l1 & -> & E0 & E1 & W0 & W1). assert (Rep : forall m y, (forall x, In x y -> length (w_weights x) = m) -> nth_error y j = Some n -> forall x, In x (replace_at j n' y) -> length (w_weights x) = m).
      { intros m y Hy Yj x Hx. apply In_nth_error in Hx. destruct Hx as (i & Hx). rewrite nth_repl in Hx. destruct (Nat.eqb i j); [|apply Hy; eapply nth_error_In, Hx]. destruct (nth_error y i); [|discriminate]. injection Hx as <-. rewrite Lw. apply Hy. eapply nth_error_In, Yj. }
      destruct l as [|[|l]]; cbn in L.
      + injection L as <-. exists (replace_at j n' l0), l1. split; [reflexivity|]. split; [now rewrite replace_at_length|]. split; auto. split; auto. now apply Rep.
      + injection L as <-. exists l0, (replace_at j n' l1). split; [reflexivity|]. split; auto. split; [now rewrite replace_at_length|]. split; auto. now apply Rep.
      + destruct l; discriminate.
  Qed.
  Lemma upd_panic : forall l j k (f : F * F -> F * F) (nn : nlpnet F), updNet l j k f nn = Panic <-> number nn l j k = None.
  Proof.
    intros l j k f nn. split.
    - intros H. destruct (number nn l j k) as [p|] eqn:E; auto. destruct (upd_ok l j k f nn p E) as (nn' & U & _). congruence.
    - unfold number, updNet, idx. destruct (nth_error nn l) as [y|]; [|reflexivity]. cbn [unwrap rbind]. destruct (nth_error y j) as [n|]; [|reflexivity]. cbn [unwrap rbind]. destruct k as [k|]; [|discriminate].
      cbn [updWeight]. unfold idx. intros ->. reflexivity.
  Qed.
  Lemma same_refl : forall l j k, same l j k l j k = true.
  Proof. intros l j k. unfold same. rewrite !Nat.eqb_refl. destruct k; [now rewrite Nat.eqb_refl|reflexivity]. Qed.
  Lemma same_eq : forall l j k l' j' k', same l j k l' j' k' = true -> l' = l /\ j' = j /\ k' = k.
  Proof.
    intros l j k l' j' k' H. unfold same in H. rewrite !andb_true_iff in H. destruct H as ((A & B) & C). apply Nat.eqb_eq in A, B. split; auto. split; auto. destruct k', k; try discriminate; auto. apply Nat.eqb_eq in C. congruence.
  Qed.
  Lemma shaped_number : forall n0 n1 (nn : nlpnet F) l j k, shaped n0 n1 nn ->
    (number nn l j k <> None <-> (l = 0 /\ j < n0 /\ match k with Some k => k < 12 * 34 | None => True end) \/ (l = 1 /\ j < n1 /\ match k with Some k => k < n0 | None => True end)).
  Proof.
    intros n0 n1 nn l j k (l0 & l1 & -> & E0 & E1 & W0 & W1). unfold number. destruct l as [|[|l]]; cbn [nth_error].
    - destruct (nth_error l0 j) as [n|] eqn:N.
      + assert (j < n0) by (rewrite <- E0; apply nth_error_Some; congruence). pose proof (W0 n (nth_error_In _ _ N)) as W. destruct k as [k|].
        * rewrite nth_error_Some, W. intuition lia.
        * split; [intros _; left; auto|discriminate].
      + apply nth_error_None in N. split; [contradiction|]. intros [(_ & L & _)|(L & _)]; lia.
    - destruct (nth_error l1 j) as [n|] eqn:N.
      + assert (j < n1) by (rewrite <- E1; apply nth_error_Some; congruence). pose proof (W1 n (nth_error_In _ _ N)) as W. destruct k as [k|].
        * rewrite nth_error_Some, W. intuition lia.
        * split; [intros _; right; auto|discriminate].
      + apply nth_error_None in N. split; [contradiction|]. intros [(L & _)|(_ & L & _)]; lia.
    - destruct l; cbn; split; try contradiction; intros [(L & _)|(L & _)]; lia.
  Qed.
End Update.

(** ** forward, any arithmetic *)
Section Forward.
  Context {F : Type} (A : arith F).
  Notation "x + y" := (Aadd A x y).
  Notation "x * y" := (Amul A x y).
  Definition at_ (l : list (F * F)) (i : nat) : F * F := match nth_error l i with Some p => p | None => (A0 A, A0 A) end.
  Lemma sum_ext : forall f g n, (forall i, i < n -> f i = g i) -> sumOver A f n = sumOver A g n.
  Proof. intros f g. induction n as [|n IH]; intros H; [reflexivity|]. cbn [sumOver]. rewrite IH, H by auto. reflexivity. Qed.
  Lemma dot_sum : forall a b, length a = length b ->
    p_dot A a b = Ok (sumOver A (fun i => fst (at_ a i) * fst (at_ b i)) (length b), sumOver A (fun i => snd (at_ a i) * fst (at_ b i) + fst (at_ a i) * snd (at_ b i)) (length b)).
  Proof.
    intros a b E. unfold p_dot. rewrite E, Nat.eqb_refl. assert (G : forall m, (m <= length b)%nat -> rfold (fun acc i => do x <- idx a i; do y <- idx b i; Ok (p_add A acc (p_mul A x y))) (seq 0 m) (A0 A, A0 A) =
      Ok (sumOver A (fun i => fst (at_ a i) * fst (at_ b i)) m, sumOver A (fun i => snd (at_ a i) * fst (at_ b i) + fst (at_ a i) * snd (at_ b i)) m)); [|now apply G].
    induction m as [|m IH]; intros L; [reflexivity|]. rewrite seq_S, rfold_app, IH by lia. cbn [rbind rfold sumOver Nat.add]. unfold at_, idx.
    destruct (nth_error a m) as [x|] eqn:Ea; [|apply nth_error_None in Ea; lia]. destruct (nth_error b m) as [y|] eqn:Eb; [|apply nth_error_None in Eb; lia]. reflexivity.
  Qed.
  Lemma fire_sum : forall v n, length v = length (w_weights n) ->
    fire A v n = Ok (sumOver A (fun i => fst (at_ v i) * fst (at_ (w_weights n) i)) (length v) + fst (w_bias n),
                     sumOver A (fun i => snd (at_ v i) * fst (at_ (w_weights n) i) + fst (at_ v i) * snd (at_ (w_weights n) i)) (length v) + snd (w_bias n)).
  Proof. intros v n E. unfold fire. rewrite dot_sum by assumption. rewrite <- E. reflexivity. Qed.
  Definition dval (o : option (F * F)) : F := match o with Some p => snd p | None => A0 A end.
  Definition dinner (nn : nlpnet F) (v : nat -> F) (j : nat) : F :=
    sumOver A (fun i => A0 A * val (A0 A) (number nn 0 j (Some i)) + v i * dval (number nn 0 j (Some i))) 408 + dval (number nn 0 j None).
  Definition doutput (nn : nlpnet F) (n0 : nat) (v : nat -> F) (o : nat) : F :=
    sumOver A (fun j => dinner nn v j * val (A0 A) (number nn 1 o (Some j)) + inner A nn v j * dval (number nn 1 o (Some j))) n0 + dval (number nn 1 o None).
  Lemma input_at : forall s v i, isInput (A0 A) (A1 A) s v -> i < 408 -> at_ v i = (inputVal A s i, A0 A).
  Proof.
    intros s v i (_ & L & H) Hi. unfold at_, inputVal. pose proof (Nat.div_mod_eq i 34) as D. pose proof (Nat.mod_upper_bound i 34 ltac:(lia)) as M.
    assert (K : i / 34 < 12) by (apply Nat.div_lt_upper_bound; lia). specialize (H _ _ K M). rewrite <- D in H. rewrite H. reflexivity.
  Qed.
  Theorem forward_output : forall n0 n1 nn s v, shaped n0 n1 nn -> isInput (A0 A) (A1 A) s v ->
    exists out, forward A nn v = Ok out /\ length out = n1 /\
      forall o, o < n1 -> nth_error out o = Some (output A nn n0 (inputVal A s) o, doutput nn n0 (inputVal A s) o).
  Proof.
    intros n0 n1 nn s v S I. destruct (forward_shaped A n0 n1 nn v S) as (out & Fw & Lo); [apply I|]. exists out. split; auto. split; auto. intros o Ho.
    pose proof S as (l0 & l1 & E & E0 & E1 & W0 & W1). unfold forward in Fw. rewrite E in Fw. cbn [idx nth_error unwrap rbind] in Fw.
    destruct (rmapM (fire A v) l0) as [out0|] eqn:R0; [|discriminate]. cbn [rbind] in Fw. pose proof (rmapM_len _ _ _ _ _ R0) as Lo0. apply rmapM_spec in R0. apply rmapM_spec in Fw.
    assert (Nth : forall X Y (f : X -> res Y) a b i x, Forall2 (fun x y => f x = Ok y) a b -> nth_error a i = Some x -> exists y, nth_error b i = Some y /\ f x = Ok y).
    { intros X Y f a b i x Hf. revert i. induction Hf as [|p q a b Hpq Hf IH]; intros [|i] Hx; try discriminate; cbn in *; [injection Hx as <-; eauto|auto]. }
    assert (Lv : length v = 408) by apply I.
    assert (In0 : forall j, j < n0 -> at_ out0 j = (inner A nn (inputVal A s) j, dinner nn (inputVal A s) j)).
    { intros j Hj. destruct (nth_error l0 j) as [n|] eqn:N; [|apply nth_error_None in N; lia]. destruct (Nth _ _ _ _ _ _ _ R0 N) as (y & Hy & Fy). unfold at_. rewrite Hy.
      assert (Wn : length v = length (w_weights n)) by (rewrite (W0 n) by (eapply nth_error_In; eauto); exact Lv). rewrite fire_sum in Fy by assumption. injection Fy as <-. rewrite Lv.
      assert (Nu : forall k, number nn 0 j k = match k with Some k => nth_error (w_weights n) k | None => Some (w_bias n) end) by (intros k; unfold number; rewrite E; cbn [nth_error]; now rewrite N).
      unfold inner, dinner. rewrite !Nu. cbn [val dval]. f_equal; f_equal; apply sum_ext; intros i Hi; rewrite Nu, (input_at s v) by assumption; cbn [fst snd]; unfold at_; destruct (nth_error (w_weights n) i); reflexivity. }
    destruct (nth_error l1 o) as [n|] eqn:N; [|apply nth_error_None in N; lia]. destruct (Nth _ _ _ _ _ _ _ Fw N) as (y & Hy & Fy). rewrite Hy. f_equal.
    assert (Wn : length out0 = length (w_weights n)) by (rewrite (W1 n) by (eapply nth_error_In; eauto); lia). rewrite fire_sum in Fy by assumption. injection Fy as <-. rewrite Lo0, E0.
    assert (Nu : forall k, number nn 1 o k = match k with Some k => nth_error (w_weights n) k | None => Some (w_bias n) end) by (intros k; unfold number; rewrite E; cbn [nth_error]; now rewrite N).
    unfold output, doutput. rewrite !Nu. cbn [val dval]. f_equal; f_equal; apply sum_ext; intros i Hi; rewrite Nu, In0 by assumption; cbn [fst snd]; unfold at_; destruct (nth_error (w_weights n) i); reflexivity.
  Qed.
  Lemma output_ext : forall nn nn' n0 v o, (forall l j k, val (A0 A) (number nn l j k) = val (A0 A) (number nn' l j k)) -> output A nn n0 v o = output A nn' n0 v o.
  Proof.
    intros nn nn' n0 v o H. unfold output. rewrite H. f_equal. apply sum_ext. intros j _. rewrite H. f_equal. unfold inner. rewrite H. f_equal. apply sum_ext. intros i _. now rewrite H.
  Qed.
  Lemma target_ok : forall n0 n1 lo hi (nn : nlpnet F) out, shaped n0 n1 nn -> out < n1 ->
    exists t, targetOut lo hi nn out = Ok t /\ forall o, o < n1 -> nth_error t o = Some (if Nat.eqb o out then hi else lo).
  Proof.
    intros n0 n1 lo hi nn out (l0 & l1 & -> & E0 & E1 & _) L. unfold targetOut. cbn [idx nth_error unwrap rbind]. rewrite E1. destruct (Nat.ltb_spec out n1); [|lia]. eexists. split; [reflexivity|].
    intros o Ho. rewrite nth_repl. assert (R : nth_error (repeat lo n1) o = Some lo). { rewrite (nth_error_nth' _ lo) by now rewrite repeat_length. now rewrite nth_repeat. } rewrite R. now destruct (Nat.eqb o out).
  Qed.
  (** one step, any arithmetic *)
  Theorem step_ok : forall n0 n1 lo hi lr nn l j k p s out o, shaped n0 n1 nn -> number nn l j k = Some p -> fits s -> out < n1 -> o < n1 ->
    exists nn1 nn', trainStep A lo hi lr nn l j k s out o = Ok nn' /\ shaped n0 n1 nn' /\
      (unmarked (A0 A) nn -> unmarked (A0 A) nn') /\
      (forall l' j' k', number nn1 l' j' k' = if same l j k l' j' k' then Some (fst p, A1 A) else number nn l' j' k') /\
      (forall l' j' k', number nn' l' j' k' = if same l j k l' j' k'
         then Some (Asub A (fst p) (Amul A (Amul A lr (Asub A (output A nn n0 (inputVal A s) o) (if Nat.eqb o out then hi else lo))) (doutput nn1 n0 (inputVal A s) o)), A0 A)
         else number nn l' j' k').
  Proof.
    intros n0 n1 lo hi lr nn l j k p s out o S P Ft Lout Lo. unfold trainStep.
    destruct (upd_ok l j k (fun p => (fst p, A1 A)) nn p P) as (nn1 & U1 & N1 & S1). rewrite U1. cbn [rbind]. specialize (S1 _ _ S).
    destruct (conv_seq_to_nninput A s) as [b|] eqn:C; [|apply conv_panic in C; contradiction]. cbn [rbind]. apply conv_iff in C.
    destruct (target_ok n0 n1 lo hi nn1 out S1 Lout) as (t & T & Nt). rewrite T. cbn [rbind]. destruct (forward_output n0 n1 nn1 s b S1 C) as (res & Fw & _ & No). rewrite Fw. cbn [rbind].
    unfold idx. rewrite No by assumption. cbn [unwrap rbind]. rewrite Nt by assumption. cbn [unwrap rbind fst snd].
    assert (P1 : number nn1 l j k = Some (fst p, A1 A)) by (rewrite N1, same_refl; reflexivity).
    assert (Eo : output A nn1 n0 (inputVal A s) o = output A nn n0 (inputVal A s) o).
    { apply output_ext. intros l' j' k'. rewrite N1. destruct (same l j k l' j' k') eqn:Sm; auto. apply same_eq in Sm. destruct Sm as (-> & -> & ->). rewrite P. reflexivity. }
    rewrite Eo. set (d2 := Amul A (Amul A lr _) _).
    destruct (upd_ok l j k (fun p => (Asub A (fst p) d2, snd p)) nn1 _ P1) as (nn2 & U2 & N2 & S2). rewrite U2. cbn [rbind]. specialize (S2 _ _ S1). cbn [fst snd] in N2.
    assert (P2 : number nn2 l j k = Some (Asub A (fst p) d2, A1 A)) by (rewrite N2, same_refl; reflexivity).
    destruct (upd_ok l j k (fun p => (fst p, A0 A)) nn2 _ P2) as (nn3 & U3 & N3 & S3). exists nn1, nn3. split; [exact U3|]. split; [exact (S3 _ _ S2)|].
    assert (G : forall l' j' k', number nn3 l' j' k' = if same l j k l' j' k' then Some (Asub A (fst p) d2, A0 A) else number nn l' j' k').
    { intros l' j' k'. rewrite N3. cbn [fst]. destruct (same l j k l' j' k') eqn:Sm; [reflexivity|]. rewrite N2, Sm, N1, Sm. reflexivity. }
    split; [|split; [exact N1|exact G]]. intros U l' j' k' q Hq. rewrite G in Hq. destruct (same l j k l' j' k'); [injection Hq as <-; reflexivity|]. eapply U, Hq.
  Qed.
  Theorem step_panic : forall n0 n1 lo hi lr nn l j k s out o, shaped n0 n1 nn ->
    (trainStep A lo hi lr nn l j k s out o = Panic <-> number nn l j k = None \/ ~ fits s \/ n1 <= out \/ n1 <= o).
  Proof.
    intros n0 n1 lo hi lr nn l j k s out o S. split.
    - intros H. destruct (number nn l j k) as [p|] eqn:P; [|now left]. right. destruct (conv_seq_to_nninput A s) as [b|] eqn:C; [|left; now apply conv_panic in C]. right.
      assert (Ft : fits s) by (apply conv_iff in C; apply C). destruct (le_lt_dec n1 out); [now left|]. destruct (le_lt_dec n1 o); [now right|]. exfalso.
      destruct (step_ok n0 n1 lo hi lr nn l j k p s out o) as (nn1 & nn' & E & _); auto. congruence.
    - intros H. unfold trainStep. destruct (number nn l j k) as [p|] eqn:P; [|apply upd_panic with (f := fun p => (fst p, A1 A)) in P; now rewrite P].
      destruct (upd_ok l j k (fun p => (fst p, A1 A)) nn p P) as (nn1 & U1 & N1 & S1). rewrite U1. cbn [rbind]. specialize (S1 _ _ S).
      destruct (conv_seq_to_nninput A s) as [b|] eqn:C; [|reflexivity]. cbn [rbind]. apply conv_iff in C. destruct H as [H|[H|H]]; [discriminate|exfalso; apply H, C|].
      destruct (le_lt_dec n1 out) as [Lout|Lout].
      + assert (T : targetOut lo hi nn1 out = Panic). { destruct S1 as (l0 & l1 & -> & _ & E1 & _). unfold targetOut. cbn [idx nth_error unwrap rbind]. destruct (Nat.ltb_spec out (length l1)); [lia|reflexivity]. } rewrite T. reflexivity.
      + destruct H as [H|H]; [lia|]. destruct (target_ok n0 n1 lo hi nn1 out S1 Lout) as (t & T & Nt). rewrite T. cbn [rbind]. destruct (forward_output n0 n1 nn1 s b S1 C) as (res & Fw & Lr & No). rewrite Fw. cbn [rbind].
        unfold idx. rewrite (proj2 (nth_error_None res o)) by lia. reflexivity.
  Qed.
End Forward.

(** ** over the real numbers *)
Local Open Scope R_scope.
Lemma sum_affine : forall f g h e n, (forall i, (i < n)%nat -> h i = f i + e * g i) -> sumOver R_arith h n = sumOver R_arith f n + e * sumOver R_arith g n.
Proof. intros f g h e. induction n as [|n IH]; intros H; cbn; [lra|]. cbn in IH. rewrite IH by auto. rewrite H by auto. lra. Qed.
(** the marks [m] of [nn1] tell where [nny] differs *)
Lemma output_affine : forall nn nn1 nny n0 v o e,
  (forall l j k, val 0 (number nn1 l j k) = val 0 (number nn l j k)) ->
  (forall l j k, val 0 (number nny l j k) = val 0 (number nn l j k) + e * dval R_arith (number nn1 l j k)) ->
  ((forall j k, dval R_arith (number nn1 0 j k) = 0) \/ (forall j k, dval R_arith (number nn1 1 j k) = 0)) ->
  output R_arith nny n0 v o = output R_arith nn n0 v o + e * doutput R_arith nn1 n0 v o.
Proof.
  intros nn nn1 nny n0 v o e V1 V D.
  assert (I1 : forall j, inner R_arith nn1 v j = inner R_arith nn v j).
  { intros j. unfold inner. cbn [A0 R_arith] in *. rewrite V1. f_equal. apply sum_ext. intros i _. cbn [A0 R_arith]. now rewrite V1. }
  assert (I : forall j, inner R_arith nny v j = inner R_arith nn v j + e * dinner R_arith nn1 v j).
  { intros j. unfold inner, dinner. cbn [Aadd Amul A0 R_arith]. rewrite V. rewrite (sum_affine (fun i => v i * val 0 (number nn 0 j (Some i))) (fun i => 0 * val 0 (number nn1 0 j (Some i)) + v i * dval R_arith (number nn1 0 j (Some i)))
      (fun i => v i * val 0 (number nny 0 j (Some i))) e) by (intros i _; rewrite V; ring). ring. }
  assert (Z : forall j, dinner R_arith nn1 v j * dval R_arith (number nn1 1 o (Some j)) = 0).
  { intros j. destruct D as [D|D]; [|rewrite D; ring]. assert (dinner R_arith nn1 v j = 0); [|rewrite H; ring]. unfold dinner. cbn [Aadd Amul A0 R_arith]. rewrite D.
    assert (Q : forall n, sumOver R_arith (fun i => 0 * val 0 (number nn1 0 j (Some i)) + v i * dval R_arith (number nn1 0 j (Some i))) n = 0).
    { induction n as [|n IH]; [reflexivity|]. cbn [sumOver Aadd R_arith]. rewrite IH, D. ring. } rewrite Q. ring. }
  unfold output, doutput. cbn [Aadd Amul A0 R_arith]. rewrite V.
  rewrite (sum_affine (fun j => inner R_arith nn v j * val 0 (number nn 1 o (Some j))) (fun j => dinner R_arith nn1 v j * val 0 (number nn1 1 o (Some j)) + inner R_arith nn1 v j * dval R_arith (number nn1 1 o (Some j)))
    (fun j => inner R_arith nny v j * val 0 (number nny 1 o (Some j))) e); [ring|].
  intros j _. rewrite I, V, I1, V1. specialize (Z j). set (a := dinner R_arith nn1 v j) in *. set (b := dval R_arith (number nn1 1 o (Some j))) in *.
  transitivity (inner R_arith nn v j * val 0 (number nn 1 o (Some j)) + e * (a * val 0 (number nn 1 o (Some j)) + inner R_arith nn v j * b) + e * e * (a * b)); [ring|]. rewrite Z. ring.
Qed.
Theorem step_gradient : forall n0 n1 lo hi lr nn l j k x s out o, shaped n0 n1 nn -> unmarked 0 nn -> number nn l j k = Some (x, 0) -> fits s -> (out < n1)%nat -> (o < n1)%nat ->
  exists nn' g, trainStep R_arith lo hi lr nn l j k s out o = Ok nn' /\ shaped n0 n1 nn' /\ unmarked 0 nn' /\
    (forall y nny, differsAt l j k y nn nny -> output R_arith nny n0 (inputVal R_arith s) o = output R_arith nn n0 (inputVal R_arith s) o + (y - x) * g) /\
    differsAt l j k (x - lr * (output R_arith nn n0 (inputVal R_arith s) o - (if Nat.eqb o out then hi else lo)) * g) nn nn'.
Proof.
  intros n0 n1 lo hi lr nn l j k x s out o S U P Ft Lout Lo. destruct (step_ok R_arith n0 n1 lo hi lr nn l j k (x, 0) s out o S P Ft Lout Lo) as (nn1 & nn' & E & S' & U' & N1 & N').
  exists nn', (doutput R_arith nn1 n0 (inputVal R_arith s) o). cbn [fst A0 A1 Asub Amul R_arith] in *. split; [exact E|]. split; [exact S'|]. split; [now apply U'|]. split.
  - intros y nny Dy. apply output_affine.
    + intros l' j' k'. rewrite N1. destruct (same l j k l' j' k') eqn:Sm; auto. apply same_eq in Sm. destruct Sm as (-> & -> & ->). rewrite P. reflexivity.
    + intros l' j' k'. rewrite N1, Dy. fold (same l j k l' j' k'). destruct (same l j k l' j' k') eqn:Sm.
      * apply same_eq in Sm. destruct Sm as (-> & -> & ->). rewrite P. cbn. lra.
      * destruct (number nn l' j' k') as [p|] eqn:Q; cbn; [rewrite (U _ _ _ _ Q)|]; lra.
    + destruct l as [|l].
      * right. intros j' k'. rewrite N1. assert (Sm : same 0 j k 1 j' k' = false) by reflexivity. rewrite Sm. destruct (number nn 1 j' k') as [p|] eqn:Q; cbn; [eapply U, Q|reflexivity].
      * left. intros j' k'. rewrite N1. assert (Sm : same (Datatypes.S l) j k 0 j' k' = false) by reflexivity. rewrite Sm. destruct (number nn 0 j' k') as [p|] eqn:Q; cbn; [eapply U, Q|reflexivity].
  - intros l' j' k'. fold (same l j k l' j' k'). rewrite N', P. cbn [snd]. reflexivity.
Qed.

(** ** the whole training *)
Local Close Scope R_scope. Local Open Scope nat_scope.
Lemma samples_fit : forall ts, trainingSamples = Ok ts -> ts <> [] /\ forall s o, In (s, o) ts -> fits s /\ o < 15.
Proof.
  intros ts E. assert (T : forallb (fun so => Nat.leb (length (fst so)) 12 && forallb (fun c => Nat.ltb c 34) (fst so) && Nat.ltb (snd so) 15) ts = true /\ length ts <> 0).
  { revert E. vm_compute. intros E. injection E as <-. split; [reflexivity|discriminate]. }
  destruct T as (T & L). split; [intros ->; now apply L|]. intros s o H. rewrite forallb_forall in T. specialize (T _ H). cbn [fst snd] in T. rewrite !andb_true_iff in T. destruct T as ((T1 & T2) & T3).
  apply Nat.leb_le in T1. apply Nat.ltb_lt in T3. rewrite forallb_forall in T2. split; auto. split; auto. intros c Hc. apply Nat.ltb_lt. auto.
Qed.
Definition bounded (sn : Z -> Z) : Prop := forall v, (Z.abs (sn v) <= 8461256485)%Z.
Lemma genint_ok : forall sn v m, bounded sn -> (0 <= v)%Z -> 0 < m -> exists r, rng_genint sn v m = Ok r /\ r < m.
Proof.
  intros sn v m B V M. unfold rng_genint. destruct (Nat.eqb_spec m 0); [lia|]. specialize (B v).
  pose proof (Z.rem_bound_pos (1383462957253 + v * 1337 + sn v) (Z.of_nat m) ltac:(lia) ltac:(lia)) as R. destruct (Z.ltb_spec (Z.rem (1383462957253 + v * 1337 + sn v) (Z.of_nat m)) 0); [lia|]. eexists. split; [reflexivity|]. lia.
Qed.
Lemma epoch_ok : forall sn fr ts n i nn v lr, bounded sn -> trainingSamples = Ok ts -> shaped 9 15 nn -> unmarked f0 nn -> (0 <= v)%Z ->
  exists nn' lr', epoch sn fr ts n i (nn, v, lr) = Ok (nn', v + 5, lr')%Z /\ shaped 9 15 nn' /\ unmarked f0 nn'.
Proof.
  intros sn fr ts n i nn v lr B T S U V. unfold epoch. set (lr' := if Nat.eqb i _ then _ else _). clearbody lr'. destruct (samples_fit ts T) as (Ne & Ft). pose proof S as (l0 & l1 & E & E0 & E1 & W0 & W1).
  assert (Nn1 : nth_error nn 1 = Some l1) by now rewrite E.
  assert (Main : forall l layer, nth_error nn l = Some layer -> layer <> [] ->
    exists nn', (do layer <- idx nn l; do j <- rng_genint sn (v + 1) (length layer); do neuron <- idx layer j; do r <- rng_genint sn (v + 2) (length (w_weights neuron) + 1);
      let k := if Nat.ltb r (length (w_weights neuron)) then Some (length (w_weights neuron) - 1 - r) else None in
      do c <- rng_genint sn (v + 3) (length ts); do '(s, out) <- idx ts c; do l1 <- idx nn 1; do o <- rng_genint sn (v + 4) (length l1);
      do nn' <- trainStep f64_arith (f_frac 1 10) (f_frac 9 10) lr' nn l j k s out o; Ok (nn', v + 5, lr')%Z) = Ok (nn', v + 5, lr')%Z /\ shaped 9 15 nn' /\ unmarked f0 nn').
  { intros l layer L Nl. unfold idx. rewrite L. cbn [unwrap rbind]. destruct (genint_ok sn (v + 1) (length layer) B ltac:(lia)) as (j & -> & Lj); [destruct layer; [contradiction|cbn; lia]|]. cbn [rbind].
    destruct (nth_error layer j) as [neuron|] eqn:N; [|apply nth_error_None in N; lia]. cbn [unwrap rbind].
    destruct (genint_ok sn (v + 2) (length (w_weights neuron) + 1) B ltac:(lia) ltac:(lia)) as (r & -> & Lr). cbn [rbind]. set (k := if Nat.ltb r _ then _ else _).
    destruct (genint_ok sn (v + 3) (length ts) B ltac:(lia)) as (c & -> & Lc); [destruct ts; [contradiction|cbn; lia]|]. cbn [rbind]. destruct (nth_error ts c) as [[s out]|] eqn:C; [|apply nth_error_None in C; lia]. cbn [unwrap rbind].
    apply nth_error_In in C. apply Ft in C. destruct C as (Fs & Lo). rewrite Nn1. cbn [unwrap rbind]. rewrite E1. destruct (genint_ok sn (v + 4) 15 B ltac:(lia) ltac:(lia)) as (o & -> & Loo). cbn [rbind].
    assert (P : exists p, number nn l j k = Some p). { unfold number. rewrite L, N. unfold k. destruct (Nat.ltb_spec r (length (w_weights neuron))); [|eauto]. destruct (nth_error (w_weights neuron) (length (w_weights neuron) - 1 - r)) eqn:Q; [eauto|]. apply nth_error_None in Q. lia. }
    destruct P as (p & P). destruct (step_ok f64_arith 9 15 (f_frac 1 10) (f_frac 9 10) lr' nn l j k p s out o S P Fs Lo Loo) as (nn1 & nn' & St & S' & U' & _). rewrite St. cbn [rbind]. exists nn'. split; auto. }
  destruct (fgtb (fr v) (f_frac 9 10)).
  - destruct (Main 1 l1) as (nn' & M & Sn & Un); [now rewrite E|destruct l1; [discriminate|congruence]|]. exists nn', lr'. split; [exact M|]. auto.
  - destruct (Main 0 l0) as (nn' & M & Sn & Un); [now rewrite E|destruct l0; [discriminate|congruence]|]. exists nn', lr'. split; [exact M|]. auto.
Qed.
Lemma init_ok : forall fr, shaped 9 15 (initNet fr) /\ unmarked f0 (initNet fr).
Proof.
  intros fr. assert (L : forall v add n m, length (initLayer fr v add n m) = n /\ forall x, In x (initLayer fr v add n m) -> length (w_weights x) = m /\ snd (w_bias x) = f0 /\ forall p, In p (w_weights x) -> snd p = f0).
  { intros v add n m. unfold initLayer. split; [now rewrite map_length, seq_length|]. intros x H. apply in_map_iff in H. destruct H as (j & <- & _). cbn [w_weights w_bias snd]. split; [now rewrite map_length, seq_length|]. split; auto. intros p Hp. apply in_map_iff in Hp. destruct Hp as (k & <- & _). reflexivity. }
  unfold initNet. destruct (L 8737%Z (f_frac 1 10) 9 408) as (L0 & H0). destruct (L (8737 + 9 * 409)%Z (f_frac 1 20) 15 9) as (L1 & H1). set (a := initLayer fr 8737 _ 9 408) in *. set (b := initLayer fr _ _ 15 9) in *. clearbody a b. split.
  - exists a, b. split; [reflexivity|]. split; [exact L0|]. split; [exact L1|]. split; [intros n Hn; now apply H0|intros n Hn; now apply H1].
  - intros l j k p. unfold number. destruct l as [|[|l]]; cbn [nth_error]; [| |destruct l; discriminate].
    + destruct (nth_error a j) as [n|] eqn:N; [|discriminate]. apply nth_error_In in N. destruct (H0 n N) as (_ & Hb & Hw). destruct k as [k|]; intros E; [|injection E as <-; exact Hb]. apply nth_error_In in E. auto.
    + destruct (nth_error b j) as [n|] eqn:N; [|discriminate]. apply nth_error_In in N. destruct (H1 n N) as (_ & Hb & Hw). destruct k as [k|]; intros E; [|injection E as <-; exact Hb]. apply nth_error_In in E. auto.
Qed.
Theorem train_ok : forall sn fr n, bounded sn -> exists nn, train sn fr n = Ok nn /\ shaped 9 15 nn /\ unmarked f0 nn.
Proof.
  intros sn fr n B. unfold train. destruct trainingSamples as [ts|] eqn:T; [|exfalso; revert T; vm_compute; discriminate]. cbn [rbind].
  assert (G : forall l nn v lr, shaped 9 15 nn -> unmarked f0 nn -> (0 <= v)%Z -> exists nn' v' lr', rfold (fun st i => epoch sn fr ts n i st) l (nn, v, lr) = Ok (nn', v', lr') /\ shaped 9 15 nn' /\ unmarked f0 nn').
  { induction l as [|i l IH]; intros nn v lr S U V; [exists nn, v, lr; auto|]. cbn [rfold]. destruct (epoch_ok sn fr ts n i nn v lr B T S U V) as (nn1 & lr1 & E & S1 & U1). rewrite E. cbn [rbind]. apply IH; auto. lia. }
  destruct (init_ok fr) as (S & U). destruct (G (seq 0 n) (initNet fr) (8737 + 9 * 409 + 15 * 10)%Z (f_frac 1 100) S U ltac:(lia)) as (nn & v & lr & E & S' & U'). rewrite E. cbn [rbind]. eauto.
Qed.
