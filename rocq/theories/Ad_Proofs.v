(** Derivatives of the dual number operations. *)
From Coq Require Import ZArith Reals Lra Lia List Bool.
From Verif Require Import Base Tv_Model Ad_Model Ad_Spec.
Import ListNotations.
Local Open Scope R_scope.

Notation addR := (ad_add R_arith).
Notation subR := (ad_sub R_arith).
Notation mulR := (ad_mul R_arith).
Notation divR := (ad_div R_arith).
Notation expR := (ad_exp R_arith exp).
Notation dotR := (ad_dot R_arith).
Notation reluR := (reluAct R_arith).
Notation sigmoidR := (sigmoidAct R_arith exp).
Notation calcR := (calc R_arith exp).

Lemma dlim_ext : forall u v x l, (forall t, u t = v t) -> derivable_pt_lim u x l -> derivable_pt_lim v x l.
Proof.
  intros u v x l E H eps He. destruct (H eps He) as [d Hd]. exists d.
  intros h Hh1 Hh2. rewrite <- !E. apply Hd; assumption.
Qed.

Lemma dlim_near : forall u v x l d, 0 < d -> (forall t, Rabs (t - x) < d -> u t = v t) ->
  derivable_pt_lim u x l -> derivable_pt_lim v x l.
Proof.
  intros u v x l d Hd E H eps He. destruct (H eps He) as [d' Hd'].
  assert (Hm : 0 < Rmin d d') by (apply Rmin_pos; [exact Hd | apply cond_pos]).
  exists (mkposreal _ Hm). simpl. intros h Hh1 Hh2.
  pose proof (Rmin_l d d'). pose proof (Rmin_r d d').
  rewrite <- (E (x + h)), <- (E x).
  - apply Hd'; [exact Hh1 | lra].
  - replace (x - x) with 0 by ring. rewrite Rabs_R0. exact Hd.
  - replace (x + h - x) with h by ring. lra.
Qed.

Lemma carries_unique : forall u x a b, carries u x a -> carries u x b -> a = b.
Proof.
  intros u x [ar adv] [br bd] [H1 H2] [H3 H4]. simpl in *.
  rewrite (uniqueness_limite _ _ _ _ H2 H4). subst. reflexivity.
Qed.

Lemma carries_ext : forall u v x a, (forall t, u t = v t) -> carries u x a -> carries v x a.
Proof.
  intros u v x a E [H1 H2]. split; [rewrite <- E; exact H1 | eapply dlim_ext; eauto].
Qed.

Lemma carries_const : forall c x, carries (fun _ => c) x (mkAd c 0).
Proof. intros. split; [reflexivity | apply derivable_pt_lim_const]. Qed.

Lemma carries_var : forall x, carries (fun t => t) x (mkAd x 1).
Proof. intros. split; [reflexivity | apply derivable_pt_lim_id]. Qed.

Lemma carries_add : forall u v x a b, carries u x a -> carries v x b ->
  carries (fun t => u t + v t) x (addR a b).
Proof.
  intros u v x a b [H1 H2] [H3 H4]. split; simpl; [congruence|].
  apply derivable_pt_lim_plus; assumption.
Qed.

Lemma carries_sub : forall u v x a b, carries u x a -> carries v x b ->
  carries (fun t => u t - v t) x (subR a b).
Proof.
  intros u v x a b [H1 H2] [H3 H4]. split; simpl; [congruence|].
  apply derivable_pt_lim_minus; assumption.
Qed.

Lemma carries_mul : forall u v x a b, carries u x a -> carries v x b ->
  carries (fun t => u t * v t) x (mulR a b).
Proof.
  intros u v x a b [H1 H2] [H3 H4]. split; simpl; [congruence|].
  pose proof (derivable_pt_lim_mult u v x _ _ H2 H4) as H.
  replace (ad_r a * ad_d b + ad_d a * ad_r b) with (ad_d a * v x + u x * ad_d b); [exact H|].
  rewrite H1, H3. ring.
Qed.

Lemma carries_exp : forall u x a, carries u x a -> carries (fun t => exp (u t)) x (expR a).
Proof.
  intros u x a [H1 H2]. split; simpl; [congruence|].
  pose proof (derivable_pt_lim_comp u exp x _ _ H2 (derivable_pt_lim_exp (u x))) as H.
  rewrite Rmult_comm, H1. exact H.
Qed.

(** the true quotient rule and the computed one *)
Lemma quotient : forall u v x a b, carries u x a -> carries v x b -> ad_r b <> 0 ->
  carries (fun t => u t / v t) x
    (mkAd (ad_r a / ad_r b) ((ad_d a * ad_r b - ad_r a * ad_d b) / (ad_r b * ad_r b))).
Proof.
  intros u v x a b [H1 H2] [H3 H4] Hb. split; simpl; [congruence|].
  rewrite H3 in Hb.
  pose proof (derivable_pt_lim_div u v x _ _ H2 H4 Hb) as H.
  rewrite H1, H3. replace (ad_d a * v x - u x * ad_d b) with (ad_d a * v x - ad_d b * u x) by ring.
  exact H.
Qed.

Lemma div_iff : forall u v x a b, carries u x a -> carries v x b -> ad_r b <> 0 ->
  (carries (fun t => u t / v t) x (divR a b) <-> ad_r a = 0 \/ ad_d b = 0).
Proof.
  intros u v x a b Ha Hb Hn. pose proof (quotient _ _ _ _ _ Ha Hb Hn) as Q. split.
  - intros C. pose proof (carries_unique _ _ _ _ C Q) as E.
    apply (f_equal (@ad_d R)) in E. simpl in E.
    assert (Hz : ad_r a * ad_d b = 0).
    { assert (E2 : (ad_r a * ad_d b + ad_d a * ad_r b) / (ad_r b * ad_r b) * (ad_r b * ad_r b)
                = (ad_d a * ad_r b - ad_r a * ad_d b) / (ad_r b * ad_r b) * (ad_r b * ad_r b))
        by (rewrite E; reflexivity).
      unfold Rdiv in E2. rewrite !Rmult_assoc, !Rinv_l, !Rmult_1_r in E2
        by (apply Rmult_integral_contrapositive_currified; assumption).
      lra. }
    apply Rmult_integral in Hz. exact Hz.
  - intros Hz. destruct Q as [Q1 Q2]. split; [exact Q1|]. simpl in *.
    replace (ad_r a * ad_d b + ad_d a * ad_r b) with (ad_d a * ad_r b - ad_r a * ad_d b); [exact Q2|].
    destruct Hz as [-> | ->]; ring.
Qed.

(** by how much the quotient is wrong *)
Lemma div_error : forall u v x a b d, carries u x a -> carries v x b -> ad_r b <> 0 ->
  derivable_pt_lim (fun t => u t / v t) x d ->
  ad_r (divR a b) = u x / v x /\
  ad_d (divR a b) - d = 2 * (ad_r a * ad_d b) / (ad_r b * ad_r b).
Proof.
  intros u v x a b d Ha Hb Hn Hd. destruct (quotient _ _ _ _ _ Ha Hb Hn) as [Q1 Q2].
  rewrite (uniqueness_limite _ _ _ _ Hd Q2). split; [exact Q1|]. simpl. field. exact Hn.
Qed.

Lemma relu_carries : forall u x a, carries u x a -> ad_r a <> 0 ->
  carries (fun t => Rmax 0 (u t)) x (reluR a).
Proof.
  intros u x a [H1 H2] Hn.
  assert (Hc : continuity_pt u x) by (apply derivable_continuous_pt; exists (ad_d a); exact H2).
  assert (Hx : u x <> 0) by congruence.
  destruct (Hc (Rabs (u x))) as [d [Hd Hnear]]; [apply Rabs_pos_lt; exact Hx|].
  assert (Near : forall t, Rabs (t - x) < d -> Rabs (u t - u x) < Rabs (u x)).
  { intros t Ht. destruct (Req_dec x t) as [->|Hne].
    - replace (u t - u t) with 0 by ring. rewrite Rabs_R0. apply Rabs_pos_lt. exact Hx.
    - apply (Hnear t). split; [split; [exact I | exact Hne] | exact Ht]. }
  unfold reluAct; simpl. destruct (Rlt_dec 0 (ad_r a)) as [Hp|Hp].
  - split; simpl.
    + rewrite H1. symmetry. apply Rmax_right. lra.
    + apply (dlim_near u _ x _ d Hd); [|exact H2]. intros t Ht.
      specialize (Near t Ht). symmetry. apply Rmax_right.
      rewrite (Rabs_right (u x)) in Near by lra.
      destruct (Rabs_def2 _ _ Near). lra.
  - assert (u x < 0) by lra. split; simpl.
    + symmetry. apply Rmax_left. lra.
    + apply (dlim_near (fun _ => 0) _ x _ d Hd); [|apply derivable_pt_lim_const]. intros t Ht.
      specialize (Near t Ht). symmetry. apply Rmax_left.
      rewrite (Rabs_left (u x)) in Near by lra.
      destruct (Rabs_def2 _ _ Near). lra.
Qed.

Lemma relu_zero : forall a, ad_r a = 0 -> reluR a = mkAd 0 0.
Proof.
  intros a H. unfold reluAct; simpl. destruct (Rlt_dec 0 (ad_r a)); [lra | reflexivity].
Qed.

Lemma logistic_exp : forall t, logistic t = exp t / (exp t + 1).
Proof.
  intros t. unfold logistic. rewrite exp_Ropp. pose proof (exp_pos t). field. lra.
Qed.

Lemma sigmoid_value : forall a, ad_r (sigmoidR a) = logistic (ad_r a).
Proof. intros a. rewrite logistic_exp. reflexivity. Qed.

Lemma sigmoid_true : forall u x a, carries u x a ->
  derivable_pt_lim (fun t => logistic (u t)) x
    (ad_d a * exp (ad_r a) / ((exp (ad_r a) + 1) * (exp (ad_r a) + 1))).
Proof.
  intros u x a Ha. pose proof (carries_exp _ _ _ Ha) as He.
  pose proof (carries_add _ _ _ _ _ He (carries_const 1 x)) as Hs.
  pose proof (exp_pos (ad_r a)) as Hp.
  assert (Hn : ad_r (addR (expR a) (mkAd 1 0)) <> 0) by (simpl; lra).
  destruct (quotient _ _ _ _ _ He Hs Hn) as [_ Q]. simpl in Q.
  eapply dlim_ext; [intros t; symmetry; apply logistic_exp |].
  match goal with |- derivable_pt_lim _ _ ?g => match type of Q with derivable_pt_lim _ _ ?l => replace g with l; [exact Q|] end end.
  field. lra.
Qed.

Lemma sigmoid_factor : forall u x a d, carries u x a ->
  derivable_pt_lim (fun t => logistic (u t)) x d ->
  ad_d (sigmoidR a) = (1 + 2 * exp (u x)) * d.
Proof.
  intros u x a d Ha Hd. rewrite (uniqueness_limite _ _ _ _ Hd (sigmoid_true _ _ _ Ha)).
  destruct Ha as [<- _]. pose proof (exp_pos (ad_r a)) as Hp. simpl. field. lra.
Qed.

Lemma sigmoid_iff : forall u x a, carries u x a ->
  (carries (fun t => logistic (u t)) x (sigmoidR a) <-> ad_d a = 0).
Proof.
  intros u x a Ha. pose proof (sigmoid_true _ _ _ Ha) as T.
  pose proof (sigmoid_factor _ _ _ _ Ha T) as E.
  pose proof (exp_pos (u x)) as Hp. pose proof Ha as [Hv _]. pose proof (exp_pos (ad_r a)) as Hp2.
  assert (Hden : 0 < / ((exp (ad_r a) + 1) * (exp (ad_r a) + 1)))
    by (apply Rinv_0_lt_compat, Rmult_lt_0_compat; lra).
  split.
  - intros [_ C]. pose proof (uniqueness_limite _ _ _ _ C T) as E2.
    rewrite E in E2.
    assert (Z : 2 * exp (u x) * (ad_d a * exp (ad_r a) / ((exp (ad_r a) + 1) * (exp (ad_r a) + 1))) = 0) by lra.
    unfold Rdiv in Z.
    apply Rmult_integral in Z. destruct Z as [Z|Z]; [lra|].
    apply Rmult_integral in Z. destruct Z as [Z|Z]; [|lra].
    apply Rmult_integral in Z. destruct Z as [Z|Z]; [exact Z | lra].
  - intros Hz. split; [rewrite sigmoid_value, Hv; reflexivity|].
    rewrite E. replace ((1 + 2 * exp (u x)) * _) with (ad_d a * exp (ad_r a) / ((exp (ad_r a) + 1) * (exp (ad_r a) + 1))); [exact T|].
    rewrite Hz. unfold Rdiv. ring.
Qed.

(** the dot product *)
Definition dotStep (v w : list (ad R)) (acc : ad R) (i : nat) : res (ad R) :=
  do vi <- idx v i; do wi <- idx w i; Ok (addR (mulR vi wi) acc).

Lemma dotFun_snoc : forall us ws u w t, length us = length ws ->
  dotFun (us ++ [u]) (ws ++ [w]) t = dotFun us ws t + u t * w t.
Proof.
  induction us; destruct ws; simpl; intros; try discriminate; [ring|].
  rewrite IHus by congruence. ring.
Qed.

Lemma firstn_S : forall (X : Type) (l : list X) n x, nth_error l n = Some x ->
  firstn (S n) l = firstn n l ++ [x].
Proof.
  induction l; destruct n; simpl; intros; try discriminate; [congruence|].
  f_equal. apply IHl. exact H.
Qed.

Lemma Forall2_nth : forall (X Y : Type) (P : X -> Y -> Prop) l m, Forall2 P l m ->
  forall i y, nth_error m i = Some y -> exists x, nth_error l i = Some x /\ P x y.
Proof.
  induction 1; intros [|i] z Hi; simpl in *; try discriminate.
  - injection Hi as <-. eauto.
  - eauto.
Qed.

Lemma F2_length : forall (X Y : Type) (P : X -> Y -> Prop) l m, Forall2 P l m -> length l = length m.
Proof. induction 1; simpl; congruence. Qed.

Lemma firstn_len : forall (X : Type) (l : list X) n, (n <= length l)%nat -> length (firstn n l) = n.
Proof. intros. rewrite firstn_length. lia. Qed.

Lemma dot_loop : forall us ws x v w, Forall2 (fun u a => carries u x a) us v ->
  Forall2 (fun u a => carries u x a) ws w -> (length w <= length v)%nat ->
  forall k i acc, (i + k = length w)%nat ->
  carries (dotFun (firstn i us) (firstn i ws)) x acc ->
  exists a, rfold (dotStep v w) (seq i k) acc = Ok a /\ carries (dotFun us ws) x a.
Proof.
  intros us ws x v w Hu Hw Hl. pose proof (F2_length _ _ _ _ _ Hu) as Lu.
  pose proof (F2_length _ _ _ _ _ Hw) as Lw.
  induction k; intros i acc Hi Hc.
  - exists acc. split; [reflexivity|]. eapply carries_ext; [|exact Hc]. intros t. 
    replace i with (length ws) by lia. rewrite firstn_all.
    clear - Lu Lw Hl. assert (H : (length ws <= length us)%nat) by lia. clear Lu Lw Hl.
    revert us H. induction ws as [|w0 ws IH]; intros [|u us] H; simpl in *; try reflexivity; try lia.
    rewrite IH by lia. reflexivity.
  - cbn [seq rfold]. unfold dotStep at 1.
    destruct (nth_error v i) as [vi|] eqn:Ev.
    2:{ apply nth_error_None in Ev. lia. }
    destruct (nth_error w i) as [wi|] eqn:Ew.
    2:{ apply nth_error_None in Ew. lia. }
    unfold idx. rewrite Ev, Ew. cbn [unwrap rbind].
    destruct (Forall2_nth _ _ _ _ _ Hu _ _ Ev) as [u [Eu Cu]].
    destruct (Forall2_nth _ _ _ _ _ Hw _ _ Ew) as [f [Ef Cf]].
    apply (IHk (S i)); [lia|].
    rewrite (firstn_S _ _ _ _ Eu), (firstn_S _ _ _ _ Ef).
    eapply carries_ext; [|apply (carries_add _ _ _ _ _ (carries_mul _ _ _ _ _ Cu Cf) Hc)].
    intros t. simpl. rewrite dotFun_snoc; [ring|]. rewrite !firstn_len; lia.
Qed.

Lemma dot_carries : forall us ws x v w, Forall2 (fun u a => carries u x a) us v ->
  Forall2 (fun u a => carries u x a) ws w -> w <> [] -> (length w <= length v)%nat ->
  exists a, dotR v w = Ok a /\ carries (dotFun us ws) x a.
Proof.
  intros us ws x v w Hu Hw Hne Hl.
  destruct w as [|w0 w']; [contradiction|]. destruct v as [|v0 v']; [simpl in Hl; lia|].
  inversion Hu as [|u0 a1 us' a2 Cu Hu' E1 E2]; subst. inversion Hw as [|f0' a3 ws' a4 Cw Hw' E3 E4]; subst.
  unfold ad_dot. cbn [idx nth_error unwrap rbind].
  refine (dot_loop _ _ x (v0 :: v') (w0 :: w') Hu Hw Hl (length (w0 :: w') - 1) 1 (mulR v0 w0) _ _).
  - simpl. lia.
  - eapply carries_ext; [|apply (carries_mul _ _ _ _ _ Cu Cw)]. intros t. simpl. ring.
Qed.

Section Generic.
  Context {F : Type} (A : arith F).

  Lemma dot_loop_panic : forall (v w : list (ad F)) k i acc, (length v < i + k)%nat -> (i + k = length w)%nat ->
    (i <= length v)%nat ->
    rfold (fun acc i => do vi <- idx v i; do wi <- idx w i; Ok (ad_add A (ad_mul A vi wi) acc)) (seq i k) acc = Panic.
  Proof.
    intros v w. induction k; intros i acc H1 H2 H3; [lia|].
    cbn [seq rfold]. destruct (nth_error v i) as [vi|] eqn:Ev.
    - destruct (nth_error w i) as [wi|] eqn:Ew.
      2:{ apply nth_error_None in Ew. lia. }
      unfold idx at 1 2. rewrite Ev, Ew. cbn [unwrap rbind]. apply IHk; try lia.
      assert (i < length v)%nat by (apply nth_error_Some; congruence). lia.
    - unfold idx at 1. rewrite Ev. reflexivity.
  Qed.

  Lemma dot_loop_ok : forall (v w : list (ad F)) k i acc, (length w <= length v)%nat -> (i + k = length w)%nat ->
    exists a, rfold (fun acc i => do vi <- idx v i; do wi <- idx w i; Ok (ad_add A (ad_mul A vi wi) acc)) (seq i k) acc = Ok a.
  Proof.
    intros v w. induction k; intros i acc H1 H2; [exists acc; reflexivity|].
    cbn [seq rfold]. destruct (nth_error v i) as [vi|] eqn:Ev; [|apply nth_error_None in Ev; lia].
    destruct (nth_error w i) as [wi|] eqn:Ew; [|apply nth_error_None in Ew; lia].
    unfold idx at 1 2. rewrite Ev, Ew. cbn [unwrap rbind]. apply IHk; lia.
  Qed.

  Lemma dot_panic_iff : forall v w : list (ad F),
    ad_dot A v w = Panic <-> v = [] \/ w = [] \/ (length v < length w)%nat.
  Proof.
    intros v w. split.
    - intros H. destruct v as [|v0 v']; [auto|]. destruct w as [|w0 w']; [auto|].
      right; right. destruct (Nat.lt_ge_cases (length (v0 :: v')) (length (w0 :: w'))) as [L|L]; [exact L|].
      unfold ad_dot in H. cbn [idx nth_error unwrap rbind] in H.
      destruct (dot_loop_ok (v0 :: v') (w0 :: w') (length (w0 :: w') - 1) 1 (ad_mul A v0 w0) L) as [a Ha];
        [simpl; lia|]. rewrite Ha in H. discriminate.
    - intros [-> | [-> | L]].
      + reflexivity.
      + unfold ad_dot. destruct v; reflexivity.
      + destruct v as [|v0 v']; [reflexivity|]. destruct w as [|w0 w']; [simpl in L; lia|].
        unfold ad_dot. cbn [idx nth_error unwrap rbind]. apply dot_loop_panic; simpl in *; lia.
  Qed.

  Lemma calc_panic_iff : forall ex (v : list (ad F)) n,
    calc A ex v n = Panic <-> v = [] \/ n_weights n = [] \/ (length v < length (n_weights n))%nat.
  Proof.
    intros ex v n. rewrite <- dot_panic_iff. unfold calc. destruct (ad_dot A v (n_weights n)); cbn [rbind];
      split; intros H; try discriminate; reflexivity.
  Qed.
End Generic.

Lemma calc_relu : forall us ws b x v n, Forall2 (fun u a => carries u x a) us v ->
  Forall2 (fun u a => carries u x a) ws (n_weights n) -> carries b x (n_bias n) ->
  n_weights n <> [] -> (length (n_weights n) <= length v)%nat -> n_act n = 0%Z ->
  dotFun us ws x + b x <> 0 ->
  exists a, calcR v n = Ok a /\ carries (fun t => Rmax 0 (dotFun us ws t + b t)) x a.
Proof.
  intros us ws b x v n Hu Hw Hb Hne Hl Ha Hz.
  destruct (dot_carries _ _ _ _ _ Hu Hw Hne Hl) as [s [Es Cs]].
  pose proof (carries_add _ _ _ _ _ Cs Hb) as Cadd.
  unfold calc. rewrite Es, Ha. cbn [rbind Z.eqb]. eexists; split; [reflexivity|].
  apply (relu_carries (fun t => dotFun us ws t + b t)); [exact Cadd|].
  destruct Cadd as [-> _]. exact Hz.
Qed.

Lemma calc_sigmoid : forall us ws b x v n d, Forall2 (fun u a => carries u x a) us v ->
  Forall2 (fun u a => carries u x a) ws (n_weights n) -> carries b x (n_bias n) ->
  n_weights n <> [] -> (length (n_weights n) <= length v)%nat -> n_act n <> 0%Z ->
  derivable_pt_lim (fun t => logistic (dotFun us ws t + b t)) x d ->
  exists a, calcR v n = Ok a /\ ad_r a = logistic (dotFun us ws x + b x) /\
            ad_d a = (1 + 2 * exp (dotFun us ws x + b x)) * d.
Proof.
  intros us ws b x v n d Hu Hw Hb Hne Hl Ha Hd.
  destruct (dot_carries _ _ _ _ _ Hu Hw Hne Hl) as [s [Es Cs]].
  pose proof (carries_add _ _ _ _ _ Cs Hb) as Cadd.
  unfold calc. rewrite Es. apply Z.eqb_neq in Ha. rewrite Ha. cbn [rbind]. eexists; split; [reflexivity|]. split.
  - rewrite sigmoid_value. destruct Cadd as [-> _]. reflexivity.
  - exact (sigmoid_factor _ _ _ _ Cadd Hd).
Qed.
