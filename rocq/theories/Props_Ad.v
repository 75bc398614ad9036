(** C48 automatic differentiation, C73 network parameters, C74 vector helpers. *)
From Coq Require Import ZArith Reals Lra List Bool.
From Verif Require Import Base F64_Model Tv_Model Ad_Model Ad_Spec Ad_Proofs Nn_Proofs Vec_Proofs.
Import ListNotations.
Local Open Scope R_scope.

(** ** C48 *)
(** constants and the variable itself *)
Theorem c48_leaf : forall c x, carries (fun _ => c) x (mkAd c 0) /\ carries (fun t => t) x (mkAd x 1).
Proof. intros. split; [apply carries_const | apply carries_var]. Qed.
Theorem c48_add : forall u v x a b, carries u x a -> carries v x b -> carries (fun t => u t + v t) x (addR a b).
Proof. exact carries_add. Qed.
Theorem c48_sub : forall u v x a b, carries u x a -> carries v x b -> carries (fun t => u t - v t) x (subR a b).
Proof. exact carries_sub. Qed.
Theorem c48_mul : forall u v x a b, carries u x a -> carries v x b -> carries (fun t => u t * v t) x (mulR a b).
Proof. exact carries_mul. Qed.
Theorem c48_exp : forall u x a, carries u x a -> carries (fun t => exp (u t)) x (expR a).
Proof. exact carries_exp. Qed.
(** finding: the quotient is right only when the numerator or the derivative of the
    denominator is zero *)
Theorem c48_div : forall u v x a b, carries u x a -> carries v x b -> ad_r b <> 0 ->
  (carries (fun t => u t / v t) x (divR a b) <-> ad_r a = 0 \/ ad_d b = 0).
Proof. exact div_iff. Qed.
Theorem c48_div_error : forall u v x a b d, carries u x a -> carries v x b -> ad_r b <> 0 ->
  derivable_pt_lim (fun t => u t / v t) x d ->
  ad_r (divR a b) = u x / v x /\ ad_d (divR a b) - d = 2 * (ad_r a * ad_d b) / (ad_r b * ad_r b).
Proof. exact div_error. Qed.
(** 1/t at 1: the derivative is -1, computed as +1 *)
Theorem c48_div_refuted : exists a b, carries (fun _ => 1) 1 a /\ carries (fun t => t) 1 b /\
  derivable_pt_lim (fun t => 1 / t) 1 (-1) /\ divR a b = mkAd 1 1.
Proof.
  exists (mkAd 1 0), (mkAd 1 1). split; [apply carries_const|]. split; [apply carries_var|]. split.
  - destruct (quotient (fun _ => 1) (fun t => t) 1 (mkAd 1 0) (mkAd 1 1)) as [_ Q];
      [apply carries_const | apply carries_var | simpl; lra |]. simpl in Q.
    replace (-1) with ((0 * 1 - 1 * 1) / (1 * 1)) by field. exact Q.
  - unfold ad_div; simpl. f_equal; field.
Qed.
Theorem c48_dot : forall us ws x v w, Forall2 (fun u a => carries u x a) us v ->
  Forall2 (fun u a => carries u x a) ws w -> w <> [] -> (length w <= length v)%nat ->
  exists a, dotR v w = Ok a /\ carries (dotFun us ws) x a.
Proof. exact dot_carries. Qed.
(** any arithmetic, so f64 too *)
Theorem c48_dot_panic : forall F (A : arith F) (v w : list (ad F)),
  ad_dot A v w = Panic <-> v = [] \/ w = [] \/ (length v < length w)%nat.
Proof. exact @dot_panic_iff. Qed.
Theorem c48_relu : forall u x a, carries u x a -> ad_r a <> 0 -> carries (fun t => Rmax 0 (u t)) x (reluR a).
Proof. exact relu_carries. Qed.
(** finding: the sigmoid has the right value and the derivative 1+2e^v times too large *)
Theorem c48_sigmoid_value : forall a, ad_r (sigmoidR a) = logistic (ad_r a).
Proof. exact sigmoid_value. Qed.
Theorem c48_sigmoid : forall u x a d, carries u x a -> derivable_pt_lim (fun t => logistic (u t)) x d ->
  ad_d (sigmoidR a) = (1 + 2 * exp (u x)) * d.
Proof. exact sigmoid_factor. Qed.
Theorem c48_sigmoid_iff : forall u x a, carries u x a ->
  (carries (fun t => logistic (u t)) x (sigmoidR a) <-> ad_d a = 0).
Proof. exact sigmoid_iff. Qed.
(** so it points the right way *)
Theorem c48_sigmoid_sign : forall u x a d, carries u x a -> derivable_pt_lim (fun t => logistic (u t)) x d ->
  (0 < ad_d (sigmoidR a) <-> 0 < d) /\ (ad_d (sigmoidR a) < 0 <-> d < 0).
Proof.
  intros u x a d Ha Hd. rewrite (sigmoid_factor _ _ _ _ Ha Hd).
  pose proof (exp_pos (u x)) as Hp. assert (P : 0 < 1 + 2 * exp (u x)) by lra. split; split; intros H.
  - apply (Rmult_lt_reg_l (1 + 2 * exp (u x))); [exact P | lra].
  - apply Rmult_lt_0_compat; assumption.
  - apply (Rmult_lt_reg_l (1 + 2 * exp (u x))); [exact P | lra].
  - rewrite <- (Rmult_0_r (1 + 2 * exp (u x))). apply Rmult_lt_compat_l; assumption.
Qed.
Theorem c48_sigmoid_refuted : exists a d, carries (fun t => t) 0 a /\
  derivable_pt_lim (fun t => logistic t) 0 d /\ ad_d (sigmoidR a) = 3 * d /\ d = / 4.
Proof.
  exists (mkAd 0 1), (1 * exp 0 / ((exp 0 + 1) * (exp 0 + 1))).
  pose proof (carries_var 0) as V. pose proof (sigmoid_true _ _ _ V) as T. cbn [ad_r ad_d] in T.
  split; [exact V|]. split; [exact T|]. split.
  - rewrite (sigmoid_factor _ _ _ _ V T). rewrite exp_0. field.
  - rewrite exp_0. field.
Qed.
(** a neuron *)
Theorem c48_neuron_relu : forall us ws b x v n, Forall2 (fun u a => carries u x a) us v ->
  Forall2 (fun u a => carries u x a) ws (n_weights n) -> carries b x (n_bias n) ->
  n_weights n <> [] -> (length (n_weights n) <= length v)%nat -> n_act n = 0%Z ->
  dotFun us ws x + b x <> 0 ->
  exists a, calcR v n = Ok a /\ carries (fun t => Rmax 0 (dotFun us ws t + b t)) x a.
Proof. exact calc_relu. Qed.
Theorem c48_neuron_sigmoid : forall us ws b x v n d, Forall2 (fun u a => carries u x a) us v ->
  Forall2 (fun u a => carries u x a) ws (n_weights n) -> carries b x (n_bias n) ->
  n_weights n <> [] -> (length (n_weights n) <= length v)%nat -> n_act n <> 0%Z ->
  derivable_pt_lim (fun t => logistic (dotFun us ws t + b t)) x d ->
  exists a, calcR v n = Ok a /\ ad_r a = logistic (dotFun us ws x + b x) /\
            ad_d a = (1 + 2 * exp (dotFun us ws x + b x)) * d.
Proof. exact calc_sigmoid. Qed.
Theorem c48_neuron_panic : forall F (A : arith F) ex (v : list (ad F)) n,
  calc A ex v n = Panic <-> v = [] \/ n_weights n = [] \/ (length v < length (n_weights n))%nat.
Proof. exact @calc_panic_iff. Qed.
(** t*t + 3*t at 2, and a neuron with two inputs *)
Example c48_poly_ex : exists a, dotR [mkAd 2 1; mkAd 3 0] [mkAd 2 1; mkAd 2 1] = Ok a /\ a = mkAd 10 7.
Proof. eexists. split; [reflexivity|]. cbn. unfold ad_add, ad_mul; simpl. f_equal; ring. Qed.
Example c48_neuron_ex : calcR [mkAd 2 1; mkAd 3 0] (mkNeuron [mkAd 1 0; mkAd (-1) 0] (mkAd 4 0) 0) = Ok (mkAd 3 1).
Proof.
  unfold calc. cbn. f_equal. unfold reluAct, ad_add, ad_mul; simpl.
  destruct (Rlt_dec 0 _) as [H|H]; [f_equal; ring | exfalso; apply H; lra].
Qed.
Example c48_f64_ex : calc f64_arith (fun x => x) [mkAd (f_of_Z 2) f1; mkAd (f_of_Z 3) f0]
  (mkNeuron [mkAd f1 f0; mkAd f1 f0] (mkAd (f_of_Z 4) f0) 0) = Ok (mkAd (f_of_Z 9) f1).
Proof. vm_compute. reflexivity. Qed.

(** ** C73 *)
Local Open Scope nat_scope.
(** which parameter becomes which number; the running index ends behind the last one *)
Theorem c73_layout : forall F (A : arith F) c15 c8 i params nIn act0 n0 n1 diffIdx net i',
  buildNn A c15 c8 (Z.of_nat i) params (Z.of_nat nIn) act0 (Z.of_nat n0) (Z.of_nat n1) diffIdx = Ok (net, i') ->
  length (layer0 net) = n0 /\ length (layer1 net) = n1 /\
  layerOf (Amul A) c15 params i nIn act0 (layer0 net) /\
  layerOf (Amul A) c8 params (i + n0 * (nIn + 1)) n0 1 (layer1 net) /\
  i' = Z.of_nat (i + paramCount nIn n0 n1).
Proof. exact @build_layout. Qed.
Theorem c73_panic : forall F (A : arith F) c15 c8 i params nIn act0 n0 n1 diffIdx,
  buildNn A c15 c8 (Z.of_nat i) params (Z.of_nat nIn) act0 (Z.of_nat n0) (Z.of_nat n1) diffIdx = Panic <->
  length params < i + paramCount nIn n0 n1 /\ 0 < paramCount nIn n0 n1.
Proof. exact @build_iff. Qed.
(** exactly the chosen parameter is marked *)
Theorem c73_one_mark : forall F (A : arith F) c15 c8 i params nIn act0 n0 n1 k net i',
  buildNn A c15 c8 (Z.of_nat i) params (Z.of_nat nIn) act0 (Z.of_nat n0) (Z.of_nat n1) (Some k) = Ok (net, i') ->
  i <= k < i + paramCount nIn n0 n1 ->
  map (@ad_d F) (networkAds net) =
    repeat (A0 A) (k - i) ++ A1 A :: repeat (A0 A) (i + paramCount nIn n0 n1 - k - 1).
Proof. exact @build_one_mark. Qed.
Theorem c73_no_mark : forall F (A : arith F) c15 c8 i params nIn act0 n0 n1 net i',
  buildNn A c15 c8 (Z.of_nat i) params (Z.of_nat nIn) act0 (Z.of_nat n0) (Z.of_nat n1) None = Ok (net, i') ->
  map (@ad_d F) (networkAds net) = repeat (A0 A) (paramCount nIn n0 n1).
Proof. exact @build_no_mark. Qed.
(** with parameter [k] as the variable: every weight carries its derivative, and the
    derivative of a bias is its mark times 15 (first layer) or 8 (second layer) *)
Theorem c73_derivative : forall params i nIn n0 n1 k act0 x net i',
  nth_error params k = Some x ->
  (forall t, buildNnR (Z.of_nat i) (replace_at k t params) (Z.of_nat nIn) act0 (Z.of_nat n0) (Z.of_nat n1) (Some k)
             = Ok (net t, i')) ->
  varies x net (@layer0 R) 15 /\ varies x net (@layer1 R) 8.
Proof. intros params i nIn n0 n1 k act0 x net i' Ek Hn. exact (vary_both params i nIn n0 n1 k act0 x net i' Ek Hn). Qed.
(** finding: so the mark of a bias is not its derivative *)
Theorem c73_bias : forall params i nIn n0 n1 k act0 x net i' p nn,
  nth_error params k = Some x ->
  (forall t, buildNnR (Z.of_nat i) (replace_at k t params) (Z.of_nat nIn) act0 (Z.of_nat n0) (Z.of_nat n1) (Some k)
             = Ok (net t, i')) ->
  nth_error (layer0 (net x)) p = Some nn \/ nth_error (layer1 (net x)) p = Some nn ->
  ad_d (n_bias nn) <> 0%R ->
  exists u, (forall t, exists nn', (nth_error (layer0 (net t)) p = Some nn' \/ nth_error (layer1 (net t)) p = Some nn') /\ ad_r (n_bias nn') = u t) /\
            ~ derivable_pt_lim u x (ad_d (n_bias nn)).
Proof.
  intros params i nIn n0 n1 k act0 x net i' p nn Ek Hn Hp Hd.
  destruct (vary_both params i nIn n0 n1 k act0 x net i' Ek Hn) as [V0 V1].
  assert (B : nth_error (neuronAds nn) (length (n_weights nn)) = Some (n_bias nn)).
  { unfold neuronAds. rewrite nth_error_app2, PeanoNat.Nat.sub_diag; [reflexivity | apply le_n]. }
  destruct (build_layout _ _ _ _ _ _ _ _ _ _ _ _ (Hn x)) as (_ & _ & L0 & L1 & _).
  destruct Hp as [Hp | Hp].
  - destruct (V0 p _ nn _ Hp B) as (u & Hu & _ & D). destruct (D eq_refl) as [_ D'].
    destruct (L0 _ _ Hp) as (_ & _ & Lw & _).
    exists u. split; [|apply (bias_wrong u x 15); [lra | exact Hd | exact D']].
    intros t. destruct (Hu t) as (nn' & a' & E1 & E2 & E3). exists nn'. split; [auto|].
    destruct (build_layout _ _ _ _ _ _ _ _ _ _ _ _ (Hn t)) as (_ & _ & L0' & _ & _).
    destruct (L0' _ _ E1) as (_ & _ & Lw' & _).
    unfold neuronAds in E2. rewrite Lw, <- Lw' in E2. rewrite nth_error_app2, PeanoNat.Nat.sub_diag in E2 by apply le_n.
    injection E2 as ->. exact E3.
  - destruct (V1 p _ nn _ Hp B) as (u & Hu & _ & D). destruct (D eq_refl) as [_ D'].
    destruct (L1 _ _ Hp) as (_ & _ & Lw & _).
    exists u. split; [|apply (bias_wrong u x 8); [lra | exact Hd | exact D']].
    intros t. destruct (Hu t) as (nn' & a' & E1 & E2 & E3). exists nn'. split; [auto|].
    destruct (build_layout _ _ _ _ _ _ _ _ _ _ _ _ (Hn t)) as (_ & _ & _ & L1' & _).
    destruct (L1' _ _ E1) as (_ & _ & Lw' & _).
    unfold neuronAds in E2. rewrite Lw, <- Lw' in E2. rewrite nth_error_app2, PeanoNat.Nat.sub_diag in E2 by apply le_n.
    injection E2 as ->. exact E3.
Qed.
(** two inputs, one neuron in the first layer, one in the second: five parameters *)
Example c73_build_ex : exists net, buildNn64 1 (map f_of_Z [9; 1; 2; 3; 4; 5; 6]%Z) 2 0 1 1 (Some 3) = Ok (net, 6%Z) /\
  map (@ad_r f64) (networkAds net) = map f_of_Z [1; 2; 45; 4; 40]%Z /\
  map (@ad_d f64) (networkAds net) = [f0; f0; f1; f0; f0] /\ map n_act (layer0 net ++ layer1 net) = [0; 1]%Z.
Proof. eexists. split; [vm_compute; reflexivity|]. repeat split; vm_compute; reflexivity. Qed.
Example c73_short_ex : buildNn64 1 (map f_of_Z [9; 1; 2; 3; 4]%Z) 2 0 1 1 None = Panic.
Proof. vm_compute. reflexivity. Qed.
(** one input, one neuron, weight 2 and bias parameter 3: the bias is 15 times the
    parameter and its derivative is stored as 1 *)
Theorem c73_bias_refuted : exists (net : R -> network R) nn,
  (forall t, buildNnR 0 (replace_at 1 t [2; 3]%R) 1 0 1 0 (Some 1) = Ok (net t, 2%Z)) /\
  nth_error (layer0 (net 3%R)) 0 = Some nn /\
  (forall t, option_map (fun n => ad_r (n_bias n)) (nth_error (layer0 (net t)) 0) = Some (t * 15)%R) /\
  ~ derivable_pt_lim (fun t => t * 15)%R 3%R (ad_d (n_bias nn)).
Proof.
  exists (fun t => mkNetwork [mkNeuron [mkAd 2%R 0%R] (mkAd (t * 15)%R 1%R) 0%Z] []).
  eexists. split; [intros t; reflexivity|]. split; [reflexivity|]. split; [intros t; reflexivity|].
  cbn. apply (bias_wrong _ _ 15); [lra | lra |].
  pose proof (derivable_pt_lim_scal _ 15 _ _ (derivable_pt_lim_id 3)) as D.
  eapply dlim_ext; [|exact D]. intros t. unfold mult_real_fct, id. ring.
Qed.

(** ** C74 *)
Theorem c74_add_scale : forall a b w, vecAddScale a b w =
  if Nat.ltb (length b) (length a) then Panic else Ok (map (fun '(x, y) => fadd x (fmul y w)) (combine a b)).
Proof. exact vecAddScale_spec. Qed.
Theorem c74_add : forall a b, vecAdd a b =
  if Nat.ltb (length b) (length a) then Panic else Ok (map (fun '(x, y) => fadd x y) (combine a b)).
Proof. exact vecAdd_spec. Qed.
Theorem c74_scale : forall a w, vecScale a w = Ok (map (fun x => fmul x w) a).
Proof. exact vecScale_spec. Qed.
Theorem c74_dot : forall a b, vecDot a b =
  if Nat.ltb (length b) (length a) then Panic
  else Ok (fold_left (fun acc '(x, y) => fadd acc (fmul x y)) (combine a b) f0).
Proof. exact vecDot_spec. Qed.
Theorem c74_two_steps : forall a b w s, vecScale b w = Ok s -> vecAddScale a b w = vecAdd a s.
Proof. exact vecAddScale_two. Qed.
Theorem c74_add_comm : forall a b, length a = length b -> vecAdd a b = vecAdd b a.
Proof. exact vecAdd_comm. Qed.
Theorem c74_dot_comm : forall a b, length a = length b -> vecDot a b = vecDot b a.
Proof. exact vecDot_comm. Qed.
Example c74_ex : vecAddScale [f1; f_of_Z 2] [f_of_Z 3; f_of_Z 4; f_of_Z 5] (f_of_Z 2) = Ok [f_of_Z 7; f_of_Z 10] /\
  vecDot [f1; f_of_Z 2] [f_of_Z 3; f_of_Z 4] = Ok (f_of_Z 11) /\ vecDot [f1; f_of_Z 2] [f_of_Z 3] = Panic.
Proof. repeat split; vm_compute; reflexivity. Qed.

Print Assumptions c48_leaf.
Print Assumptions c48_add.
Print Assumptions c48_sub.
Print Assumptions c48_mul.
Print Assumptions c48_exp.
Print Assumptions c48_div.
Print Assumptions c48_div_error.
Print Assumptions c48_div_refuted.
Print Assumptions c48_dot.
Print Assumptions c48_dot_panic.
Print Assumptions c48_relu.
Print Assumptions c48_sigmoid_value.
Print Assumptions c48_sigmoid.
Print Assumptions c48_sigmoid_iff.
Print Assumptions c48_sigmoid_sign.
Print Assumptions c48_sigmoid_refuted.
Print Assumptions c48_neuron_relu.
Print Assumptions c48_neuron_sigmoid.
Print Assumptions c48_neuron_panic.
Print Assumptions c73_layout.
Print Assumptions c73_panic.
Print Assumptions c73_one_mark.
Print Assumptions c73_no_mark.
Print Assumptions c73_derivative.
Print Assumptions c73_bias.
Print Assumptions c73_bias_refuted.
Print Assumptions c74_add_scale.
Print Assumptions c74_add.
Print Assumptions c74_scale.
Print Assumptions c74_dot.
Print Assumptions c74_two_steps.
Print Assumptions c74_add_comm.
Print Assumptions c74_dot_comm.
