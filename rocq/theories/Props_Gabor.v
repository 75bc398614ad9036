(** C102 and C103: filter kernels, lengths and similarity. *)
From Coq Require Import List ZArith Bool Lia Reals Lra.
From Flocq Require Import Core.
From Coq Require Import Floats.SpecFloat.
From Verif Require Import Base F64_Model F64_Proofs Map_Model Map_Spec Gabor_Model Gabor_Spec Gabor_Proofs.
Import ListNotations.
Local Open Scope Z_scope.

(** ** C102 *)
(** a kernel has the size asked for, and every cell can be read *)
Theorem c102_size : forall c s e w phi lam off asp, 0 <= w -> exists m, generateGaborKernel c s e w phi lam off asp = Ok m /\ m_w m = w /\ m_h m = w /\ wfMap m.
Proof. intros c s e w phi lam off asp W. destruct (kernel_map c s e w phi lam off asp W) as (m & E & A & B & F & _). exists m. auto. Qed.
(** a negative width gives an empty kernel *)
Theorem c102_negative : forall c s e w phi lam off asp, w < 0 -> exists m, generateGaborKernel c s e w phi lam off asp = Ok m /\ forall y x, readAt f0 m y x = Ok f0.
Proof. exact kernel_negative. Qed.
(** an odd kernel without phase is the same when turned by 180 degrees, bit for bit *)
Theorem c102_turn : forall c s e w phi lam asp m, Z.odd w = true -> 0 <= w -> evenFun c -> generateGaborKernel c s e w phi lam f0 asp = Ok m ->
  forall y x, 0 <= y < w -> 0 <= x < w -> readAt f0 m (w - 1 - y) (w - 1 - x) = readAt f0 m y x.
Proof.
  intros c s e w phi lam asp m O W C E y x Y X. destruct (kernel_map c s e w phi lam f0 asp W) as (m' & E' & _ & _ & _ & V). rewrite E' in E. injection E as <-.
  rewrite !V by lia. f_equal. now apply kernel_mirror.
Qed.
(** every entry is a number between -1 and 1 *)
Theorem c102_range : forall c s e w phi lam off asp m, wave c -> wave s -> decay e -> ffin phi -> sane lam -> notHuge off -> notHuge asp -> 0 <= w <= 2 ^ 31 ->
  generateGaborKernel c s e w phi lam off asp = Ok m -> forall y x, 0 <= y < w -> 0 <= x < w -> exists v, readAt f0 m y x = Ok v /\ unitBall v.
Proof.
  intros c s e w phi lam off asp m C S D P L O A W E y x Y X. destruct (kernel_map c s e w phi lam off asp (proj1 W)) as (m' & E' & _ & _ & _ & V). rewrite E' in E. injection E as <-.
  eexists. split; [now apply V|]. apply kernel_range; auto. lia.
Qed.
(** the entry in the middle is the cosine of the phase *)
Theorem c102_middle : forall c s e w phi lam off asp m, wave c -> wave s -> (forall z, isZero z = true -> e z = f1) -> ffin phi -> sane lam -> ffin off -> off <> S754_zero true -> notHuge asp ->
  0 < w <= 2 ^ 31 -> generateGaborKernel c s e w phi lam off asp = Ok m -> exists v, readAt f0 m (w / 2) (w / 2) = Ok v /\ fval v = fval (c off).
Proof.
  intros c s e w phi lam off asp m C S E P L O O' A W G. destruct (kernel_map c s e w phi lam off asp ltac:(lia)) as (m' & E' & _ & _ & _ & V). rewrite E' in G. injection G as <-.
  assert (H : 0 <= w / 2 < w) by (split; [apply Z.div_pos; lia|apply Z.div_lt; lia]).
  eexists. split; [now apply V|]. rewrite <- Z.quot_div_nonneg by lia. now apply kernel_centre.
Qed.
(** A kernel of even width is not centred: with the axes not turned, wavelength and
    aspect 1, the corner of the kernel of width 2 differs from the opposite corner. *)
Theorem c102_even_refuted : forall c s e, wave c -> c f0 = f1 -> s f0 = f0 -> (forall z, isZero z = true -> e z = f1) -> (forall z, ffin z -> (fval z < -1)%R -> in01 (e z) /\ (fval (e z) <= / 2)%R) ->
  exists m, generateGaborKernel c s e 2 f0 f1 f0 f1 = Ok m /\ readAt f0 m 0 0 <> readAt f0 m 1 1.
Proof.
  intros c s e C C0 S0 E0 E1. destruct (kernel_map c s e 2 f0 f1 f0 f1 ltac:(lia)) as (m & E & _ & _ & _ & V). exists m. split; auto. rewrite !V by lia. intros K. injection K as K.
  assert (A : gaborAt c s e 2 f0 f1 f0 f1 1 1 = f1). { unfold gaborAt. rewrite C0, S0. rewrite E0 by reflexivity. match goal with |- fmul f1 (c ?x) = _ => replace x with f0 by reflexivity end. now rewrite C0. }
  rewrite A in K. unfold gaborAt in K. rewrite C0, S0 in K. cbv zeta in K.
  match type of K with fmul (e ?x) (c ?y) = _ => set (a := x) in K; set (b := y) in K end.
  assert (Fa : ffin a /\ (fval a < -1)%R). { split; [split; [reflexivity|exact I]|]. literal a. lra. }
  destruct (E1 a (proj1 Fa) (proj2 Fa)) as [I1 I2]. apply in01_iff in I1. destruct I1 as [I1 I3].
  destruct (C b) as [J1 J2]; [split; [reflexivity|exact I]|].
  destruct (bnd_mul (-1) 0 (e a) (c b)) as [[_ B] _]; [lia|split; auto; rewrite Rabs_pos_eq by lra; exact I2|split; auto|]. rewrite K in B. destruct f1_ok as [_ V1]. rewrite V1, Rabs_R1 in B. change (bpow radix2 (-1 + 0)) with (/ 2)%R in B. lra.
Qed.
(** wavelength 0: the middle is not a number *)
Theorem c102_wavelength_refuted : forall c s e, c f0 = f1 -> s f0 = f0 -> e S754_nan = S754_nan ->
  exists m, generateGaborKernel c s e 1 f0 f0 f0 f1 = Ok m /\ readAt f0 m 0 0 = Ok S754_nan.
Proof.
  intros c s e C0 S0 E. destruct (kernel_map c s e 1 f0 f0 f0 f1 ltac:(lia)) as (m & G & _ & _ & _ & V). exists m. split; auto. rewrite V by lia. f_equal.
  unfold gaborAt. rewrite C0, S0. cbv zeta. match goal with |- fmul (e ?x) _ = _ => replace x with S754_nan by reflexivity end. rewrite E. reflexivity.
Qed.
(** an example with simple functions in place of cosine and exponential *)
Definition tri (x : f64) : f64 := if fltb (fabs x) f1 then fsub f1 (fabs x) else f0.
Definition hill (x : f64) : f64 := fdiv f1 (fsub f1 x).
Example c102_ex : match generateGaborKernel tri (fun _ => f0) hill 3 f0 (f_of_Z 8) f0 f1 with
  | Ok m => (length (m_arr m) =? 9)%nat && match readAt f0 m 1 1, readAt f0 m 0 1, readAt f0 m 2 1 with
            | Ok a, Ok b, Ok d => fleb f1 a && fleb a f1 && fltb b a && fleb b d && fleb d b | _, _, _ => false end
  | Panic => false end = true.
Proof. vm_compute. reflexivity. Qed.

(** ** C103 *)
Theorem c103_length : forall pow2 v, notNegative (vecLen pow2 v).
Proof. exact length_sign. Qed.
Theorem c103_turned_length : forall pow2 v, evenFun pow2 -> vecLen pow2 (map fneg v) = vecLen pow2 v.
Proof. exact length_mirror. Qed.
Theorem c103_panic : forall pow2 a b, calcCosineSim pow2 a b = Panic <-> (length b < length a)%nat.
Proof. exact sim_panic. Qed.
Theorem c103_symmetric : forall pow2 a b, length a = length b -> calcCosineSim pow2 a b = calcCosineSim pow2 b a.
Proof. exact sim_comm. Qed.
Theorem c103_opposite : forall pow2 a b r, evenFun pow2 -> calcCosineSim pow2 a b = Ok r -> exists r', calcCosineSim pow2 (map fneg a) b = Ok r' /\ mirror r r'.
Proof. exact sim_mirror. Qed.
(** the similarity to a zero vector is not a number *)
Theorem c103_zero_refuted : forall pow2 n b, isZero (pow2 f0) = true -> Forall ffin b -> (n <= length b)%nat -> calcCosineSim pow2 (repeat f0 n) b = Ok S754_nan.
Proof. exact sim_zero. Qed.
Definition square (x : f64) : f64 := fmul x x.
(** the similarity of a vector to itself can exceed 1 *)
Theorem c103_one_refuted : exists a r, calcCosineSim square a a = Ok r /\ fltb f1 r = true.
Proof. exists [f_of_Z 2; f_of_Z 3]. eexists. split; [reflexivity|]. vm_compute. reflexivity. Qed.
(** vectors of different length are compared in one order and not in the other *)
Theorem c103_lengths_refuted : exists a b r, calcCosineSim square a b = Ok r /\ calcCosineSim square b a = Panic.
Proof. exists [f1], [f1; f1]. eexists. split; reflexivity. Qed.
Example c103_ex : calcCosineSim square [f_of_Z 3; f_of_Z 4] [f_of_Z 4; f_of_Z 3] = Ok (f_frac 24 25) /\
  calcCosineSim square [f_of_Z (-3); f_of_Z (-4)] [f_of_Z 4; f_of_Z 3] = Ok (fneg (f_frac 24 25)) /\ vecLen square [f_of_Z 3; f_of_Z 4] = f_of_Z 5.
Proof. repeat split; vm_compute; reflexivity. Qed.

Print Assumptions c102_size.
Print Assumptions c102_negative.
Print Assumptions c102_turn.
Print Assumptions c102_range.
Print Assumptions c102_middle.
Print Assumptions c102_even_refuted.
Print Assumptions c102_wavelength_refuted.
Print Assumptions c103_length.
Print Assumptions c103_turned_length.
Print Assumptions c103_panic.
Print Assumptions c103_symmetric.
Print Assumptions c103_opposite.
Print Assumptions c103_zero_refuted.
Print Assumptions c103_one_refuted.
Print Assumptions c103_lengths_refuted.
