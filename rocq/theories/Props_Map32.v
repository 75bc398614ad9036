(** C104: the i32 arithmetic of the maps. *)
From Coq Require Import List ZArith Bool Lia.
From Verif Require Import Base F64_Model Map_Model Map_Spec Gabor_Model Map32_Model Map32_Spec Map32_Proofs.
Import ListNotations.
Local Open Scope Z_scope.

(** [small m]: the sizes of the map are i32 and so is the number of its cells. All maps
    that can be made are small. *)
Theorem c104_made : forall h w m, h < 2 ^ 31 -> w < 2 ^ 31 -> makeMap2d32 h w = Ok m -> makeMap2d h w = Ok m /\ small m.
Proof. intros h w m H W E. destruct (make32 h w m E) as [A B]. auto. Qed.
Theorem c104_too_large : forall h w, 2 ^ 31 <= w * h -> makeMap2d32 h w = Panic.
Proof. exact make32_panic. Qed.
(** reading and writing never leave the range, wherever the cell is *)
Theorem c104_access : forall T (d : T) m y x v, small m -> readAt32 d m y x = readAt d m y x /\ writeAt32 m y x v = writeAt m y x v.
Proof. intros T d m y x v S. split; [now apply read32|now apply write32]. Qed.
Theorem c104_box : forall T (m : map2d T) cx cy w h v, small m -> - 2 ^ 31 <= cx -> - 2 ^ 31 <= cy -> cx + w <= 2 ^ 31 -> cy + h <= 2 ^ 31 -> drawBox32 m cx cy w h v = drawBox m cx cy w h v.
Proof. intros T. exact box32. Qed.
Theorem c104_box_refuted : forall T (m : map2d T) cx cy w h v, 0 < w -> 0 < h -> small m -> 2 ^ 31 < cx + w \/ 2 ^ 31 < cy + h -> drawBox32 m cx cy w h v = Panic.
Proof. intros T. exact box32_panic. Qed.
Theorem c104_crop : forall T (d : T) m x y sx sy, small m -> 0 <= sx < 2 ^ 31 -> 0 <= sy < 2 ^ 31 -> sx * sy < 2 ^ 31 -> - 2 ^ 31 <= x -> - 2 ^ 31 <= y -> x + sx <= 2 ^ 31 -> y + sy <= 2 ^ 31 ->
  crop32 d m x y sx sy = crop d m x y sx sy.
Proof. intros T. exact crop32_ok. Qed.
Theorem c104_circle : forall T (m : map2d T) cx cy r v, small m -> r <= 32766 -> - 2 ^ 30 <= r -> Z.abs cx <= 2 ^ 30 -> Z.abs cy <= 2 ^ 30 -> drawCircle32 m cx cy r v = drawCircle m cx cy r v.
Proof. intros T. exact circle32. Qed.
(** a circle of squared radius 32767 or more always leaves the range, on every map *)
Theorem c104_circle_refuted : forall T (m : map2d T) cx cy r v, 32767 <= r -> drawCircle32 m cx cy r v = Panic.
Proof. intros T. exact circle32_panic. Qed.
Theorem c104_arithmetic : forall a b v, wfMap a -> small a -> small b -> msub32 a b = msub a b /\ madd32 a b = madd a b /\ divScalar32 a v = divScalar a v.
Proof. exact arith32. Qed.
Theorem c104_convolution : forall v k, wfMap v -> wfMap k -> small v -> small k -> m_w v + m_w k <= 2 ^ 31 -> m_h v + m_h k <= 2 ^ 31 ->
  convo32 v k = convo v k /\ convWithoutBorder32 v k = convWithoutBorder v k.
Proof. intros v k A B C D E F. split; [now apply convo32_ok|now apply border32_ok]. Qed.
Theorem c104_kernel : forall c s e w phi lam off asp, - 46340 <= w <= 46340 -> generateGaborKernel32 c s e w phi lam off asp = generateGaborKernel c s e w phi lam off asp.
Proof. exact gabor32. Qed.
Theorem c104_kernel_refuted : forall c s e w phi lam off asp, 46340 < Z.abs w -> generateGaborKernel32 c s e w phi lam off asp = Panic.
Proof. exact gabor32_panic. Qed.
Example c104_ex : small (mkMap [f0; f1; f0; f0; f0; f1] 3 2) /\
  readAt32 f0 (mkMap [f0; f1; f0; f0; f0; f1] 3 2) 1 2 = Ok f1 /\
  drawBox32 (mkMap [f0; f0; f0; f0] 2 2) (-1) 0 2 2 f1 = Ok (mkMap [f1; f0; f1; f0] 2 2) /\
  drawCircle32 (mkMap [f0; f0; f0; f0] 2 2) 0 0 1 f1 = Ok (mkMap [f1; f1; f1; f0] 2 2) /\
  drawBox32 (mkMap [f0; f0; f0; f0] 2 2) (2 ^ 31 - 1) 0 2 2 f1 = Panic.
Proof. split; [unfold small; cbn; lia|]. repeat split; vm_compute; reflexivity. Qed.

Print Assumptions c104_made.
Print Assumptions c104_too_large.
Print Assumptions c104_access.
Print Assumptions c104_box.
Print Assumptions c104_box_refuted.
Print Assumptions c104_crop.
Print Assumptions c104_circle.
Print Assumptions c104_circle_refuted.
Print Assumptions c104_arithmetic.
Print Assumptions c104_convolution.
Print Assumptions c104_kernel.
Print Assumptions c104_kernel_refuted.
