(** C46 (2D maps) and C72 (image arithmetic and convolution). *)
From Coq Require Import List ZArith Bool Lia Floats.SpecFloat.
From Verif Require Import Base F64_Model Map_Model Map_Spec Map_Proofs.
Import ListNotations.
Local Open Scope Z_scope.

(** * C46 *)
(** reading never panics; outside of the map the default is read *)
Theorem c46_read : forall T (d : T) m y x, wfMap m -> readAt d m y x = Ok (val d m y x).
Proof. exact @read_spec. Qed.
(** writing never panics, changes the addressed position and no other, and nothing outside of the map *)
Theorem c46_write : forall T (d : T) m y x v, wfMap m -> exists m', writeAt m y x v = Ok m' /\ sameSize m m' /\
  forall y' x', val d m' y' x' = if (y' =? y) && (x' =? x) && inb m y x then v else val d m y' x'.
Proof. exact @write_spec. Qed.
(** a crop copies the addressed rectangle, with the default for what lies outside *)
Theorem c46_crop : forall T (d : T) m x y sx sy, wfMap m -> 0 <= sx -> 0 <= sy -> exists c, crop d m x y sx sy = Ok c /\ m_w c = sx /\ m_h c = sy /\ wfMap c /\
  forall iy ix, val d c iy ix = if inR 0 sy 0 sx iy ix then val d m (y + iy) (x + ix) else d.
Proof. exact @crop_spec. Qed.
Theorem c46_crop_panic : forall T (d : T) m x y sx sy, wfMap m -> (crop d m x y sx sy = Panic <-> sx * sy < 0).
Proof. exact @crop_panic. Qed.
Theorem c46_box : forall T (d : T) m cx cy w h v, wfMap m -> exists m', drawBox m cx cy w h v = Ok m' /\ sameSize m m' /\
  forall y x, val d m' y x = if inb m y x && inR cy (cy + h) cx (cx + w) y x then v else val d m y x.
Proof. exact @box_spec. Qed.
(** a circle fills the disc whose radius is the square root of the number given *)
Theorem c46_circle : forall T (d : T) m cx cy r v, wfMap m -> exists m', drawCircle m cx cy r v = Ok m' /\ sameSize m m' /\
  forall y x, val d m' y x = if inb m y x && ((x - cx) * (x - cx) + (y - cy) * (y - cy) <=? r) then v else val d m y x.
Proof. exact @circle_spec. Qed.
(** a line never panics and at most paints cells of the map *)
Theorem c46_line : forall T (d : T) m ax ay bx by_ v, wfMap m -> exists m', drawLine m ax ay bx by_ v = Ok m' /\ sameSize m m' /\
  forall y x, val d m' y x = val d m y x \/ (within m y x /\ val d m' y x = v).
Proof.
  intros T d m ax ay bx by_ v W. destruct (line_spec d m ax ay bx by_ v W) as (m' & E & _). exists m'. split; auto. exact (line_only T d m m' ax ay bx by_ v W E).
Qed.
(** finding: a line from a point to itself paints nothing *)
Theorem c46_point : forall T (m : map2d T) a b v, wfMap m -> drawLine m a b a b v = Ok m.
Proof. exact point_spec. Qed.

Definition blank (w h : Z) : map2d Z := mkMap (repeat 0 (Z.to_nat (w * h))) w h.
Lemma blank_wf : forall w h, 0 <= w -> 0 <= h -> wfMap (blank w h).
Proof. intros w h. apply (repeat_wf 0). Qed.
(** findings: a circle of radius 4 misses the cell at distance 3; a line of ten
    cells misses its own end point, and every cell but the first *)
Theorem c46_circle_refuted : exists m', drawCircle (blank 9 9) 4 4 4 7 = Ok m' /\ val 0 m' 4 7 = 0.
Proof. eexists. split; [vm_compute; reflexivity|vm_compute; reflexivity]. Qed.
Theorem c46_line_refuted : exists m', drawLine (blank 12 3) 0 1 10 1 7 = Ok m' /\ val 0 m' 1 0 = 7 /\ forall x, 1 <= x -> val 0 m' 1 x = 0.
Proof.
  eexists. split; [vm_compute; reflexivity|]. split; [vm_compute; reflexivity|]. intros x Hx. unfold val. destruct (inb _ 1 x) eqn:I; auto. apply inb_iff in I. destruct I as (_ & I). cbn in I |- *.
  assert (K : x = 1 \/ x = 2 \/ x = 3 \/ x = 4 \/ x = 5 \/ x = 6 \/ x = 7 \/ x = 8 \/ x = 9 \/ x = 10 \/ x = 11) by lia.
  repeat (destruct K as [->|K]; [reflexivity|]). subst x. reflexivity.
Qed.
Example c46_write_ex : writeAt (blank 2 2) 1 0 7 = Ok (mkMap [0; 0; 7; 0] 2 2) /\ writeAt (blank 2 2) (-1) 0 7 = Ok (blank 2 2) /\ writeAt (blank 2 2) 0 2 7 = Ok (blank 2 2).
Proof. repeat split. Qed.
Example c46_crop_ex : crop 0 (mkMap [1; 2; 3; 4; 5; 6] 3 2) 1 0 3 2 = Ok (mkMap [2; 3; 0; 5; 6; 0] 3 2) /\ crop 0 (blank 3 2) 0 0 (-1) 2 = Panic /\
  drawBox (blank 3 2) 1 (-1) 1 2 7 = Ok (mkMap [0; 7; 0; 0; 0; 0] 3 2).
Proof. repeat split. Qed.

(** * C72 *)
(** sums, differences and quotients are taken cell by cell; what [b] does not cover counts as 0.0 *)
Theorem c72_sub : forall a b, wfMap a -> wfMap b -> exists m, msub a b = Ok m /\ sameSize a m /\ forall y x, val f0 m y x = if inb a y x then fsub (val f0 a y x) (val f0 b y x) else f0.
Proof. exact sub_spec. Qed.
Theorem c72_add : forall a b, wfMap a -> wfMap b -> exists m, madd a b = Ok m /\ sameSize a m /\ forall y x, val f0 m y x = if inb a y x then fadd (val f0 a y x) (val f0 b y x) else f0.
Proof. exact add_spec. Qed.
Theorem c72_div : forall a v, wfMap a -> exists m, divScalar a v = Ok m /\ sameSize a m /\ forall y x, val f0 m y x = if inb a y x then fdiv (val f0 a y x) v else f0.
Proof. exact div_spec. Qed.
(** the squared length sums every cell once, in the order of the array *)
Theorem c72_dist : forall m, wfMap m -> distPow2 m = Ok (fold_left (fun s v => fadd s (fmul v v)) (m_arr m) f0).
Proof. exact dist_spec. Qed.
(** convolution with a kernel of even size sums over the whole kernel, centred at the cell *)
Theorem c72_convo : forall v k, wfMap v -> wfMap k -> Z.even (m_w k) = true -> Z.even (m_h k) = true -> exists m, convo v k = Ok m /\ sameSize v m /\
  forall y x, val f0 m y x = if inb v y x then kernelSum v k (grid 0 (m_h k) 0 (m_w k)) y x else f0.
Proof. exact convo_even. Qed.
(** for every size of the kernel *)
Theorem c72_convo_any : forall v k, wfMap v -> wfMap k -> exists m, convo v k = Ok m /\ sameSize v m /\
  forall y x, val f0 m y x = if inb v y x then kernelSum v k (grid 0 (2 * Z.quot (m_h k) 2) 0 (2 * Z.quot (m_w k) 2)) y x else f0.
Proof. exact convo_spec. Qed.
(** without border: cells closer than half a kernel and one cell to the edge are 0.0 *)
Theorem c72_border : forall v k, wfMap v -> wfMap k -> exists m, convWithoutBorder v k = Ok m /\ sameSize v m /\
  forall y x, val f0 m y x = if inR (Z.quot (m_h k) 2 + 1) (m_h v - (Z.quot (m_h k) 2 + 1)) (Z.quot (m_w k) 2 + 1) (m_w v - (Z.quot (m_w k) 2 + 1)) y x
    then kernelSum v k (grid 0 (2 * Z.quot (m_h k) 2) 0 (2 * Z.quot (m_w k) 2)) y x else f0.
Proof. exact convBorder_spec. Qed.
(** finding: the last row and the last column of a kernel of odd size do not matter *)
Theorem c72_odd : forall v k k', wfMap v -> wfMap k -> sameSize k k' -> Z.odd (m_w k) = true -> Z.odd (m_h k) = true ->
  (forall y x, 0 <= y < m_h k - 1 -> 0 <= x < m_w k - 1 -> val f0 k' y x = val f0 k y x) -> forall y x, convSum v k' y x = convSum v k y x.
Proof. exact convo_odd. Qed.
(** so a 3x3 kernel does not compute its sum *)
Definition ones : map2d f64 := mkMap (repeat f1 9) 3 3.
Theorem c72_odd_refuted : exists m, convo ones ones = Ok m /\ val f0 m 1 1 = f_of_Z 4 /\ kernelSum ones ones (grid 0 3 0 3) 1 1 = f_of_Z 9.
Proof. eexists. split; [vm_compute; reflexivity|]. split; vm_compute; reflexivity. Qed.
Example c72_convo_ex : exists m, convo ones (mkMap [f1; f_of_Z 2; f_of_Z 3; f_of_Z 4] 2 2) = Ok m /\ val f0 m 0 0 = f_of_Z 4 /\ val f0 m 1 1 = f_of_Z 10 /\ val f0 m 0 1 = f_of_Z 7.
Proof. eexists. split; [vm_compute; reflexivity|]. repeat split; vm_compute; reflexivity. Qed.
Example c72_dist_ex : distPow2 (mkMap [f1; f_of_Z 2; f_of_Z 3; f_of_Z 4] 2 2) = Ok (f_of_Z 30).
Proof. vm_compute. reflexivity. Qed.

Print Assumptions c46_read.
Print Assumptions c46_write.
Print Assumptions c46_crop.
Print Assumptions c46_crop_panic.
Print Assumptions c46_box.
Print Assumptions c46_circle.
Print Assumptions c46_line.
Print Assumptions c46_point.
Print Assumptions c46_circle_refuted.
Print Assumptions c46_line_refuted.
Print Assumptions c72_sub.
Print Assumptions c72_add.
Print Assumptions c72_div.
Print Assumptions c72_dist.
Print Assumptions c72_convo.
Print Assumptions c72_convo_any.
Print Assumptions c72_border.
Print Assumptions c72_odd.
Print Assumptions c72_odd_refuted.
