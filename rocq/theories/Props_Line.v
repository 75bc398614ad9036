(** C107: which cells a line paints. *)
From Coq Require Import List ZArith Bool Lia.
From Verif Require Import Base F64_Model Map_Model Map_Spec Map_Proofs Line_Proofs Line2_Proofs Props_Map.
Import ListNotations.
Local Open Scope Z_scope.

(** A line between different points paints its first end, and at most the nine cells around
    it, however long it is. *)
Theorem c107_any : forall T (d : T) m ax ay bx by_ v m', wfMap m -> m_w m <= 32768 -> m_h m <= 32768 ->
  Z.abs ax <= 32768 -> Z.abs ay <= 32768 -> Z.abs bx <= 32768 -> Z.abs by_ <= 32768 -> bx <> ax \/ by_ <> ay -> drawLine m ax ay bx by_ v = Ok m' ->
  (within m ay ax -> val d m' ay ax = v) /\
  forall y x, ~ (Z.abs (x - ax) <= 1 /\ Z.abs (y - ay) <= 1) -> val d m' y x = val d m y x.
Proof.
  intros T d m ax ay bx by_ v m' W Hw Hh La Lay Lb Lby Ne H. destruct (line_spec d m ax ay bx by_ v W) as (m2 & E & _ & V). assert (m2 = m') by congruence. subst m2. split.
  - intros I. rewrite V. apply inb_iff in I. rewrite I, first_end; auto.
  - intros y x F. rewrite V. destruct (inb m y x) eqn:I; [|reflexivity]. apply inb_iff in I. destruct I as (I1 & I2). destruct (onLine ax ay bx by_ y x) eqn:O; [|reflexivity]. exfalso. apply F.
    apply (nine ax ay bx by_ y x); auto; unfold lim, side; lia.
Qed.
(** A line along a row paints the three cells around its first end, and if it is at most two
    long also the three around the next cell. *)
Theorem c107_row : forall T (d : T) m ax ay bx v m', wfMap m -> m_w m <= 1048576 -> m_h m <= 1048576 ->
  Z.abs ax <= 1048576 -> Z.abs ay <= 1048576 -> Z.abs bx <= 1048576 -> bx <> ax -> drawLine m ax ay bx ay v = Ok m' -> forall y x, within m y x ->
  let on := Z.abs (y - ay) <= 1 /\ (x = ax \/ (Z.abs (bx - ax) <= 2 /\ x = ax + Z.sgn (bx - ax))) in
  (on -> val d m' y x = v) /\ (~ on -> val d m' y x = val d m y x).
Proof.
  intros T d m ax ay bx v m' W Hw Hh La Lay Lb Ne H y x I on. destruct (line_spec d m ax ay bx ay v W) as (m2 & E & _ & V). assert (m2 = m') by congruence. subst m2.
  rewrite V. assert (I2 := I). apply inb_iff in I2. rewrite I2. destruct I as (I1 & I3). assert (K := row_cells ax ay bx y x La Lay Lb ltac:(unfold lim, mega; lia) ltac:(unfold lim, mega; lia) Ne). fold on in K.
  cbn [andb]. destruct (onLine ax ay bx ay y x); split; intros F; auto; exfalso; [apply F|]; tauto || (apply K in F; discriminate F).
Qed.
Theorem c107_column : forall T (d : T) m ax ay by_ v m', wfMap m -> m_w m <= 1048576 -> m_h m <= 1048576 ->
  Z.abs ax <= 1048576 -> Z.abs ay <= 1048576 -> Z.abs by_ <= 1048576 -> by_ <> ay -> drawLine m ax ay ax by_ v = Ok m' -> forall y x, within m y x ->
  let on := Z.abs (x - ax) <= 1 /\ (y = ay \/ (Z.abs (by_ - ay) <= 2 /\ y = ay + Z.sgn (by_ - ay))) in
  (on -> val d m' y x = v) /\ (~ on -> val d m' y x = val d m y x).
Proof.
  intros T d m ax ay by_ v m' W Hw Hh La Lay Lb Ne H y x I on. destruct (line_spec d m ax ay ax by_ v W) as (m2 & E & _ & V). assert (m2 = m') by congruence. subst m2.
  rewrite V. assert (I2 := I). apply inb_iff in I2. rewrite I2. destruct I as (I1 & I3). assert (K := row_cells ay ax by_ x y Lay La Lb ltac:(unfold lim, mega; lia) ltac:(unfold lim, mega; lia) Ne). fold on in K.
  rewrite turned. cbn [andb]. destruct (onLine ay ax by_ ax x y); split; intros F; auto; exfalso; [apply F|]; tauto || (apply K in F; discriminate F).
Qed.
(** so a line does not reach its second end unless that is next to the first *)
Theorem c107_end_refuted : forall T (d : T) m ax ay bx by_ v m', wfMap m -> m_w m <= 32768 -> m_h m <= 32768 ->
  Z.abs ax <= 32768 -> Z.abs ay <= 32768 -> Z.abs bx <= 32768 -> Z.abs by_ <= 32768 -> 2 <= Z.abs (bx - ax) \/ 2 <= Z.abs (by_ - ay) -> drawLine m ax ay bx by_ v = Ok m' ->
  val d m' by_ bx = val d m by_ bx.
Proof.
  intros T d m ax ay bx by_ v m' W Hw Hh La Lay Lb Lby Far H. apply (c107_any T d m ax ay bx by_ v m' W Hw Hh La Lay Lb Lby); [lia|exact H|lia].
Qed.

(** A slanted line, a row of three and a row of two, drawn backwards. *)
Example c107_ex_slanted : exists m', drawLine (blank 7 7) 1 2 6 5 7 = Ok m' /\ m_arr m' =
  [0;0;0;0;0;0;0; 0;0;0;0;0;0;0; 0;7;0;0;0;0;0; 0;0;0;0;0;0;0; 0;0;0;0;0;0;0; 0;0;0;0;0;0;0; 0;0;0;0;0;0;0].
Proof. eexists. split; vm_compute; reflexivity. Qed.
Example c107_ex_rows : forall y x, within (blank 6 3) y x -> exists m', drawLine (blank 6 3) 1 1 4 1 7 = Ok m' /\ (x = 1 -> val 0 m' y x = 7) /\ (x <> 1 -> val 0 m' y x = 0).
Proof.
  intros y x I. destruct (c46_line Z 0 (blank 6 3) 1 1 4 1 7 (blank_wf 6 3 ltac:(lia) ltac:(lia))) as (m' & E & _). exists m'. split; [exact E|].
  destruct (c107_row Z 0 (blank 6 3) 1 1 4 7 m' (blank_wf 6 3 ltac:(lia) ltac:(lia)) ltac:(cbn; lia) ltac:(cbn; lia) ltac:(lia) ltac:(lia) ltac:(lia) ltac:(lia) E y x I) as (A & B).
  destruct I as (I1 & I2). change (m_h (blank 6 3)) with 3 in I1. split; intros F; [apply A; split; [lia|left; exact F]|].
  rewrite B by lia. unfold val. destruct (inb _ y x); [|reflexivity]. unfold blank. cbn [m_arr m_w]. apply nth_repeat.
Qed.
Example c107_ex_short : exists m', drawLine (blank 5 3) 3 1 1 1 7 = Ok m' /\ m_arr m' = [0;0;7;7;0; 0;0;7;7;0; 0;0;7;7;0].
Proof. eexists. split; vm_compute; reflexivity. Qed.

Print Assumptions c107_any. Print Assumptions c107_row. Print Assumptions c107_column. Print Assumptions c107_end_refuted.
