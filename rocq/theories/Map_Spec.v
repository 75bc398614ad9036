(** Maps as functions from positions to values. *)
From Coq Require Import List ZArith Bool Lia.
From Verif Require Import Base F64_Model Map_Model.
Import ListNotations.
Local Open Scope Z_scope.

(** the array has the size of the map *)
Definition wfMap {T} (m : map2d T) : Prop := 0 <= m_w m /\ 0 <= m_h m /\ Z.of_nat (length (m_arr m)) = m_w m * m_h m.
Definition within {T} (m : map2d T) (y x : Z) : Prop := 0 <= y < m_h m /\ 0 <= x < m_w m.
Definition sameSize {T} (m m' : map2d T) : Prop := m_w m' = m_w m /\ m_h m' = m_h m /\ wfMap m'.
Definition inb {T} (m : map2d T) (y x : Z) : bool := (0 <=? y) && (y <? m_h m) && (0 <=? x) && (x <? m_w m).
(** the value at a position, the default outside of the map *)
Definition val {T} (d : T) (m : map2d T) (y x : Z) : T := if inb m y x then nth (Z.to_nat (y * m_w m + x)) (m_arr m) d else d.
(** the position is in the rectangle of rows [y0..y1) and columns [x0..x1) *)
Definition inR (y0 y1 x0 x1 y x : Z) : bool := (y0 <=? y) && (y <? y1) && (x0 <=? x) && (x <? x1).
(** the sum over a rectangle of offsets into the kernel, in the order of the loops *)
Definition kernelSum (v k : map2d f64) (offs : list (Z * Z)) (iy ix : Z) : f64 :=
  fold_left (fun acc '(ky, kx) => fadd acc (fmul (val f0 k ky kx) (val f0 v (iy + ky - Z.quot (m_h k) 2) (ix + kx - Z.quot (m_w k) 2)))) offs f0.
