(** Model of Map2d.rs and of the convolutions of ModVisionC.rs.

    Simplifications: i32 does not overflow; nested [for] loops are one loop over
    the list of their index pairs, in the same order. generateGaborKernel is in
    Gabor_Model.v. *)
From Coq Require Import List ZArith Bool Lia Floats.SpecFloat.
From Verif Require Import Base F64_Model.
Import ListNotations.
Local Open Scope list_scope.
Local Open Scope Z_scope.

(** Map2d.rs 1-6 *)
Record map2d (T : Type) := mkMap { m_arr : list T; m_w : Z; m_h : Z }.
Arguments mkMap {T} _ _ _. Arguments m_arr {T} _. Arguments m_w {T} _. Arguments m_h {T} _.

(** [lo..hi] *)
Definition zrange (lo hi : Z) : list Z := map (fun k => lo + Z.of_nat k) (seq 0 (Z.to_nat (hi - lo))).
(** two nested loops *)
Definition grid (y0 y1 x0 x1 : Z) : list (Z * Z) := flat_map (fun y => map (fun x => (y, x)) (zrange x0 x1)) (zrange y0 y1).
(** [vec![d; n as usize]]: a negative length is too large to allocate *)
Definition alloc {T} (d : T) (n : Z) : res (list T) := if n <? 0 then Panic else Ok (repeat d (Z.to_nat n)).
Fixpoint put {A} (i : nat) (x : A) (l : list A) : list A :=
  match l, i with
  | [], _ => []
  | _ :: r, O => x :: r
  | a :: r, S j => a :: put j x r
  end.

Section Access.
  Context {T : Type} (d : T). (* T::default() *)
  (** 17-22 *)
  Definition readAt (m : map2d T) (y x : Z) : res T :=
    if (y <? 0) || (x <? 0) || (x >=? m_w m) || (y >=? m_h m) then Ok d
    else idx (m_arr m) (Z.to_nat (y * m_w m + x)).
  (** 24-29 *)
  Definition writeAt (m : map2d T) (y x : Z) (v : T) : res (map2d T) :=
    if (y <? 0) || (x <? 0) || (x >=? m_w m) || (y >=? m_h m) then Ok m
    else
      let i := Z.to_nat (y * m_w m + x) in
      do _ <- idx (m_arr m) i;
      Ok (mkMap (put i v (m_arr m)) (m_w m) (m_h m)).
  (** 32-41 *)
  Definition crop (m : map2d T) (x y sx sy : Z) : res (map2d T) :=
    do a <- alloc d (sx * sy);
    rfold (fun r '(iy, ix) => do v <- readAt m (y + iy) (x + ix); writeAt r iy ix v) (grid 0 sy 0 sx) (mkMap a sx sy).
  (** 44-50 *)
  Definition drawBox (m : map2d T) (cx cy w h : Z) (v : T) : res (map2d T) :=
    rfold (fun r '(iy, ix) => writeAt r (cy + iy) (cx + ix) v) (grid 0 h 0 w) m.
  (** 53-61 *)
  Definition drawCircle (m : map2d T) (cx cy r : Z) (v : T) : res (map2d T) :=
    rfold (fun a '(iy, ix) => if ix * ix + iy * iy <=? r then writeAt a (cy + iy) (cx + ix) v else Ok a)
      (grid (- (r + 1)) (r + 1) (- (r + 1)) (r + 1)) m.
  (** 63-103 *)
  Definition fsqrt : f64 -> f64 := SFsqrt fprec femax.
  Definition onLine (ax ay bx by_ : Z) (iy ix : Z) : bool :=
    let fdiffx := fsub (f_of_Z bx) (f_of_Z ax) in
    let fdiffy := fsub (f_of_Z by_) (f_of_Z ay) in
    let len := fsqrt (fadd (fmul fdiffx fdiffx) (fmul fdiffy fdiffy)) in
    let nx := fdiv fdiffx len in
    let ny := fdiv fdiffy len in
    let ofX := fsub (f_of_Z ix) (f_of_Z ax) in
    let ofY := fsub (f_of_Z iy) (f_of_Z ay) in
    let dot := fadd (fmul ofX nx) (fmul ofY ny) in
    if negb (fgeb dot f0 && fleb dot len) then false
    else
      let px := fadd (f_of_Z ax) (fmul dot fdiffx) in
      let py := fadd (f_of_Z ay) (fmul dot fdiffy) in
      let dx := fsub (f_of_Z ix) px in
      let dy := fsub (f_of_Z iy) py in
      negb (fgtb (fsqrt (fadd (fmul dx dx) (fmul dy dy))) (f_frac 3 2)).
  Definition drawLine (m : map2d T) (ax ay bx by_ : Z) (v : T) : res (map2d T) :=
    rfold (fun a '(iy, ix) => if onLine ax ay bx by_ iy ix then writeAt a iy ix v else Ok a) (grid 0 (m_h m) 0 (m_w m)) m.
End Access.

(** 8-14 *)
Definition makeMap2d (h w : Z) : res (map2d f64) := do a <- alloc f0 (w * h); Ok (mkMap a w h).
(** the shared shape of 106-139: a new map of the size of [a], cell by cell *)
Definition cellwise (g : Z -> Z -> res f64) (a : map2d f64) : res (map2d f64) :=
  do r <- makeMap2d (m_h a) (m_w a);
  rfold (fun r '(iy, ix) => do v <- g iy ix; writeAt r iy ix v) (grid 0 (m_h a) 0 (m_w a)) r.
(** 106-116 *)
Definition msub (a b : map2d f64) : res (map2d f64) :=
  cellwise (fun y x => do av <- readAt f0 a y x; do bv <- readAt f0 b y x; Ok (fsub av bv)) a.
(** 118-128 *)
Definition madd (a b : map2d f64) : res (map2d f64) :=
  cellwise (fun y x => do av <- readAt f0 a y x; do bv <- readAt f0 b y x; Ok (fadd av bv)) a.
(** 130-139 *)
Definition divScalar (a : map2d f64) (v : f64) : res (map2d f64) :=
  cellwise (fun y x => do av <- readAt f0 a y x; Ok (fdiv av v)) a.
(** 141-150 *)
Definition distPow2 (m : map2d f64) : res f64 :=
  rfold (fun s '(iy, ix) => do v <- readAt f0 m iy ix; Ok (fadd s (fmul v v))) (grid 0 (m_h m) 0 (m_w m)) f0.

(** * ModVisionC.rs *)
(** 11-20, 34-43: the sum for one cell. [-kernel.h/2] negates first. *)
Definition convSum (v k : map2d f64) (iy ix : Z) : res f64 :=
  rfold (fun acc '(idy, idx_) =>
    let kx := Z.quot (m_w k) 2 + idx_ in
    let ky := Z.quot (m_h k) 2 + idy in
    do a <- readAt f0 k ky kx;
    do b <- readAt f0 v (idy + iy) (idx_ + ix);
    Ok (fadd acc (fmul a b)))
    (grid (Z.quot (- m_h k) 2) (Z.quot (m_h k) 2) (Z.quot (- m_w k) 2) (Z.quot (m_w k) 2)) f0.
(** 29-48 *)
Definition convo (v k : map2d f64) : res (map2d f64) := cellwise (convSum v k) v.
(** 4-27 *)
Definition convWithoutBorder (v k : map2d f64) : res (map2d f64) :=
  do r <- makeMap2d (m_h v) (m_w v);
  let by_ := Z.quot (m_h k) 2 + 1 in
  let bx := Z.quot (m_w k) 2 + 1 in
  rfold (fun r '(iy, ix) => do s <- convSum v k iy ix; writeAt r iy ix s) (grid by_ (m_h v - by_) bx (m_w v - bx)) r.
