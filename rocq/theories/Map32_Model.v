(** The functions of Map2d.rs and ModVisionC.rs with their i32 arithmetic checked: an
    operation whose result is not an i32 panics, as in a debug build. (A release build
    wraps; where no operation leaves the range there is no difference.)

    The loops over i32 ranges are those of Map_Model. The comparison of the result with
    Map_Model shows that leaving the range out there was no simplification. *)
From Coq Require Import List ZArith Bool.
From Verif Require Import Base F64_Model Map_Model Gabor_Model.
Import ListNotations.
Local Open Scope list_scope.
Local Open Scope Z_scope.

Definition in32 (z : Z) : bool := (- 2 ^ 31 <=? z) && (z <? 2 ^ 31).
Definition chk (z : Z) : res Z := if in32 z then Ok z else Panic.

Section Access.
  Context {T : Type} (d : T).
  (** Map2d.rs 17-22 *)
  Definition readAt32 (m : map2d T) (y x : Z) : res T :=
    if (y <? 0) || (x <? 0) || (x >=? m_w m) || (y >=? m_h m) then Ok d
    else do p <- chk (y * m_w m); do q <- chk (p + x); idx (m_arr m) (Z.to_nat q).
  (** 24-29 *)
  Definition writeAt32 (m : map2d T) (y x : Z) (v : T) : res (map2d T) :=
    if (y <? 0) || (x <? 0) || (x >=? m_w m) || (y >=? m_h m) then Ok m
    else
      do p <- chk (y * m_w m); do q <- chk (p + x);
      do _ <- idx (m_arr m) (Z.to_nat q);
      Ok (mkMap (put (Z.to_nat q) v (m_arr m)) (m_w m) (m_h m)).
  (** 32-41 *)
  Definition crop32 (m : map2d T) (x y sx sy : Z) : res (map2d T) :=
    do n <- chk (sx * sy);
    do a <- alloc d n;
    rfold (fun r '(iy, ix) => do y' <- chk (y + iy); do x' <- chk (x + ix); do v <- readAt32 m y' x'; writeAt32 r iy ix v) (grid 0 sy 0 sx) (mkMap a sx sy).
  (** 44-50 *)
  Definition drawBox32 (m : map2d T) (cx cy w h : Z) (v : T) : res (map2d T) :=
    rfold (fun r '(iy, ix) => do y <- chk (cy + iy); do x <- chk (cx + ix); writeAt32 r y x v) (grid 0 h 0 w) m.
  (** 53-61 *)
  Definition drawCircle32 (m : map2d T) (cx cy r : Z) (v : T) : res (map2d T) :=
    do r1 <- chk (r + 1);
    do lo <- chk (- r1);
    rfold (fun a '(iy, ix) =>
      do p <- chk (ix * ix);
      do q <- chk (iy * iy);
      do s <- chk (p + q);
      if s <=? r then do y <- chk (cy + iy); do x <- chk (cx + ix); writeAt32 a y x v else Ok a)
      (grid lo r1 lo r1) m.
End Access.
(** 8-14 *)
Definition makeMap2d32 (h w : Z) : res (map2d f64) := do n <- chk (w * h); do a <- alloc f0 n; Ok (mkMap a w h).
(** 106-139 *)
Definition cellwise32 (g : Z -> Z -> res f64) (a : map2d f64) : res (map2d f64) :=
  do r <- makeMap2d32 (m_h a) (m_w a);
  rfold (fun r '(iy, ix) => do v <- g iy ix; writeAt32 r iy ix v) (grid 0 (m_h a) 0 (m_w a)) r.
Definition msub32 (a b : map2d f64) : res (map2d f64) :=
  cellwise32 (fun y x => do av <- readAt32 f0 a y x; do bv <- readAt32 f0 b y x; Ok (fsub av bv)) a.
Definition madd32 (a b : map2d f64) : res (map2d f64) :=
  cellwise32 (fun y x => do av <- readAt32 f0 a y x; do bv <- readAt32 f0 b y x; Ok (fadd av bv)) a.
Definition divScalar32 (a : map2d f64) (v : f64) : res (map2d f64) :=
  cellwise32 (fun y x => do av <- readAt32 f0 a y x; Ok (fdiv av v)) a.
(** ModVisionC.rs 11-20, 34-43 *)
Definition convSum32 (v k : map2d f64) (iy ix : Z) : res f64 :=
  do nh <- chk (- m_h k);
  do nw <- chk (- m_w k);
  rfold (fun acc '(idy, idx_) =>
    do kx <- chk (Z.quot (m_w k) 2 + idx_);
    do ky <- chk (Z.quot (m_h k) 2 + idy);
    do a <- readAt32 f0 k ky kx;
    do vy <- chk (idy + iy);
    do vx <- chk (idx_ + ix);
    do b <- readAt32 f0 v vy vx;
    Ok (fadd acc (fmul a b)))
    (grid (Z.quot nh 2) (Z.quot (m_h k) 2) (Z.quot nw 2) (Z.quot (m_w k) 2)) f0.
(** 29-48 *)
Definition convo32 (v k : map2d f64) : res (map2d f64) := cellwise32 (convSum32 v k) v.
(** 4-27 *)
Definition convWithoutBorder32 (v k : map2d f64) : res (map2d f64) :=
  do r <- makeMap2d32 (m_h v) (m_w v);
  do by_ <- chk (Z.quot (m_h k) 2 + 1);
  do ey <- chk (m_h v - by_);
  do bx <- chk (Z.quot (m_w k) 2 + 1);
  do ex <- chk (m_w v - bx);
  rfold (fun r '(iy, ix) => do s <- convSum32 v k iy ix; writeAt32 r iy ix s) (grid by_ ey bx ex) r.
(** 49-80 *)
Definition coord32 (width i : Z) : res f64 := do z <- chk (i - Z.quot width 2); Ok (fmul (fdiv (f_of_Z z) (f_of_Z width)) f2).
Definition generateGaborKernel32 (cosf sinf expf : f64 -> f64) (width : Z) (phi lambda phaseOffset aspect : f64) : res (map2d f64) :=
  do m <- makeMap2d32 width width;
  rfold (fun r '(yInt, xInt) =>
    do x <- coord32 width xInt;
    do y <- coord32 width yInt;
    let sigma := fmul (f_frac 56 100) lambda in
    let xTick := fadd (fmul x (cosf phi)) (fmul y (sinf phi)) in
    let yTick := fadd (fmul (fneg x) (sinf phi)) (fmul y (cosf phi)) in
    let insideExp := fdiv (fneg (fadd (fmul xTick xTick) (fmul (fmul (fmul aspect aspect) yTick) yTick))) (fmul (fmul f2 sigma) sigma) in
    let insideCos := fadd (fmul (fmul f2 fpi) (fdiv xTick lambda)) phaseOffset in
    writeAt32 r yInt xInt (fmul (expf insideExp) (cosf insideCos))) (grid 0 width 0 width) m.
