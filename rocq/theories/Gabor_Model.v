(** Model of generateGaborKernel (ModVisionC.rs) and of the lengths and the cosine
    similarity of mlutils.rs.

    The functions of the mathematical library are arguments: [cosf], [sinf], [expf], and
    [pow2] for [powf(2.0)]. Simplification: i32 does not overflow. *)
From Coq Require Import List ZArith Bool.
From Verif Require Import Base F64_Model Map_Model Ad_Model.
Import ListNotations.
Local Open Scope list_scope.
Local Open Scope Z_scope.

(** std::f64::consts::PI *)
Definition fpi : f64 := f_frac 314159265358979323846264338327950288 100000000000000000000000000000000000.
Definition f2 : f64 := f_of_Z 2.

Section Kernel.
  Variables cosf sinf expf : f64 -> f64.
  (** 62-63: a coordinate, from -1 to 1 *)
  Definition coord (width i : Z) : f64 := fmul (fdiv (f_of_Z (i - Z.quot width 2)) (f_of_Z width)) f2.
  (** 56, 62-71: one entry *)
  Definition gaborAt (width : Z) (phi lambda phaseOffset aspect : f64) (yInt xInt : Z) : f64 :=
    let sigma := fmul (f_frac 56 100) lambda in
    let x := coord width xInt in
    let y := coord width yInt in
    let xTick := fadd (fmul x (cosf phi)) (fmul y (sinf phi)) in
    let yTick := fadd (fmul (fneg x) (sinf phi)) (fmul y (cosf phi)) in
    let insideExp := fdiv (fneg (fadd (fmul xTick xTick) (fmul (fmul (fmul aspect aspect) yTick) yTick))) (fmul (fmul f2 sigma) sigma) in
    let insideCos := fadd (fmul (fmul f2 fpi) (fdiv xTick lambda)) phaseOffset in
    fmul (expf insideExp) (cosf insideCos).
  (** 53-78 *)
  Definition generateGaborKernel (width : Z) (phi lambda phaseOffset aspect : f64) : res (map2d f64) :=
    do m <- makeMap2d width width;
    rfold (fun r '(yInt, xInt) => writeAt r yInt xInt (gaborAt width phi lambda phaseOffset aspect yInt xInt)) (grid 0 width 0 width) m.
End Kernel.

Section Similarity.
  Variable pow2 : f64 -> f64.
  (** mlutils.rs 46-52 *)
  Definition vecLen (v : list f64) : f64 := fsqrt (fold_left (fun acc x => fadd acc (pow2 x)) v f0).
  (** mlutils.rs 55-57 *)
  Definition calcCosineSim (a b : list f64) : res f64 :=
    do d <- vecDot a b; Ok (fdiv d (fmul (vecLen a) (vecLen b))).
End Similarity.
