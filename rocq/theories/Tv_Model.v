(** Model of src/Tv.rs. The formulas are written once over an abstract
    arithmetic and then instantiated twice: with IEEE binary64 (what the program
    computes) and with exact rationals (used to state the algebraic laws that
    rounding destroys). *)
From Coq Require Import ZArith QArith Qabs Bool List.
From Verif Require Import Base F64_Model.

(** Operations and literals used by Tv.rs. *)
Record arith (F : Type) := mkArith {
  A0 : F; A1 : F; Ahalf : F; Aeps : F;
  Aadd : F -> F -> F; Asub : F -> F -> F; Amul : F -> F -> F; Adiv : F -> F -> F;
  Aabs : F -> F; Altb : F -> F -> bool; Aleb : F -> F -> bool
}.
Arguments A0 {F} _. Arguments A1 {F} _. Arguments Ahalf {F} _. Arguments Aeps {F} _.
Arguments Aadd {F} _ _ _. Arguments Asub {F} _ _ _. Arguments Amul {F} _ _ _. Arguments Adiv {F} _ _ _.
Arguments Aabs {F} _ _. Arguments Altb {F} _ _ _. Arguments Aleb {F} _ _ _.

(** Tv.rs 1-5 *)
Record gtv (F : Type) := mkTv { tvf : F; tvc : F }.
Arguments mkTv {F} _ _. Arguments tvf {F} _. Arguments tvc {F} _.

Section Formulas.
  Context {F : Type} (A : arith F).
  Notation "x + y" := (Aadd A x y).
  Notation "x - y" := (Asub A x y).
  Notation "x * y" := (Amul A x y).
  Notation "x / y" := (Adiv A x y).
  Let tv := gtv F.

  (** Tv.rs 7-9 *)
  Definition g_calcExp (t : tv) : F := tvc t * (tvf t - Ahalf A) + Ahalf A.
  (** Tv.rs 11-15 *)
  Definition g_ded (a b : tv) : tv :=
    let f := tvf a * tvf b in
    let c := tvc a * tvc b * f in mkTv f c.
  (** Tv.rs 61-63 *)
  Definition g_neg (a : tv) : tv := mkTv (A1 A - tvf a) (tvc a).
  (** Tv.rs 21-25 *)
  Definition g_dedGoal (a b : tv) : tv :=
    let res1 := g_ded a b in
    let res2 := g_neg (g_ded (g_neg a) b) in
    if Aleb A (tvc res2) (tvc res1) then res1 else res2.
  (** Tv.rs 65-68 *)
  Definition g_w2c (w : F) : F := w / (w + A1 A).
  (** Tv.rs 70-73 *)
  Definition g_c2w (c : F) : F := A1 A * c / (A1 A - c).
  (** Tv.rs 75-77 *)
  Definition g_or (a b : F) : F := A1 A - (A1 A - a) * (A1 A - b).
  (** Tv.rs 27-32 *)
  Definition g_abd (a b : tv) : tv :=
    let w := tvf b * tvc a * tvc b in mkTv (tvf a) (g_w2c w).
  (** Tv.rs 34-36 *)
  Definition g_ind (a b : tv) : tv := g_abd b a.
  (** Tv.rs 38-48 *)
  Definition g_rev (a b : tv) : tv :=
    let w1 := g_c2w (tvc a) in
    let w2 := g_c2w (tvc b) in
    let w := w1 + w2 in
    let f := if Altb A (A0 A) w then (w1 * tvf a + w2 * tvf b) / w else A0 A in
    mkTv f (g_w2c w).
  (** Tv.rs 50-55 *)
  Definition g_comp (a b : tv) : tv :=
    let f0 := g_or (tvf a) (tvf b) in
    let f := if Altb A (Aabs A f0) (Aeps A) then A0 A else (tvf a * tvf b) / f0 in
    mkTv f (g_w2c (f0 * tvc a * tvc b)).
  (** Tv.rs 58-60 *)
  Definition g_int (a b : tv) : tv := mkTv (tvf a * tvf b) (tvc a * tvc b).
End Formulas.

(** binary64 instance *)
Definition f_eps : f64 := f_frac 1 100000000.
Definition f64_arith : arith f64 :=
  mkArith f64 f0 f1 f05 f_eps fadd fsub fmul fdiv fabs fltb fleb.
Definition tv := gtv f64.
Definition calcExp : tv -> f64 := g_calcExp f64_arith.
Definition ded : tv -> tv -> tv := g_ded f64_arith.
Definition dedGoal : tv -> tv -> tv := g_dedGoal f64_arith.
Definition abd : tv -> tv -> tv := g_abd f64_arith.
Definition ind : tv -> tv -> tv := g_ind f64_arith.
Definition rev : tv -> tv -> tv := g_rev f64_arith.
Definition comp : tv -> tv -> tv := g_comp f64_arith.
Definition int : tv -> tv -> tv := g_int f64_arith.
Definition neg : tv -> tv := g_neg f64_arith.
Definition w2c : f64 -> f64 := g_w2c f64_arith.
Definition c2w : f64 -> f64 := g_c2w f64_arith.
Definition f_or : f64 -> f64 -> f64 := g_or f64_arith.

(** exact instance *)
Definition Q_ltb (a b : Q) : bool := negb (Qle_bool b a).
Definition Q_arith : arith Q :=
  mkArith Q 0%Q 1%Q (1 # 2)%Q (1 # 100000000)%Q Qplus Qminus Qmult Qdiv Qabs Q_ltb Qle_bool.
Definition qtv := gtv Q.
