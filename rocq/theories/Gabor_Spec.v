(** What is asked of the mathematical library, and what a kernel should look like. *)
From Coq Require Import List ZArith Bool Reals Floats.SpecFloat.
From Flocq Require Import Core.
From Verif Require Import Base F64_Model F64_Proofs Map_Model Map_Spec.
Local Open Scope Z_scope.

(** a number from -1 to 1 *)
Definition unitBall (x : f64) : Prop := ffin x /\ (Rabs (fval x) <= 1)%R.
(** the cosine and the sine of a number lie between -1 and 1 *)
Definition wave (f : f64 -> f64) : Prop := forall x, ffin x -> unitBall (f x).
(** the exponential of a number that is not positive lies between 0 and 1 *)
Definition decay (f : f64 -> f64) : Prop := forall x, ffin x -> (fval x <= 0)%R -> in01 (f x).
(** the cosine does not see the sign *)
Definition evenFun (f : f64 -> f64) : Prop := forall x, f (fneg x) = f x.
(** a reasonable size: not zero, not huge, not tiny *)
Definition sane (x : f64) : Prop := ffin x /\ (bpow radix2 (-100) <= Rabs (fval x) <= bpow radix2 100)%R.
Definition notHuge (x : f64) : Prop := ffin x /\ (Rabs (fval x) <= bpow radix2 100)%R.
(** a sum of squares cannot be below zero; NaN is possible *)
Definition notNegative (x : f64) : Prop := fltb x f0 = false.
(** opposite numbers; zeros of any sign are opposite *)
Definition isZero (a : f64) : bool := match a with S754_zero _ => true | _ => false end.
Definition mirror (a b : f64) : Prop := b = fneg a \/ isZero a = true /\ isZero b = true.
