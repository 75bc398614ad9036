(** Specification vocabulary for truth values. *)
From Coq Require Import ZArith QArith Bool.
From Coq Require Import Floats.SpecFloat.
From Verif Require Import F64_Model Tv_Model.

(** a genuine double (canonical representation) between 0.0 and 1.0 *)
Definition unit64 (x : f64) : Prop :=
  SpecFloat.valid_binary 53 1024 x = true /\ fleb f0 x = true /\ fleb x f1 = true.
Definition tvInRange (t : tv) : Prop := unit64 (tvf t) /\ unit64 (tvc t).
(** strictly below full confidence *)
Definition uncertain (t : tv) : Prop := fltb (tvc t) f1 = true.

Definition unitQ (x : Q) : Prop := (0 <= x)%Q /\ (x <= 1)%Q.
Definition qInRange (t : qtv) : Prop := unitQ (tvf t) /\ unitQ (tvc t).
Definition qeqv (a b : qtv) : Prop := (tvf a == tvf b)%Q /\ (tvc a == tvc b)%Q.
