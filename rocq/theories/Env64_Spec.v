(** Machine integers. *)
From Coq Require Import ZArith.
From Verif Require Import Base Env_Model.
Local Open Scope Z_scope.

(** the values of an i64, and the environments whose fields are such values *)
Definition wide (z : Z) : Prop := - 2 ^ 63 <= z < 2 ^ 63.
Definition typed (e : pong) : Prop :=
  wide (szX e) /\ wide (szY e) /\ wide (ballX e) /\ wide (ballY e) /\ wide (batX e) /\ wide (batVX e) /\ wide (batWidth e) /\ wide (vX e) /\ wide (vY e) /\ wide (mulVX e) /\
  wide (hits e) /\ wide (misses e) /\ wide (time e).
