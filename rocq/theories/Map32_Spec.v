(** Which maps can be addressed with i32. *)
From Coq Require Import ZArith.
From Verif Require Import Base Map_Model.
Local Open Scope Z_scope.

(** the map has fewer than 2^31 cells and the sizes are i32 *)
Definition small {T} (m : map2d T) : Prop := m_w m < 2 ^ 31 /\ m_h m < 2 ^ 31 /\ (0 <= m_w m -> 0 <= m_h m -> m_w m * m_h m < 2 ^ 31).
