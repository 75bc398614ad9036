(** Model of src/NarStamp.rs. A [Stamp] is its [ids] vector (NarStamp.rs 4-7);
    i64 ids are unbounded integers. *)
From Coq Require Import ZArith Bool List.
From Verif Require Import Base.
Import ListNotations.
Local Open Scope Z_scope.

Definition stamp := list Z.

(** NarStamp.rs 9-11 *)
Definition newStamp (ids : list Z) : stamp := ids.

(** NarStamp.rs 13-22 *)
Definition checkOverlap (a b : stamp) : bool :=
  existsb (fun ia => existsb (fun ib => Z.eqb ia ib) b) a.

(** NarStamp.rs 26-33: the loop takes one id of each stamp in turn, the two
    [extend] calls append the rests (one of which is empty). *)
Fixpoint interleave (a b : list Z) : list Z :=
  match a, b with
  | x :: a', y :: b' => x :: y :: interleave a' b'
  | a, b => a ++ b
  end.

(** NarStamp.rs 24-38 *)
Definition merge (a b : stamp) : stamp :=
  let ids := interleave a b in
  firstn (Nat.min (length ids) 120) ids.

(** NarStamp.rs 40-52 *)
Definition checkSame (a b : stamp) : bool :=
  if negb (Nat.eqb (length a) (length b)) then false
  else forallb2 Z.eqb a b.
