(** EnvPong3.rs and the percept of Reasoner1Entry.rs with their i64 arithmetic checked: an
    operation whose result is not an i64 panics, as in a debug build. (A release build
    wraps; where no operation leaves the range there is no difference.) The order of the
    operations is that of the code; literals and comparisons cannot leave the range. *)
From Coq Require Import String ZArith Bool.
From Verif Require Import Base Env_Model.
Local Open Scope Z_scope.

Definition in64 (z : Z) : bool := (- 2 ^ 63 <=? z) && (z <? 2 ^ 63).
Definition chk64 (z : Z) : res Z := if in64 z then Ok z else Panic.
(** EnvPong3.rs 52-176 *)
Definition simStep64 (e : pong) (r : draws) : res pong :=
  do t <- chk64 (time e + 1);
  let vx := if ballX e <=? 0 then 1 else vX e in
  do right <- chk64 (szX e - 1);
  let vx := if ballX e >=? right then -1 else vx in
  let vy := if ballY e <=? 0 then 1 else vY e in
  do top <- chk64 (szY e - 1);
  let vy := if ballY e >=? top then -1 else vy in
  do bx <- (if Z.rem t 2 =? 1 then chk64 (ballX e + vx) else Ok (ballX e));
  do p <- chk64 (vx * mulVX e);
  do bx <- chk64 (bx + p);
  do by_ <- chk64 (ballY e + vy);
  do '(h, m) <- (if by_ =? 0 then
      do d <- chk64 (bx - batX e);
      do a <- chk64 (Z.abs d);
      if a <=? batWidth e then do h <- chk64 (hits e + 1); Ok (h, misses e)
      else do m <- chk64 (misses e + 1); Ok (hits e, m)
    else Ok (hits e, misses e));
  do '(x, y, vx, sp) <- (if (by_ =? 0) || (bx =? 0) || (bx >=? right) then
      do q <- chk64 (Z.quot (szY e) 2);
      do y <- range q (d_y r);
      do y <- chk64 (q + y);
      do x <- range (szX e) (d_x r);
      do dir <- range 2 (d_dir r);
      Ok (x, y, (if dir =? 0 then 1 else -1), true)
    else Ok (bx, by_, vx, false));
  do w <- chk64 (szX e - 1);
  do w <- chk64 (w + batWidth e);
  do v <- chk64 (batVX e * batWidth e);
  do v <- chk64 (Z.quot v 2);
  do v <- chk64 (batX e + v);
  do b <- chk64 (batWidth e * 2);
  do _ <- chk64 (h + m);
  Ok (mkPong (szX e) (szY e) x y (Z.max b (Z.min w v)) (batVX e) (batWidth e) vx vy (mulVX e) h m t sp).
(** Reasoner1Entry.rs 51-63 *)
Definition percept64 (e : pong) : res string :=
  do diff <- chk64 (ballX e - batX e);
  do a <- chk64 (Z.abs diff);
  Ok (if a <=? batWidth e then "0-1-xc"%string else if diff <? 0 then "0-1-xl"%string else "0-1-xr"%string).
