(** Model of the two game environments: ProcTicTacToe.rs (rules of the game and
    the game loop) and EnvPong3.rs with the operators and percepts of
    Reasoner1Entry.rs.

    Simplifications: printing, the reasoner's own steps between moves and the
    win/loss counters are left out; the moves the reasoner, the random opponent
    and the human make are an argument. [rng.gen_range] is an argument that is
    checked against its range; i64 does not overflow. *)
From Coq Require Import String Ascii List ZArith Bool Lia.
From Verif Require Import Base.
Import ListNotations.
Local Open Scope char_scope.
Local Open Scope list_scope.
Local Open Scope Z_scope.

(** * Tic-tac-toe *)
(** ProcTicTacToe.rs 19-22 *)
Record gamestate := mkGame { g_field : list ascii; g_player : bool }.
(** 99 *)
Definition newGame : gamestate := mkGame (repeat " " 9) true.
(** [v[i as usize]] with an i64: negative numbers become huge *)
Definition cell (f : list ascii) (i : Z) : res ascii := if i <? 0 then Panic else idx f (Z.to_nat i).
Fixpoint put {A} (i : nat) (x : A) (l : list A) : list A :=
  match l, i with
  | [], _ => []
  | _ :: r, O => x :: r
  | a :: r, S j => a :: put j x r
  end.
(** 369-379 *)
Definition tryMove (g : gamestate) (i : Z) : res (gamestate * bool) :=
  let sign := if g_player g then "a" else "b" in
  do c <- cell (g_field g) i;
  if negb (Ascii.eqb c " ") then Ok (g, false)
  else Ok (mkGame (put (Z.to_nat i) sign (g_field g)) (g_player g), true).
(** the test of 250, 258, 265, 268 for the cells [i], [j], [k] *)
Definition three (f : list ascii) (i j k : nat) : res (option ascii) :=
  do a <- idx f i;
  if Ascii.eqb a " " then Ok None else
  do b <- idx f j;
  if negb (Ascii.eqb a b) then Ok None else
  do c <- idx f k;
  if negb (Ascii.eqb b c) then Ok None else Ok (Some a).
Definition orElse {A} (x y : option A) : option A := match x with Some _ => x | None => y end.
(** the loops of 249-262: the first hit *)
Fixpoint firstHit (f : list ascii) (l : list (nat * nat * nat)) : res (option ascii) :=
  match l with
  | [] => Ok None
  | (i, j, k) :: r => do w <- three f i j k; match w with Some _ => Ok w | None => firstHit f r end
  end.
(** 246-270: later checks overwrite earlier ones *)
Definition winner (f : list ascii) : res (option ascii) :=
  do r <- firstHit f [(0, 1, 2); (3, 4, 5); (6, 7, 8)]%nat;
  do c <- firstHit f [(0, 3, 6); (1, 4, 7); (2, 5, 8)]%nat;
  do d1 <- three f 0 4 8;
  do d2 <- three f 2 4 6;
  Ok (orElse d2 (orElse d1 (orElse c r))).
(** 364-366 *)
Definition retFieldAsString (f : list ascii) : list ascii := map (fun c => if Ascii.eqb c " " then "S" else c) f.
(** 317 *)
Definition isDraw (f : list ascii) : bool := negb (existsb (Ascii.eqb "S") (retFieldAsString f)).

Inductive outcome := Won (c : ascii) (g : gamestate) | Drawn (g : gamestate) | Running (g : gamestate).
(** 110-344: the attempts at moves, in order, until the game is over; [Running]
    waits for further attempts *)
Fixpoint play (g : gamestate) (moves : list Z) : res outcome :=
  match moves with
  | [] => Ok (Running g)
  | m :: ms =>
      do '(g1, valid) <- tryMove g m;
      if negb valid then play g1 ms
      else
        do w <- winner (g_field g1);
        match w with
        | Some c => Ok (Won c g1)
        | None => if isDraw (g_field g1) then Ok (Drawn g1) else play (mkGame (g_field g1) (negb (g_player g1))) ms
        end
  end.

(** * Pong *)
(** EnvPong3.rs 6-25; verbosity only prints, virtualBatWidth is never read *)
Record pong := mkPong { szX : Z; szY : Z; ballX : Z; ballY : Z; batX : Z; batVX : Z; batWidth : Z; vX : Z; vY : Z; mulVX : Z; hits : Z; misses : Z; time : Z; spawned : bool }.
(** 27-49 *)
Definition makePong : pong := mkPong 50 20 25 4 20 0 6 1 1 0 0 0 0 false.
(** the numbers of the generator: gen_range(0..szY/2), gen_range(0..szX), gen_range(0..2) *)
Record draws := mkDraws { d_y : Z; d_x : Z; d_dir : Z }.
Definition range (hi : Z) (x : Z) : res Z := if (0 <=? x) && (x <? hi) then Ok x else Panic.
(** 52-176 *)
Definition simStep (e : pong) (r : draws) : res pong :=
  let t := time e + 1 in
  let vx := if ballX e <=? 0 then 1 else vX e in
  let vx := if ballX e >=? szX e - 1 then -1 else vx in
  let vy := if ballY e <=? 0 then 1 else vY e in
  let vy := if ballY e >=? szY e - 1 then -1 else vy in
  let bx := if Z.rem t 2 =? 1 then ballX e + vx else ballX e in
  let bx := bx + vx * mulVX e in
  let by_ := ballY e + vy in
  let land := by_ =? 0 in
  let good := Z.abs (bx - batX e) <=? batWidth e in
  let h := if land && good then hits e + 1 else hits e in
  let m := if land && negb good then misses e + 1 else misses e in
  let h0 := Z.min (szX e - 1 + batWidth e) (batX e + Z.quot (batVX e * batWidth e) 2) in
  let bat := Z.max (batWidth e * 2) h0 in
  if (by_ =? 0) || (bx =? 0) || (bx >=? szX e - 1) then
    do y <- range (Z.quot (szY e) 2) (d_y r);
    do x <- range (szX e) (d_x r);
    do dir <- range 2 (d_dir r);
    Ok (mkPong (szX e) (szY e) x (Z.quot (szY e) 2 + y) bat (batVX e) (batWidth e) (if dir =? 0 then 1 else -1) vy (mulVX e) h m t true)
  else Ok (mkPong (szX e) (szY e) bx by_ bat (batVX e) (batWidth e) vx vy (mulVX e) h m t false).
(** Reasoner1Entry.rs 31-41, 134-137: the two operators *)
Inductive pongOp := OpL | OpR.
Definition opDir (o : pongOp) : Z := match o with OpL => 1 | OpR => -1 end.
Definition callPong (o : pongOp) (e : pong) : pong :=
  mkPong (szX e) (szY e) (ballX e) (ballY e) (batX e) (opDir o) (batWidth e) (vX e) (vY e) (mulVX e) (hits e) (misses e) (time e) (spawned e).
(** Reasoner1Entry.rs 51-63: what the reasoner is told *)
Definition percept (e : pong) : string :=
  let diff := ballX e - batX e in
  if Z.abs diff <=? batWidth e then "0-1-xc" else if diff <? 0 then "0-1-xl" else "0-1-xr".
