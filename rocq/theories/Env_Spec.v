(** The rules of the two games, written without the model's functions. *)
From Coq Require Import String Ascii List ZArith Bool Lia.
From Verif Require Import Base Env_Model.
Import ListNotations.
Local Open Scope char_scope.
Local Open Scope list_scope.
Local Open Scope nat_scope.

(** * Tic-tac-toe *)
(** the cell in row [r] and column [c] *)
Definition at_ (f : list ascii) (r c : nat) : option ascii := nth_error f (3 * r + c).
(** player [p] owns a row, a column or a diagonal *)
Definition wins (p : ascii) (f : list ascii) : Prop :=
  p <> " " /\ ((exists r, r < 3 /\ forall c, c < 3 -> at_ f r c = Some p) \/
   (exists c, c < 3 /\ forall r, r < 3 -> at_ f r c = Some p) \/
   (forall i, i < 3 -> at_ f i i = Some p) \/ (forall i, i < 3 -> at_ f i (2 - i) = Some p)).
Definition full (f : list ascii) : Prop := ~ In " " f.
Definition marks (p : ascii) (f : list ascii) : nat := count_occ ascii_dec f p.
(** positions that legal play reaches; [player] is to move *)
Inductive legal : gamestate -> Prop :=
| lg_new : legal newGame
| lg_move : forall f p i f', legal (mkGame f p) -> (forall q, ~ wins q f) -> i < 9 -> nth_error f i = Some " " ->
    length f' = length f -> nth_error f' i = Some (if p : bool then "a" else "b") -> (forall j, j <> i -> nth_error f' j = nth_error f j) ->
    legal (mkGame f' (negb p)).

(** * Pong *)
Local Open Scope Z_scope.
(** steps of the simulation with calls of the operators in between *)
Inductive pongRun (e0 : pong) : pong -> Prop :=
| pr_start : pongRun e0 e0
| pr_op : forall e o, pongRun e0 e -> pongRun e0 (callPong o e)
| pr_step : forall e r e', pongRun e0 e -> simStep e r = Ok e' -> pongRun e0 e'.
(** [k] steps, with calls of the operators in between, in which the ball is never put back
    into play *)
Inductive flight (e0 : pong) : nat -> pong -> Prop :=
| fl_start : flight e0 0 e0
| fl_op : forall k e o, flight e0 k e -> flight e0 k (callPong o e)
| fl_step : forall k e r e', flight e0 k e -> simStep e r = Ok e' -> spawned e' = false -> flight e0 (S k) e'.
(** how many of the times [t+1..t+k] are odd *)
Definition oddTimes (t : Z) (k : nat) : Z := Z.of_nat (length (filter (fun i => Z.odd (t + Z.of_nat i)) (seq 1 k))).
