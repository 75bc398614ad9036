(** Runs of the program "envTTT2". *)
From Coq Require Import String Ascii ZArith List.
From Verif Require Import Base F64_Model Term_Model Tv_Spec Proc_Model ProcS_Model ProcX_Model Parser_Model Env_Model Env_Spec Ttt_Model.
Import ListNotations.
Local Open Scope Z_scope.

(** the numbers drawn: goals lose value with age, the opponent draws a cell, the names of
    introduced variables can be made *)
Definition fairTurn (a : tact) : Prop :=
  match a with
  | BMain _ r opp _ _ => (forall z, 0 <= z -> unit64 (i_decay r z)) /\ 0 <= opp < 9
  | BWork draws => forall d, In d (firstn 24 draws) -> Nat.modulo d 16 <> 15%nat
  end.
(** the states after [n] steps of the two threads *)
Inductive tplayed (pf : text -> option f64) (maxEpochs : Z) : Z -> ttt -> Prop :=
| tp_start : tplayed pf maxEpochs 0 tttStart
| tp_step : forall n q a q', tplayed pf maxEpochs n q -> fairTurn a -> tttStep pf maxEpochs a q = Ok (Some q') -> tplayed pf maxEpochs (n + 1) q'.
(** the game is over: the main thread is between two games or lets the reasoner think about
    its win *)
Definition gameOver (pc : tpc) : bool :=
  match pc with
  | TEpoch | TDone | THalf0 (Rest true _) | TIn0 (Rest true _) | THalf1 (Rest true _) => true
  | _ => false
  end.
(** what somebody who watches the boards counts: the games begun, and the finished moves
    after which a player owns a line *)
Definition moved (q q' : ttt) : Prop := u_pc q = TCheck /\ u_pc q' <> TCheck.
Definition scores (p : ascii) (q q' : ttt) (k k' : Z) : Prop :=
  (moved q q' /\ wins p (g_field (u_game q)) /\ k' = k + 1) \/ (~ (moved q q' /\ wins p (g_field (u_game q))) /\ k' = k).
Definition begins (q q' : ttt) (k k' : Z) : Prop :=
  (u_pc q = TEpoch /\ u_pc q' = TTurn /\ k' = k + 1) \/ (~ (u_pc q = TEpoch /\ u_pc q' = TTurn) /\ k' = k).
Inductive tallied (pf : text -> option f64) (maxEpochs : Z) : Z -> Z -> Z -> Z -> ttt -> Prop :=
| ta_start : tallied pf maxEpochs 0 0 0 0 tttStart
| ta_step : forall n k a b q act q' k' a' b', tallied pf maxEpochs n k a b q -> fairTurn act -> tttStep pf maxEpochs act q = Ok (Some q') ->
    begins q q' k k' -> scores "a" q q' a a' -> scores "b" q q' b b' -> tallied pf maxEpochs (n + 1) k' a' b' q'.
(** the board as the reasoner reads it: row by row, S for an empty cell *)
Definition readsAs (f : list ascii) (s : string) : Prop :=
  String.length s = length f /\ forall i c, nth_error f i = Some c -> String.get i s = Some (if ascii_dec c " " then "S"%char else c).
(** the reasoner watches: it is given time, but no move is expected *)
Definition watching (pc : tpc) : Prop :=
  exists w, (pc = THalf0 w \/ pc = TIn0 w \/ pc = THalf1 w) /\ (w = See \/ exists won k, w = Rest won k).
(** steps of the two threads during which it watches *)
Inductive watches (pf : text -> option f64) (maxEpochs : Z) (q0 : ttt) : ttt -> Prop :=
| wa_start : watches pf maxEpochs q0 q0
| wa_step : forall q a q', watches pf maxEpochs q0 q -> watching (u_pc q) -> tttStep pf maxEpochs a q = Ok (Some q') -> watches pf maxEpochs q0 q'.
