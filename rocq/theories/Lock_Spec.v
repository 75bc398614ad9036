(** What it means that threads wait for each other. *)
From Coq Require Import Arith Bool List Relations.
From Verif Require Import Base Lock_Model.
Import ListNotations.
Local Open Scope list_scope.
Local Open Scope nat_scope.

Definition threadAt (st : locks) (i : nat) (t : thread) : Prop := nth_error (k_threads st) i = Some t.
(** a lock is held by a thread that has it still to give back *)
Definition has (t : thread) (m : mode) (l : lock) : Prop := In (Drop m l) (th_todo t).
(** the next thing it does is taking a lock *)
Definition wants (t : thread) (m : mode) (l : lock) : Prop := exists c k, th_todo t = Do (Guard m l c) :: k.
Definition compatible (m m' : mode) : Prop := m = Rd /\ m' = Rd.
(** the thread that takes the messages *)
Definition taker (k : chan) : nat := match k with CDerive => 1 | CStore => 2 end.

(** Thread [i] cannot go on before thread [j] has done something. *)
Inductive waitsFor (st : locks) (i j : nat) : Prop :=
| wf_held t u m m' l : threadAt st i t -> threadAt st j u -> wants t m l -> (m = Wr -> th_waits t = true) -> has u m' l -> ~ compatible m m' ->
    waitsFor st i j
| wf_fair t u l : threadAt st i t -> threadAt st j u -> i <> j -> wants t Rd l -> wants u Wr l -> th_waits u = true -> waitsFor st i j
| wf_full t k r : threadAt st i t -> th_todo t = Do (Send k) :: r -> chanRoom <= queued k st -> j = taker k -> waitsFor st i j.
(** [i] waits for a thread that waits for a thread ... that waits for [j] *)
Definition waitsChain (st : locks) : nat -> nat -> Prop := clos_trans nat (waitsFor st).

Definition canMove (st : locks) (i : nat) : Prop := exists n st', lmove st i n = Some st'.
(** it waits for the next line, or for a message and there is none *)
Definition atRest (st : locks) (i : nat) : Prop :=
  exists t c k, threadAt st i t /\ (th_todo t = Do (Listen c) :: k \/ exists q, th_todo t = Do (Serve q c) :: k /\ queued q st = 0).

(** the states the threads can get into *)
Inductive reachL (line : code) (clients : nat) : locks -> Prop :=
| rl_start : reachL line clients (startL line clients)
| rl_move st st' i n : reachL line clients st -> lmove st i n = Some st' -> reachL line clients st'.
(** any number of moves *)
Inductive runs : locks -> locks -> Prop :=
| runs_refl st : runs st st
| runs_step st st1 st2 i n : lmove st i n = Some st1 -> runs st1 st2 -> runs st st2.
