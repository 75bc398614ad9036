(** C110: the integers of the Pong environment never leave their range. *)
From Coq Require Import String ZArith Bool Lia List.
From Verif Require Import Base Env_Model Env_Spec Env_Proofs Play_Model Play_Spec Play_Proofs Props_Play Ttt_Model Ttt_Spec Ttt_Proofs Ttt2_Proofs Props_Ttt Env64_Model Env64_Spec Env64_Proofs.
Import ListNotations.
Local Open Scope Z_scope.

(** Where no i64 operation leaves its range, the checked step and the unbounded one agree. In
    the game the program sets up this is so for the first 2^63 - 1 steps, whatever is drawn and
    whatever the operators do. *)
Theorem c110_same : forall e r, pongRun makePong e -> time e < 2 ^ 63 - 1 -> simStep64 e r = simStep e r /\ percept64 e = Ok (percept e).
Proof. intros e r R T. assert (M := room_run _ _ room_make R). split; [now apply room_same|now apply room_percept]. Qed.
(** The same for every other court, bat and score to begin with, up to sides of 2^61. *)
Theorem c110_courts : forall e0 e r,
  2 <= szX e0 <= 2 ^ 61 -> 2 <= szY e0 <= 2 ^ 61 -> 0 <= ballX e0 < szX e0 -> 1 <= ballY e0 < szY e0 -> Z.abs (vX e0) = 1 -> Z.abs (vY e0) = 1 -> mulVX e0 = 0 ->
  0 <= batWidth e0 <= 2 ^ 61 -> batWidth e0 * 2 <= batX e0 <= Z.max (batWidth e0 * 2) (szX e0 - 1 + batWidth e0) -> -1 <= batVX e0 <= 1 ->
  0 <= hits e0 -> 0 <= misses e0 -> hits e0 + misses e0 <= time e0 -> pongRun e0 e -> time e < 2 ^ 63 - 1 ->
  simStep64 e r = simStep e r /\ percept64 e = Ok (percept e).
Proof.
  intros e0 e r H1 H2 H3 H4 H5 H6 H7 H8 H9 H10 H11 H12 H13 R T. assert (M : room e). { apply (room_run e0); auto. constructor; auto; try apply H1; try apply H2. constructor; auto; lia. }
  split; [now apply room_same|now apply room_percept].
Qed.
(** In any state at all the checked step either panics or does what the unbounded one does. *)
Theorem c110_never_else : forall e r e', simStep64 e r = Ok e' -> simStep e r = Ok e'.
Proof. exact some_same. Qed.
(** What the checked step answers consists of 64-bit integers again, and so did the sums and
    products it took for the bat, the walls and the printed ratio. *)
Theorem c110_typed : forall e r e', typed e -> simStep64 e r = Ok e' ->
  typed e' /\ wide (hits e' + misses e') /\ wide (batVX e * batWidth e) /\ wide (batX e + Z.quot (batVX e * batWidth e) 2) /\
  wide (szX e - 1 + batWidth e) /\ wide (batWidth e * 2) /\ wide (szX e - 1) /\ wide (szY e - 1).
Proof. exact step_typed. Qed.
(** So the program "envPong3" (C108) never leaves the range of its integers. *)
Theorem c110_program : forall pf n q dr, played pf n q -> n * 3 < 2 ^ 63 ->
  simStep64 (q_env q) dr = simStep (q_env q) dr /\ percept64 (q_env q) = Ok (percept (q_env q)).
Proof.
  intros pf n q dr P L. destruct (c108_clock _ _ _ P L) as (R & T & _ & C). apply c110_same; auto. apply Z.le_lt_trans with 5001; [destruct (q_pc q); lia|now vm_compute].
Qed.
(** The counters of the program "envTTT2" (C109) grow no faster than the number of steps, and
    the number of games is never more than asked for. *)
Theorem c110_counters : forall pf mx n q, tplayed pf mx n q -> n * 10000 < 2 ^ 63 ->
  -1 <= u_games q <= Z.max (-1) mx /\ u_games q < n + 1 /\ 0 <= u_wins q /\ 0 <= u_losses q /\ u_wins q + u_losses q <= n.
Proof.
  intros pf mx n q P L. destruct (c109_tally _ _ _ _ P L) as (k & T & W & _). destruct (c109_tally_fun _ _ _ _ _ _ _ T L) as (K & _). assert (I := ttt_inv _ _ _ _ P L).
  destruct (ti_wins _ _ _ I) as (W1 & W2 & _). destruct (ti_games _ _ _ I) as (G & _).
  assert (B : forall n k a b q, tallied pf mx n k a b q -> k <= n). { clear. intros n k a b q T. induction T as [|n k a b q act q' k' a' b' T IH F E [(_ & _ & B)|(_ & B)] _ _]; lia. }
  apply B in T. lia.
Qed.
(** It is not so without the limits: a ball that is fast enough, or a clock at its end. *)
Definition racing : pong := mkPong 50 20 25 10 20 0 6 1 1 (2 ^ 63 - 10) 0 0 0 false.
Theorem c110_fast_refuted : (forall r, simStep64 racing r = Panic) /\ exists r e', simStep racing r = Ok e'.
Proof. split; [intros r; vm_compute; reflexivity|]. exists (mkDraws 0 0 0). eexists. vm_compute. reflexivity. Qed.
Theorem c110_clock_refuted : forall e r, time e = 2 ^ 63 - 1 -> simStep64 e r = Panic.
Proof. intros e r T. unfold simStep64. rewrite T. reflexivity. Qed.
(** the last step that can be taken *)
Example c110_ex : exists e, simStep64 (mkPong 50 20 25 1 20 1 6 1 (-1) 0 3 4 (2 ^ 63 - 2) false) (mkDraws 9 49 1) = Ok e /\
  e = mkPong 50 20 49 19 23 1 6 (-1) (-1) 0 4 4 (2 ^ 63 - 1) true.
Proof. eexists. split; [vm_compute; reflexivity|reflexivity]. Qed.
Example c110_large_ex : exists e', simStep64 (mkPong (2 ^ 61) (2 ^ 61) (2 ^ 61 - 2) 5 (2 ^ 62) 1 (2 ^ 61) 1 1 0 0 0 0 false) (mkDraws (2 ^ 60 - 1) 0 0) = Ok e' /\ ballY e' = 2 ^ 61 - 1.
Proof. eexists. split; [vm_compute; reflexivity|reflexivity]. Qed.
Print Assumptions c110_same.
Print Assumptions c110_courts.
Print Assumptions c110_never_else.
Print Assumptions c110_typed.
Print Assumptions c110_program.
Print Assumptions c110_counters.
Print Assumptions c110_fast_refuted.
Print Assumptions c110_clock_refuted.
