(** C44 (tic-tac-toe) and C45 (Pong). *)
From Coq Require Import String Ascii List ZArith Bool Lia.
From Verif Require Import Base Env_Model Env_Spec Env_Proofs.
Import ListNotations.
Local Open Scope char_scope.
Local Open Scope list_scope.
Local Open Scope Z_scope.

(** * C44 *)
(** a move is accepted exactly on an empty cell, sets that cell to the player's
    mark and nothing else; it panics exactly outside of the board *)
Theorem c44_move : forall g i, length (g_field g) = 9%nat ->
  match tryMove g i with
  | Panic => i < 0 \/ 9 <= i
  | Ok (g', ok) => 0 <= i < 9 /\ g_player g' = g_player g /\ length (g_field g') = 9%nat /\
      (forall j, Z.of_nat j <> i -> nth_error (g_field g') j = nth_error (g_field g) j) /\
      if ok then nth_error (g_field g) (Z.to_nat i) = Some " " /\ nth_error (g_field g') (Z.to_nat i) = Some (if g_player g then "a" else "b")
      else g' = g /\ exists c, nth_error (g_field g) (Z.to_nat i) = Some c /\ c <> " "
  end.
Proof. exact tryMove_spec. Qed.
(** the winner reported owns a line, for every board; no winner is missed *)
Theorem c44_winner : forall f, length f = 9%nat ->
  exists w, winner f = Ok w /\ (forall p, w = Some p -> wins p f) /\ (w = None -> forall p, ~ wins p f).
Proof. exact winner_spec. Qed.
(** in legal play only the player who moved last can own a line, so the winner is unique *)
Theorem c44_unique : forall g, legal g -> forall q, wins q (g_field g) -> q = (if g_player g then "b" else "a").
Proof. exact legal_winner. Qed.
Theorem c44_counts : forall g, legal g -> length (g_field g) = 9%nat /\ (forall c, In c (g_field g) -> c = "a" \/ c = "b" \/ c = " ") /\
  marks "a" (g_field g) = (marks "b" (g_field g) + (if g_player g then 0 else 1))%nat.
Proof. exact legal_inv. Qed.
(** whatever moves are tried, a game is legal and ends as the rules say *)
Theorem c44_game : forall moves o, play newGame moves = Ok o ->
  match o with
  | Won c g => legal (mkGame (g_field g) (negb (g_player g))) /\ wins c (g_field g) /\ c = (if g_player g then "a" else "b") /\ (forall q, wins q (g_field g) -> q = c)
  | Drawn g => legal (mkGame (g_field g) (negb (g_player g))) /\ (forall q, ~ wins q (g_field g)) /\ full (g_field g)
  | Running g => legal g /\ (forall q, ~ wins q (g_field g)) /\ ~ full (g_field g)
  end.
Proof. intros moves o H. exact (play_spec moves newGame o going_new H). Qed.
(** nine rounds of attempts that each try every cell end the game *)
Theorem c44_ends : forall rounds, length rounds = 9%nat -> (forall r i, In r rounds -> 0 <= i < 9 -> In i r) -> (forall r m, In r rounds -> In m r -> 0 <= m < 9) ->
  exists c g, play newGame (concat rounds) = Ok (Won c g) \/ play newGame (concat rounds) = Ok (Drawn g).
Proof.
  intros rounds L Cv Rg. assert (E := play_ends rounds newGame going_new). specialize (E ltac:(rewrite L; apply Nat.le_refl)).
  specialize (E ltac:(apply Forall_forall; intros r Hr i Hi; now apply Cv)). specialize (E ltac:(intros m Hm; apply in_concat in Hm; destruct Hm as (r & Hr & Hm); eapply Rg; eauto)).
  destruct (play newGame (concat rounds)) as [[c g|g|g]|]; try contradiction; [exists c, g; auto|exists "a", g; auto].
Qed.
Theorem c44_no_panic : forall moves, (forall m, In m moves -> 0 <= m < 9) -> play newGame moves <> Panic.
Proof. intros moves H P. apply (play_panic _ _ going_new) in P. destruct P as (m & Hm & B). specialize (H m Hm). lia. Qed.
(** the reasoner is told different names for different boards *)
Theorem c44_stimulus : forall g h, legal g -> legal h -> retFieldAsString (g_field g) = retFieldAsString (g_field h) -> g_field g = g_field h.
Proof. intros g h G H. apply stimulus_inj; now apply legal_S. Qed.
Example c44_won_ex : play newGame [4; 4; 0; 2; 2; 1; 6] = Ok (Won "a" (mkGame ["b"; "b"; "a"; " "; "a"; " "; "a"; " "; " "] true)).
Proof. reflexivity. Qed.
Example c44_drawn_ex : play newGame [0; 1; 2; 4; 3; 5; 7; 6; 8] = Ok (Drawn (mkGame ["a"; "b"; "a"; "a"; "b"; "b"; "b"; "a"; "a"] true)).
Proof. reflexivity. Qed.
(** two lines at once *)
Example c44_two_ex : winner ["a"; "a"; "a"; "b"; "b"; "b"; " "; " "; " "] = Ok (Some "a") /\ winner ["a"; "b"; "a"; "a"; "b"; "a"; "a"; "b"; "a"] = Ok (Some "a").
Proof. split; reflexivity. Qed.

(** * C45 *)
(** the ball stays inside of the field for every sequence of operator calls and
    random numbers, for every field, as long as mulVX is 0 *)
Theorem c45_ball : forall e0 e, 2 <= szX e0 -> 2 <= szY e0 -> mulVX e0 = 0 -> 0 <= ballX e0 < szX e0 -> 1 <= ballY e0 < szY e0 -> vX e0 = 1 \/ vX e0 = -1 -> vY e0 = 1 \/ vY e0 = -1 ->
  pongRun e0 e -> 0 <= ballX e < szX e /\ 1 <= ballY e < szY e.
Proof.
  intros e0 e H1 H2 H3 H4 H5 H6 H7 R. assert (I : inside e) by (eapply run_inside; [|exact R]; split; auto). destruct I; auto.
Qed.
(** the bat stays between twice its width and one width beyond the right side *)
Theorem c45_bat : forall e, pongRun makePong e -> 12 <= batX e <= 55.
Proof. intros e R. destruct (run_bat makePong e ltac:(cbn; lia) R) as (W & X & B). cbn in W, X. rewrite W, X in B. cbn in B. lia. Qed.
Theorem c45_speed : forall e r e', pongRun makePong e -> simStep e r = Ok e' -> Z.abs (batX e' - batX e) <= 3.
Proof.
  intros e r e' R S. assert (B := run_bat makePong e ltac:(cbn; lia) R). destruct B as (W & X & B). cbn in W, X.
  assert (V : batVX e = 1 \/ batVX e = -1 \/ batVX e = 0).
  { clear - R. induction R as [|e o R IH|e r e' R IH S]; [cbn; auto|destruct o; cbn; auto|]. apply sim_fixed in S. destruct S as (_ & _ & -> & _). exact IH. }
  assert (Q := step_speed e r e' S ltac:(lia) V B). rewrite W in Q. exact Q.
Qed.
(** counters: at most one of them grows by one, only when the ball is put back into play *)
Theorem c45_score : forall e r e', simStep e r = Ok e' ->
  (hits e' = hits e /\ misses e' = misses e) \/ (spawned e' = true /\ ((hits e' = hits e + 1 /\ misses e' = misses e) \/ (hits e' = hits e /\ misses e' = misses e + 1))).
Proof. exact step_score. Qed.
Theorem c45_counters : forall e0 e, pongRun e0 e -> hits e0 <= hits e /\ misses e0 <= misses e /\ time e0 <= time e.
Proof. exact run_counters. Qed.
(** a landing is a hit exactly when the bat covers the column the ball has moved to *)
Theorem c45_hit : forall e r e', pongRun makePong e -> simStep e r = Ok e' -> ballY e = 1 -> vY e = -1 ->
  let x := if Z.odd (time e) then ballX e else if ballX e =? 0 then 1 else if ballX e =? 49 then 48 else ballX e + vX e in
  (Z.abs (x - batX e) <= 6 -> hits e' = hits e + 1 /\ misses e' = misses e) /\ (6 < Z.abs (x - batX e) -> hits e' = hits e /\ misses e' = misses e + 1).
Proof.
  intros e r e' R S Y V x. assert (I := run_inside _ _ make_inside R). assert (B := run_bat makePong e ltac:(cbn; lia) R). destruct B as (W & _). cbn in W. destruct I as [I1 I2 I3 I4 I5 I6 I7]. destruct (run_size _ R) as (Z1 & Z2 & Z3).
  apply sim_stepped in S. destruct S as [_ (vx & vy & bx & by_ & Vx & Vy & Bx & By & _ & Hh & Hm & _)].
  assert (by_ = 0) by (rewrite By, Vy, Y, V; destruct (1 >=? szY e - 1); reflexivity).
  assert (Ex : bx = x).
  { rewrite Bx, I3, rem_odd by lia. rewrite Z.add_1_r, Z.odd_succ, <- Z.negb_odd, Z.mul_0_r, Z.add_0_r. unfold x. destruct (Z.odd (time e)); [reflexivity|]. cbn [negb]. rewrite Vx, Z1, Z.geb_leb.
    destruct (Z.leb_spec (50 - 1) (ballX e)), (Z.leb_spec (ballX e) 0), (Z.eqb_spec (ballX e) 0), (Z.eqb_spec (ballX e) 49); lia. }
  rewrite Hh, Hm, H, W, Ex. cbn [Z.eqb andb].
  destruct (Z.leb_spec (Z.abs (x - batX e)) 6); cbn [negb]; split; intros; split; auto; lia.
Qed.
(** in flight the ball moves one row per step, and one column at every odd time *)
Theorem c45_flight : forall e k e', pongRun makePong e -> 1 <= ballX e <= 48 -> flight e k e' ->
  (vY e = -1 /\ ballY e <= 18 \/ vY e = 1 /\ ballY e + Z.of_nat k <= 19) ->
  ballY e' = ballY e + Z.of_nat k * vY e /\ ballX e' = ballX e + oddTimes (time e) k * vX e /\ vX e' = vX e /\ vY e' = vY e /\ time e' = time e + Z.of_nat k.
Proof. intros e k e' R X F Y. destruct (flight_spec e k e' R X F Y) as (T & Vx & Vy & By & Bx & _). auto. Qed.
(** it turns at the top *)
Theorem c45_top : forall e r e', pongRun makePong e -> simStep e r = Ok e' -> (ballY e = 19 -> vY e' = -1) /\ (ballY e <> 19 -> vY e' = vY e).
Proof.
  intros e r e' R S. assert (I := run_inside _ _ make_inside R). destruct I as [I1 I2 I3 I4 I5 I6 I7]. destruct (run_size _ R) as (Z1 & Z2 & Z3).
  apply sim_stepped in S. destruct S as [_ (vx & vy & bx & by_ & Vx & Vy & Bx & By & -> & _)]. rewrite Vy, Z2, Z.geb_leb.
  destruct (Z.leb_spec (20 - 1) (ballY e)); [split; lia|]. destruct (Z.leb_spec (ballY e) 0); split; lia.
Qed.
(** it is put back into play at the drawn place of the upper half when it comes to the
    bottom row or to one of the side columns, and then only *)
Theorem c45_spawn : forall e r e', pongRun makePong e -> simStep e r = Ok e' ->
  let x := if Z.odd (time e) then ballX e else if ballX e =? 0 then 1 else if ballX e =? 49 then 48 else ballX e + vX e in
  if (ballY e + vY e' =? 0) || (x =? 0) || (x =? 49) then spawned e' = true /\ ballX e' = d_x r /\ ballY e' = 10 + d_y r /\ vX e' = (if d_dir r =? 0 then 1 else -1)
  else spawned e' = false /\ ballX e' = x /\ ballY e' = ballY e + vY e'.
Proof.
  intros e r e' R S x. assert (I := run_inside _ _ make_inside R). destruct I as [I1 I2 I3 I4 I5 I6 I7]. destruct (run_size _ R) as (Z1 & Z2 & Z3). assert (Sp := spawn_spec e r e' S). rewrite Z2 in Sp.
  apply sim_stepped in S. destruct S as [_ (vx & vy & bx & by_ & Vx & Vy & Bx & By & Ey & _ & _ & C)].
  assert (Ex : bx = x).
  { rewrite Bx, I3, rem_odd by lia. rewrite Z.add_1_r, Z.odd_succ, <- Z.negb_odd, Z.mul_0_r, Z.add_0_r. unfold x. destruct (Z.odd (time e)); [reflexivity|]. cbn [negb]. rewrite Vx, Z1, Z.geb_leb.
    destruct (Z.leb_spec (50 - 1) (ballX e)), (Z.leb_spec (ballX e) 0), (Z.eqb_spec (ballX e) 0), (Z.eqb_spec (ballX e) 49); lia. }
  rewrite Ey, <- By, <- Ex, Z1 in *. assert (Le : bx <= 49) by (clear Sp C; rewrite Ex; unfold x; destruct (Z.odd (time e)); [lia|]; destruct (Z.eqb_spec (ballX e) 0); [lia|]; destruct (Z.eqb_spec (ballX e) 49); lia).
  destruct C as [(C0 & C & _)|(C0 & C1 & C2 & C3 & C4 & C5 & _)].
  - assert (E : (by_ =? 0) || (bx =? 0) || (bx =? 49) = true) by (rewrite !orb_true_iff, !Z.eqb_eq; lia). rewrite E. split; [exact C0|exact (Sp C0)].
  - assert (E : (by_ =? 0) || (bx =? 0) || (bx =? 49) = false) by (rewrite !orb_false_iff, !Z.eqb_neq; lia). rewrite E. auto.
Qed.
(** the bat moves three columns per step in the direction ordered last, up to its bounds *)
Theorem c45_moves : forall e o r e', pongRun makePong e -> simStep (callPong o e) r = Ok e' ->
  batX e' = Z.max 12 (Z.min 55 (match o with OpL => batX e + 3 | OpR => batX e - 3 end)).
Proof.
  intros e o r e' R S. assert (B := run_bat makePong e ltac:(cbn; lia) R). destruct B as (W & X & _). cbn in W, X. apply sim_stepped in S. destruct S as [S _]. rewrite S. cbn [callPong batWidth szX batX batVX]. rewrite W, X. destruct o; cbn [opDir]; [change (Z.quot (1 * 6) 2) with 3|change (Z.quot (-1 * 6) 2) with (-3)]; lia.
Qed.
(** at most one landing in ten steps *)
Theorem c45_pace : forall e, pongRun makePong e -> 10 * (hits e + misses e) <= time e.
Proof. exact run_paced. Qed.
Theorem c45_no_panic : forall e r, 0 <= d_y r < Z.quot (szY e) 2 -> 0 <= d_x r < szX e -> 0 <= d_dir r < 2 -> exists e', simStep e r = Ok e'.
Proof. exact sim_total. Qed.
Theorem c45_percept : forall e,
  (percept e = "0-1-xc"%string <-> Z.abs (ballX e - batX e) <= batWidth e) /\
  (0 <= batWidth e -> (percept e = "0-1-xl"%string <-> ballX e < batX e - batWidth e) /\ (percept e = "0-1-xr"%string <-> batX e + batWidth e < ballX e)).
Proof.
  intros e. unfold percept. destruct (Z.leb_spec (Z.abs (ballX e - batX e)) (batWidth e)); [|destruct (Z.ltb_spec (ballX e - batX e) 0)];
    (split; [split; [try discriminate; auto|try reflexivity; lia]|]); intros W; split; split; try discriminate; try reflexivity; lia.
Qed.

Fixpoint sim (e : pong) (l : list (option pongOp * draws)) : res pong :=
  match l with
  | [] => Ok e
  | (o, r) :: ls => do e' <- simStep (match o with Some o => callPong o e | None => e end) r; sim e' ls
  end.
Lemma sim_run : forall l e0 e e', pongRun e0 e -> sim e l = Ok e' -> pongRun e0 e'.
Proof.
  induction l as [|[o r] l IH]; intros e0 e e' R H; cbn [sim] in H; [injection H as <-; auto|]. destruct (simStep _ r) as [e1|] eqn:S; [|discriminate]. cbn [rbind] in H.
  apply (IH _ _ _ (pr_step _ _ _ _ (match o return pongRun e0 (match o with Some o => callPong o e | None => e end) with Some o => pr_op _ _ o R | None => R end) S) H).
Qed.
(** Finding: the bat leaves the field on the right. *)
Theorem c45_bat_refuted : exists e, pongRun makePong e /\ szX e <= batX e.
Proof.
  set (l := (Some OpL, mkDraws 0 20 0) :: repeat (None, mkDraws 0 20 0) 12).
  assert (E : match sim makePong l with Ok e => szX e <=? batX e = true | Panic => False end) by (vm_compute; reflexivity).
  destruct (sim makePong l) as [e|] eqn:S; [|destruct E]. exists e. split; [eapply sim_run; [apply pr_start|exact S]|]. now apply Z.leb_le.
Qed.
(** Finding: with a multiplier the ball leaves the field on the left. *)
Definition fast : pong := mkPong 50 20 25 4 20 0 6 1 1 1 0 0 0 false.
Theorem c45_mul_refuted : exists e, pongRun fast e /\ ballX e < 0.
Proof.
  set (l := repeat (@None pongOp, mkDraws 0 1 1) 17).
  assert (E : match sim fast l with Ok e => ballX e <? 0 = true | Panic => False end) by (vm_compute; reflexivity).
  destruct (sim fast l) as [e|] eqn:S; [|destruct E]. exists e. split; [eapply sim_run; [apply pr_start|exact S]|]. now apply Z.ltb_lt.
Qed.
(** Finding: the bat cannot reach the leftmost columns; a ball that comes down
    there is always missed, and such balls exist. *)
Theorem c45_left_refuted : (forall e r e', pongRun makePong e -> simStep e r = Ok e' -> ballX e <= 4 -> hits e' = hits e) /\
  exists e r e', pongRun makePong e /\ simStep e r = Ok e' /\ ballX e <= 4 /\ misses e' = misses e + 1.
Proof.
  split; [exact left_missed|]. set (l := (Some OpR, mkDraws 0 20 0) :: repeat (None, mkDraws 0 6 1) 42).
  assert (E : match sim makePong l with
    | Ok e => (ballX e <=? 4 = true) /\ match simStep e (mkDraws 0 1 1) with Ok e' => misses e' = misses e + 1 | Panic => False end
    | Panic => False end) by (vm_compute; split; reflexivity).
  destruct (sim makePong l) as [e|] eqn:S; [|destruct E]. destruct E as (E1 & E2). destruct (simStep e (mkDraws 0 1 1)) as [e'|] eqn:S2; [|destruct E2].
  exists e, (mkDraws 0 1 1), e'. split; [eapply sim_run; [apply pr_start|exact S]|]. split; [exact S2|]. split; [now apply Z.leb_le|exact E2].
Qed.
(** Finding: ^L moves the bat to the right and ^R to the left. *)
Theorem c45_names_refuted : forall e r e', pongRun makePong e ->
  (simStep (callPong OpL e) r = Ok e' -> batX e <= batX e') /\ (simStep (callPong OpR e) r = Ok e' -> batX e' <= batX e).
Proof.
  intros e r e' R. assert (B := run_bat makePong e ltac:(cbn; lia) R). destruct B as (W & X & B). cbn in W, X. rewrite W, X in B. cbn in B.
  split; intros S; apply sim_stepped in S; destruct S as [S _]; cbn [batWidth szX batX batVX callPong opDir] in S; rewrite W, X in S; change (Z.quot (1 * 6) 2) with 3 in S; change (Z.quot (-1 * 6) 2) with (-3) in S; lia.
Qed.
Example c45_ex : match sim makePong ((Some OpL, mkDraws 3 20 1) :: repeat (None, mkDraws 3 40 1) 46) with
  | Ok e => (ballX e, ballY e, batX e, hits e, misses e, time e) = (40, 13, 55, 0, 2, 47)
  | Panic => False
  end.
Proof. vm_compute. reflexivity. Qed.
Ltac fly n := match n with O => apply fl_start | S ?m => eapply (fl_step _ _ _ (mkDraws 0 0 0)); [fly m|vm_compute; reflexivity|reflexivity] end.
(** eight steps down from the top *)
Example c45_flight_ex : exists e k e', pongRun makePong e /\ vY e = -1 /\ flight e k e' /\ ballY e = 18 /\ ballY e' = 10 /\ ballX e' = ballX e + 4.
Proof.
  destruct (sim makePong (repeat (None, mkDraws 3 40 1) 16)) as [e|] eqn:E; [|vm_compute in E; discriminate E]. exists e, 8%nat. assert (R := sim_run _ _ _ _ (pr_start _) E). vm_compute in E. injection E as <-.
  eexists. split; [exact R|]. split; [reflexivity|]. split; [fly 8%nat|]. split; [reflexivity|]. split; reflexivity.
Qed.
Example c45_hit_ex : match sim makePong (repeat (None, mkDraws 3 25 1) 200) with Ok e => (hits e, misses e) = (12, 1) | Panic => False end.
Proof. vm_compute. reflexivity. Qed.

Print Assumptions c44_move. Print Assumptions c44_winner. Print Assumptions c44_unique. Print Assumptions c44_counts. Print Assumptions c44_game. Print Assumptions c44_ends. Print Assumptions c44_no_panic. Print Assumptions c44_stimulus.
Print Assumptions c45_ball. Print Assumptions c45_bat. Print Assumptions c45_speed. Print Assumptions c45_score. Print Assumptions c45_counters. Print Assumptions c45_hit. Print Assumptions c45_pace. Print Assumptions c45_no_panic.
Print Assumptions c45_flight. Print Assumptions c45_top. Print Assumptions c45_spawn. Print Assumptions c45_moves. Print Assumptions c45_percept. Print Assumptions c45_bat_refuted. Print Assumptions c45_mul_refuted. Print Assumptions c45_left_refuted. Print Assumptions c45_names_refuted.
