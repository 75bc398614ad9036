(** Pong in machine integers. *)
From Coq Require Import String ZArith Bool Lia.
From Verif Require Import Base Env_Model Env_Spec Env_Proofs Env64_Model Env64_Spec.
Local Open Scope Z_scope.

Lemma chk_ok : forall z, - 2 ^ 63 <= z < 2 ^ 63 -> chk64 z = Ok z.
Proof. intros z H. unfold chk64, in64. destruct (Z.leb_spec (- 2 ^ 63) z); [|lia]. destruct (Z.ltb_spec z (2 ^ 63)); [reflexivity|lia]. Qed.
Lemma chk_only : forall z x, chk64 z = Ok x -> x = z /\ - 2 ^ 63 <= z < 2 ^ 63.
Proof. intros z x. unfold chk64, in64. destruct (Z.leb_spec (- 2 ^ 63) z); destruct (Z.ltb_spec z (2 ^ 63)); cbn [andb]; intros X; try discriminate X. injection X as <-. lia. Qed.
(** a court that leaves room to compute *)
Record room (e : pong) : Prop := {
  ro_in : inside e;
  ro_szX : szX e <= 2 ^ 61;
  ro_szY : szY e <= 2 ^ 61;
  ro_width : 0 <= batWidth e <= 2 ^ 61;
  ro_bat : batWidth e * 2 <= batX e <= Z.max (batWidth e * 2) (szX e - 1 + batWidth e);
  ro_vx : -1 <= batVX e <= 1;
  ro_hits : 0 <= hits e;
  ro_misses : 0 <= misses e;
  ro_score : hits e + misses e <= time e
}.
Lemma room_run : forall e0 e, room e0 -> pongRun e0 e -> room e.
Proof.
  intros e0 e R H. induction H as [|e o H IH|e r e' H IH S]; auto.
  - destruct IH as [A1 A2 A3 A4 A5 A6 A7 A8 A9]. constructor; try assumption; [now apply inside_op|]. destruct o; cbn; lia.
  - destruct IH as [A1 A2 A3 A4 A5 A6 A7 A8 A9]. assert (F := sim_fixed _ _ _ S). destruct F as (F1 & F2 & F3 & F4 & F5 & F6). assert (Sc := step_score _ _ _ S).
    assert (I := inside_step _ _ _ A1 S). apply sim_stepped in S. destruct S as [S _]. constructor; rewrite ?F1, ?F2, ?F3, ?F4, ?F6; try assumption; try lia.
Qed.
Theorem room_same : forall e r, room e -> time e < 2 ^ 63 - 1 -> simStep64 e r = simStep e r.
Proof.
  intros e r [[I1 I2 I3 I4 I5 I6 I7] A2 A3 A4 A5 A6 A7 A8 A9] T. assert (Qy := quot2 _ I2).
  change (2 ^ 61) with 2305843009213693952 in *. assert (P63 : 2 ^ 63 = 9223372036854775808) by reflexivity.
  unfold simStep64, simStep. rewrite !I3.
  rewrite (chk_ok (time e + 1)) by lia. cbn [rbind]. rewrite (chk_ok (szX e - 1)) by lia. cbn [rbind]. rewrite (chk_ok (szY e - 1)) by lia. cbn [rbind].
  set (vx := if ballX e >=? szX e - 1 then -1 else if ballX e <=? 0 then 1 else vX e). set (vy := if ballY e >=? szY e - 1 then -1 else if ballY e <=? 0 then 1 else vY e).
  assert (Wx : vx = 1 \/ vx = -1) by (unfold vx; destruct (ballX e >=? szX e - 1); auto; destruct (ballX e <=? 0); auto).
  assert (Wy : vy = 1 \/ vy = -1) by (unfold vy; destruct (ballY e >=? szY e - 1); auto; destruct (ballY e <=? 0); auto).
  set (bx := if Z.rem (time e + 1) 2 =? 1 then ballX e + vx else ballX e).
  assert (Wb : -1 <= bx <= szX e) by (unfold bx; destruct (Z.rem (time e + 1) 2 =? 1); lia).
  replace (if Z.rem (time e + 1) 2 =? 1 then chk64 (ballX e + vx) else Ok (ballX e)) with (Ok bx) by (unfold bx; destruct (Z.rem (time e + 1) 2 =? 1); [rewrite chk_ok by lia|]; reflexivity).
  cbn [rbind]. rewrite (chk_ok (vx * 0)) by lia. cbn [rbind]. rewrite Z.mul_0_r, Z.add_0_r. rewrite (chk_ok bx) by lia. cbn [rbind]. rewrite (chk_ok (ballY e + vy)) by lia. cbn [rbind].
  set (good := Z.abs (bx - batX e) <=? batWidth e). set (land := ballY e + vy =? 0).
  assert (V : exists v, batVX e * batWidth e = v /\ - batWidth e <= v <= batWidth e) by (eexists; split; [reflexivity|]; assert (B : batVX e = -1 \/ batVX e = 0 \/ batVX e = 1) by lia; destruct B as [-> | [-> | ->]]; lia).
  destruct V as (v & -> & V). assert (Vq : - batWidth e <= Z.quot v 2 <= batWidth e) by (assert (E := Z.quot_rem v 2); assert (B := Z.rem_bound_abs v 2); lia).
  match goal with |- rbind ?x _ = _ => replace x with (Ok (if land && good then hits e + 1 else hits e, if land && negb good then misses e + 1 else misses e)) end.
  2:{ destruct land; [|reflexivity]. rewrite (chk_ok (bx - batX e)) by lia. cbn [rbind]. rewrite chk_ok by lia. cbn [rbind]. fold good. destruct good; cbn [andb negb]; rewrite chk_ok by lia; reflexivity. }
  cbn [rbind]. set (h := if land && good then hits e + 1 else hits e). set (m := if land && negb good then misses e + 1 else misses e).
  assert (Hm : 0 <= h + m <= time e + 1) by (unfold h, m; destruct land, good; cbn [andb negb]; lia).
  assert (C : forall x y vx' sp, (do w <- chk64 (szX e - 1 + batWidth e); do v0 <- chk64 v; do v1 <- chk64 (Z.quot v0 2); do v2 <- chk64 (batX e + v1); do b <- chk64 (batWidth e * 2); do _ <- chk64 (h + m);
    Ok (mkPong (szX e) (szY e) x y (Z.max b (Z.min w v2)) (batVX e) (batWidth e) vx' vy 0 h m (time e + 1) sp))
    = Ok (mkPong (szX e) (szY e) x y (Z.max (batWidth e * 2) (Z.min (szX e - 1 + batWidth e) (batX e + Z.quot v 2))) (batVX e) (batWidth e) vx' vy 0 h m (time e + 1) sp)).
  { intros. rewrite (chk_ok (szX e - 1 + batWidth e)) by lia. cbn [rbind]. rewrite (chk_ok v) by lia. cbn [rbind]. rewrite (chk_ok (Z.quot v 2)) by lia. cbn [rbind].
    rewrite (chk_ok (batX e + _)) by lia. cbn [rbind]. rewrite (chk_ok (batWidth e * 2)) by lia. cbn [rbind]. rewrite (chk_ok (h + m)) by lia. reflexivity. }
  destruct (land || (bx =? 0) || (bx >=? szX e - 1)).
  - rewrite (chk_ok (Z.quot (szY e) 2)) by lia. cbn [rbind]. unfold range at 1 4. destruct (Z.leb_spec 0 (d_y r)); [|reflexivity]. destruct (Z.ltb_spec (d_y r) (Z.quot (szY e) 2)); [|reflexivity]. cbn [andb rbind].
    rewrite (chk_ok (_ + d_y r)) by lia. cbn [rbind]. destruct (range (szX e) (d_x r)) as [x|]; [|reflexivity]. cbn [rbind]. destruct (range 2 (d_dir r)) as [dir|]; [|reflexivity]. cbn [rbind]. apply C.
  - cbn [rbind]. apply C.
Qed.
Theorem room_percept : forall e, room e -> percept64 e = Ok (percept e).
Proof.
  intros e [[I1 I2 I3 I4 I5 I6 I7] A2 A3 A4 A5 A6 A7 A8 A9]. change (2 ^ 61) with 2305843009213693952 in *. assert (P63 : 2 ^ 63 = 9223372036854775808) by reflexivity.
  unfold percept64, percept. rewrite (chk_ok (ballX e - batX e)) by lia. cbn [rbind]. rewrite chk_ok by lia. reflexivity.
Qed.
Lemma room_make : room makePong.
Proof. constructor; try (cbn; lia). apply make_inside. Qed.
(** whatever the state: an answer is the same answer *)
Theorem some_same : forall e r e', simStep64 e r = Ok e' -> simStep e r = Ok e'.
Proof.
  intros e r e' H. unfold simStep64 in H.
  assert (K : forall A (z : Z) (f : Z -> res A) x, rbind (chk64 z) f = Ok x -> f z = Ok x).
  { intros A z f x. destruct (chk64 z) as [y|] eqn:E; cbn [rbind]; [|intros X; discriminate X]. destruct (chk_only _ _ E) as (-> & _). auto. }
  unfold simStep. do 3 apply K in H.
  set (vx := if ballX e >=? szX e - 1 then -1 else if ballX e <=? 0 then 1 else vX e) in *. set (vy := if ballY e >=? szY e - 1 then -1 else if ballY e <=? 0 then 1 else vY e) in *.
  set (bx := if Z.rem (time e + 1) 2 =? 1 then ballX e + vx else ballX e).
  match type of H with rbind ?x _ = _ => destruct x as [b|] eqn:B; cbn [rbind] in H; [|discriminate H] end.
  assert (Eb : b = bx). { unfold bx. destruct (Z.rem (time e + 1) 2 =? 1); [destruct (chk_only _ _ B); auto|injection B as <-; reflexivity]. } subst b. clear B.
  do 3 apply K in H. set (good := Z.abs (bx + vx * mulVX e - batX e) <=? batWidth e) in *. set (land := ballY e + vy =? 0) in *.
  match type of H with rbind ?x _ = _ => destruct x as [[h m]|] eqn:B; cbn [rbind] in H; [|discriminate H] end.
  assert (Eh : h = (if land && good then hits e + 1 else hits e) /\ m = (if land && negb good then misses e + 1 else misses e)).
  { destruct land; cbn [andb]; [|injection B as <- <-; auto]. do 2 apply K in B. fold good in B. destruct good; apply K in B; injection B as <- <-; auto. }
  destruct Eh as (<- & <-). clear B.
  destruct (land || (bx + vx * mulVX e =? 0) || (bx + vx * mulVX e >=? szX e - 1)).
  - match type of H with rbind ?t _ = _ => destruct t as [[[[x y] vx'] sp]|] eqn:B; cbn [rbind] in H; [|discriminate H] end. apply K in B.
    destruct (range (Z.quot (szY e) 2) (d_y r)) as [y0|]; cbn [rbind] in *; [|discriminate B]. apply K in B.
    destruct (range (szX e) (d_x r)) as [x0|]; cbn [rbind] in *; [|discriminate B]. destruct (range 2 (d_dir r)) as [dir|]; cbn [rbind] in *; [|discriminate B]. injection B as <- <- <- <-.
    do 7 apply K in H. exact H.
  - cbn [rbind] in H. do 7 apply K in H. exact H.
Qed.
Theorem step_typed : forall e r e', typed e -> simStep64 e r = Ok e' ->
  typed e' /\ wide (hits e' + misses e') /\ wide (batVX e * batWidth e) /\ wide (batX e + Z.quot (batVX e * batWidth e) 2) /\ wide (szX e - 1 + batWidth e) /\ wide (batWidth e * 2) /\ wide (szX e - 1) /\ wide (szY e - 1).
Proof.
  intros e r e' (T1 & T2 & T3 & T4 & T5 & T6 & T7 & T8 & T9 & T10 & T11 & T12 & T13) H. unfold simStep64 in H.
  assert (K : forall A (z : Z) (f : Z -> res A) x, rbind (chk64 z) f = Ok x -> wide z /\ f z = Ok x).
  { intros A z f x. destruct (chk64 z) as [y|] eqn:E; cbn [rbind]; [|intros X; discriminate X]. destruct (chk_only _ _ E) as (-> & B). auto. }
  assert (One : wide 1 /\ wide (-1)) by (unfold wide; lia). destruct One as (W1 & W2).
  apply K in H. destruct H as (Wt & H). apply K in H. destruct H as (Wx & H). apply K in H. destruct H as (Wy & H).
  set (vx := if ballX e >=? szX e - 1 then -1 else if ballX e <=? 0 then 1 else vX e) in *. set (vy := if ballY e >=? szY e - 1 then -1 else if ballY e <=? 0 then 1 else vY e) in *.
  assert (Vx : wide vx) by (unfold vx; destruct (ballX e >=? szX e - 1); auto; destruct (ballX e <=? 0); auto).
  assert (Vy : wide vy) by (unfold vy; destruct (ballY e >=? szY e - 1); auto; destruct (ballY e <=? 0); auto).
  match type of H with rbind ?t _ = _ => destruct t as [b|] eqn:B; cbn [rbind] in H; [|discriminate H] end.
  apply K in H. destruct H as (_ & H). apply K in H. destruct H as (Wb & H). apply K in H. destruct H as (Wby & H).
  match type of H with rbind ?t _ = _ => destruct t as [[h m]|] eqn:Bh; cbn [rbind] in H; [|discriminate H] end.
  assert (Hm : wide h /\ wide m).
  { destruct (ballY e + vy =? 0); [|injection Bh as <- <-; auto]. apply K in Bh. destruct Bh as (_ & Bh). apply K in Bh. destruct Bh as (_ & Bh).
    destruct (_ <=? batWidth e); apply K in Bh; destruct Bh as (Bw & Bh); injection Bh as <- <-; auto. }
  destruct Hm as (Hh & Hm).
  match type of H with rbind ?t _ = _ => destruct t as [[[[x y] vx'] sp]|] eqn:Bs; cbn [rbind] in H; [|discriminate H] end.
  assert (Xy : wide x /\ wide y /\ wide vx').
  { match type of Bs with (if ?c then _ else _) = _ => destruct c end; [|injection Bs as <- <- <- <-; auto]. apply K in Bs. destruct Bs as (_ & Bs).
    destruct (range (Z.quot (szY e) 2) (d_y r)) as [y0|]; cbn [rbind] in *; [|discriminate Bs]. apply K in Bs. destruct Bs as (Wy0 & Bs).
    destruct (range (szX e) (d_x r)) as [x0|] eqn:R; cbn [rbind] in *; [|discriminate Bs]. destruct (range 2 (d_dir r)) as [dir|]; cbn [rbind] in *; [|discriminate Bs]. injection Bs as <- <- <- <-.
    split; [|split; [auto|destruct (dir =? 0); auto]]. unfold range in R. destruct (Z.leb_spec 0 (d_x r)); [|discriminate R]. destruct (Z.ltb_spec (d_x r) (szX e)); [|discriminate R]. injection R as <-. unfold wide in *. lia. }
  destruct Xy as (Xx & Xy & Xv).
  apply K in H. destruct H as (_ & H). apply K in H. destruct H as (Q1 & H). apply K in H. destruct H as (Q2 & H). apply K in H. destruct H as (_ & H). apply K in H. destruct H as (Q3 & H).
  apply K in H. destruct H as (Q4 & H). apply K in H. destruct H as (Q5 & H). injection H as <-. unfold typed. cbn [szX szY ballX ballY batX batVX batWidth vX vY mulVX hits misses time].
  assert (Wm : wide (Z.max (batWidth e * 2) (Z.min (szX e - 1 + batWidth e) (batX e + Z.quot (batVX e * batWidth e) 2)))) by (unfold wide in *; lia).
  auto 30.
Qed.
