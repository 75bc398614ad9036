(** C115: before it has won, the program "envTTT2" makes its moves by chance. *)
From Coq Require Import String Ascii ZArith Bool Lia List.
From Verif Require Import Base F64_Model Term_Model Tv_Model Sentence_Model PMem_Model Goal_Model Goal_Spec Proc_Model Proc_Spec ProcS_Model ProcX_Model Mem_Model Cycle_Model Parser_Model Nar_Model Play_Model Play_Spec
  Env_Model Env_Spec Env_Proofs Ttt_Model Ttt_Spec Ttt_Proofs Ttt2_Proofs Vocab_Spec Vocab_Proofs Vocab2_Proofs Props_Play Props_Ttt Props_Vocab Props_Truth Props_Want Luck_Spec Luck_Proofs.
Import ListNotations.
Local Open Scope list_scope.
Local Open Scope Z_scope.

(** A reasoner that is asked for nothing but [w] and never sees it wants nothing else, whatever it
    learns, ... *)
Theorem c115_wants : forall ops (F : string -> Prop) w y e, (forall o, In o ops -> op_kind o = OpPlain) -> F w -> longing ops F w y ->
  stored (n_goals (y_nar y)) e -> s_term (e_sentence e) = Name w.
Proof. intros ops F w y e Pl Fw H S. exact (proj1 (proj2 (longing_dull ops F w y Pl Fw H)) e S). Qed.
(** ... never has a decision to choose from, ... *)
Theorem c115_undecided : forall ops (F : string -> Prop) w y b, (forall o, In o ops -> op_kind o = OpPlain) -> F w -> longing ops F w y -> ~ candidate (y_nar y) b.
Proof. intros ops F w y b Pl Fw H. apply (dull_none ops F w Fw). now apply longing_dull. Qed.
(** ... and calls, if it may try operators, the one that the drawn number stands for. *)
Theorem c115_chance : forall ops (F : string -> Prop) w us y r y', (forall o, In o ops -> op_kind o = OpPlain) -> F w -> longing ops F w y -> yact us y (XStep1 true r) = Ok (Some y') ->
  called (y_nar y) r = if c_babble (n_cfg (y_nar y)) then luck ops (i_babble r) else None.
Proof. intros ops F w us y r y' Pl Fw H Y. apply (dull_luck ops F w Pl Fw us y r y'); auto. now apply longing_dull. Qed.
(** it sees the ball on the left, wants it in the middle, and draws the second operator *)
Example c115_chance_ex : exists y, longing pongOps ballAt "0-1-xc" y /\ map goalText (retEntries (n_goals (y_nar y))) = ["0-1-xc"%string] /\ map ev_name (n_trace (y_nar y)) = [Name "0-1-xl"] /\
  called (y_nar y) (mkIn 0 [] 1 (fun _ => f1) []) = Some "^R"%string /\ called (y_nar y) (mkIn 0 [] 2 (fun _ => f1) []) = None.
Proof.
  pose (y0 := ystart (narInit pongOps)). pose (g := newEternalSentenceByTv (Name "0-1-xc") GOAL (mkTv f1 (f_frac 9 10)) [1] 0).
  assert (L0 : longing pongOps ballAt "0-1-xc" y0) by (apply lg_start; reflexivity).
  destruct (yact (usages sharedMake) y0 (XGoal g)) as [[y1|]|] eqn:Y1; [|exfalso; vm_compute in Y1; discriminate Y1..].
  assert (L1 : longing pongOps ballAt "0-1-xc" y1) by exact (lg_step _ _ _ _ y0 (XGoal g) y1 L0 eq_refl Y1).
  destruct (yact (usages sharedMake) y1 (XEvent (Name "0-1-xl"))) as [[y2|]|] eqn:Y2; [|exfalso; vm_compute in Y1; injection Y1 as <-; vm_compute in Y2; discriminate Y2..].
  exists y2. split; [refine (lg_step _ _ _ _ y1 (XEvent (Name "0-1-xl")) y2 L1 _ Y2); split; [exists "0-1-xl"%string; split; [reflexivity|right; now left]|discriminate]|].
  clear L0 L1. vm_compute in Y1. injection Y1 as <-. vm_compute in Y2. injection Y2 as <-. vm_compute. auto.
Qed.

(** So it is with tic-tac-toe before the first won game: nothing that is remembered ends with
    winning, ... *)
Theorem c115_ttt_learns : forall pf mx n q c s o s', tplayed pf mx n q -> n * 10000 < 2 ^ 63 -> u_wins q = 0 -> In c (cells (n_mem (y_nar (u_sys q)))) ->
  s_term c = Stmt PREDIMPL (Seq [Name s; plainCall o]) (Name s') -> s' <> "w"%string.
Proof. intros pf mx n q c s o s' P L W H E. destruct (ttt_dull pf mx n q P L W) as (V & _). exact (proj2 (v_cells _ _ _ _ V c H) s o s' E). Qed.
(** ... nothing is wanted but winning, ... *)
Theorem c115_ttt_wants : forall pf mx n q e, tplayed pf mx n q -> n * 10000 < 2 ^ 63 -> u_wins q = 0 -> stored (n_goals (y_nar (u_sys q))) e -> s_term (e_sentence e) = Name "w".
Proof. intros pf mx n q e P L W H. exact (proj1 (proj2 (ttt_dull pf mx n q P L W)) e H). Qed.
Lemma no_move : forall pf mx n q, tplayed pf mx n q -> n * 10000 < 2 ^ 63 -> u_wins q = 0 -> u_move q = None.
Proof.
  intros pf mx n q P. induction P as [|n q a q' P IH Ft E]; intros L Wn; [reflexivity|]. assert (I := ttt_inv pf mx n q P ltac:(lia)). assert (W0 := proj1 (ti_wins _ _ _ I)). clear I.
  assert (D := ttt_dull pf mx n q P ltac:(lia)). destruct (c109_settings pf mx n q P ltac:(lia)) as (b & Cf & _ & Hb). assert (M : u_wins q = 0 -> u_move q = None) by (apply IH; lia). clear P IH L.
  destruct q as [y d tm dq g mv games wns losses pc]. cbn [u_sys u_pc u_move u_wins] in *. destruct a as [rs r opp expf sel|ds]; cbn [tttStep] in E.
  2:{ destruct (yact _ y (XWork ds)) as [[y'|]|]; cbn [rbind option_map] in E; try discriminate E. injection E as <-. exact (M Wn). }
  destruct pc.
  - destruct (games >=? mx); [injection E as <-; exact (M Wn)|]. match type of E with rbind ?t _ = _ => destruct t as [[n1 d1]|] end; cbn [rbind] in E; [|discriminate E]. injection E as <-. exact (M Wn).
  - injection E as <-. exact (M Wn).
  - destruct (g_player g); [injection E as <-; exact (M Wn)|]. destruct (range 9 opp) as [m|]; cbn [rbind] in E; [|discriminate E]. destruct (tryMove g m) as [[g1 v]|]; cbn [rbind] in E; [|discriminate E]. injection E as <-. exact (M Wn).
  - destruct (yact _ y XStep0) as [[y'|]|]; cbn [rbind option_map] in E; try discriminate E. injection E as <-. exact (M Wn).
  - destruct (y_main y); [injection E as <-; exact (M Wn)|..]; destruct (yact _ y (XMain 20 rs)) as [[y'|]|]; cbn [rbind option_map] in E; try discriminate E; injection E as <-; exact (M Wn).
  - destruct (yact (usages d) y (XStep1 true r)) as [[y'|]|] eqn:Y; cbn [rbind] in E; [| |discriminate E].
    2:{ match type of E with (let '(_, _) := ?t in _) = _ => destruct t as [mv2 pc2] end. discriminate E. }
    assert (wns = 0) as ->. { match type of E with (let '(_, _) := ?t in _) = _ => destruct t as [mv2 pc2] end. injection E as <-. exact Wn. }
    rewrite (dull_luck _ _ _ ttt_plain (or_introl eq_refl) _ _ _ _ (D eq_refl) Y), Cf, (M eq_refl) in E. cbn [c_babble] in E. destruct w as [k| |won k].
    + destruct (moveOf _ _); injection E as <-; reflexivity.
    + rewrite (Hb ltac:(exists See; auto)) in E. cbn [moveOf] in E. injection E as <-. reflexivity.
    + rewrite (Hb ltac:(exists (Rest won k); split; eauto)) in E. cbn [moveOf] in E. injection E as <-. reflexivity.
  - destruct (tryMove g m) as [[g1 v]|]; cbn [rbind] in E; [|discriminate E]. injection E as <-. exact (M Wn).
  - destruct (winner (g_field g)) as [[c|]|]; cbn [rbind] in E; [| |discriminate E].
    + destruct (Ascii.eqb c "a"); [|injection E as <-; exact (M Wn)]. destruct (inputN _ _ _ _) as [[x b']|]; cbn [rbind] in E; [|discriminate E]. injection E as <-. cbn [u_wins] in Wn. lia.
    + destruct (isDraw (g_field g)); injection E as <-; exact (M Wn).
  - destruct (reasonCycle expf sel d tm) as [[[[d1 tm1] z] m]|]; cbn [rbind] in E; [|discriminate E]. injection E as <-. exact (M Wn).
  - discriminate E.
Qed.
(** ... and each move that is made is the cell of the drawn number. *)
Theorem c115_ttt_moves : forall pf mx n q k rs r opp expf sel q' m, tplayed pf mx n q -> n * 10000 < 2 ^ 63 -> u_wins q = 0 -> u_pc q = THalf1 (Think k) ->
  tttStep pf mx (BMain rs r opp expf sel) q = Ok (Some q') -> (u_pc q' = TMove m <-> (Nat.modulo (i_babble r) 81 < 9)%nat /\ m = Z.of_nat (Nat.modulo (i_babble r) 81)).
Proof.
  intros pf mx n q k rs r opp expf sel q' m P L W Pc E. assert (Mv := no_move pf mx n q P L W). assert (D := ttt_dull pf mx n q P L W). destruct (c109_settings pf mx n q P L) as (b & Cf & Hb & _). rewrite (Hb k Pc) in Cf. clear P L.
  destruct q as [y d tm dq g mv games wns losses pc]. cbn [u_sys u_pc u_move] in *. subst pc mv. cbn [tttStep] in E.
  destruct (yact (usages d) y (XStep1 true r)) as [[y'|]|] eqn:Y; cbn [rbind option_map] in E; [| |discriminate E].
  2:{ match type of E with (let '(_, _) := ?t in _) = _ => destruct t as [mv2 pc2] end. discriminate E. }
  rewrite (dull_luck _ _ _ ttt_plain (or_introl eq_refl) _ _ _ _ D Y), Cf in E. cbn [c_babble] in E. unfold luck in E. change (length tttOps * 9)%nat with 81%nat in E.
  set (j := Nat.modulo (i_babble r) 81) in *. clearbody j. destruct (Nat.lt_ge_cases j 9) as [Lj|Lj].
  - assert (E' : u_pc q' = TMove (Z.of_nat j)). { do 9 (destruct j as [|j]; [cbn in E; injection E as <-; reflexivity|]). lia. }
    rewrite E'. split; [intros [= <-]; auto|intros (_ & ->); reflexivity].
  - assert (N : nth_error tttOps j = None) by (apply nth_error_None; exact Lj). rewrite N in E. cbn [moveOf] in E. injection E as <-. cbn [u_pc]. split; [|intros (? & _); lia]. intros H. destruct k as [|[|k]]; discriminate H.
Qed.
(** the first game of C111: it has learned something, but its next move is the drawn one *)
Example c115_ex : option_map (fun q => (u_wins q, nodup string_dec (map lawText (cells (n_mem (y_nar (u_sys q))))), map goalText (retEntries (n_goals (y_nar (u_sys q))))))
    (match tttRun noNumber 2 (concat (map tplays (seq 0 420))) tttStart with Ok q => Some q | Panic => None end) = Some (0, ["SSSSSSSSS ^7 SSSbSSSaS"], ["w"])%string.
Proof. vm_compute. reflexivity. Qed.
(** after the first win this is different: with the drawn number 80, which stands for no operator,
    the move of a plan is made *)
Example c115_after_ex : option_map (fun q => (u_wins q, luck tttOps 80, called (y_nar (u_sys q)) (mkIn 0 [] 80 (fun _ => f1) [])))
    (match tttRun noNumber 2 (concat (map tplays (seq 4 2890)) ++ concat (map dreams (seq 2894 453))) tttStart with Ok q => Some q | Panic => None end) = Some (1, None, Some "^2"%string).
Proof. vm_cast_no_check (@eq_refl (option (Z * option string * option string)) (Some (1, None, Some "^2"%string))). Qed.
Print Assumptions c115_wants.
Print Assumptions c115_undecided.
Print Assumptions c115_chance.
Print Assumptions c115_ttt_learns.
Print Assumptions c115_ttt_wants.
Print Assumptions c115_ttt_moves.
