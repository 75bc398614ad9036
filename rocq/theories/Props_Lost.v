(** C118: a game that cannot be won any more is played by chance. *)
From Coq Require Import String Ascii ZArith Bool Lia List.
From Verif Require Import Base F64_Model Term_Model Tv_Model Sentence_Model PMem_Model Goal_Model Goal_Spec Proc_Model Proc_Spec ProcA_Proofs ProcC_Proofs ProcS_Model ProcX_Model Mem_Model Cycle_Model Parser_Model Nar_Model Nar3_Proofs Play_Model Play_Spec Play_Proofs Play2_Proofs
  Env_Model Env_Spec Env_Proofs Ttt_Model Ttt_Spec Ttt_Proofs Ttt2_Proofs Vocab_Spec Vocab_Proofs Vocab2_Proofs Props_Play Props_Ttt Props_Vocab Props_Truth Want_Spec Props_Want Luck_Spec Luck_Proofs.
Import ListNotations.
Local Open Scope list_scope.
Local Open Scope Z_scope.

(** Without a decision and without one that is left from before, what is called is what the drawn
    number stands for. *)
Theorem c118_chance : forall n r n', narStep1 n true r = Ok n' -> (forall b, ~ candidate n b) -> (forall e x, In e (g_active (n_goals n)) -> ~ eligible (c_thresh (n_cfg n)) e x) ->
  called n r = if c_babble (n_cfg n) then luck (n_ops n) (i_babble r) else None.
Proof.
  intros n r n' S No Ne. unfold called. destruct (step1_trace _ _ _ S) as (n2 & pk & n3 & Ch & _). rewrite Ch. unfold chosen in Ch.
  destruct (bestByState n) as [b0|] eqn:B0; [|discriminate Ch]. cbn [rbind] in Ch. destruct (best_spec _ _ B0) as (As & C0).
  destruct (planForward n (i_u r) (i_plan r) b0) as [b1|] eqn:B1; [|discriminate Ch]. cbn [rbind] in Ch. destruct (forward_spec _ _ _ _ _ B1 As C0) as (C1 & _).
  destruct b1 as [b|]; [destruct (No b (C1 b eq_refl))|]. cbn [decide rbind] in Ch. destruct (execGoal n) as [[n1 pk0]|] eqn:X; [|discriminate Ch]. cbn [rbind] in Ch.
  assert (n1 = n /\ pk0 = None) as (-> & ->).
  { unfold execGoal in X. destruct (pickGoal _ _) as [[[i e]|]|] eqn:Pk; cbn [rbind] in X; [| |discriminate X]; [|injection X as <- <-; auto]. destruct (pick_spec _ _ _ Pk) as (Hn & x & El & _). apply nth_error_In in Hn. destruct (Ne e x Hn El). }
  unfold babble in Ch. unfold luck. destruct (c_babble (n_cfg n)); cbn [andb] in Ch.
  2:{ cbn [rbind] in Ch. injection Ch as <- <-. reflexivity. }
  destruct (Nat.ltb_spec 0 (length (n_ops n))) as [L0|L0].
  2:{ cbn [rbind] in Ch. injection Ch as <- <-. destruct (n_ops n); [now destruct (Nat.modulo _ _)|cbn in L0; lia]. }
  set (j := Nat.modulo (i_babble r) (length (n_ops n) * 9)) in *. destruct (Nat.ltb_spec j (length (n_ops n))) as [Lj|Lj].
  - unfold idx, unwrap in Ch. destruct (nth_error (n_ops n) j) as [o|] eqn:No'; [|discriminate Ch]. cbn [rbind] in Ch. injection Ch as <- <-. destruct (op_babble o); [|reflexivity]. cbn [decodeOp encodeOp map length Nat.leb].
    assert (Ho := nth_error_In _ _ No'). destruct (ret_op_by_name (n_ops n) (op_name o)) as [o'|] eqn:Rt; [|apply ret_op_none with (1 := Rt) in Ho; now destruct Ho].
    apply ret_op_some in Rt. destruct Rt as (pre & post & _ & Nm & _). cbn [option_map]. now rewrite Nm.
  - cbn [rbind] in Ch. injection Ch as <- <-. apply nth_error_None in Lj. now rewrite Lj.
Qed.
(** At its turn on a board that cannot be won any more, whatever was learned and is wanted: if no
    decision is left and no move was kept, the move that is tried is the drawn one. *)
Theorem c118_lost : forall pf mx n q k rs r opp expf sel q' m, tplayed pf mx n q -> n * 10000 < 2 ^ 63 -> u_pc q = THalf1 (Think k) -> ~ winnable (g_field (u_game q)) ->
  u_move q = None -> (forall e x, In e (g_active (n_goals (y_nar (u_sys q)))) -> ~ eligible (c_thresh (n_cfg (y_nar (u_sys q)))) e x) ->
  tttStep pf mx (BMain rs r opp expf sel) q = Ok (Some q') -> (u_pc q' = TMove m <-> (Nat.modulo (i_babble r) 81 < 9)%nat /\ m = Z.of_nat (Nat.modulo (i_babble r) 81)).
Proof.
  intros pf mx n q k rs r opp expf sel q' m P L Pc W Mv Ne E. assert (No := fun b => c113_hopeless pf mx n q k b P L Pc W). assert (Eo := v_ops _ _ _ _ (ttt_vocab pf mx n q P L)). destruct (c109_settings pf mx n q P L) as (b & Cf & Hb & _). rewrite (Hb k Pc) in Cf. clear P L W Hb.
  destruct q as [y d tm dq g mv games wns losses pc]. cbn [u_sys u_pc u_move] in *. subst pc mv. cbn [tttStep] in E.
  destruct (yact (usages d) y (XStep1 true r)) as [[y'|]|] eqn:Y; cbn [rbind option_map] in E; [| |discriminate E].
  2:{ match type of E with (let '(_, _) := ?t in _) = _ => destruct t as [mv2 pc2] end. discriminate E. }
  assert (Cl : called (y_nar y) r = luck tttOps (i_babble r)).
  { destruct y as [n0 p c wk]. cbn [y_nar] in *. cbn [yact] in Y. destruct p; try discriminate Y. destruct (narStep1 n0 true r) as [n'|] eqn:S; cbn [rbind] in Y; [|discriminate Y]. rewrite (c118_chance n0 r n' S No Ne), Cf, Eo. reflexivity. }
  rewrite Cl in E. unfold luck in E. change (length tttOps * 9)%nat with 81%nat in E. clear - E.
  set (j := Nat.modulo (i_babble r) 81) in *. clearbody j. destruct (Nat.lt_ge_cases j 9) as [Lj|Lj].
  - assert (E' : u_pc q' = TMove (Z.of_nat j)). { do 9 (destruct j as [|j]; [cbn in E; injection E as <-; reflexivity|]). lia. }
    rewrite E'. split; [intros [= <-]; auto|intros (_ & ->); reflexivity].
  - assert (N : nth_error tttOps j = None) by (apply nth_error_None; exact Lj). rewrite N in E. cbn [moveOf] in E. injection E as <-. cbn [u_pc]. split; [|intros (? & _); lia]. intros H. destruct k as [|[|k]]; discriminate H.
Qed.
(** After a game that was won, another one is played to the board of [c113_drawn_ex]. The program
    has learned and wants something, and tries the drawn move. *)
Definition filled (q : ttt) : nat := List.length (filter (fun c => negb (Ascii.eqb c " ")) (g_field (u_game q))).
Definition drawMove (q : ttt) : nat := match filled q with 0%nat => 2 | 2%nat => 7 | 4%nat => 0 | 6%nat => 3 | _ => 80 end%nat.
Definition drawReply (q : ttt) : Z := match filled q with 1%nat => 4 | 3%nat => 1 | 5%nat => 5 | _ => 6 end.
Fixpoint toDraw (k : nat) (q : ttt) : res ttt :=
  match k with
  | O => Ok q
  | S k =>
      let next := do q' <- tttRun noNumber 2 [BMain pick0 (mkIn 0 [] (drawMove q) (fun _ => f1) []) (drawReply q) (fun x => x) f1; BWork (repeat 3%nat 24)] q; toDraw k q' in
      match u_pc q, u_move q with THalf1 (Think _), None => if String.eqb (boardName (u_game q)) "abaabbbaS" then Ok q else next | _, _ => next end
  end.
(** the place, the board, the kept move, whether something is learned, whether no decision is left,
    the games won, and what follows if 8 is drawn *)
Definition lostThen (q : ttt) :=
  (u_pc q, g_field (u_game q), u_move q, Nat.ltb 0 (length (cells (n_mem (y_nar (u_sys q))))), match pickGoal (n_goals (y_nar (u_sys q))) (c_thresh (n_cfg (y_nar (u_sys q)))) with Ok None => true | _ => false end, u_wins q,
   match tttStep noNumber 2 (BMain pick0 (mkIn 0 [] 8 (fun _ => f1) []) 0 (fun x => x) f1) q with Ok (Some q') => Some (u_pc q') | _ => None end).
Example c118_ex : (do q <- tttRun noNumber 2 (concat (map tplays (seq 4 2890))) tttStart; do q1 <- toDraw 4000 q; Ok (lostThen q1)) =
  Ok (THalf1 (Think 4), ["a"; "b"; "a"; "a"; "b"; "b"; "b"; "a"; " "]%char, None, true, true, 1, Some (TMove 8)).
Proof. vm_cast_no_check (@eq_refl (res (tpc * list ascii * option Z * bool * bool * Z * option tpc)) (Ok (THalf1 (Think 4), ["a"; "b"; "a"; "a"; "b"; "b"; "b"; "a"; " "]%char, None, true, true, 1, Some (TMove 8)))). Qed.
Print Assumptions c118_chance.
Print Assumptions c118_lost.
