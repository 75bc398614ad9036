(** C116: whatever is decided rests on something remembered, and a move that promises to win wins. *)
From Coq Require Import String Ascii ZArith Bool Lia List.
From Verif Require Import Base F64_Model Term_Model Tv_Model Sentence_Model PMem_Model Goal_Model Goal_Spec Goal_Proofs Proc_Model Proc_Spec ProcS_Model ProcX_Model Mem_Model Cycle_Model Parser_Model Nar_Model Play_Model Play_Spec
  Play_Proofs Play2_Proofs Live_Proofs Env_Model Env_Spec Env_Proofs Ttt_Model Ttt_Spec Ttt_Proofs Ttt2_Proofs Vocab_Spec Vocab_Proofs Vocab2_Proofs Props_Play Props_Ttt Props_Vocab Props_Truth Want_Spec Want_Proofs Props_Want Props_Number Luck_Spec Backed_Proofs Backed2_Proofs.
Import ListNotations.
Local Open Scope list_scope.
Local Open Scope Z_scope.

(** In every life as in C111: to be in a situation and then do something is wanted only with the
    address of something remembered that says where this leads. *)
Theorem c116_goal : forall ops (F : string -> Prop) y e s o, (forall x, In x ops -> op_kind x = OpPlain) -> confined ops F y -> stored (n_goals (y_nar y)) e ->
  s_term (e_sentence e) = Seq [Name s; plainCall o] -> exists a s', e_evi e = Some a /\ s_term (rd (cells (n_mem (y_nar y))) a) = Stmt PREDIMPL (Seq [Name s; plainCall o]) (Name s').
Proof. intros ops F y e s o Pl C H E. exact (proj1 (proj2 (proj2 (confined_backed ops F y Pl C) e H)) s o E). Qed.
(** So is the call of an operator; no operator is wanted that was never tried. *)
Theorem c116_operator : forall ops (F : string -> Prop) y e o, (forall x, In x ops -> op_kind x = OpPlain) -> confined ops F y -> stored (n_goals (y_nar y)) e ->
  s_term (e_sentence e) = plainCall o -> exists a s s', e_evi e = Some a /\ s_term (rd (cells (n_mem (y_nar y))) a) = Stmt PREDIMPL (Seq [Name s; plainCall o]) (Name s').
Proof. intros ops F y e o Pl C H E. exact (proj2 (proj2 (proj2 (confined_backed ops F y Pl C) e H)) o E). Qed.
(** Every decision there is to choose from comes with such an address. *)
Theorem c116_decision : forall ops (F : string -> Prop) y b, (forall x, In x ops -> op_kind x = OpPlain) -> confined ops F y -> candidate (y_nar y) b ->
  exists a s o s', b_evi b = Some a /\ b_seq b = Seq [Name s; plainCall o] /\ In o (map op_name ops) /\ s_term (rd (cells (n_mem (y_nar y))) a) = Stmt PREDIMPL (Seq [Name s; plainCall o]) (Name s').
Proof. intros ops F y b Pl C H. destruct (confined_backed ops F y Pl C) as (V & B). apply (candidate_backed ops F _ b); auto. exact (any_cells _ _ _ V). Qed.
(** What is called is drawn, or it is an operator that something remembered is about. *)
Theorem c116_done : forall ops (F : string -> Prop) us y r y' o, (forall x, In x ops -> op_kind x = OpPlain) -> confined ops F y -> yact us y (XStep1 true r) = Ok (Some y') -> called (y_nar y) r = Some o ->
  (c_babble (n_cfg (y_nar y)) = true /\ luck ops (i_babble r) = Some o) \/ exists a s s', s_term (rd (cells (n_mem (y_nar y))) a) = Stmt PREDIMPL (Seq [Name s; plainCall o]) (Name s').
Proof. intros ops F us y r y' o Pl C Y Cl. destruct (confined_backed ops F y Pl C) as (V & B). exact (called_backed ops F anyLaw us y r y' o V B Y Cl). Qed.
(** All states of the Pong program are of such lives. *)
Theorem c116_pong : forall pf n q, played pf n q -> confined pongOps ballAt (q_sys q).
Proof.
  intros pf n q P. induction P as [|n q a q' P IH F E]; [apply cf_start; reflexivity|]. destruct (pong_vocab pf n q P) as (_ & Fr). clear P. destruct q as [y d e t pc]. unfold freeQ in *. cbn [q_sys q_pc] in *.
  assert (Go : forall us a f o, yact us y a = Ok o -> match a with XEvent e => fact ballAt e | XGoal s => fact ballAt (s_term s) | XBelief _ _ _ _ => False | _ => True end -> option_map f o = Some q' -> (forall y', q_sys (f y') = y') -> confined pongOps ballAt (q_sys q')).
  { intros us a0 f o Y K O Q. destruct o as [y'|]; [|discriminate O]. injection O as <-. rewrite Q. exact (cf_step _ _ us y a0 y' IH K Y). }
  destruct a as [rs r dr|ds]; cbn [progStep] in E.
  2:{ destruct (yact (usages d) y (XWork ds)) as [o|] eqn:Y; cbn [rbind] in E; [|discriminate E]. injection E as E. apply (Go _ _ _ _ Y Logic.I E). auto. }
  destruct pc.
  - destruct Fr as [Fr|Fr]; [discriminate Fr|]. destruct (Z.rem t 10 =? 0); [|injection E as <-; exact IH].
    assert (T := typed_goal pf (usages d) y d Fr). destruct (yact (usages d) y (XGoal (pongGoal d))) as [[y'|]|] eqn:Y; [|contradiction|rewrite T in E; discriminate E].
    destruct T as (n' & T0 & T1 & T2). rewrite T0 in E. cbn [rbind] in E. rewrite T1 in E. injection E as <-. cbn [q_sys]. refine (cf_step _ _ _ y _ y' IH _ Y). exists "0-1-xc"%string. split; [reflexivity|now left].
  - destruct (yact (usages d) y XStep0) as [o|] eqn:Y; cbn [rbind] in E; [|discriminate E]. injection E as E. apply (Go _ _ _ _ Y Logic.I E). auto.
  - assert (Ev : (do o <- yact (usages d) y (XEvent (Name (percept e))); Ok (option_map (fun y' => mkProg y' d e t PHalf1) o)) = Ok (Some q') -> confined pongOps ballAt (q_sys q')).
    { clear E. intros E. destruct (yact (usages d) y (XEvent (Name (percept e)))) as [o|] eqn:Y; cbn [rbind] in E; [|discriminate E]. injection E as E. refine (Go _ _ _ _ Y _ E _); [exists (percept e); split; [reflexivity|apply percept_at]|auto]. }
    assert (Mn : (do o <- yact (usages d) y (XMain 20 rs); Ok (option_map (fun y' => mkProg y' d e t PIn0) o)) = Ok (Some q') -> confined pongOps ballAt (q_sys q')).
    { clear E. intros E. destruct (yact (usages d) y (XMain 20 rs)) as [o|] eqn:Y; cbn [rbind] in E; [|discriminate E]. injection E as E. apply (Go _ _ _ _ Y Logic.I E). auto. }
    destruct (y_main y); auto.
  - destruct (yact (usages d) y (XStep1 true r)) as [o|] eqn:Y; cbn [rbind] in E; [|discriminate E]. injection E as E. apply (Go _ _ _ _ Y Logic.I E). auto.
  - destruct (simStep e dr) as [e'|]; cbn [rbind] in E; [|discriminate E]. injection E as <-. destruct (t >=? 5000); exact IH.
  - destruct (debugEvidence _) as [x|]; cbn [rbind] in E; [|discriminate E]. destruct (pcs _); cbn [rbind] in E; [discriminate E|]. destruct (goalsText _); cbn [rbind] in E; [|discriminate E]. injection E as <-. exact IH.
  - discriminate E.
Qed.

(** a game of Pong; what is wanted there, and what it rests on *)
Definition trains (i : nat) : list pact := [AMain pick0 (mkIn 0 [] (Nat.modulo (i / 7) 18) (fun _ => f1) [(f0, f0, fun k => (k, k, k))]) (mkDraws 3 14 1); AWork (repeat 3%nat 24)].
Example c116_pong_ex : option_map (fun q => nodup string_dec (map (fun e => goalText e ++ ": " ++ match e_evi e with Some a => lawText (rd (cells (n_mem (y_nar (q_sys q)))) a) | None => "" end)%string (retEntries (n_goals (y_nar (q_sys q))))))
    (match progRun noText (concat (map trains (seq 0 600))) pongStart with Ok q => Some q | Panic => None end) =
  Some ["0-1-xc: "; "0-1-xr ^L: 0-1-xr ^L 0-1-xc"; "0-1-xl ^L: 0-1-xl ^L 0-1-xc"; "0-1-xr: "]%string.
Proof. vm_compute. reflexivity. Qed.
(** The same of the decisions of the tic-tac-toe program, which also changes its reasoner between
    the steps. *)
Theorem c116_ttt_decision : forall pf mx n q b, tplayed pf mx n q -> n * 10000 < 2 ^ 63 -> candidate (y_nar (u_sys q)) b ->
  exists a s o s', b_evi b = Some a /\ b_seq b = Seq [Name s; plainCall o] /\ In o moveNames /\ s_term (rd (cells (n_mem (y_nar (u_sys q)))) a) = Stmt PREDIMPL (Seq [Name s; plainCall o]) (Name s').
Proof.
  intros pf mx n q b P L H. assert (V := ttt_vocab pf mx n q P L). rewrite <- ttt_names. apply (candidate_backed tttOps boardOrWin _ b); auto; [|exact (ttt_backed pf mx n q P L)].
  intros s Hs. exact (proj1 (v_cells _ _ _ _ V s Hs)).
Qed.
(** something remembered is about the move *)
Definition moveLaw (h : list sentence) (m : Z) : Prop :=
  exists a s o s', nth_error moveNames (Z.to_nat m) = Some o /\ s_term (rd h a) = Stmt PREDIMPL (Seq [Name s; plainCall o]) (Name s').
Lemma move_index : forall o mv m, In o moveNames -> moveOf (Some o) mv = Some m -> nth_error moveNames (Z.to_nat m) = Some o.
Proof. intros o mv m H E. cbn in H. repeat (destruct H as [<-|H]; [cbn in E; injection E as <-; reflexivity|]). contradiction. Qed.
Lemma move_luck : forall o mv m p, luck tttOps p = Some o -> moveOf (Some o) mv = Some m -> m = Z.of_nat (Nat.modulo p 81).
Proof.
  intros o mv m p Lk E. unfold luck in Lk. change (length tttOps * 9)%nat with 81%nat in Lk. set (j := Nat.modulo p 81) in *. clearbody j.
  assert (Lj : (j < 9)%nat). { destruct (Nat.lt_ge_cases j 9) as [X|X]; auto. assert (N : nth_error tttOps j = None) by (apply nth_error_None; exact X). now rewrite N in Lk. }
  do 9 (destruct j as [|j]; [cbn in Lk; injection Lk as <-; cbn in E; injection E as <-; reflexivity|]). lia.
Qed.
(** A move that is decided while it only watches, and kept for its turn, rests on something
    remembered. *)
Theorem c116_ttt_kept : forall pf mx n q m, tplayed pf mx n q -> n * 10000 < 2 ^ 63 -> u_move q = Some m -> moveLaw (cells (n_mem (y_nar (u_sys q)))) m.
Proof.
  intros pf mx n q m P. induction P as [|n q a q' P IH Ft E]; intros L Em; [discriminate Em|]. assert (I := ttt_inv pf mx n q P ltac:(lia)). destruct I as [_ _ _ I4 _ _ _ _ _].
  assert (V := ttt_vocab pf mx n q P ltac:(lia)). assert (G := ttt_backed pf mx n q P ltac:(lia)). destruct (c109_settings pf mx n q P ltac:(lia)) as (b & Cf & _ & Hb).
  assert (M : u_move q = Some m -> moveLaw (cells (n_mem (y_nar (u_sys q)))) m) by (apply IH; lia). clear P IH L.
  destruct q as [y d tm dq g mv games wns losses pc]. cbn [u_sys u_pc u_move] in *.
  assert (Go : forall us a y', yact us y a = Ok (Some y') -> match a with XBelief _ _ _ _ => False | _ => True end -> moveLaw (cells (n_mem (y_nar y))) m -> moveLaw (cells (n_mem (y_nar y'))) m).
  { intros us a0 y' Y K (x & s & o & s' & X1 & X2). exists x, s, o, s'. split; auto. exact (keeps_act us y a0 y' Y K _ _ _ X2). }
  destruct a as [rs r opp expf sel|ds]; cbn [tttStep] in E.
  2:{ destruct (yact (usages d) y (XWork ds)) as [[y'|]|] eqn:Y; cbn [rbind option_map] in E; try discriminate E. injection E as <-. exact (Go _ _ _ Y Logic.I (M Em)). }
  destruct pc.
  - destruct I4 as [(w & [=])|Mf]. destruct (games >=? mx); [injection E as <-; exact (M Em)|]. destruct (knowsGoal (n_goals (y_nar y))).
    + cbn [rbind] in E. injection E as <-. destruct y; exact (M Em).
    + assert (T := aim_goal pf (usages d) y d Mf). destruct (yact (usages d) y (XGoal (aimGoal d))) as [[y'|]|] eqn:Y; [|contradiction|rewrite T in E; discriminate E].
      destruct T as (n' & T0 & T1 & _). rewrite T0 in E. cbn [rbind] in E. injection E as <-. cbn [u_sys u_move] in *.
      assert (M' := Go _ _ _ Y Logic.I (M Em)). clear - M' T1. subst y'. destruct y; exact M'.
  - injection E as <-. destruct y; exact (M Em).
  - destruct (g_player g).
    + injection E as <-. destruct y; exact (M Em).
    + destruct (range 9 opp) as [mm|]; cbn [rbind] in E; [|discriminate E]. destruct (tryMove g mm) as [[g1 v]|]; cbn [rbind] in E; [|discriminate E]. injection E as <-. exact (M Em).
  - destruct (yact (usages d) y XStep0) as [[y'|]|] eqn:Y; cbn [rbind option_map] in E; try discriminate E. injection E as <-. exact (Go _ _ _ Y Logic.I (M Em)).
  - assert (Mn : (do o <- yact (usages d) y (XMain 20 rs); Ok (option_map (fun y' => mkTtt y' d tm dq g mv games wns losses (TIn0 w)) o)) = Ok (Some q') -> moveLaw (cells (n_mem (y_nar (u_sys q')))) m).
    { clear E. intros E. destruct (yact (usages d) y (XMain 20 rs)) as [[y'|]|] eqn:Y; cbn [rbind option_map] in E; try discriminate E. injection E as <-. exact (Go _ _ _ Y Logic.I (M Em)). }
    destruct (y_main y); auto. injection E as <-. destruct w; destruct y; exact (M Em).
  - destruct (yact (usages d) y (XStep1 true r)) as [[y'|]|] eqn:Y; cbn [rbind] in E; [| |discriminate E].
    2:{ match type of E with (let '(_, _) := ?t in _) = _ => destruct t as [mv2 pc2] end. discriminate E. }
    assert (W : exists x, moveOf (called (y_nar y) r) mv = Some m /\ (THalf1 w = THalf1 x) /\ (x = See \/ exists won k, x = Rest won k) /\ u_sys q' = y').
    { destruct w as [k| |won k].
      - destruct (moveOf _ _); injection E as <-; discriminate Em.
      - injection E as <-. exists See. auto.
      - injection E as <-. exists (Rest won k). split; auto. split; auto. split; eauto. }
    destruct W as (x & W & Ex & Hx & ->). clear E. injection Ex as ->. apply (Go _ _ _ Y Logic.I). destruct (called (y_nar y) r) as [o|] eqn:Cl; [|exact (M W)].
    destruct (called_backed _ _ _ _ _ _ _ _ V G Y Cl) as [(Cb & _)|(a & s & s' & La)].
    + exfalso. rewrite Cf in Cb. cbn [c_babble] in Cb. rewrite Hb in Cb; [discriminate Cb|]. exists x. auto.
    + exists a, s, o, s'. split; auto. destruct (called_op _ _ _ Cl) as (o1 & Ho & <-). rewrite (v_ops _ _ _ _ V) in Ho. apply (move_index _ mv); auto. rewrite <- ttt_names. now apply in_map.
  - destruct (tryMove g m0) as [[g1 v]|]; cbn [rbind] in E; [|discriminate E]. injection E as <-. exact (M Em).
  - destruct (winner (g_field g)) as [[c|]|]; cbn [rbind] in E; [| |discriminate E].
    + destruct (Ascii.eqb c "a"); [|injection E as <-; destruct y; exact (M Em)]. destruct (won_typed pf (withNar y (setBabble (y_nar y) false)) d) as (n' & T1 & _ & T3). rewrite T1 in E. cbn [rbind] in E. injection E as <-. cbn [u_sys u_move] in *. rewrite T3. destruct y; exact (M Em).
    + destruct (isDraw (g_field g)); injection E as <-; destruct y; exact (M Em).
  - destruct (reasonCycle expf sel d tm) as [[[[d1 tm1] z] mm]|]; cbn [rbind] in E; [|discriminate E]. injection E as <-. exact (M Em).
  - discriminate E.
Qed.
(** Each move it tries is the drawn one, or something remembered is about it. *)
Theorem c116_ttt_done : forall pf mx n q k rs r opp expf sel q' m, tplayed pf mx n q -> n * 10000 < 2 ^ 63 -> u_pc q = THalf1 (Think k) ->
  tttStep pf mx (BMain rs r opp expf sel) q = Ok (Some q') -> u_pc q' = TMove m ->
  m = Z.of_nat (Nat.modulo (i_babble r) 81) \/ moveLaw (cells (n_mem (y_nar (u_sys q)))) m.
Proof.
  intros pf mx n q k rs r opp expf sel q' m P L Pc E Em. assert (V := ttt_vocab pf mx n q P L). assert (G := ttt_backed pf mx n q P L). assert (K := fun m => c116_ttt_kept pf mx n q m P L). clear P L.
  destruct q as [y d tm dq g mv games wns losses pc]. cbn [u_sys u_pc u_move] in *. subst pc. cbn [tttStep] in E.
  destruct (yact (usages d) y (XStep1 true r)) as [[y'|]|] eqn:Y; cbn [rbind option_map] in E; [| |discriminate E].
  2:{ match type of E with (let '(_, _) := ?t in _) = _ => destruct t as [mv2 pc2] end. discriminate E. }
  assert (W : moveOf (called (y_nar y) r) mv = Some m). { destruct (moveOf _ _) as [m1|]; injection E as <-; cbn in Em; [congruence|]. destruct k as [|[|k]]; discriminate Em. }
  clear E Em. destruct (called (y_nar y) r) as [o|] eqn:Cl; [|right; exact (K m W)].
  destruct (called_backed _ _ _ _ _ _ _ _ V G Y Cl) as [(_ & Lk)|(a & s & s' & La)]; [left; exact (move_luck _ _ _ _ Lk W)|].
  right. exists a, s, o, s'. split; auto. destruct (called_op _ _ _ Cl) as (o1 & Ho & <-). rewrite (v_ops _ _ _ _ V) in Ho. apply (move_index _ mv); auto. rewrite <- ttt_names. now apply in_map.
Qed.
(** If it decides on a move and what it rests on promises winning, then the move is possible on the
    board in front of it, and it wins the game. *)
Theorem c116_ttt_wins : forall pf mx n q k b a sq, tplayed pf mx n q -> n * 10000 < 2 ^ 63 -> u_pc q = THalf1 (Think k) -> candidate (y_nar (u_sys q)) b -> b_evi b = Some a ->
  s_term (rd (cells (n_mem (y_nar (u_sys q)))) a) = Stmt PREDIMPL sq (Name "w") ->
  exists m o s g1, nth_error moveNames m = Some o /\ b_seq b = Seq [Name s; plainCall o] /\ tryMove (u_game q) (Z.of_nat m) = Ok (g1, true) /\ wins "a" (g_field g1).
Proof.
  intros pf mx n q k b a sq P L Pc Cd Ea Ew. destruct (c116_ttt_decision pf mx n q b P L Cd) as (a' & s & o & s' & E1 & E2 & Ho & E3). rewrite Ea in E1. injection E1 as <-. pose proof E3 as E4. rewrite Ew in E4. injection E4 as -> <-.
  destruct (c113_considers pf mx n q k b P L Pc Cd) as (_ & s1 & o1 & E5 & Rd & _). rewrite E2 in E5. injection E5 as <- _. destruct (ttt_inv pf mx n q P L) as [_ _ _ _ _ I6 _ _ _]. rewrite Pc in I6. destruct I6 as (Go & Pl & _).
  assert (U : unfinished (g_field (u_game q))) by (apply (going_unf _ (g_player (u_game q))); now destruct (u_game q)). destruct (cell_in _ _ _ _ E3) as (_ & Hin).
  apply In_nth_error in Ho. destruct Ho as (m & Hm). assert (Lm : (m < 9)%nat) by (change 9%nat with (length moveNames); apply nth_error_Some; congruence).
  assert (W := fun f1 => c112_wins_there pf mx n q _ s o (g_field (u_game q)) m f1 P L Hin E3 U Rd Hm). destruct Go as (Lg & _). destruct (legal_inv _ Lg) as (L9 & _).
  assert (T := tryMove_spec (u_game q) (Z.of_nat m) L9). destruct (tryMove (u_game q) (Z.of_nat m)) as [[g1 v]|] eqn:Tm; [|lia]. destruct T as (_ & Pl1 & L1 & K & T). rewrite Nat2Z.id in T. destruct v.
  - exists m, o, s, g1. split; auto. split; auto. split; auto. apply (W (g_field g1)). destruct T as (T1 & T2). rewrite Pl in T2. split; auto. split; [congruence|]. split; auto. intros j Hj. apply K. lia.
  - exfalso. destruct T as (_ & c & Tc & Nc). destruct (W (g_field g1)) as (W1 & _). congruence.
Qed.
(** the game of C113 goes on; what is wanted there, and what it rests on *)
Definition lawAt (q : ttt) (o : option nat) : string := match o with Some a => lawText (rd (cells (n_mem (y_nar (u_sys q)))) a) | None => ""%string end.
Example c116_ex : option_map (fun q => map (fun e => (goalText e, lawAt q (e_evi e))) (retEntries (n_goals (y_nar (u_sys q)))))
    (match tttRun noNumber 2 (concat (map tplays (seq 4 2890)) ++ concat (map dreams (seq 2894 12))) tttStart with Ok q => Some q | Panic => None end) =
  Some [("w", ""); ("aSabbabab ^1", "aSabbabab ^1 w"); ("aSabbabab", ""); ("aSabbSbaS ^5", "aSabbSbaS ^5 aSabbabab"); ("aSabbSbaS", ""); ("SSabbSSaS ^0", "SSabbSSaS ^0 aSabbSbaS"); ("SSabbSSaS", "");
        ("SSaSbSSSS ^7", "SSaSbSSSS ^7 SSabbSSaS"); ("SSaSbSSSS", "")]%string.
Proof.
  vm_cast_no_check (@eq_refl (option (list (string * string))) (Some [("w", ""); ("aSabbabab ^1", "aSabbabab ^1 w"); ("aSabbabab", ""); ("aSabbSbaS ^5", "aSabbSbaS ^5 aSabbabab"); ("aSabbSbaS", ""); ("SSabbSSaS ^0", "SSabbSSaS ^0 aSabbSbaS"); ("SSabbSSaS", "");
        ("SSaSbSSSS ^7", "SSaSbSSSS ^7 SSabbSSaS"); ("SSaSbSSSS", "")]%string)).
Qed.
(** in the second game the opponent plays as in the first, and the drawn numbers stand for no
    operator: all moves are decided, and the last rests on what promises winning; then the next game
    begins *)
Definition again (q : ttt) : Z :=
  match List.length (filter (fun c => negb (Ascii.eqb c " ")) (g_field (u_game q))) with 0%nat | 1%nat => 4 | 2%nat | 3%nat => 3 | 4%nat | 5%nat => 6 | _ => 8 end.
Fixpoint steer (n : nat) (q : ttt) : list (string * string) * Z :=
  match n with
  | O => ([], u_wins q)
  | S n =>
      match tttRun noNumber 2 [BMain pick0 (mkIn 0 [] 80 (fun _ => f1) [(f0, f0, fun k => (k, k, k))]) (again q) (fun x => x) f1; BWork (repeat 3%nat 24)] q with
      | Ok q' => let '(l, w) := steer n q' in
          match u_pc q', planForward (y_nar (u_sys q')) 0 [] None with
          | THalf1 (Think _), Ok (Some b) => ((boardName (u_game q'), lawAt q' (b_evi b)) :: l, w)
          | _, _ => (l, w)
          end
      | Panic => ([], -1)
      end
  end.
Example c116_wins_ex : option_map (steer 3000) (match tttRun noNumber 2 (concat (map tplays (seq 4 2890)) ++ concat (map dreams (seq 2894 453))) tttStart with Ok q => Some q | Panic => None end) =
  Some ([("SSaSbSSSS", "SSaSbSSSS ^7 SSabbSSaS"); ("SSabbSSaS", "SSabbSSaS ^0 aSabbSbaS"); ("aSabbSbaS", "aSabbSbaS ^5 aSabbabab"); ("aSabbabab", "aSabbabab ^1 w"); ("SSSSSSSSS", "SSSSSSSSS ^2 SSaSbSSSS")]%string, 2).
Proof.
  vm_cast_no_check (@eq_refl (option (list (string * string) * Z)) (Some ([("SSaSbSSSS", "SSaSbSSSS ^7 SSabbSSaS"); ("SSabbSSaS", "SSabbSSaS ^0 aSabbSbaS"); ("aSabbSbaS", "aSabbSbaS ^5 aSabbabab"); ("aSabbabab", "aSabbabab ^1 w"); ("SSSSSSSSS", "SSSSSSSSS ^2 SSaSbSSSS")]%string, 2))).
Qed.
(** its second move is decided as soon as it sees what the opponent did, before its turn *)
Fixpoint goOn (n : nat) (q : ttt) : res ttt :=
  match n with
  | O => Ok q
  | S n => do q' <- tttRun noNumber 2 [BMain pick0 (mkIn 0 [] 80 (fun _ => f1) [(f0, f0, fun k => (k, k, k))]) (again q) (fun x => x) f1; BWork (repeat 3%nat 24)] q; goOn n q'
  end.
Example c116_kept_ex : (do q <- tttRun noNumber 2 (concat (map tplays (seq 4 2890)) ++ concat (map dreams (seq 2894 453))) tttStart; do q' <- goOn 262 q; Ok (u_pc q', boardName (u_game q'), u_move q')) =
  Ok (THalf0 (Rest false 50), "SSaSbSSSS"%string, Some 7).
Proof. vm_cast_no_check (@eq_refl (res (tpc * string * option Z)) (Ok (THalf0 (Rest false 50), "SSaSbSSSS"%string, Some 7))). Qed.
(** But a decided move need not be possible: after its move, while it waits for the opponent, it
    still remembers the board before the move and decides on the same move again. This is kept, and
    at its next turn it tries a cell that is taken. *)
Definition passes (opp : Z) : list tact := [BMain pick0 (mkIn 0 [] 80 (fun _ => f1) [(f0, f0, fun k => (k, k, k))]) opp (fun x => x) f1; BWork (repeat 3%nat 24)].
Definition heldRun : list tact := (concat (map tplays (seq 4 2890)) ++ concat (map dreams (seq 2894 453))) ++ concat (repeat (passes 4) 500) ++ concat (repeat (passes 5) 831).
Lemma held_fair : Forall fairTurn heldRun.
Proof.
  assert (B : fairTurn (BWork (repeat 3%nat 24))). { intros d Hd. revert d Hd. apply Forall_forall. vm_compute. repeat constructor; discriminate. }
  assert (O : forall i, 0 <= Z.of_nat (Nat.modulo (2 * i + 1) 9) < 9) by (intros i; assert (H := Nat.mod_upper_bound (2 * i + 1) 9 ltac:(discriminate)); lia).
  apply Forall_app. split; apply Forall_app; split; apply Forall_forall; intros a Ha; apply in_concat in Ha; destruct Ha as (l & Hl & Ha).
  1,2: apply in_map_iff in Hl; destruct Hl as (i & <- & _); (destruct Ha as [<-|[<-|[]]]; [split; [intros z _; split; [|split]; vm_compute; reflexivity|apply O]|exact B]).
  all: apply repeat_spec in Hl; subst l; (destruct Ha as [<-|[<-|[]]]; [split; [intros z _; split; [|split]; vm_compute; reflexivity|lia]|exact B]).
Qed.
Definition nextTry (q : ttt) : option (tpc * string * res bool) :=
  match tttStep noNumber 2 (BMain pick0 (mkIn 0 [] 80 (fun _ => f1) []) 0 (fun x => x) f1) q with
  | Ok (Some q') => Some (u_pc q', boardName (u_game q'), do x <- tryMove (u_game q') 7; Ok (snd x))
  | _ => None
  end.
Example c116_held_ex : match tttRun noNumber 2 heldRun tttStart with Ok q => Some (u_pc q, u_move q, nextTry q) | Panic => None end = Some (THalf1 (Think 4), Some 7, Some (TMove 7, "SSaSbbSaS"%string, Ok false)).
Proof. vm_cast_no_check (@eq_refl (option (tpc * option Z * option (tpc * string * res bool))) (Some (THalf1 (Think 4), Some 7, Some (TMove 7, "SSaSbbSaS"%string, Ok false)))). Qed.
Theorem c116_ttt_possible_refuted : exists pf n q k rs r opp expf sel q' m g1, tplayed pf 2 n q /\ n * 10000 < 2 ^ 63 /\ u_pc q = THalf1 (Think k) /\
  tttStep pf 2 (BMain rs r opp expf sel) q = Ok (Some q') /\ u_pc q' = TMove m /\ m <> Z.of_nat (Nat.modulo (i_babble r) 81) /\ tryMove (u_game q') m = Ok (g1, false).
Proof.
  assert (Ln : Z.of_nat (length heldRun) * 10000 < 2 ^ 63) by now vm_compute. destruct (c109_safe noNumber 2 heldRun held_fair Ln) as (q & n & Rn & P & B). assert (X := c116_held_ex). rewrite Rn in X. clear Rn. apply same3 in X. destruct X as (X1 & _ & X3).
  assert (L : n * 10000 < 2 ^ 63) by lia. clear Ln B. unfold nextTry in X3.
  destruct (tttStep noNumber 2 (BMain pick0 (mkIn 0 [] 80 (fun _ => f1) []) 0 (fun x => x) f1) q) as [[q'|]|] eqn:E; [|discriminate X3|discriminate X3]. apply same3 in X3. destruct X3 as (Y1 & _ & Y3).
  destruct (tryMove (u_game q') 7) as [[g1 v]|] eqn:T; [|discriminate Y3]. cbn [rbind snd] in Y3. injection Y3 as ->.
  exists noNumber, n, q, 4%nat, pick0, (mkIn 0 [] 80 (fun _ => f1) []), 0, (fun x => x), f1, q', 7, g1. split; auto. split; auto. split; auto. split; auto. split; auto. split; auto. cbn. discriminate.
Qed.
Print Assumptions c116_goal.
Print Assumptions c116_operator.
Print Assumptions c116_decision.
Print Assumptions c116_done.
Print Assumptions c116_pong.
Print Assumptions c116_ttt_decision.
Print Assumptions c116_ttt_kept.
Print Assumptions c116_ttt_done.
Print Assumptions c116_ttt_wins.
Print Assumptions c116_ttt_possible_refuted.
