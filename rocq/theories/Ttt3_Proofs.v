(** The program "envTTT2": its settings, a new game, rewards and pauses. *)
From Coq Require Import String Ascii ZArith Bool Lia List.
From Verif Require Import Base F64_Model Term_Model Term_Proofs Stamp_Model Tv_Model Tv_Spec Sentence_Model Mem_Model Cycle_Model PMem_Model Goal_Model Goal_Spec Goal_Proofs Goal3_Proofs Proc_Model
  Proc_Spec ProcC_Proofs ProcS_Model ProcX_Model ProcX2_Proofs ProcX3_Proofs Parser_Model Nar_Model Env_Model Env_Spec Env_Proofs Play_Model Play_Proofs Play2_Proofs Ttt_Model Ttt_Spec Ttt_Proofs Ttt2_Proofs.
Import ListNotations.
Local Open Scope list_scope.
Local Open Scope Z_scope.

Lemma act_cfg : forall us y a y', yact us y a = Ok (Some y') -> n_cfg (y_nar y') = n_cfg (y_nar y).
Proof.
  intros us [n p c w] a y' H. unfold yact in H. cbn [y_nar].
  destruct a as [e|s|t id u draws| |decl r|nB rs|draws].
  - destruct p; try discriminate. injection H as <-. reflexivity.
  - destruct p; try discriminate. destruct (addEntry _ _ _ _ _); [|discriminate]. injection H as <-. reflexivity.
  - destruct p; try discriminate. destruct (matchandintro_var1_sentence _ _); [|discriminate]. injection H as <-. reflexivity.
  - destruct p; try discriminate. destruct (confirm n); [|discriminate]. injection H as <-. reflexivity.
  - destruct p; try discriminate. destruct (narStep1 n decl r) eqn:E; [|discriminate]. injection H as <-. apply step1_spec in E. apply E.
  - destruct p as [|[|x l]|[|m ms]|now [|s todo]]; try discriminate.
    + destruct (traceStep n rs) as [[g ms]|]; [|discriminate]. injection H as <-. reflexivity.
    + destruct (negConfirm _ _); [|discriminate]. injection H as <-. reflexivity.
    + injection H as <-. reflexivity.
    + destruct (Nat.ltb _ _); [|discriminate]. injection H as <-. reflexivity.
    + injection H as <-. reflexivity.
    + destruct (mem_add_evidence_internal _ _ _ _ _); [|discriminate]. injection H as <-. reflexivity.
  - destruct w as [|s now [|x l] rv|now [|s todo]].
    + destruct c as [|[s now] c]; [now destruct p|]. destruct (mergeTargets _ _); [|now destruct p]. destruct p; injection H as <-; reflexivity.
    + destruct rv; [destruct p; injection H as <-; reflexivity|]. destruct (matchandintro_var1_sentence _ _); [|now destruct p]. destruct p; injection H as <-; reflexivity.
    + destruct (mergeInto _ _ _) as [[h b]|]; [|now destruct p]. destruct p; injection H as <-; reflexivity.
    + destruct p; injection H as <-; reflexivity.
    + destruct (mem_add_evidence_internal _ _ _ _ _); [|now destruct p]. destruct p; injection H as <-; reflexivity.
Qed.
Definition thinking (pc : tpc) : Prop := exists w k, (pc = THalf0 w \/ pc = TIn0 w \/ pc = THalf1 w) /\ w = Think k.
Definition setAs (q : ttt) (b : bool) : Prop := n_cfg (y_nar (u_sys q)) = mkPcfg 2 (f_frac 58 100) 1 4 b false 500 100.
Definition cfgBy (q : ttt) : Prop :=
  match u_pc q with
  | THalf0 (Think _) | TIn0 (Think _) | THalf1 (Think _) => setAs q true
  | TMove _ | TPick | TCheck => setAs q true \/ setAs q false
  | _ => setAs q false
  end.
(** what a step of the main thread does to the reasoner *)
Lemma goal_input : forall pf y d x b, y_main y = MFree -> inputN pf (asNar y d) (tx "w! :|:") [] = Ok (x, b) ->
  n_cfg (nr_proc x) = n_cfg (y_nar y) /\ n_t (nr_proc x) = n_t (y_nar y) /\ n_trace (nr_proc x) = n_trace (y_nar y) /\ addEntry (n_goals (y_nar y)) (n_t (y_nar y)) (aimGoal d) None 0 = Ok (n_goals (nr_proc x)).
Proof.
  intros pf y d x b M E. assert (T := aim_goal pf (usages d) y d M). destruct y as [n p c w]. cbn [y_main y_nar] in *. subst p. cbn [yact] in T. destruct (addEntry (n_goals n) (n_t n) (aimGoal d) None 0) as [g|] eqn:A; cbn [rbind] in T.
  - destruct T as (n' & E' & T1 & _). rewrite E in E'. injection E' as <- _. cbn [withNar y_main y_chan y_work] in T1. injection T1 as ->. auto.
  - rewrite E in T. discriminate T.
Qed.
Lemma ttt_set : forall pf mx n q, tplayed pf mx n q -> n * 10000 < 2 ^ 63 -> cfgBy q.
Proof.
  intros pf mx n q P. induction P as [|n q a q' P IH Fa E]; intros L; [reflexivity|]. specialize (IH ltac:(lia)). assert (I := ttt_inv _ _ _ _ P ltac:(lia)).
  destruct a as [rs r opp expf sel|ds].
  2:{ destruct (work_keeps _ _ _ _ _ E) as (y' & Y & ->). apply act_cfg in Y. unfold cfgBy, setAs in *. cbn [u_pc u_sys] in *. rewrite Y. exact IH. }
  destruct q as [y d tm dq g mv games wins losses pc]. assert (M := ti_free _ _ _ I). cbn [u_pc u_sys] in M. clear I. cbn [tttStep] in E. unfold cfgBy, setAs in IH. cbn [u_pc u_sys] in IH. unfold cfgBy, setAs. destruct pc; try (destruct M as [(w' & M)|M]; [discriminate M|]).
  - destruct (games >=? mx); [injection E as <-; exact IH|]. destruct (knowsGoal (n_goals (y_nar y))).
    + cbn [rbind] in E. injection E as <-. exact IH.
    + destruct (inputN _ _ _ _) as [[x b]|] eqn:In; cbn [rbind] in E; [|discriminate E]. injection E as <-. destruct (goal_input _ _ _ _ _ M In) as (A & _). cbn. rewrite A. exact IH.
  - injection E as <-. cbn. right. exact IH.
  - destruct (g_player g); [injection E as <-; destruct IH as [IH|IH]; cbn; rewrite IH; reflexivity|]. destruct (range 9 opp) as [m|]; cbn [rbind] in E; [|discriminate E].
    destruct (tryMove g m) as [[g1 [|]]|]; cbn [rbind] in E; try discriminate E; injection E as <-; exact IH.
  - destruct (yact _ y XStep0) as [[y'|]|] eqn:Y; cbn [rbind option_map] in E; try discriminate E. injection E as <-. apply act_cfg in Y. cbn [u_pc u_sys]. rewrite Y. exact IH.
  - clear M. destruct (y_main y); [injection E as <-; destruct w as [k| |won k]; exact IH| | |];
      (destruct (yact _ y (XMain 20 rs)) as [[y'|]|] eqn:Y; cbn [rbind option_map] in E; try discriminate E; injection E as <-; apply act_cfg in Y; cbn [u_pc u_sys]; rewrite Y; exact IH).
  - destruct (yact _ y (XStep1 true r)) as [[y'|]|] eqn:Y; cbn [rbind] in E; try discriminate E; [|destruct w as [k| |won k]; [destruct (moveOf _ mv)| |]; discriminate E]. apply act_cfg in Y.
    destruct w as [k| |won k]; [destruct (moveOf _ mv)| |]; cbn [option_map] in E; injection E as <-; cbn [u_pc u_sys]; rewrite Y; auto; destruct k as [|[|k']]; auto; destruct won; exact IH.
  - destruct (tryMove g m) as [[g1 [|]]|]; cbn [rbind] in E; try discriminate E; injection E as <-; exact IH.
  - assert (S0 : n_cfg (setBabble (y_nar y) false) = mkPcfg 2 (f_frac 58 100) 1 4 false false 500 100) by (cbn [setBabble n_cfg]; destruct IH as [-> | ->]; reflexivity).
    destruct (winner (g_field g)) as [[c|]|]; cbn [rbind] in E; [| |discriminate E].
    + destruct (Ascii.eqb c "a"); [|injection E as <-; exact S0]. destruct (won_typed pf (withNar y (setBabble (y_nar y) false)) d) as (x & Ex & _ & T3). rewrite Ex in E. cbn [rbind] in E. injection E as <-. cbn [u_pc u_sys withNar y_nar]. rewrite T3. exact S0.
    + destruct (isDraw (g_field g)); injection E as <-; [exact S0|]. cbn [u_pc u_sys]. destruct (g_player g); exact S0.
  - destruct (reasonCycle expf sel d tm) as [[[[d1 tm1] an] m]|]; cbn [rbind] in E; [|discriminate E]. injection E as <-. exact IH.
  - discriminate E.
Qed.
(** a new game *)
Lemma ttt_fresh : forall pf mx n q a q', tplayed pf mx n q -> n * 10000 < 2 ^ 63 -> u_pc q = TEpoch -> tttStep pf mx a q = Ok (Some q') -> u_pc q' <> TEpoch ->
  (u_pc q' = TDone /\ mx <= u_games q) \/
  (u_pc q' = TTurn /\ u_games q < mx /\ u_game q' = mkGame (repeat " "%char 9) true /\ n_trace (y_nar (u_sys q')) = [] /\ exists e, stored (n_goals (y_nar (u_sys q'))) e /\ s_term (e_sentence e) = Name "w").
Proof.
  intros pf mx n q a q' P L Q E Nq. assert (I := ttt_inv _ _ _ _ P L). destruct a as [rs r opp expf sel|ds].
  2:{ destruct (work_keeps _ _ _ _ _ E) as (y' & Y & ->). cbn [u_pc] in Nq. contradiction. }
  destruct q as [y d tm dq g mv games wins losses pc]. assert (M := ti_free _ _ _ I). assert (Gr := go_reach _ _ _ (yx_goals _ (so_y _ _ (ti_sys _ _ _ I)))). cbn [u_pc u_sys] in *. subst pc. destruct M as [(w' & M)|M]; [discriminate M|]. cbn [tttStep] in E. cbn [u_games]. destruct (games >=? mx) eqn:Gm.
  - apply Z.geb_le in Gm. injection E as <-. left. auto.
  - rewrite Z.geb_leb in Gm. apply Z.leb_gt in Gm. right. destruct (knowsGoal (n_goals (y_nar y))) eqn:K.
    + cbn [rbind] in E. injection E as <-. cbn. split; auto. split; auto. split; auto. split; auto. unfold knowsGoal in K. apply existsb_exists in K. destruct K as (e & He & Et). exists e. split; [now apply stored_iff|]. now apply checkEqTerm_eq.
    + destruct (inputN _ _ _ _) as [[x b]|] eqn:In; cbn [rbind] in E; [|discriminate E]. injection E as <-. cbn. split; auto. split; auto. split; auto. split; auto. destruct (goal_input _ _ _ _ _ M In) as (_ & _ & _ & A).
      destruct (add_there _ _ _ _ _ _ Gr A) as (e & E1 & E2 & _). exists e. auto.
Qed.
(** after the opponent's move *)
Lemma ttt_seen : forall pf mx n q, tplayed pf mx n q -> n * 10000 < 2 ^ 63 -> u_pc q = THalf1 See ->
  exists s pre, readsAs (g_field (u_game q)) s /\ n_trace (y_nar (u_sys q)) = pre ++ [mkEvent (Name s) (n_t (y_nar (u_sys q))) (n_t (y_nar (u_sys q)))].
Proof.
  intros pf mx n q P. induction P as [|n q a q' P IH Fa E]; intros L Pc; [discriminate Pc|].
  assert (I := ttt_inv _ _ _ _ P ltac:(lia)). destruct a as [rs r opp expf sel|ds].
  2:{ destruct (work_keeps _ _ _ _ _ E) as (y' & Y & ->). cbn [u_pc u_game u_sys] in *. destruct (work_trace _ _ _ _ Y) as (-> & ->). apply IH; auto. lia. }
  clear IH. destruct q as [y d tm dq g mv games wins losses pc]. cbn [tttStep] in E. destruct pc.
  - destruct (games >=? mx); [injection E as <-; discriminate Pc|].
    destruct (if knowsGoal (n_goals (y_nar y)) then _ else _) as [[n1 d1]|]; cbn [rbind] in E; [|discriminate E]. injection E as <-. discriminate Pc.
  - injection E as <-. discriminate Pc.
  - destruct (g_player g) eqn:Pl; [injection E as <-; discriminate Pc|].
    destruct (range 9 opp) as [m|]; cbn [rbind] in E; [|discriminate E]. destruct (tryMove g m) as [[g1 [|]]|]; cbn [rbind] in E; try discriminate E; injection E as <-; discriminate Pc.
  - destruct (yact _ y XStep0) as [[y'|]|]; cbn [rbind option_map] in E; try discriminate E. injection E as <-. discriminate Pc.
  - destruct (y_main y); [| | |]; try (destruct (yact _ y (XMain 20 rs)) as [[y'|]|]; cbn [rbind option_map] in E; try discriminate E; injection E as <-; discriminate Pc).
    injection E as <-. cbn [u_pc] in Pc. injection Pc as ->. exists (boardName g), (n_trace (y_nar y)). split; [apply reads_board|reflexivity].
  - destruct (yact _ y (XStep1 true r)) as [[y'|]|]; cbn [rbind] in E; try discriminate E; [|destruct w as [k| |won k]; [destruct (moveOf _ mv)| |]; discriminate E].
    destruct w as [k| |won k]; [destruct (moveOf _ mv)| |]; cbn [option_map] in E; injection E as <-; cbn [u_pc] in Pc; try discriminate Pc; destruct k as [|[|k']]; try discriminate Pc; destruct won; discriminate Pc.
  - destruct (tryMove g m) as [[g1 [|]]|]; cbn [rbind] in E; try discriminate E; injection E as <-; discriminate Pc.
  - destruct (winner (g_field g)) as [[c|]|]; cbn [rbind] in E; [| |discriminate E].
    + destruct (Ascii.eqb c "a"); [destruct (inputN _ _ _ _) as [[x b]|]; cbn [rbind] in E; [|discriminate E]|]; injection E as <-; discriminate Pc.
    + destruct (isDraw (g_field g)); [|destruct (g_player g)]; injection E as <-; discriminate Pc.
  - destruct (reasonCycle expf sel d tm) as [[[[d1 tm1] an] m]|]; cbn [rbind] in E; [|discriminate E]. injection E as <-. discriminate Pc.
  - discriminate E.
Qed.
(** after a move *)
Definition pause (pc : tpc) : Z :=
  match pc with
  | THalf0 (Rest _ k) | TIn0 (Rest _ k) | THalf1 (Rest _ k) => Z.of_nat k
  | THalf0 See | TIn0 See | THalf1 See => 51
  | _ => 0
  end.
Lemma pause_step : forall pf mx q a q', tttStep pf mx a q = Ok (Some q') -> watching (u_pc q) -> (forall w k, u_pc q = THalf0 (Rest w k) \/ u_pc q = TIn0 (Rest w k) \/ u_pc q = THalf1 (Rest w k) -> (1 <= k)%nat) ->
  n_t (y_nar (u_sys q')) + pause (u_pc q') = n_t (y_nar (u_sys q)) + pause (u_pc q).
Proof.
  intros pf mx q a q' E Wt K. destruct a as [rs r opp expf sel|ds].
  2:{ destruct (work_keeps _ _ _ _ _ E) as (y' & Y & ->). cbn [u_pc u_sys] in *. now destruct (work_trace _ _ _ _ Y) as (_ & ->). }
  destruct q as [y d tm dq g mv games wins losses pc]. cbn [u_pc u_sys] in *. destruct Wt as (w & Hw & Ww). cbn [tttStep] in E. destruct Hw as [-> | [-> | ->]].
  - destruct (yact _ y XStep0) as [[y'|]|] eqn:Y; cbn [rbind option_map] in E; try discriminate E. injection E as <-. apply act_time in Y. cbn [u_pc u_sys]. destruct Y as (-> & _). destruct w; cbn [pause]; lia.
  - destruct (y_main y); [injection E as <-; cbn [u_pc u_sys]; destruct w; cbn; lia| | |];
      (destruct (yact _ y (XMain 20 rs)) as [[y'|]|] eqn:Y; cbn [rbind option_map] in E; try discriminate E; injection E as <-; apply act_time in Y; cbn [u_pc u_sys]; destruct Y as (-> & _); destruct w; cbn [pause]; lia).
  - destruct (yact _ y (XStep1 true r)) as [[y'|]|] eqn:Y; cbn [rbind] in E; try discriminate E; [|destruct w as [k| |won k]; [destruct (moveOf _ mv)| |]; discriminate E]. apply act_time in Y. destruct Y as (Y & _).
    destruct w as [k| |won k]; [destruct Ww as [Ww|(won & k' & Ww)]; discriminate Ww| |]; cbn [option_map] in E; injection E as <-; cbn [u_pc u_sys]; rewrite Y.
    + cbn [pause]. lia.
    + specialize (K won k ltac:(auto)). destruct k as [|[|k']]; [lia| |]; [destruct won; cbn [pause]; lia|]. cbn [pause]. lia.
Qed.
Lemma watch_pause : forall pf mx n q0 q, tplayed pf mx n q0 -> watches pf mx q0 q -> 
  (forall w k, u_pc q0 = THalf0 (Rest w k) \/ u_pc q0 = TIn0 (Rest w k) \/ u_pc q0 = THalf1 (Rest w k) -> (1 <= k)%nat) ->
  n_t (y_nar (u_sys q)) + pause (u_pc q) = n_t (y_nar (u_sys q0)) + pause (u_pc q0) /\ (forall w k, u_pc q = THalf0 (Rest w k) \/ u_pc q = TIn0 (Rest w k) \/ u_pc q = THalf1 (Rest w k) -> (1 <= k)%nat).
Proof.
  intros pf mx n q0 q P W K0. induction W as [|q a q' W IH Wt E]; [auto|]. destruct IH as (IH1 & IH2). split; [rewrite (pause_step _ _ _ _ _ E Wt IH2); exact IH1|].
  destruct a as [rs r opp expf sel|ds]; [|destruct (work_keeps _ _ _ _ _ E) as (y' & Y & ->); exact IH2].
  destruct q as [y d tm dq g mv games wins losses pc]. cbn [u_pc] in *. destruct Wt as (w & Hw & Ww). cbn [tttStep] in E. destruct Hw as [-> | [-> | ->]].
  - destruct (yact _ y XStep0) as [[y'|]|] eqn:Y; cbn [rbind option_map] in E; try discriminate E. injection E as <-. cbn [u_pc]. intros w' k [[=]|[[= ->]|[=]]]. apply (IH2 w'); auto.
  - destruct (y_main y); [injection E as <-; cbn [u_pc]; intros w' k [[=]|[[=]|[= ->]]]; apply (IH2 w'); auto| | |];
      (destruct (yact _ y (XMain 20 rs)) as [[y'|]|] eqn:Y; cbn [rbind option_map] in E; try discriminate E; injection E as <-; exact IH2).
  - destruct (yact _ y (XStep1 true r)) as [[y'|]|] eqn:Y; cbn [rbind] in E; try discriminate E; [|destruct w as [k| |won k]; [destruct (moveOf _ mv)| |]; discriminate E].
    destruct w as [k| |won k]; [destruct Ww as [Ww|(won & k' & Ww)]; discriminate Ww| |]; cbn [option_map] in E; injection E as <-; cbn [u_pc].
    + intros w' k [[= <- <-]|[[=]|[=]]]. lia.
    + destruct k as [|[|k']]; [destruct won|destruct won|]; intros w' k [X|[X|X]]; try discriminate X. injection X as <- <-. lia.
Qed.
Lemma ttt_reward : forall pf mx n q rs r opp expf sel q1, tplayed pf mx n q -> n * 10000 < 2 ^ 63 -> u_pc q = TCheck -> tttStep pf mx (BMain rs r opp expf sel) q = Ok (Some q1) ->
  let f := g_field (u_game q) in
  n_t (y_nar (u_sys q1)) = n_t (y_nar (u_sys q)) /\
  ((wins "a" f /\ n_trace (y_nar (u_sys q1)) = n_trace (y_nar (u_sys q)) ++ [mkEvent (Name "w") (n_t (y_nar (u_sys q))) (n_t (y_nar (u_sys q)))] /\ u_pc q1 = THalf0 (Rest true 50)) \/
   (~ wins "a" f /\ n_trace (y_nar (u_sys q1)) = n_trace (y_nar (u_sys q)) /\
     (((wins "b" f \/ full f) /\ u_pc q1 = TEpoch) \/ (~ wins "b" f /\ ~ full f /\ u_pc q1 = THalf0 (if g_player (u_game q) then Rest false 50 else See))))).
Proof.
  intros pf mx n q rs r opp expf sel q1 P L Q E. cbv zeta. assert (I := ti_game _ _ _ (ttt_inv _ _ _ _ P L)). rewrite Q in I. destruct I as (w & W & Hw). destruct q as [y d tm dq g mv games wins0 losses pc]. cbn [u_pc u_game u_sys] in *. subst pc.
  cbn [tttStep] in E. rewrite W in E. cbn [rbind] in E. destruct w as [c|].
  - destruct Hw as (_ & Hw & Hc & Uq). destruct (Ascii.eqb_spec c "a") as [Ea|Na].
    + destruct (won_typed pf (withNar y (setBabble (y_nar y) false)) d) as (x & Ex & _ & T3). rewrite Ex in E. cbn [rbind] in E. injection E as <-. cbn [u_pc u_sys withNar y_nar]. rewrite T3. rewrite Ea in Hw. split; [reflexivity|]. left. split; [exact Hw|]. split; reflexivity.
    + injection E as <-. cbn [u_pc u_sys]. split; [reflexivity|]. right. split; [intros Wa; apply Uq in Wa; congruence|]. split; [reflexivity|]. left. split; auto. left. destruct (g_player g); [congruence|]. now subst c.
  - destruct (isDraw (g_field g)).
    + injection E as <-. destruct Hw as (_ & N & F). split; [reflexivity|]. right. split; [apply N|]. split; [reflexivity|]. left. auto.
    + injection E as <-. destruct Hw as (_ & N & F). cbn [g_field] in N, F. split; [reflexivity|]. right. split; [apply N|]. split; [reflexivity|]. right. split; [apply N|]. split; auto.
Qed.
