(** As long as what is wanted never happened, everything is tried by chance. *)
From Coq Require Import String Ascii ZArith Bool Lia List.
From Verif Require Import Base F64_Model Term_Model Term_Proofs Stamp_Model Sentence_Model Mem_Model Cycle_Model PMem_Model Goal_Model Goal_Spec Goal_Proofs Run_Proofs Proc_Model Proc_Spec ProcA_Proofs ProcC_Proofs ProcP_Proofs ProcS_Proofs
  ProcS_Model ProcX_Model Parser_Model Nar_Model Play_Model Play_Spec Play_Proofs Play2_Proofs Live_Proofs Env_Model Env_Spec Env_Proofs Ttt_Model Ttt_Spec Ttt_Proofs Ttt2_Proofs Vocab_Spec Vocab_Proofs Vocab2_Proofs Props_Truth Want_Proofs Luck_Spec.
Import ListNotations.
Local Open Scope list_scope.
Local Open Scope Z_scope.

Section Luck.
Variables (ops : list op) (F : string -> Prop) (w : string).
Hypothesis plain : forall o, In o ops -> op_kind o = OpPlain.
Hypothesis Fw : F w.
(** no law ends with [w] *)
Definition apart (s o s' : string) : Prop := s' <> w.
Definition onlyW (g : gsys) : Prop := allP (fun s _ => s_term s = Name w) g.
(** nothing but [w] is wanted, and it never happened *)
Definition dull (y : psys) : Prop := vInv ops F apart y /\ onlyW (n_goals (y_nar y)) /\ ~ facts (n_trace (y_nar y)) w.
Lemma apart_lets : forall tr s, s <> w -> lets apart tr (Name s).
Proof. intros tr s N i j e0 e1 s0 o z _ _ _ _ _ [= <-]. exact N. Qed.
Lemma only_wants : forall g, onlyW g -> wants ops F apart (fun s => s = w) g.
Proof. intros g G e He. cbn beta. rewrite (G e He). split; [left; exists w; auto|]. split; [now intros s [= <-]|intros s o [=]]. Qed.
Lemma dull_none : forall y b, dull y -> ~ candidate (y_nar y) b.
Proof.
  intros y b (V & G & N) C. destruct (candidate_wanted ops F apart (fun s => s = w) ltac:(intros s o s' A B; destruct (A B)) y b V (only_wants _ G) C) as (s & o & e & _ & _ & -> & He & En).
  apply N. now exists e.
Qed.
Lemma only_chain : forall m k g ev c, (forall s, In s (cells m) -> lawR ops F apart (s_term s)) -> s_term g = Name w -> goalChain (believed m) k g ev c -> s_term c = Name w.
Proof.
  intros m k g ev c A Hg Ch. assert (St : forall g ev c, s_term g = Name w -> goalStep (believed m) g ev c -> s_term c = Name w).
  { clear - A. intros g ev c Hg S. exfalso. destruct S as [g x rest v c E V I|g a b subj vg vb c N (-> & _) E Sh V1 V2 I]; [rewrite E in Hg; discriminate Hg|].
    destruct (cell_in _ _ _ _ E) as (_ & Hin). destruct (A _ Hin) as ((a1 & d & b1 & (s & -> & _) & (s' & -> & _) & _ & (o & _ & ->) & E') & Rl). rewrite E in E', Rl. injection E' as -> Eg.
    apply (Rl s o w); auto. now rewrite Hg. }
  induction Ch as [g ev c S|n g ev1 c1 ev c Ch IH S]; [eapply St; eauto|]. eapply St; [|exact S]. auto.
Qed.
Lemma only_act : forall us y a y', dull y -> yact us y a = Ok (Some y') ->
  match a with XGoal s => s_term s = Name w | XBelief _ _ _ _ => False | _ => True end -> onlyW (n_goals (y_nar y')).
Proof.
  intros us y a y' Du Y K. assert (No : forall b, ~ candidate (y_nar y) b) by (intros b; now apply dull_none). destruct Du as (V & G & _). destruct y as [n p c wk]. cbn [y_nar] in *.
  destruct a as [e|s|t id u draws| |decl r|nB rs|draws]; try contradiction; cbn [yact] in Y.
  - destruct p; try discriminate Y. injection Y as <-. exact G.
  - destruct p; try discriminate Y. destruct (addEntry _ _ _ _ _) as [g|] eqn:Ad; cbn [rbind] in Y; [|discriminate Y]. injection Y as <-. cbn. eapply add_P; eauto.
  - destruct p; try discriminate Y. destruct (confirm n) as [ant|]; cbn [rbind] in Y; [|discriminate Y]. injection Y as <-. exact G.
  - destruct p; try discriminate Y. destruct (narStep1 n decl r) as [n'|] eqn:S; cbn [rbind] in Y; [|discriminate Y]. injection Y as <-. cbn [y_nar].
    assert (Sc := step1_cells _ _ _ _ S). assert (V4 := v_cells _ _ _ _ V). cbn [y_nar] in V4.
    apply (step1_P (fun s _ => s_term s = Name w) _ _ _ _ S (v_reach _ _ _ _ V) G).
    + intros g0 ev0 k ev cc P Ch. apply (only_chain (n_mem n') k g0 ev cc); auto. rewrite Sc. exact V4.
    + intros b a pre opT e Cd. destruct (No b Cd).
  - destruct p as [|[|a todo]|[|m ms]|now [|s todo]]; try discriminate Y.
    + destruct (traceStep n rs) as [[g ms]|] eqn:T; cbn [rbind] in Y; [|discriminate Y]. injection Y as <-. cbn. destruct (trace_goals _ _ _ _ T) as [->|(ev & ->)]; auto. now apply event_P.
    + destruct (negConfirm _ _) as [h|] eqn:N; cbn [rbind] in Y; [|discriminate Y]. injection Y as <-. exact G.
    + injection Y as <-. exact G.
    + destruct (Nat.ltb _ _); [|discriminate Y]. injection Y as <-. exact G.
    + injection Y as <-. exact G.
    + destruct (mem_add_evidence_internal _ _ _ _ _) as [m|] eqn:M; cbn [rbind] in Y; [|discriminate Y]. injection Y as <-. exact G.
  - rewrite (work_goals us (mkPsys n p c wk) draws y' Y). exact G.
Qed.
(** the past gets new situations only by what is told *)
Lemma trace_facts : forall us y a y', vInv ops F apart y -> yact us y a = Ok (Some y') -> match a with XEvent _ => False | XBelief _ _ _ _ => False | _ => True end ->
  forall s, facts (n_trace (y_nar y')) s -> facts (n_trace (y_nar y)) s.
Proof.
  intros us y a y' V Y K s Hs. destruct a as [e|s1|t id u draws| |decl r|nB rs|draws]; try contradiction.
  - destruct y as [n p c wk]. cbn [yact] in Y. destruct p; try discriminate Y. destruct (addEntry _ _ _ _ _) as [g|] eqn:Ad; cbn [rbind] in Y; [|discriminate Y]. injection Y as <-. exact Hs.
  - now rewrite (main_trace _ _ _ _ Y Logic.I) in Hs.
  - destruct V as [V1 _ _ V4 _ _ _ _ V9 _ _]. destruct y as [n p c wk]. cbn [yact y_nar] in *. destruct p; try discriminate Y. destruct (narStep1 n decl r) as [n'|] eqn:S; cbn [rbind] in Y; [|discriminate Y]. injection Y as <-. cbn [y_nar] in Hs.
    destruct (step1_spec _ _ _ _ S) as (_ & _ & _ & _ & _ & (evs & ant & O & T & _) & _). rewrite T in Hs. destruct Hs as (e & He & En). apply skip_in in He. apply in_app_iff in He. destruct He as [He|He]; [now exists e|].
    assert (D : Forall (fun e => deed (map op_name ops) (ev_name e)) evs) by (eapply outcome_vocab; [exact plain|exact V1| |exact V9|exact O]; intros x Hx; now apply V4). rewrite Forall_forall in D. destruct (D e He) as (o & _ & Ed). rewrite En in Ed. discriminate Ed.
  - now rewrite (main_trace _ _ _ _ Y Logic.I) in Hs.
  - destruct (work_trace _ _ _ _ Y) as (E & _). now rewrite E in Hs.
Qed.
Theorem dull_act : forall us y a y', dull y -> yact us y a = Ok (Some y') ->
  match a with XEvent e => fact F e /\ e <> Name w | XGoal s => s_term s = Name w | XBelief _ _ _ _ => False | _ => True end -> dull y'.
Proof.
  intros us y a y' Du Y K. assert (G' : onlyW (n_goals (y_nar y'))) by (apply (only_act us y a y' Du Y); destruct a; auto). destruct Du as (V & G & N). split; [|split; auto].
  - refine (vocab_act ops F apart plain us y a y' V Y _). destruct a; auto.
    + destruct K as ((s & -> & Fs) & Ne). split; [exists s; auto|]. apply apart_lets. congruence.
    + exists w. auto.
  - assert (Tf := trace_facts us y a y' V Y). destruct a as [e|s1|t id u draws| |decl r|nB rs|draws]; try contradiction; try (intros H; apply N; now apply (Tf Logic.I)).
    clear Tf. destruct y as [n p c wk]. cbn [yact] in Y. destruct p; try discriminate Y. injection Y as <-. cbn. unfold event_happened. intros (x & Hx & En). apply in_app_iff in Hx. destruct Hx as [Hx|[<-|[]]]; [apply N; now exists x|]. now apply (proj2 K).
Qed.
(** nothing is decided, so only chance is left *)
Theorem dull_luck : forall us y r y', dull y -> yact us y (XStep1 true r) = Ok (Some y') -> called (y_nar y) r = if c_babble (n_cfg (y_nar y)) then luck ops (i_babble r) else None.
Proof.
  intros us y r y' Du Y. assert (No : forall b, ~ candidate (y_nar y) b) by (intros b; now apply dull_none). destruct Du as (V & G & _). assert (Eo := v_ops _ _ _ _ V). destruct y as [n p c wk]. cbn [y_nar] in *. cbn [yact] in Y.
  destruct p; try discriminate Y. destruct (narStep1 n true r) as [n'|] eqn:S; cbn [rbind] in Y; [|discriminate Y]. clear Y V. unfold called. destruct (step1_trace _ _ _ S) as (n2 & pk & n3 & Ch & _). rewrite Ch. unfold chosen in Ch.
  destruct (bestByState n) as [b0|] eqn:B0; [|discriminate Ch]. cbn [rbind] in Ch. destruct (best_spec _ _ B0) as (As & C0).
  destruct (planForward n (i_u r) (i_plan r) b0) as [b1|] eqn:B1; [|discriminate Ch]. cbn [rbind] in Ch. destruct (forward_spec _ _ _ _ _ B1 As C0) as (C1 & _).
  destruct b1 as [b|]; [destruct (No b (C1 b eq_refl))|]. cbn [decide rbind] in Ch. destruct (execGoal n) as [[n1 pk0]|] eqn:X; [|discriminate Ch]. cbn [rbind] in Ch.
  assert (n1 = n /\ pk0 = None) as (-> & ->).
  { unfold execGoal in X. destruct (pickGoal _ _) as [[[i e]|]|] eqn:Pk; cbn [rbind] in X; [| |discriminate X]; [|injection X as <- <-; auto]. destruct (pick_spec _ _ _ Pk) as (Hn & _). apply nth_error_In in Hn.
    assert (T := G e (or_intror Hn)). cbn beta in T. rewrite T in X. cbn [decodeOp] in X. destruct (e_evi e); injection X as <- <-; auto. }
  unfold babble in Ch. rewrite Eo in Ch. unfold luck. destruct (c_babble (n_cfg n)); cbn [andb] in Ch.
  2:{ cbn [rbind] in Ch. injection Ch as <- <-. reflexivity. }
  destruct (Nat.ltb_spec 0 (length ops)) as [L0|L0].
  2:{ cbn [rbind] in Ch. injection Ch as <- <-. destruct ops; [now destruct (Nat.modulo _ _)|cbn in L0; lia]. }
  set (j := Nat.modulo (i_babble r) (length ops * 9)) in *. destruct (Nat.ltb_spec j (length ops)) as [Lj|Lj].
  - unfold idx, unwrap in Ch. destruct (nth_error ops j) as [o|] eqn:No'; [|discriminate Ch]. cbn [rbind] in Ch. injection Ch as <- <-. destruct (op_babble o); [|reflexivity]. cbn [decodeOp encodeOp map length Nat.leb]. rewrite Eo.
    assert (Ho := nth_error_In _ _ No'). destruct (ret_op_by_name ops (op_name o)) as [o'|] eqn:Rt; [|apply ret_op_none with (1 := Rt) in Ho; now destruct Ho].
    apply ret_op_some in Rt. destruct Rt as (pre & post & _ & Nm & _). cbn [option_map]. now rewrite Nm.
  - cbn [rbind] in Ch. injection Ch as <- <-. apply nth_error_None in Lj. now rewrite Lj.
Qed.
End Luck.

(** * Tic-tac-toe *)
Notation tDull := (dull tttOps boardOrWin "w").
Lemma dull_set : forall ops F w n n' p c k, dull ops F w (mkPsys n p c k) -> n_ops n' = n_ops n -> c_nOpsMax (n_cfg n') = c_nOpsMax (n_cfg n) -> n_mem n' = n_mem n -> n_goals n' = n_goals n ->
  n_trace n' = n_trace n \/ n_trace n' = [] -> dull ops F w (mkPsys n' p c k).
Proof.
  intros ops F w n n' p c k (V & G & N) E1 E2 E3 E4 E5. cbn [y_nar] in *. split; [|cbn [y_nar]; rewrite E4; split; auto].
  - apply (vocab_set _ _ _ n n' p c k V); auto; destruct E5 as [-> | ->]; try apply V; [constructor|apply ordered_nil].
  - destruct E5 as [-> | ->]; auto. intros (e & [] & _).
Qed.
Lemma dull_told : forall g y t, tDull y -> unfinished (g_field g) -> tDull (withNar y (setTrace (y_nar y) (event_happened (n_trace (y_nar y)) (mkEvent (Name (boardName g)) t t)))).
Proof.
  intros g [n p c k] t (V & G & N) U. assert (Nw : boardName g <> "w"%string). { intros E. apply (w_no_board _ U). rewrite <- E. apply reads_board. }
  split; [|split; [exact G|]]; unfold event_happened; cbn.
  - apply (vocab_set _ _ _ n _ p c k V); auto; cbn.
    + apply Forall_app. split; [apply V|]. constructor; auto. left. now apply board_fact.
    + apply ordered_add; [apply V|]. now apply apart_lets.
  - intros (x & Hx & En). apply in_app_iff in Hx. destruct Hx as [Hx|[<-|[]]]; [apply N; now exists x|]. cbn [ev_name] in En. injection En as En. auto.
Qed.
Lemma ttt_dull : forall pf mx n q, tplayed pf mx n q -> n * 10000 < 2 ^ 63 -> u_wins q = 0 -> tDull (u_sys q).
Proof.
  intros pf mx n q P. induction P as [|n q a q' P IH Ft E]; intros L Wn.
  - split; [|split; [|intros (e & [] & _)]].
    + apply start_vocab; [reflexivity|exact (gr_cfg _ 1000 false _ (gr_make 20 8))|]. apply (no_goals _ 8); reflexivity.
    + intros e He. exfalso. revert He. apply (no_goals _ 8); reflexivity.
  - assert (I := ttt_inv pf mx n q P ltac:(lia)). destruct I as [_ _ _ I4 _ I6 I7 _ _]. assert (D : u_wins q = 0 -> tDull (u_sys q)) by (apply IH; lia). clear P IH. destruct q as [y d tm dq g mv games wns losses pc].
    cbn [u_sys u_pc u_game u_wins] in *. assert (W0 := proj1 I7). clear I7.
    assert (Go : forall us a y', wns = 0 -> yact us y a = Ok (Some y') -> match a with XGoal s => s_term s = Name "w" | XBelief _ _ _ _ => False | XEvent _ => False | _ => True end -> tDull y').
    { intros us a0 y' Z Y K. refine (dull_act _ _ _ ttt_plain (or_introl eq_refl) us y a0 y' (D Z) Y _). destruct a0; auto. contradiction. }
    assert (Same : forall n', wns = 0 -> n_ops n' = n_ops (y_nar y) -> c_nOpsMax (n_cfg n') = c_nOpsMax (n_cfg (y_nar y)) -> n_mem n' = n_mem (y_nar y) -> n_goals n' = n_goals (y_nar y) ->
      n_trace n' = n_trace (y_nar y) \/ n_trace n' = [] -> tDull (withNar y n')).
    { intros n' Z H1 H2 H3 H4 H5. clear - D Z H1 H2 H3 H4 H5. destruct y as [nn p c w]. apply (dull_set _ _ _ nn n' p c w (D Z)); auto. }
    destruct a as [rs r opp expf sel|ds]; cbn [tttStep] in E.
    2:{ destruct (yact (usages d) y (XWork ds)) as [[y'|]|] eqn:Y; cbn [rbind option_map] in E; try discriminate E. injection E as <-. exact (Go _ _ _ Wn Y Logic.I). }
    destruct pc.
    + destruct I4 as [(w & [=])|M]. destruct (games >=? mx); [injection E as <-; exact (D Wn)|]. destruct (knowsGoal (n_goals (y_nar y))).
      * cbn [rbind] in E. injection E as <-. apply Same; auto.
      * assert (T := aim_goal pf (usages d) y d M). destruct (yact (usages d) y (XGoal (aimGoal d))) as [[y'|]|] eqn:Y; [|contradiction|rewrite T in E; discriminate E].
        destruct T as (n' & T0 & T1 & _). rewrite T0 in E. cbn [rbind] in E. injection E as <-. cbn [u_sys u_wins] in *.
        assert (D' : tDull y') by exact (Go _ _ _ Wn Y eq_refl). clear - D' T1. subst y'. destruct y as [nn p c w]. refine (dull_set _ _ _ (nr_proc n') _ p c w D' _ _ _ _ _); auto.
    + injection E as <-. apply Same; auto.
    + destruct (g_player g).
      * injection E as <-. cbn [u_sys u_wins] in *. assert (U : unfinished (g_field g)) by (apply (going_unf _ (g_player g)); now destruct g).
        refine (dull_told g (withNar y (setBabble (setAnt (flushTrace (y_nar y)) []) true)) _ _ U). apply Same; auto.
      * destruct (range 9 opp) as [m|]; cbn [rbind] in E; [|discriminate E]. destruct (tryMove g m) as [[g1 v]|]; cbn [rbind] in E; [|discriminate E]. injection E as <-. exact (D Wn).
    + destruct (yact (usages d) y XStep0) as [[y'|]|] eqn:Y; cbn [rbind option_map] in E; try discriminate E. injection E as <-. exact (Go _ _ _ Wn Y Logic.I).
    + assert (Mn : (do o <- yact (usages d) y (XMain 20 rs); Ok (option_map (fun y' => mkTtt y' d tm dq g mv games wns losses (TIn0 w)) o)) = Ok (Some q') -> tDull (u_sys q')).
      { clear E. intros E. destruct (yact (usages d) y (XMain 20 rs)) as [[y'|]|] eqn:Y; cbn [rbind option_map] in E; try discriminate E. injection E as <-. exact (Go _ _ _ Wn Y Logic.I). }
      destruct (y_main y); auto. injection E as <-. cbn [u_sys u_wins] in *. destruct w; [exact (D Wn)| |exact (D Wn)]. cbn [gameBy] in I6. assert (U := going_unf _ _ I6). exact (dull_told g y _ (D Wn) U).
    + destruct (yact (usages d) y (XStep1 true r)) as [[y'|]|] eqn:Y; cbn [rbind] in E; [| |discriminate E].
      2:{ match type of E with (let '(_, _) := ?t in _) = _ => destruct t as [mv2 pc2] end. discriminate E. }
      match type of E with (let '(_, _) := ?t in _) = _ => destruct t as [mv2 pc2] end. injection E as <-. exact (Go _ _ _ Wn Y Logic.I).
    + destruct (tryMove g m) as [[g1 v]|]; cbn [rbind] in E; [|discriminate E]. injection E as <-. exact (D Wn).
    + destruct (winner (g_field g)) as [[c|]|]; cbn [rbind] in E; [| |discriminate E].
      * destruct (Ascii.eqb c "a"); [|injection E as <-; apply Same; auto]. destruct (inputN _ _ _ _) as [[x b]|]; cbn [rbind] in E; [|discriminate E]. injection E as <-. cbn [u_wins] in Wn. lia.
      * destruct (isDraw (g_field g)); injection E as <-; apply Same; auto.
    + destruct (reasonCycle expf sel d tm) as [[[[d1 tm1] z] m]|]; cbn [rbind] in E; [|discriminate E]. injection E as <-. exact (D Wn).
    + discriminate E.
Qed.
Lemma longing_dull : forall ops (F : string -> Prop) w y, (forall o, In o ops -> op_kind o = OpPlain) -> F w -> longing ops F w y -> dull ops F w y.
Proof.
  intros ops F w y Pl Fw H. induction H as [cfg tab t nMax depth C|us y a y' H IH K Y].
  - assert (N : forall e, ~ stored (makeGoalSystem nMax depth) e) by (apply (no_goals _ (Z.to_nat depth)); reflexivity). split; [|split; [|intros (e & [] & _)]].
    + apply start_vocab; auto. constructor.
    + intros e He. destruct (N e He).
  - exact (dull_act ops F w Pl Fw us y a y' IH Y K).
Qed.
