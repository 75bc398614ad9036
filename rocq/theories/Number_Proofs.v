(** The numbers of the evidence of goals in the two game programs. *)
From Coq Require Import String Ascii ZArith Bool Lia List.
From Verif Require Import Base F64_Model Term_Model Unify_Model Stamp_Model Sentence_Model Mem_Model Cycle_Model PMem_Model Goal_Model Goal_Spec Goal_Proofs Run_Proofs Proc_Model Proc_Spec ProcS_Model
  ProcX_Model Parser_Model Nar_Model Play_Model Play_Spec Play_Proofs Play2_Proofs Live_Proofs ProcC_Proofs ProcS_Proofs Env_Model Env_Spec Env_Proofs Ttt_Model Ttt_Spec Ttt_Proofs Ttt2_Proofs Vocab_Spec Vocab_Proofs Vocab2_Proofs
  Nar_Proofs Want_Proofs.
Import ListNotations.
Local Open Scope list_scope.
Local Open Scope Z_scope.

(** the evidence begins with a number below [N] *)
Definition numbered (N : Z) (s : sentence) : Prop := exists k r, s_stamp s = k :: r /\ 0 <= k < N.
Lemma merge_first : forall k r b, exists r', merge (k :: r) b = k :: r'.
Proof. intros k r b. unfold merge. destruct b as [|x b]; cbn [interleave app length Nat.min firstn]; eauto. Qed.
Section Number.
Variables (ops : list op) (F : string -> Prop) (R : string -> string -> string -> Prop).
Notation names := (map op_name ops).
Definition numP (N : Z) (s : sentence) (ev : option nat) : Prop := aim F names (s_term s) /\ (deed names (s_term s) \/ numbered N s).
Definition numberedAll (N : Z) (g : gsys) : Prop := allP (numP N) g.
Lemma fact_deed : forall t, fact F t -> ~ deed names t.
Proof. intros t (s & -> & _) (o & _ & E). discriminate E. Qed.
Lemma num_chain : forall N m k g ev0 ev c, (forall s, In s (cells m) -> law F names (s_term s)) -> numP N g ev0 -> goalChain (believed m) k g ev c -> numP N c ev.
Proof.
  intros N m k g ev0 ev c A Hg Ch.
  assert (St : forall g ev0 ev c, numP N g ev0 -> goalStep (believed m) g ev c -> numP N c ev).
  { clear - A. intros g ev0 ev c (Hg & Ng) S. split; [exact (chain_aim ops F m 1 g ev c A Hg (gc_one _ _ _ _ S))|]. right.
    destruct S as [g x rest v c E V I|g a b subj vg vb c N0 (-> & _) E Sh V1 V2 I]; destruct I as (_ & _ & _ & Es & _); unfold numbered; rewrite Es.
    - destruct Ng as [(o & _ & D)|Ng]; [rewrite E in D; discriminate D|]. exact Ng.
    - destruct (cell_in _ _ _ _ E) as (_ & Hin). destruct (A _ Hin) as (a1 & d & b1 & _ & Fb & _ & _ & E'). rewrite E in E'. injection E' as -> Eg.
      destruct Ng as [D|(k & r & Ek & L)]; [rewrite Eg in D; destruct (fact_deed _ Fb D)|]. rewrite Ek. destruct (merge_first k r (s_stamp (rd (cells m) a))) as (r' & ->). eauto. }
  revert ev0 Hg. induction Ch as [g ev c S|n g ev1 c1 ev c Ch IH S]; intros ev0 Hg; [eapply St; eauto|]. eapply St; [|exact S]. eapply IH; eauto.
Qed.
Lemma num_more : forall N N' g, N <= N' -> numberedAll N g -> numberedAll N' g.
Proof. intros N N' g L A e He. destruct (A e He) as (A1 & [A2|(k & r & E & B)]); split; auto. right. exists k, r. split; auto. lia. Qed.
Theorem num_act : forall N us y a y', vInv ops F R y -> numberedAll N (n_goals (y_nar y)) -> yact us y a = Ok (Some y') ->
  match a with XGoal s => fact F (s_term s) /\ numbered N s | XBelief _ _ _ _ => False | _ => True end -> numberedAll N (n_goals (y_nar y')).
Proof.
  intros N us [n p c w] a y' V G Y K. cbn [y_nar] in *.
  destruct a as [e|s|t id u draws| |decl r|nB rs|draws]; try contradiction; cbn [yact] in Y.
  - destruct p; try discriminate Y. injection Y as <-. exact G.
  - destruct p; try discriminate Y. destruct (addEntry _ _ _ _ _) as [g|] eqn:Ad; cbn [rbind] in Y; [|discriminate Y]. injection Y as <-. cbn. destruct K as (K1 & K2). apply (add_P (numP N) _ _ _ _ _ _ G) in Ad; auto. split; [now left|now right].
  - destruct p; try discriminate Y. destruct (confirm n) as [ant|]; cbn [rbind] in Y; [|discriminate Y]. injection Y as <-. exact G.
  - destruct p; try discriminate Y. destruct (narStep1 n decl r) as [n'|] eqn:S; cbn [rbind] in Y; [|discriminate Y]. injection Y as <-. cbn [y_nar].
    assert (Sc := step1_cells _ _ _ _ S). assert (V4 : forall s, In s (cells (n_mem n)) -> law F names (s_term s)) by (intros s Hs; exact (proj1 (v_cells _ _ _ _ V s Hs))).
    apply (step1_P (numP N) _ _ _ _ S (v_reach _ _ _ _ V) G).
    + intros g0 ev0 k ev cc P Ch. apply (num_chain N (n_mem n') k g0 ev0 ev cc); auto. rewrite Sc. exact V4.
    + intros b a pre opT e Cd E1 E2 Op (v & _ & (Et & _) & _).
      assert (D : deed names opT). { apply (candidate_deed ops F n b pre opT); auto. exact (v_goals _ _ _ _ V). }
      split; rewrite Et; [right; now left|now left].
  - destruct p as [|[|a todo]|[|m ms]|now [|s todo]]; try discriminate Y.
    + destruct (traceStep n rs) as [[g ms]|] eqn:T; cbn [rbind] in Y; [|discriminate Y]. injection Y as <-. cbn. destruct (trace_goals _ _ _ _ T) as [->|(ev & ->)]; auto. now apply event_P.
    + destruct (negConfirm _ _) as [h|] eqn:Ng; cbn [rbind] in Y; [|discriminate Y]. injection Y as <-. exact G.
    + injection Y as <-. exact G.
    + destruct (Nat.ltb _ _); [|discriminate Y]. injection Y as <-. exact G.
    + injection Y as <-. exact G.
    + destruct (mem_add_evidence_internal _ _ _ _ _) as [m|] eqn:M; cbn [rbind] in Y; [|discriminate Y]. injection Y as <-. exact G.
  - rewrite (work_goals us (mkPsys n p c w) draws y' Y). exact G.
Qed.
End Number.

(** * Tic-tac-toe *)
Lemma taken_ctr : forall d, stampCtr (idTaken d) = stampCtr d + 1.
Proof. intros d. reflexivity. Qed.
Notation tNums N := (numberedAll tttOps boardOrWin N).
Definition tNum (q : ttt) : Prop := 0 <= stampCtr (u_decl q) /\ tNums (stampCtr (u_decl q)) (n_goals (y_nar (u_sys q))).
Lemma ttt_nums : forall pf mx n q, tplayed pf mx n q -> n * 10000 < 2 ^ 63 -> tNum q.
Proof.
  intros pf mx n q P. induction P as [|n q a q' P IH Ft E]; intros L.
  - split; [now vm_compute|]. intros e He. exfalso. revert He. apply (no_goals _ 8); reflexivity.
  - destruct (IH ltac:(lia)) as (Z0 & G). assert (V := ttt_vocab pf mx n q P ltac:(lia)). assert (I := ttt_inv pf mx n q P ltac:(lia)). destruct I as [_ _ _ I4 _ _ _ _ _]. clear P IH. destruct q as [y d tm dq g mv games wns losses pc].
    unfold tNum in *. cbn [u_sys u_pc u_game u_decl] in *.
    assert (Go : forall us a y', yact us y a = Ok (Some y') -> match a with XGoal _ | XBelief _ _ _ _ => False | _ => True end -> 0 <= stampCtr d /\ tNums (stampCtr d) (n_goals (y_nar y'))).
    { intros us a0 y' Y K. split; auto. apply (num_act _ _ _ (stampCtr d) us y a0 y' V G Y). destruct a0; auto; contradiction. }
    destruct a as [rs r opp expf sel|ds]; cbn [tttStep] in E.
    2:{ destruct (yact (usages d) y (XWork ds)) as [[y'|]|] eqn:Y; cbn [rbind option_map] in E; try discriminate E. injection E as <-. exact (Go _ _ _ Y Logic.I). }
    destruct pc.
    + destruct I4 as [(w & [=])|M]. destruct (games >=? mx); [injection E as <-; now split|]. destruct (knowsGoal (n_goals (y_nar y))).
      * cbn [rbind] in E. injection E as <-. destruct y; now split.
      * assert (T := aim_goal pf (usages d) y d M). destruct (yact (usages d) y (XGoal (aimGoal d))) as [[y'|]|] eqn:Y; [|contradiction|rewrite T in E; discriminate E].
        destruct T as (n' & T0 & T1 & T2). rewrite T0 in E. cbn [rbind] in E. injection E as <-. cbn [u_sys u_decl]. rewrite T2, taken_ctr. split; [lia|].
        assert (G' : tNums (stampCtr d + 1) (n_goals (y_nar y'))).
        { assert (L1 : stampCtr d <= stampCtr d + 1) by lia. apply (num_act _ _ _ (stampCtr d + 1) _ _ _ _ V (num_more _ _ _ _ _ L1 G) Y). split; [exists "w"%string; split; [reflexivity|now left]|]. exists (stampCtr d), []. split; [reflexivity|lia]. }
        clear - G' T1. subst y'. destruct y; exact G'.
    + injection E as <-. destruct y; now split.
    + destruct (g_player g).
      * injection E as <-. destruct y; now split.
      * destruct (range 9 opp) as [m|]; cbn [rbind] in E; [|discriminate E]. destruct (tryMove g m) as [[g1 v]|]; cbn [rbind] in E; [|discriminate E]. injection E as <-. now split.
    + destruct (yact (usages d) y XStep0) as [[y'|]|] eqn:Y; cbn [rbind option_map] in E; try discriminate E. injection E as <-. exact (Go _ _ _ Y Logic.I).
    + assert (Mn : (do o <- yact (usages d) y (XMain 20 rs); Ok (option_map (fun y' => mkTtt y' d tm dq g mv games wns losses (TIn0 w)) o)) = Ok (Some q') -> 0 <= stampCtr (u_decl q') /\ tNums (stampCtr (u_decl q')) (n_goals (y_nar (u_sys q')))).
      { clear E. intros E. destruct (yact (usages d) y (XMain 20 rs)) as [[y'|]|] eqn:Y; cbn [rbind option_map] in E; try discriminate E. injection E as <-. exact (Go _ _ _ Y Logic.I). }
      destruct (y_main y); auto. injection E as <-. destruct w; destruct y; now split.
    + destruct (yact (usages d) y (XStep1 true r)) as [[y'|]|] eqn:Y; cbn [rbind] in E; [| |discriminate E].
      2:{ match type of E with (let '(_, _) := ?t in _) = _ => destruct t as [mv2 pc2] end. discriminate E. }
      match type of E with (let '(_, _) := ?t in _) = _ => destruct t as [mv2 pc2] end. injection E as <-. exact (Go _ _ _ Y Logic.I).
    + destruct (tryMove g m) as [[g1 v]|]; cbn [rbind] in E; [|discriminate E]. injection E as <-. now split.
    + destruct (winner (g_field g)) as [[c|]|]; cbn [rbind] in E; [| |discriminate E].
      * destruct (Ascii.eqb c "a"); [|injection E as <-; destruct y; now split]. destruct (won_typed pf (withNar y (setBabble (y_nar y) false)) d) as (n' & T1 & T2 & T3). rewrite T1 in E. cbn [rbind] in E. injection E as <-. cbn [u_sys u_decl]. rewrite T2, T3, taken_ctr. split; [lia|].
        apply (num_more _ _ (stampCtr d)); [lia|]. destruct y; exact G.
      * destruct (isDraw (g_field g)); injection E as <-; destruct y; now split.
    + destruct (reasonCycle expf sel d tm) as [[[[d1 tm1] z] m]|] eqn:C; cbn [rbind] in E; [|discriminate E]. injection E as <-. cbn [u_sys u_decl]. rewrite (cycle_stamp _ _ _ _ _ _ _ _ C). now split.
    + discriminate E.
Qed.

(** * Pong *)
Definition pNum (q : prog) : Prop := 0 <= stampCtr (q_decl q) /\ numberedAll pongOps ballAt (stampCtr (q_decl q)) (n_goals (y_nar (q_sys q))).
Lemma pong_nums : forall pf n q, played pf n q -> pNum q.
Proof.
  intros pf n q P. induction P as [|n q a q' P IH F E].
  - split; [now vm_compute|]. intros e He. exfalso. revert He. apply (no_goals _ 8); reflexivity.
  - destruct IH as (Z0 & G). destruct (pong_vocab pf n q P) as (V & Fr). clear P. destruct q as [y d e t pc]. unfold pNum, freeQ in *. cbn [q_sys q_pc q_decl] in *.
    assert (Go : forall us a f o, yact us y a = Ok o -> match a with XGoal _ | XBelief _ _ _ _ => False | _ => True end -> option_map f o = Some q' -> (forall y', q_sys (f y') = y' /\ q_decl (f y') = d) ->
      0 <= stampCtr (q_decl q') /\ numberedAll pongOps ballAt (stampCtr (q_decl q')) (n_goals (y_nar (q_sys q')))).
    { intros us a0 f o Y K O Q. destruct o as [y'|]; [|discriminate O]. injection O as <-. destruct (Q y') as (-> & ->). split; auto. apply (num_act _ _ _ (stampCtr d) us y a0 y' V G Y). destruct a0; auto; contradiction. }
    destruct a as [rs r dr|ds]; cbn [progStep] in E.
    2:{ destruct (yact (usages d) y (XWork ds)) as [o|] eqn:Y; cbn [rbind] in E; [|discriminate E]. injection E as E. apply (Go _ _ _ _ Y Logic.I E). auto. }
    destruct pc.
    + destruct Fr as [Fr|Fr]; [discriminate Fr|]. destruct (Z.rem t 10 =? 0); [|injection E as <-; now split].
      assert (T := typed_goal pf (usages d) y d Fr). destruct (yact (usages d) y (XGoal (pongGoal d))) as [[y'|]|] eqn:Y; [|contradiction|rewrite T in E; discriminate E].
      destruct T as (n' & T0 & T1 & T2). rewrite T0 in E. cbn [rbind] in E. rewrite T1 in E. injection E as <-. cbn [q_sys q_decl]. rewrite T2, taken_ctr. split; [lia|].
      assert (L1 : stampCtr d <= stampCtr d + 1) by lia. apply (num_act _ _ _ (stampCtr d + 1) _ _ _ _ V (num_more _ _ _ _ _ L1 G) Y). split; [exists "0-1-xc"%string; split; [reflexivity|now left]|]. exists (stampCtr d), []. split; [reflexivity|lia].
    + destruct (yact (usages d) y XStep0) as [o|] eqn:Y; cbn [rbind] in E; [|discriminate E]. injection E as E. apply (Go _ _ _ _ Y Logic.I E). auto.
    + assert (Ev : (do o <- yact (usages d) y (XEvent (Name (percept e))); Ok (option_map (fun y' => mkProg y' d e t PHalf1) o)) = Ok (Some q') -> 0 <= stampCtr (q_decl q') /\ numberedAll pongOps ballAt (stampCtr (q_decl q')) (n_goals (y_nar (q_sys q')))).
      { clear E. intros E. destruct (yact (usages d) y (XEvent (Name (percept e)))) as [o|] eqn:Y; cbn [rbind] in E; [|discriminate E]. injection E as E. apply (Go _ _ _ _ Y Logic.I E). auto. }
      assert (Mn : (do o <- yact (usages d) y (XMain 20 rs); Ok (option_map (fun y' => mkProg y' d e t PIn0) o)) = Ok (Some q') -> 0 <= stampCtr (q_decl q') /\ numberedAll pongOps ballAt (stampCtr (q_decl q')) (n_goals (y_nar (q_sys q')))).
      { clear E. intros E. destruct (yact (usages d) y (XMain 20 rs)) as [o|] eqn:Y; cbn [rbind] in E; [|discriminate E]. injection E as E. apply (Go _ _ _ _ Y Logic.I E). auto. }
      destruct (y_main y); auto.
    + destruct (yact (usages d) y (XStep1 true r)) as [o|] eqn:Y; cbn [rbind] in E; [|discriminate E]. injection E as E. apply (Go _ _ _ _ Y Logic.I E). auto.
    + destruct (simStep e dr) as [e'|]; cbn [rbind] in E; [|discriminate E]. injection E as <-. destruct (t >=? 5000); now split.
    + destruct (debugEvidence _) as [x|]; cbn [rbind] in E; [|discriminate E]. destruct (pcs _); cbn [rbind] in E; [discriminate E|]. destruct (goalsText _); cbn [rbind] in E; [|discriminate E]. injection E as <-. now split.
    + discriminate E.
Qed.
