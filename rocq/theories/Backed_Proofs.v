(** Whatever is decided rests on something remembered. *)
From Coq Require Import String Ascii ZArith Bool Lia List.
From Verif Require Import Base F64_Model Term_Model Unify_Model Stamp_Model Sentence_Model Mem_Model Cycle_Model PMem_Model PMem_Proofs PMem2_Proofs Goal_Model Goal_Spec Goal_Proofs Run_Proofs Proc_Model Proc_Spec ProcB_Proofs ProcS_Model
  ProcX_Model Parser_Model Nar_Model Play_Model Play_Spec Play_Proofs Play2_Proofs Live_Proofs ProcC_Proofs ProcS_Proofs Env_Model Env_Spec Env_Proofs Ttt_Model Ttt_Spec Ttt_Proofs Ttt2_Proofs Vocab_Spec Vocab_Proofs Vocab2_Proofs
  Props_Truth Want_Proofs.
Import ListNotations.
Local Open Scope list_scope.
Local Open Scope Z_scope.

(** * What is remembered at an address stays there *)
Definition keeps (h h' : list sentence) : Prop := forall a q p, s_term (rd h a) = Stmt PREDIMPL q p -> s_term (rd h' a) = Stmt PREDIMPL q p.
Lemma keeps_app : forall h x, keeps h (h ++ x).
Proof. intros h x a q p E. destruct (cell_in _ _ _ _ E) as (L & _). now rewrite rd_app. Qed.
Lemma keeps_wr : forall h a e, (a < length h)%nat -> s_term e = s_term (rd h a) -> keeps h (wr h a e).
Proof. intros h a e L T x q p E. rewrite rd_wr by auto. destruct (Nat.eqb_spec x a); [subst x; congruence|auto]. Qed.
Lemma keeps_internal : forall us m s nB now m', mem_add_evidence_internal us m s nB now = Ok m' -> keeps (cells m) (cells m').
Proof. intros us m s nB now m' H. apply internal_new in H. destruct H as (x & -> & _). apply keeps_app. Qed.
Lemma keeps_act : forall us y a y', yact us y a = Ok (Some y') -> match a with XBelief _ _ _ _ => False | _ => True end -> keeps (cells (n_mem (y_nar y))) (cells (n_mem (y_nar y'))).
Proof.
  intros us [n p c w] a y' Y K. assert (Kr : keeps (cells (n_mem n)) (cells (n_mem n))) by (intros ? ? ? E; exact E). cbn [y_nar] in *.
  destruct a as [e|s|t id u draws| |decl r|nB rs|draws]; try contradiction; cbn [yact] in Y.
  - destruct p; try discriminate Y. injection Y as <-. exact Kr.
  - destruct p; try discriminate Y. destruct (addEntry _ _ _ _ _) as [g|]; cbn [rbind] in Y; [|discriminate Y]. injection Y as <-. exact Kr.
  - destruct p; try discriminate Y. destruct (confirm n) as [ant|]; cbn [rbind] in Y; [|discriminate Y]. injection Y as <-. exact Kr.
  - destruct p; try discriminate Y. destruct (narStep1 n decl r) as [n'|] eqn:S; cbn [rbind] in Y; [|discriminate Y]. injection Y as <-. cbn [y_nar]. rewrite (step1_cells _ _ _ _ S). exact Kr.
  - destruct p as [|[|a todo]|[|m ms]|now [|s todo]]; try discriminate Y.
    + destruct (traceStep n rs) as [[g ms]|]; cbn [rbind] in Y; [|discriminate Y]. injection Y as <-. exact Kr.
    + destruct (negConfirm _ _) as [h|] eqn:N; cbn [rbind] in Y; [|discriminate Y]. injection Y as <-. apply neg_one in N. destruct N as (L & _ & p0 & c0 & Ev & ->). cbn. now apply keeps_wr.
    + injection Y as <-. exact Kr.
    + destruct (Nat.ltb _ _); [|discriminate Y]. injection Y as <-. exact Kr.
    + injection Y as <-. exact Kr.
    + destruct (mem_add_evidence_internal _ _ _ _ _) as [m|] eqn:M; cbn [rbind] in Y; [|discriminate Y]. injection Y as <-. cbn. eapply keeps_internal; eauto.
  - assert (Y' : match w with
      | WIdle => match c with (s, now) :: c' => do l <- mergeTargets (n_mem n) s; Ok (Some (mkPsys n p c' (WMerge s now l false))) | [] => Ok None end
      | WMerge s now (a :: l) rv => do '(h, b) <- mergeInto s (cells (n_mem n)) a; Ok (Some (mkPsys (setCells n h) p c (WMerge s now l (rv || b))))
      | WMerge s now [] true => Ok (Some (mkPsys n p c WIdle))
      | WMerge s now [] false => do vs <- matchandintro_var1_sentence s draws; Ok (Some (mkPsys n p c (WAdd now (s :: vs))))
      | WAdd now (s :: todo) => do m <- mem_add_evidence_internal us (n_mem n) s (c_nBeliefs (n_cfg n)) now; Ok (Some (mkPsys (setMem n m) p c (WAdd now todo)))
      | WAdd now [] => Ok (Some (mkPsys n p c WIdle)) end = Ok (Some y')) by (destruct p; exact Y). clear Y.
    destruct w as [|s now [|a l] rv|now [|s todo]].
    + destruct c as [|[s now] c]; [discriminate Y'|]. destruct (mergeTargets _ _) as [l|]; cbn [rbind] in Y'; [|discriminate Y']. injection Y' as <-. exact Kr.
    + destruct rv; [injection Y' as <-; exact Kr|]. destruct (matchandintro_var1_sentence s draws) as [vs|]; cbn [rbind] in Y'; [|discriminate Y']. injection Y' as <-. exact Kr.
    + destruct (mergeInto _ _ _) as [[h b]|] eqn:M; cbn [rbind] in Y'; [|discriminate Y']. injection Y' as <-. assert (L := merge_in _ _ _ _ M). apply mergeInto_ok in M. destruct M as (_ & M). cbn.
      destruct b; [|subst h; exact Kr]. destruct M as (e' & C & ->). apply keeps_wr; auto. now destruct C as (? & ? & ? & ? & _ & _ & ->).
    + injection Y' as <-. exact Kr.
    + destruct (mem_add_evidence_internal _ _ _ _ _) as [m|] eqn:M; cbn [rbind] in Y'; [|discriminate Y']. injection Y' as <-. cbn. eapply keeps_internal; eauto.
Qed.

Section Backed.
Variables (ops : list op) (F : string -> Prop) (R : string -> string -> string -> Prop).
Notation names := (map op_name ops).
(** the address of something remembered about the operator that is wanted *)
Definition backs (h : list sentence) (t : term) (ev : option nat) : Prop :=
  (forall s o, t = Seq [Name s; plainCall o] -> exists a s', ev = Some a /\ s_term (rd h a) = Stmt PREDIMPL (Seq [Name s; plainCall o]) (Name s')) /\
  (forall o, t = plainCall o -> exists a s s', ev = Some a /\ s_term (rd h a) = Stmt PREDIMPL (Seq [Name s; plainCall o]) (Name s')).
Definition backed (h : list sentence) (g : gsys) : Prop := allP (fun s ev => aim F names (s_term s) /\ backs h (s_term s) ev) g.
Lemma backed_keeps : forall h h' g, keeps h h' -> backed h g -> backed h' g.
Proof.
  intros h h' g K B e He. destruct (B e He) as (A & B1 & B2). split; auto. split.
  - intros s o E. destruct (B1 s o E) as (a & s' & X & Y). exists a, s'. auto.
  - intros o E. destruct (B2 o E) as (a & s & s' & X & Y). exists a, s, s'. auto.
Qed.
Lemma backs_name : forall h s ev, backs h (Name s) ev.
Proof. intros h s ev. split; [intros ? ? [=]|intros ? [=]]. Qed.
Lemma backed_chain : forall m k g ev0 ev c, (forall s, In s (cells m) -> law F names (s_term s)) -> aim F names (s_term g) /\ backs (cells m) (s_term g) ev0 -> goalChain (believed m) k g ev c ->
  aim F names (s_term c) /\ backs (cells m) (s_term c) ev.
Proof.
  intros m k g ev0 ev c A Hg Ch.
  assert (St : forall g ev c, aim F names (s_term g) -> goalStep (believed m) g ev c -> aim F names (s_term c) /\ backs (cells m) (s_term c) ev).
  { clear - A. intros g ev c Hg S. split; [exact (chain_aim ops F m 1 g ev c A Hg (gc_one _ _ _ _ S))|].
    destruct S as [g x rest v c E V I|g a b subj vg vb c N (-> & _) E Sh V1 V2 I]; destruct I as (-> & _).
    - destruct Hg as [(y & Y & _)|[(y & _ & Y)|(a & d & (s & -> & _) & (o & _ & ->) & Y)]]; rewrite E in Y; try discriminate Y. injection Y as -> ->. apply backs_name.
    - destruct (cell_in _ _ _ _ E) as (_ & Hin). destruct (A _ Hin) as (a1 & d & b1 & (s & -> & _) & (s' & -> & _) & _ & (o & _ & ->) & E'). pose proof E' as E2. rewrite E in E'. injection E' as -> _.
      split; [|intros ? [=]]. intros s0 o0 [= <- <-]. exists a, s'. auto. }
  induction Ch as [g ev c S|n g ev1 c1 ev c Ch IH S]; [eapply St; [exact (proj1 Hg)|exact S]|]. eapply St; [|exact S]. apply IH. auto.
Qed.
(** what is considered rests on something remembered *)
Lemma candidate_backed : forall n b, (forall s, In s (cells (n_mem n)) -> law F names (s_term s)) -> backed (cells (n_mem n)) (n_goals n) -> candidate n b ->
  exists a s o s', b_evi b = Some a /\ b_seq b = Seq [Name s; plainCall o] /\ In o names /\ s_term (rd (cells (n_mem n)) a) = Stmt PREDIMPL (Seq [Name s; plainCall o]) (Name s').
Proof.
  intros n b A G Cd. destruct Cd as [ev en ut v0 He St (pre & op' & asg & T & U & ->) V0|tr ev a0 l p hit v0 v' sq p0 Et Pl St Eh V0 Cb T Ln]; cbn [b_seq b_evi].
  - destruct (G en St) as (Ga & Gb & _). unfold e_term in *. destruct Ga as [(z & Y & _)|[(z & _ & Y)|(a & d & (s & -> & Fs) & (o & Ho & ->) & Y)]]; rewrite Y in T; try discriminate T.
    destruct (Gb s o Y) as (a & s' & X1 & X2). exists a, s, o, s'. rewrite Y. auto.
  - destruct (cell_in _ _ _ _ T) as (_ & Hin). destruct (A _ Hin) as (a1 & d & b1 & (s & -> & _) & (s' & -> & _) & _ & (o & Ho & ->) & E). exists a0, s, o, s'. split; auto. split; [|auto]. rewrite T in E. now injection E as -> _.
Qed.
Theorem backed_act : forall us y a y', vInv ops F R y -> backed (cells (n_mem (y_nar y))) (n_goals (y_nar y)) -> yact us y a = Ok (Some y') ->
  match a with XGoal s => fact F (s_term s) | XBelief _ _ _ _ => False | _ => True end -> backed (cells (n_mem (y_nar y'))) (n_goals (y_nar y')).
Proof.
  intros us y a y' V G Y K. assert (Ke := keeps_act us y a y' Y ltac:(destruct a; auto)). apply (backed_keeps _ _ _ Ke) in G. clear Ke. destruct y as [n p c w]. cbn [y_nar] in *.
  destruct a as [e|s|t id u draws| |decl r|nB rs|draws]; try contradiction.
  6:{ rewrite (work_goals us (mkPsys n p c w) draws y' Y). exact G. }
  all: cbn [yact] in Y.
  - destruct p; try discriminate Y. injection Y as <-. exact G.
  - destruct p; try discriminate Y. destruct (addEntry _ _ _ _ _) as [g|] eqn:Ad; cbn [rbind] in Y; [|discriminate Y]. injection Y as <-. cbn in *. eapply add_P; eauto. cbn beta.
    split; [now left|]. destruct K as (x & -> & _). apply backs_name.
  - destruct p; try discriminate Y. destruct (confirm n) as [ant|]; cbn [rbind] in Y; [|discriminate Y]. injection Y as <-. exact G.
  - destruct p; try discriminate Y. destruct (narStep1 n decl r) as [n'|] eqn:S; cbn [rbind] in Y; [|discriminate Y]. injection Y as <-. cbn [y_nar] in *.
    assert (Sc := step1_cells _ _ _ _ S). assert (V4 := v_cells _ _ _ _ V). cbn [y_nar] in V4. assert (V4' : forall s, In s (cells (n_mem n)) -> law F names (s_term s)) by (intros s Hs; now apply V4).
    refine (step1_P (fun s ev => aim F names (s_term s) /\ backs (cells (n_mem n')) (s_term s) ev) _ _ _ _ S (v_reach _ _ _ _ V) G _ _).
    + intros g0 ev0 k ev cc P Ch. apply (backed_chain (n_mem n') k g0 ev0 ev cc); auto. rewrite Sc. exact V4'.
    + intros b a pre opT e Cd E1 E2 Op (v & _ & (-> & _) & _). rewrite Sc in G |- *. destruct (candidate_backed n b V4' G Cd) as (a' & s & o & s' & E3 & E4 & Ho & Ec). rewrite E1 in E3. injection E3 as <-.
      rewrite E2 in E4. injection E4 as E4. apply (app_inj_tail pre [Name s] opT (plainCall o)) in E4. destruct E4 as (_ & ->).
      split; [right; left; exists o; auto|]. split; [intros ? ? [=]|]. intros o0 Eo. unfold plainCall in Eo. injection Eo as <-. exists a, s, s'. auto.
  - destruct p as [|[|a todo]|[|m ms]|now [|s todo]]; try discriminate Y.
    + destruct (traceStep n rs) as [[g ms]|] eqn:T; cbn [rbind] in Y; [|discriminate Y]. injection Y as <-. cbn in *. destruct (trace_goals _ _ _ _ T) as [->|(ev & ->)]; auto. now apply event_P.
    + destruct (negConfirm _ _) as [h|] eqn:N; cbn [rbind] in Y; [|discriminate Y]. injection Y as <-. exact G.
    + injection Y as <-. exact G.
    + destruct (Nat.ltb _ _); [|discriminate Y]. injection Y as <-. exact G.
    + injection Y as <-. exact G.
    + destruct (mem_add_evidence_internal _ _ _ _ _) as [m|] eqn:M; cbn [rbind] in Y; [|discriminate Y]. injection Y as <-. exact G.
Qed.
End Backed.
Notation backedS ops F y := (backed ops F (cells (n_mem (y_nar y))) (n_goals (y_nar y))).
Lemma backed_none : forall ops F h g, (forall e, ~ stored g e) -> backed ops F h g.
Proof. intros ops F h g N e He. destruct (N e He). Qed.
Lemma confined_backed : forall ops (F : string -> Prop) y, (forall o, In o ops -> op_kind o = OpPlain) -> confined ops F y -> vInv ops F anyLaw y /\ backedS ops F y.
Proof.
  intros ops F y Pl H. induction H as [cfg tab t nMax depth C|us y a y' H IH K Y].
  - assert (N : forall e, ~ stored (makeGoalSystem nMax depth) e) by (apply (no_goals _ (Z.to_nat depth)); reflexivity). split; [apply start_vocab; auto; constructor|]. now apply backed_none.
  - destruct IH as (V & B). split; [exact (vocab_act _ _ _ Pl _ _ _ _ V Y (any_act F y a K))|]. apply (backed_act ops F anyLaw us y a y' V B Y). destruct a; auto.
Qed.

(** * Tic-tac-toe *)
Notation tBacked y := (backedS tttOps boardOrWin y).
Lemma ttt_backed : forall pf mx n q, tplayed pf mx n q -> n * 10000 < 2 ^ 63 -> tBacked (u_sys q).
Proof.
  intros pf mx n q P. induction P as [|n q a q' P IH Ft E]; intros L.
  - apply backed_none. apply (no_goals _ 8); reflexivity.
  - assert (G := IH ltac:(lia)). assert (V := ttt_vocab pf mx n q P ltac:(lia)). assert (I := ttt_inv pf mx n q P ltac:(lia)). destruct I as [_ _ _ I4 _ _ _ _ _]. clear P IH. destruct q as [y d tm dq g mv games wns losses pc].
    cbn [u_sys u_pc u_game] in *.
    assert (Go : forall us a y', yact us y a = Ok (Some y') -> match a with XGoal s => fact boardOrWin (s_term s) | XBelief _ _ _ _ => False | _ => True end -> tBacked y').
    { intros us a0 y' Y K. exact (backed_act _ _ _ us y a0 y' V G Y K). }
    destruct a as [rs r opp expf sel|ds]; cbn [tttStep] in E.
    2:{ destruct (yact (usages d) y (XWork ds)) as [[y'|]|] eqn:Y; cbn [rbind option_map] in E; try discriminate E. injection E as <-. exact (Go _ _ _ Y Logic.I). }
    destruct pc.
    + destruct I4 as [(w & [=])|M]. destruct (games >=? mx); [injection E as <-; exact G|]. destruct (knowsGoal (n_goals (y_nar y))).
      * cbn [rbind] in E. injection E as <-. destruct y; exact G.
      * assert (T := aim_goal pf (usages d) y d M). destruct (yact (usages d) y (XGoal (aimGoal d))) as [[y'|]|] eqn:Y; [|contradiction|rewrite T in E; discriminate E].
        destruct T as (n' & T0 & T1 & _). rewrite T0 in E. cbn [rbind] in E. injection E as <-. cbn [u_sys].
        assert (G' : tBacked y'). { apply (Go _ _ _ Y). exists "w"%string. split; [reflexivity|]. now left. }
        clear - G' T1. subst y'. destruct y; exact G'.
    + injection E as <-. destruct y; exact G.
    + destruct (g_player g).
      * injection E as <-. destruct y; exact G.
      * destruct (range 9 opp) as [m|]; cbn [rbind] in E; [|discriminate E]. destruct (tryMove g m) as [[g1 v]|]; cbn [rbind] in E; [|discriminate E]. injection E as <-. exact G.
    + destruct (yact (usages d) y XStep0) as [[y'|]|] eqn:Y; cbn [rbind option_map] in E; try discriminate E. injection E as <-. exact (Go _ _ _ Y Logic.I).
    + assert (Mn : (do o <- yact (usages d) y (XMain 20 rs); Ok (option_map (fun y' => mkTtt y' d tm dq g mv games wns losses (TIn0 w)) o)) = Ok (Some q') -> tBacked (u_sys q')).
      { clear E. intros E. destruct (yact (usages d) y (XMain 20 rs)) as [[y'|]|] eqn:Y; cbn [rbind option_map] in E; try discriminate E. injection E as <-. exact (Go _ _ _ Y Logic.I). }
      destruct (y_main y); auto. injection E as <-. destruct w; destruct y; exact G.
    + destruct (yact (usages d) y (XStep1 true r)) as [[y'|]|] eqn:Y; cbn [rbind] in E; [| |discriminate E].
      2:{ match type of E with (let '(_, _) := ?t in _) = _ => destruct t as [mv2 pc2] end. discriminate E. }
      match type of E with (let '(_, _) := ?t in _) = _ => destruct t as [mv2 pc2] end. injection E as <-. exact (Go _ _ _ Y Logic.I).
    + destruct (tryMove g m) as [[g1 v]|]; cbn [rbind] in E; [|discriminate E]. injection E as <-. exact G.
    + destruct (winner (g_field g)) as [[c|]|]; cbn [rbind] in E; [| |discriminate E].
      * destruct (Ascii.eqb c "a"); [|injection E as <-; destruct y; exact G]. destruct (won_typed pf (withNar y (setBabble (y_nar y) false)) d) as (n' & T1 & _ & T3). rewrite T1 in E. cbn [rbind] in E. injection E as <-. cbn [u_sys]. rewrite T3. destruct y; exact G.
      * destruct (isDraw (g_field g)); injection E as <-; destruct y; exact G.
    + destruct (reasonCycle expf sel d tm) as [[[[d1 tm1] z] m]|]; cbn [rbind] in E; [|discriminate E]. injection E as <-. exact G.
    + discriminate E.
Qed.
