(** What is wanted leads to what was asked for. *)
From Coq Require Import String Ascii ZArith Bool Lia List.
From Verif Require Import Base F64_Model Term_Model Unify_Model Stamp_Model Sentence_Model Mem_Model Cycle_Model PMem_Model Goal_Model Goal_Spec Goal_Proofs Run_Proofs Proc_Model Proc_Spec ProcS_Model
  ProcX_Model Parser_Model Nar_Model Play_Model Play_Spec Play_Proofs Play2_Proofs Live_Proofs ProcC_Proofs ProcS_Proofs Env_Model Env_Spec Env_Proofs Ttt_Model Ttt_Spec Ttt_Proofs Ttt2_Proofs Vocab_Spec Vocab_Proofs Vocab2_Proofs
  Props_Truth Want_Spec.
Import ListNotations.
Local Open Scope list_scope.
Local Open Scope Z_scope.

Lemma work_goals : forall us y ds y', yact us y (XWork ds) = Ok (Some y') -> n_goals (y_nar y') = n_goals (y_nar y).
Proof.
  intros us [n p c w] ds y' H. cbn [yact] in H. cbn [y_nar].
  destruct w as [|s now [|a l] rv|now [|s todo]].
  - destruct c as [|[s now] c']; [discriminate H|]. destruct (mergeTargets (n_mem n) s); cbn [rbind] in H; [|discriminate H]. injection H as <-. auto.
  - destruct rv; [injection H as <-; auto|]. destruct (matchandintro_var1_sentence s ds); cbn [rbind] in H; [|discriminate H]. injection H as <-. auto.
  - destruct (mergeInto s (cells (n_mem n)) a) as [[h b]|]; cbn [rbind] in H; [|discriminate H]. injection H as <-. auto.
  - injection H as <-. auto.
  - destruct (mem_add_evidence_internal us (n_mem n) s (c_nBeliefs (n_cfg n)) now); cbn [rbind] in H; [|discriminate H]. injection H as <-. auto.
Qed.

Section Want.
Variables (ops : list op) (F : string -> Prop) (R : string -> string -> string -> Prop) (W : string -> Prop).
Hypothesis back : forall s o s', R s o s' -> W s' -> W s.
Notation names := (map op_name ops).
Definition wantW (t : term) : Prop := (forall s, t = Name s -> W s) /\ forall s o, t = Seq [Name s; plainCall o] -> exists s', R s o s' /\ W s'.
Definition wants (g : gsys) : Prop := allP (fun s _ => aim F names (s_term s) /\ wantW (s_term s)) g.
Lemma want_chain : forall m k g ev c, (forall s, In s (cells m) -> lawR ops F R (s_term s)) -> aim F names (s_term g) /\ wantW (s_term g) -> goalChain (believed m) k g ev c -> aim F names (s_term c) /\ wantW (s_term c).
Proof.
  intros m k g ev c A Hg Ch. assert (A' : forall s, In s (cells m) -> law F names (s_term s)) by (intros s Hs; now apply A).
  assert (St : forall g ev c, aim F names (s_term g) /\ wantW (s_term g) -> goalStep (believed m) g ev c -> aim F names (s_term c) /\ wantW (s_term c)).
  { clear - A A' back. intros g ev c (Hg & Wg) S. split; [exact (chain_aim ops F m 1 g ev c A' Hg (gc_one _ _ _ _ S))|].
    destruct S as [g x rest v c E V I|g a b subj vg vb c N (-> & _) E Sh V1 V2 I]; destruct I as (-> & _).
    - destruct Hg as [(y & Y & _)|[(y & _ & Y)|(a & d & (s & -> & _) & (o & _ & ->) & Y)]]; rewrite E in Y; try discriminate Y. injection Y as -> ->.
      split; [intros s0 [= <-]|intros s0 o0 [=]]. rewrite E in Wg. destruct (proj2 Wg s o eq_refl) as (s' & H1 & H2). eauto.
    - destruct (cell_in _ _ _ _ E) as (_ & Hin). destruct (A _ Hin) as ((a1 & d & b1 & (s & -> & _) & (s' & -> & _) & _ & (o & _ & ->) & E') & Rl). rewrite E in E', Rl. injection E' as -> Eg.
      split; [intros s0 [=]|]. intros s0 o0 [= <- <-]. exists s'. split; [|now apply Wg]. apply Rl. now rewrite Eg. }
  induction Ch as [g ev c S|n g ev1 c1 ev c Ch IH S]; [eapply St; eauto|]. eapply St; [|exact S]. auto.
Qed.
Theorem want_act : forall us y a y', vInv ops F R y -> wants (n_goals (y_nar y)) -> yact us y a = Ok (Some y') ->
  match a with XGoal s => exists x, s_term s = Name x /\ F x /\ W x | XBelief _ _ _ _ => False | _ => True end -> wants (n_goals (y_nar y')).
Proof.
  intros us [n p c w] a y' V G Y K. cbn [y_nar] in *.
  destruct a as [e|s|t id u draws| |decl r|nB rs|draws]; try contradiction; cbn [yact] in Y.
  - destruct p; try discriminate Y. injection Y as <-. exact G.
  - destruct p; try discriminate Y. destruct (addEntry _ _ _ _ _) as [g|] eqn:Ad; cbn [rbind] in Y; [|discriminate Y]. injection Y as <-. cbn. eapply add_P; eauto. cbn beta.
    destruct K as (x & K & Fx & Wx). rewrite K. split; [left; exists x; auto|]. split; [intros s0 [= <-]; auto|intros s0 o [=]].
  - destruct p; try discriminate Y. destruct (confirm n) as [ant|]; cbn [rbind] in Y; [|discriminate Y]. injection Y as <-. exact G.
  - destruct p; try discriminate Y. destruct (narStep1 n decl r) as [n'|] eqn:S; cbn [rbind] in Y; [|discriminate Y]. injection Y as <-. cbn [y_nar].
    assert (Sc := step1_cells _ _ _ _ S). assert (V4 := v_cells _ _ _ _ V). cbn [y_nar] in V4.
    apply (step1_P (fun s _ => aim F names (s_term s) /\ wantW (s_term s)) _ _ _ _ S (v_reach _ _ _ _ V) G).
    + intros g0 ev0 k ev cc P Ch. apply (want_chain (n_mem n') k g0 ev cc); auto. rewrite Sc. exact V4.
    + intros b a pre opT e Cd E1 E2 Op (v & _ & (-> & _) & _).
      assert (D : deed names opT). { apply (candidate_deed ops F n b pre opT); auto; [intros s Hs; now apply V4|exact (v_goals _ _ _ _ V)]. }
      split; [right; now left|]. destruct D as (o & _ & ->). split; [intros s0 [=]|intros s0 o0 [=]].
  - destruct p as [|[|a todo]|[|m ms]|now [|s todo]]; try discriminate Y.
    + destruct (traceStep n rs) as [[g ms]|] eqn:T; cbn [rbind] in Y; [|discriminate Y]. injection Y as <-. cbn. destruct (trace_goals _ _ _ _ T) as [->|(ev & ->)]; auto. now apply event_P.
    + destruct (negConfirm _ _) as [h|] eqn:N; cbn [rbind] in Y; [|discriminate Y]. injection Y as <-. exact G.
    + injection Y as <-. exact G.
    + destruct (Nat.ltb _ _); [|discriminate Y]. injection Y as <-. exact G.
    + injection Y as <-. exact G.
    + destruct (mem_add_evidence_internal _ _ _ _ _) as [m|] eqn:M; cbn [rbind] in Y; [|discriminate Y]. injection Y as <-. exact G.
  - rewrite (work_goals us (mkPsys n p c w) draws y' Y). exact G.
Qed.
(** what is considered *)
Lemma plan_head : forall m ev l p a l', planChain m ev l p -> l = a :: l' -> exists rest p', s_term (rd (cells m) a) = Stmt PREDIMPL (Seq (ev :: rest)) p'.
Proof.
  intros m ev l p a l' Pl. revert a l'. induction Pl as [|l p b rest p' Pl IH Hb E]; intros a l' El; [discriminate El|]. destruct l as [|x l].
  - cbn in El. injection El as <- _. inversion Pl as [H1|l0 p0 a0 r0 p1 H1 H2 H3 H4]; subst; [eauto|]. destruct l0; discriminate H4.
  - injection El as <- _. apply (IH x l eq_refl).
Qed.
Lemma plan_wanted : forall m ev l p, (forall s, In s (cells m) -> lawR ops F R (s_term s)) -> planChain m ev l p -> l <> [] -> (forall s, p = Name s -> W s) -> exists s, ev = Name s /\ W s.
Proof.
  intros m ev l p A Pl. induction Pl as [|l p b rest p' Pl IH Hb E]; intros N Hp; [destruct (N eq_refl)|].
  destruct (cell_in _ _ _ _ E) as (_ & Hin). destruct (A _ Hin) as ((a1 & d & b1 & (s & -> & _) & (s' & -> & _) & _ & (o & _ & ->) & E') & Rl). rewrite E in E', Rl. injection E' as -> -> ->.
  assert (Ws : W s) by (apply (back s o s'); [now apply Rl|now apply Hp]).
  destruct l as [|x l]; [inversion Pl as [H1|l0 p0 a0 r0 p1 H1 H2 H3 H4]; [eauto|destruct l0; discriminate H4]|]. apply IH; [discriminate|]. intros s0 [= <-]. exact Ws.
Qed.
Lemma candidate_wanted : forall y b, vInv ops F R y -> wants (n_goals (y_nar y)) -> candidate (y_nar y) b ->
  exists s o e, b_seq b = Seq [Name s; plainCall o] /\ In o names /\ W s /\ In e (n_trace (y_nar y)) /\ ev_name e = Name s.
Proof.
  intros y b V G Cd. assert (V4 := v_cells _ _ _ _ V). destruct Cd as [ev en ut v0 He St (pre & op' & asg & T & U & ->) V0|tr ev a0 l p hit v0 v' sq p0 Et Pl St Eh V0 Cb T Ln]; cbn [b_seq].
  - destruct (G en St) as (Ga & Gw). unfold e_term in *. destruct Ga as [(z & Y & _)|[(z & _ & Y)|(a & d & (s & -> & Fs) & (o & Ho & ->) & Y)]]; rewrite Y in T; try discriminate T.
    injection T as T. change [Name s; plainCall o] with ([Name s] ++ [plainCall o]) in T. apply app_inj_tail in T. destruct T as (<- & <-).
    destruct (proj2 Gw s o Y) as (s' & R1 & W1). rewrite Y. unfold unify in U. cbn [unify2] in U. assert (En : exists x, ev_name ev = Name x) by (destruct (ev_name ev); try discriminate U; eauto). destruct En as (x & En). rewrite En in U.
    destruct (String.eqb_spec s x) as [->|N]; [|discriminate U]. exists x, o, ev. split; [reflexivity|]. split; auto. split; [eauto|]. split; auto. unfold lastEvents in He. now apply skip_in in He.
  - destruct (G hit St) as (_ & Gw). unfold e_term in Eh. assert (Hp : forall s, p = Name s -> W s) by (intros s ->; now apply Gw).
    destruct (plan_wanted _ _ _ _ V4 Pl ltac:(discriminate) Hp) as (s & Es & Ws). destruct (plan_head _ _ _ _ _ _ Pl eq_refl) as (rest & p' & E). rewrite T in E. injection E as -> ->.
    destruct (cell_in _ _ _ _ T) as (_ & Hin). destruct (V4 _ Hin) as ((a1 & d & b1 & (s1 & -> & _) & _ & _ & (o & Ho & ->) & E') & _). rewrite T, Es in E'. injection E' as -> -> ->.
    exists s1, o, ev. rewrite Es. split; auto. split; auto. split; auto. split; auto. rewrite Et. apply in_app_iff. right. now left.
Qed.
End Want.

(** * Tic-tac-toe *)
Lemma hope_back : forall s o s', sound s o s' -> hopeful s' -> hopeful s.
Proof.
  intros s o s' (f & i & f1 & U & Rd & Pa & [(-> & _ & Wn)|(j & f2 & Pb & U2 & R2)]) H; right; exists f; repeat split; auto; try apply Rd.
  - now apply (wn_now f i f1).
  - destruct H as [->|(f' & U' & R' & Wn)]; [destruct (w_no_board _ U2 R2)|]. assert (f' = f2) by (eapply reads_one; eauto). subst f'. now apply (wn_later f i f1 j f2).
Qed.
Notation tWants := (wants tttOps boardOrWin sound hopeful).
Lemma ttt_wants : forall pf mx n q, tplayed pf mx n q -> n * 10000 < 2 ^ 63 -> tWants (n_goals (y_nar (u_sys q))).
Proof.
  intros pf mx n q P. induction P as [|n q a q' P IH Ft E]; intros L.
  - intros e He. exfalso. revert He. apply (no_goals _ 8); reflexivity.
  - assert (G := IH ltac:(lia)). assert (V := ttt_vocab pf mx n q P ltac:(lia)). assert (I := ttt_inv pf mx n q P ltac:(lia)). destruct I as [_ _ _ I4 _ _ _ _ _]. clear P IH. destruct q as [y d tm dq g mv games wns losses pc].
    cbn [u_sys u_pc u_game] in *.
    assert (Go : forall us a y', yact us y a = Ok (Some y') -> match a with XGoal s => exists x, s_term s = Name x /\ boardOrWin x /\ hopeful x | XBelief _ _ _ _ => False | _ => True end -> tWants (n_goals (y_nar y'))).
    { intros us a0 y' Y K. exact (want_act _ _ _ _ hope_back us y a0 y' V G Y K). }
    destruct a as [rs r opp expf sel|ds]; cbn [tttStep] in E.
    2:{ destruct (yact (usages d) y (XWork ds)) as [[y'|]|] eqn:Y; cbn [rbind option_map] in E; try discriminate E. injection E as <-. exact (Go _ _ _ Y Logic.I). }
    destruct pc.
    + destruct I4 as [(w & [=])|M]. destruct (games >=? mx); [injection E as <-; exact G|]. destruct (knowsGoal (n_goals (y_nar y))).
      * cbn [rbind] in E. injection E as <-. destruct y; exact G.
      * assert (T := aim_goal pf (usages d) y d M). destruct (yact (usages d) y (XGoal (aimGoal d))) as [[y'|]|] eqn:Y; [|contradiction|rewrite T in E; discriminate E].
        destruct T as (n' & T0 & T1 & _). rewrite T0 in E. cbn [rbind] in E. injection E as <-. cbn [u_sys].
        assert (G' : tWants (n_goals (y_nar y'))). { apply (Go _ _ _ Y). exists "w"%string. split; [reflexivity|]. split; now left. }
        clear - G' T1. subst y'. destruct y; exact G'.
    + injection E as <-. destruct y; exact G.
    + destruct (g_player g).
      * injection E as <-. destruct y; exact G.
      * destruct (range 9 opp) as [m|]; cbn [rbind] in E; [|discriminate E]. destruct (tryMove g m) as [[g1 v]|]; cbn [rbind] in E; [|discriminate E]. injection E as <-. exact G.
    + destruct (yact (usages d) y XStep0) as [[y'|]|] eqn:Y; cbn [rbind option_map] in E; try discriminate E. injection E as <-. exact (Go _ _ _ Y Logic.I).
    + assert (Mn : (do o <- yact (usages d) y (XMain 20 rs); Ok (option_map (fun y' => mkTtt y' d tm dq g mv games wns losses (TIn0 w)) o)) = Ok (Some q') -> tWants (n_goals (y_nar (u_sys q')))).
      { clear E. intros E. destruct (yact (usages d) y (XMain 20 rs)) as [[y'|]|] eqn:Y; cbn [rbind option_map] in E; try discriminate E. injection E as <-. exact (Go _ _ _ Y Logic.I). }
      destruct (y_main y); auto. injection E as <-. destruct w; destruct y; exact G.
    + destruct (yact (usages d) y (XStep1 true r)) as [[y'|]|] eqn:Y; cbn [rbind] in E; [| |discriminate E].
      2:{ match type of E with (let '(_, _) := ?t in _) = _ => destruct t as [mv2 pc2] end. discriminate E. }
      match type of E with (let '(_, _) := ?t in _) = _ => destruct t as [mv2 pc2] end. injection E as <-. exact (Go _ _ _ Y Logic.I).
    + destruct (tryMove g m) as [[g1 v]|]; cbn [rbind] in E; [|discriminate E]. injection E as <-. exact G.
    + destruct (winner (g_field g)) as [[c|]|]; cbn [rbind] in E; [| |discriminate E].
      * destruct (Ascii.eqb c "a"); [|injection E as <-; destruct y; exact G]. destruct (won_typed pf (withNar y (setBabble (y_nar y) false)) d) as (n' & T1 & _ & T3). rewrite T1 in E. cbn [rbind] in E. injection E as <-. cbn [u_sys]. rewrite T3. destruct y; exact G.
      * destruct (isDraw (g_field g)); injection E as <-; destruct y; exact G.
    + destruct (reasonCycle expf sel d tm) as [[[[d1 tm1] z] m]|]; cbn [rbind] in E; [|discriminate E]. injection E as <-. exact G.
    + discriminate E.
Qed.
