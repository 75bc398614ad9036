(** Whatever is done rests on something remembered, or is drawn. *)
From Coq Require Import String Ascii ZArith Bool Lia List.
From Verif Require Import Base F64_Model Term_Model Unify_Model Sentence_Model Mem_Model Cycle_Model PMem_Model Goal_Model Goal_Spec Goal_Proofs Run_Proofs Proc_Model Proc_Spec ProcA_Proofs ProcB_Proofs ProcP_Proofs ProcS_Model
  ProcX_Model Parser_Model Nar_Model Play_Model Play_Spec Play_Proofs Play2_Proofs Live_Proofs ProcC_Proofs ProcS_Proofs Nar3_Proofs Sort_Proofs Term_Proofs Vocab_Spec Vocab_Proofs Want_Proofs Luck_Spec Luck_Proofs Backed_Proofs.
Import ListNotations.
Local Open Scope list_scope.
Local Open Scope Z_scope.

Theorem called_backed : forall ops (F : string -> Prop) R us y r y' o, vInv ops F R y -> backedS ops F y -> yact us y (XStep1 true r) = Ok (Some y') -> called (y_nar y) r = Some o ->
  (c_babble (n_cfg (y_nar y)) = true /\ luck ops (i_babble r) = Some o) \/ exists a s s', s_term (rd (cells (n_mem (y_nar y))) a) = Stmt PREDIMPL (Seq [Name s; plainCall o]) (Name s').
Proof.
  intros ops F R us y r y' o V G Y Cl. assert (Eo := v_ops _ _ _ _ V). assert (V4 := v_cells _ _ _ _ V). clear V. destruct y as [n p c wk]. cbn [y_nar] in *.
  assert (V4' : forall s, In s (cells (n_mem n)) -> law F (map op_name ops) (s_term s)) by (intros s Hs; now apply V4). clear V4.
  cbn [yact] in Y. destruct p; try discriminate Y. destruct (narStep1 n true r) as [n'|] eqn:S; cbn [rbind] in Y; [|discriminate Y]. clear Y. destruct (step1_trace _ _ _ S) as (n2 & pk & n3 & Ch & _). clear S n3. unfold called in Cl. rewrite Ch in Cl.
  destruct pk as [t|]; [|discriminate Cl]. pose proof (chosen_frame _ _ _ _ Ch) as (F1 & _). unfold chosen in Ch.
  destruct (bestByState n) as [b0|] eqn:B0; [|discriminate Ch]. cbn [rbind] in Ch. destruct (best_spec _ _ B0) as (As & C0).
  destruct (planForward n (i_u r) (i_plan r) b0) as [b1|] eqn:B1; [|discriminate Ch]. cbn [rbind] in Ch. destruct (forward_spec _ _ _ _ _ B1 As C0) as (Cd & _).
  destruct (decide n true (i_u r) b1) as [n1|] eqn:E2; [|discriminate Ch]. cbn [rbind] in Ch.
  assert (D1 : n_cfg n1 = n_cfg n /\ backed ops F (cells (n_mem n)) (n_goals n1)).
  { pose proof (decide_spec _ _ _ _ _ E2) as D. destruct b1 as [[sq x [a|]]|]; try (subst n1; now split).
    destruct (fltb (c_thresh (n_cfg n)) x); [|subst n1; now split]. destruct D as (pre & opT & e & -> & Op & _). unfold decide in E2. rewrite fgtb_flip in E2. destruct (fltb (c_thresh (n_cfg n)) x); [|assert (n1 = n) by congruence; subst; auto].
    destruct (convTermToStr (Seq _)); [|discriminate]. cbn [rbind is_seq enforce] in E2. destruct (is_seqAndLastOp _) as [[|]|]; try discriminate. cbn [enforce rbind] in E2.
    rewrite seqLast_ok in E2. cbn [rbind] in E2. destruct (sentenceText _); [|discriminate]. cbn [rbind] in E2. destruct (convTermToStr opT); [|discriminate]. cbn [rbind] in E2.
    destruct (retTv (rd (cells (n_mem n)) a)) as [v|]; [|discriminate]. cbn [unwrap rbind] in E2. destruct (addEntry _ _ _ _ _) as [g1|] eqn:Ad; [|discriminate]. cbn [rbind] in E2.
    assert (n1 = setGoals n g1) by congruence. subst n1. split; [reflexivity|]. cbn [n_goals setGoals]. rewrite term_clone_id in Ad. refine (add_P _ _ _ _ _ _ _ G _ Ad). cbn.
    destruct (candidate_backed ops F n _ V4' G (Cd _ eq_refl)) as (a' & s & o1 & s' & E3 & E4 & Ho & Ec). cbn [b_evi b_seq] in *. injection E3 as <-. injection E4 as E4. apply (app_inj_tail pre [Name s] opT (plainCall o1)) in E4. destruct E4 as (_ & ->).
    split; [right; left; exists o1; auto|]. split; [intros ? ? [=]|]. intros o0 Ep. unfold plainCall in Ep. injection Ep as <-. exists a, s, s'. auto. }
  destruct D1 as (Cf & G1). destruct (execGoal n1) as [[n2' pk0]|] eqn:X; [|discriminate Ch]. cbn [rbind] in Ch. destruct (babble n2' (i_babble r) pk0) as [pk1|] eqn:Bb; [|discriminate Ch]. cbn [rbind] in Ch. injection Ch as -> ->.
  rewrite F1, Eo in Cl. pose proof (exec_spec _ _ _ X) as Sp. destruct pk0 as [t0|].
  - right. cbn [babble] in Bb. injection Bb as ->. destruct Sp as (pre & e & post & x & a & iv & X1 & _ & _ & X4 & _).
    assert (He : stored (n_goals n1) e) by (right; rewrite X1; apply in_elt). destruct (G1 e He) as (Ai & _ & Bk).
    subst t. unfold e_term in Cl.
    destruct Ai as [(z & Z & _)|[(z & Hz & Z)|(a1 & d & (s & -> & Fs) & (o1 & Ho & ->) & Z)]]; rewrite Z in Cl; cbn in Cl; try discriminate Cl.
    destruct (Bk z Z) as (a2 & s & s' & _ & L). destruct (ret_op_by_name ops z) as [o'|] eqn:Rt; [|discriminate Cl]. apply ret_op_some in Rt. destruct Rt as (p1 & p2 & _ & Nm & _). cbn in Cl. injection Cl as <-. rewrite Nm. exists a2, s, s'. exact L.
  - left. subst n2. unfold babble in Bb. assert (Eo1 : n_ops n1 = ops) by congruence. rewrite Eo1, Cf in Bb. destruct (c_babble (n_cfg n)); cbn [andb] in Bb; [|discriminate Bb]. split; auto. unfold luck.
    destruct (Nat.ltb 0 (length ops)); [|discriminate Bb]. set (j := Nat.modulo (i_babble r) (length ops * 9)) in *. destruct (Nat.ltb j (length ops)); [|discriminate Bb].
    unfold idx, unwrap in Bb. destruct (nth_error ops j) as [o1|] eqn:No; [|discriminate Bb]. cbn [rbind] in Bb. destruct (op_babble o1); [|discriminate Bb]. injection Bb as <-. cbn [decodeOp encodeOp map length Nat.leb] in Cl.
    destruct (ret_op_by_name ops (op_name o1)) as [o'|] eqn:Rt; [|discriminate Cl]. apply ret_op_some in Rt. destruct Rt as (p1 & p2 & _ & Nm & _). cbn in Cl. injection Cl as <-. now rewrite Nm.
Qed.
