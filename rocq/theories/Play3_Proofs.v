(** What a run of the program "envPong3" comes to. *)
From Coq Require Import String ZArith Reals Bool Lia Lra List Relations Sorted Psatz.
From Flocq Require Import Core.Core IEEE754.BinarySingleNaN.
From Coq Require Import Floats.SpecFloat.
From Verif Require Import Base F64_Model F64_Proofs Term_Model Term_Spec Term_Proofs Stamp_Model Tv_Model Tv_Spec Tv_Proofs Sentence_Model Sentence_Proofs Tries_Proofs Mem_Model Cycle_Model PMem_Model
  Goal_Model Goal_Spec Proc_Model Proc_Spec ProcA_Proofs ProcC_Proofs ProcS_Model ProcX_Model ProcX_Spec
  ProcX3_Proofs ProcX4_Proofs Parser_Model Nar_Model Env_Model Env_Spec Env_Proofs Play_Model Play_Spec Play_Proofs Play2_Proofs.
Import ListNotations.
Local Open Scope list_scope.
Local Open Scope Z_scope.

(** * The first ball always lands *)
Record opening (e : pong) : Prop := mkOpening {
  op_size : szX e = 50 /\ szY e = 20 /\ mulVX e = 0;
  op_cases : (0 <= hits e /\ 0 <= misses e /\ 1 <= hits e + misses e) \/
    (hits e = 0 /\ misses e = 0 /\ vX e = 1 /\ ballX e = 25 + (time e + 1) / 2 /\ 0 <= time e /\
      ((vY e = 1 /\ ballY e = 4 + time e /\ time e <= 15) \/ (vY e = -1 /\ ballY e = 34 - time e /\ 16 <= time e <= 33)))
}.
Lemma opened : forall e, pongRun makePong e -> opening e.
Proof.
  intros e R. induction R as [|e o R IH|e r e' R IH S].
  - constructor; [repeat split|]. right. cbn. repeat split; lia.
  - destruct IH as [A B]. constructor; cbn [callPong szX szY mulVX hits misses vX ballX time vY ballY] in *; auto.
  - assert (C := step_score _ _ _ S). assert (F := sim_fixed _ _ _ S). destruct F as (F1 & F2 & _ & _ & F5 & F6). destruct IH as [(A1 & A2 & A3) B]. constructor; [repeat split; congruence|].
    destruct B as [B|(H0 & M0 & Vx & Bx & T0 & B)]; [left; lia|].
    assert (Q := sim_stepped _ _ _ S). destruct Q as [_ (vx & vy & bx & by_ & Q1 & Q2 & Q3 & Q4 & Q5 & Q6 & Q7 & Q8)].
    rewrite A1 in *. rewrite A2 in *. rewrite A3 in *. rewrite Z.geb_leb in Q1, Q2.
    assert (X : 25 <= ballX e <= 42) by (rewrite Bx; destruct B as [(_ & _ & B)|(_ & _ & B)]; split; try (apply Z.le_trans with (25 + 0); [lia|]; apply Z.add_le_mono_l, Z.div_pos; lia);
      (apply Z.le_trans with (25 + 17); [|lia]; apply Z.add_le_mono_l; apply Z.div_le_upper_bound; lia)).
    assert (vx = 1) as Ex. { rewrite Q1. destruct (Z.leb_spec (50 - 1) (ballX e)); [lia|]. destruct (Z.leb_spec (ballX e) 0); [lia|auto]. }
    assert (Eb : bx = 25 + (time e + 1 + 1) / 2 /\ 1 <= bx <= 43).
    { rewrite Q3, Ex, Z.mul_0_r, Z.add_0_r, Bx. pose proof (Z.rem_mod_nonneg (time e + 1) 2 ltac:(lia) ltac:(lia)) as Rm. rewrite Rm. pose proof (Z_div_mod_eq_full (time e + 1) 2). pose proof (Z.mod_pos_bound (time e + 1) 2 ltac:(lia)).
      pose proof (Z_div_mod_eq_full (time e + 1 + 1) 2). pose proof (Z.mod_pos_bound (time e + 1 + 1) 2 ltac:(lia)). destruct (Z.eqb_spec ((time e + 1) mod 2) 1); split; lia. }
    destruct (Z.eq_dec (time e) 33) as [E33|E33].
    { left. destruct B as [B|(By & Yy & _)]; [lia|]. assert (by_ = 0). { rewrite Q4, Q2. destruct (Z.leb_spec (20 - 1) (ballY e)); [lia|]. destruct (Z.leb_spec (ballY e) 0); lia. }
      subst by_. rewrite H in *. cbn [Z.eqb andb] in Q6, Q7. destruct (Z.abs (bx - batX e) <=? batWidth e); cbn [andb negb] in Q6, Q7; lia. }
    right. assert (Ny : by_ <> 0). { rewrite Q4, Q2. destruct (Z.leb_spec (20 - 1) (ballY e)); [lia|]. destruct (Z.leb_spec (ballY e) 0); lia. }
    destruct Q8 as [(_ & W & _)|(_ & W0 & W1 & W2 & W3 & W4 & W5)]; [destruct W as [W|[W|W]]; lia|].
    rewrite F6. split; [|split; [|split; [|split; [|split; [lia|]]]]].
    + rewrite Q6. destruct (Z.eqb_spec by_ 0); [contradiction|exact H0].
    + rewrite Q7. destruct (Z.eqb_spec by_ 0); [contradiction|exact M0].
    + congruence.
    + destruct Eb. congruence.
    + rewrite Q5. replace (ballY e') with by_ by congruence. rewrite Q4, Q2. destruct (Z.leb_spec (20 - 1) (ballY e)); [right; lia|]. destruct (Z.leb_spec (ballY e) 0); lia.
Qed.
Lemma lands : forall e, pongRun makePong e -> 34 <= time e -> 0 <= hits e /\ 0 <= misses e /\ 1 <= hits e + misses e.
Proof. intros e R T. destruct (opened e R) as [_ [B|B]]; [exact B|]. lia. Qed.

(** * The score *)
Lemma ratio_ok : forall e, 0 <= hits e -> 0 <= misses e -> 1 <= hits e + misses e -> hits e + misses e <= 2 ^ 53 -> unit64 (ratioOf e).
Proof.
  intros e H M P L. unfold ratioOf. assert (2 ^ 53 <= 2 ^ 64) by now vm_compute. destruct (f_of_Z_mono (hits e) (misses e + hits e)) as (A & B & C & _); [lia|lia|].
  apply unit64_R01. apply div_R01; auto. pose proof (f_of_Z_pos (misses e + hits e) ltac:(lia) ltac:(lia)). lra.
Qed.
Lemma sum_ok : forall l s k, ffin s -> (0 <= fval s <= IZR k)%R -> 0 <= k -> k + Z.of_nat (length l) <= 1000 -> Forall unit64 l ->
  ffin (fold_left fadd l s) /\ (0 <= fval (fold_left fadd l s) <= IZR (k + Z.of_nat (length l)))%R.
Proof.
  induction l as [|x l IH]; intros s k Fs Hs K L U; cbn [fold_left length] in *.
  - rewrite Z.add_0_r. auto.
  - inversion U as [|? ? Ux Ul]; subst. apply unit64_R01 in Ux. destruct Ux as (Fx & Vx). assert (Fk : fmt (IZR (k + 1))) by (apply fmt_int; change (2 ^ 53) with 9007199254740992; clear - K L; lia).
    assert (K1 : (IZR (k + 1) <= 1024)%R) by (apply IZR_le; lia). assert (B : (0 <= fval s + fval x <= IZR (k + 1))%R) by (rewrite plus_IZR; lra).
    destruct (fadd_ok s x Fs Fx) as (F & V). { apply (rnd_small 0 (IZR (k + 1))); auto using fmt_0; lra. }
    replace (k + Z.of_nat (S (length l))) with (k + 1 + Z.of_nat (length l)) by lia. apply IH; auto; [|lia|lia]. rewrite V. apply rnd_between; auto using fmt_0.
Qed.
Lemma average_ok : forall l, (1 <= length l <= 1000)%nat -> Forall unit64 l -> unit64 (peScore l).
Proof.
  intros l L U. destruct f0_ok as (F0 & V0). destruct (sum_ok l f0 0) as (F & V); auto; try lia; [rewrite V0; lra|]. rewrite Z.add_0_l in V.
  assert (1000 <= 2 ^ 53) by now vm_compute. destruct (int_exact (Z.of_nat (length l))) as (Fn & Vn); [lia|]. unfold peScore. apply unit64_R01. apply div_R01; auto; rewrite Vn; auto. apply IZR_lt. lia.
Qed.

(** * The steps of the main thread *)
Lemma ends : forall pf n q x, played pf n q -> n * 3 < 2 ^ 63 -> q_pc q = PDone x -> x = ratioOf (q_env q).
Proof.
  intros pf n q x P. revert x. induction P as [|n q a q' P IH F E]; intros x L Q; [discriminate Q|]. destruct q as [y d e t pc]. destruct a as [rs r dr|ds]; cbn [progStep] in E.
  2:{ destruct (yact _ _ _) as [[y'|]|]; try discriminate E. injection E as <-. apply IH; auto; lia. }
  destruct pc.
  - destruct (Z.rem t 10 =? 0); [|injection E as <-; discriminate Q]. destruct (inputN _ _ _ _) as [[n' b]|]; [|discriminate E]. injection E as <-. discriminate Q.
  - destruct (yact _ _ _) as [[y'|]|]; try discriminate E. injection E as <-. discriminate Q.
  - destruct (y_main y); destruct (yact _ _ _) as [[y'|]|]; try discriminate E; injection E as <-; discriminate Q.
  - destruct (yact _ _ _) as [[y'|]|]; try discriminate E. injection E as <-. discriminate Q.
  - destruct (simStep e dr); [|discriminate E]. cbn [rbind] in E. destruct (t >=? 5000); injection E as <-; discriminate Q.
  - destruct (debugEvidence _); [|discriminate E]. cbn [rbind] in E. destruct (pcs _); [discriminate E|]. cbn [rbind] in E. destruct (goalsText _); [|discriminate E]. cbn [rbind] in E. injection E as <-. cbn in Q. injection Q as <-. reflexivity.
  - discriminate E.
Qed.
(** what the reasoner was told last *)
Lemma told_last : forall pf n q, played pf n q -> n * 3 < 2 ^ 63 -> q_pc q = PHalf1 -> exists pre, n_trace (y_nar (q_sys q)) = pre ++ [mkEvent (Name (percept (q_env q))) (q_t q) (q_t q)].
Proof.
  intros pf n q P L Q. destruct P as [|n q0 a q P F E]; [discriminate Q|]. revert Q E. revert a q F L. induction P as [|n q1 b q0 P IH Fb Eb]; intros a q F L Q E.
  - destruct a as [rs r dr|ds]; cbn [progStep pongStart] in E.
    + destruct (Z.rem 0 10 =? 0); [|injection E as <-; discriminate Q]. destruct (inputN _ _ _ _) as [[n' b]|]; [|discriminate E]. injection E as <-. discriminate Q.
    + destruct (yact _ _ _) as [[y'|]|]; try discriminate E. injection E as <-. discriminate Q.
  - assert (I : qInv (n + 1) q0) by (apply (played_inv pf); [exact (pl_step pf n q1 b q0 P Fb Eb)|lia]). destruct q0 as [y d e t pc]. destruct a as [rs r dr|ds]; cbn [progStep] in E.
    2:{ destruct (yact (usages d) y (XWork ds)) as [[y'|]|] eqn:Y; try discriminate E. cbn in E. injection E as <-. cbn [q_pc q_sys q_env q_t] in *. subst pc. apply act_events in Y. rewrite Y.
        assert (L1 : (n + 1) * 3 < 2 ^ 63) by lia. exact (IH b (mkProg y d e t PHalf1) Fb L1 eq_refl Eb). }
    destruct pc.
    + destruct (Z.rem t 10 =? 0); [|injection E as <-; discriminate Q]. destruct (inputN _ _ _ _) as [[n' b']|]; [|discriminate E]. injection E as <-. discriminate Q.
    + destruct (yact _ _ _) as [[y'|]|]; try discriminate E. injection E as <-. discriminate Q.
    + pose proof (qi_now _ _ I) as Nw. cbn in Nw. destruct y as [nn p c w]. cbn [y_main] in E. destruct p; try (destruct (yact _ _ _) as [[y'|]|]; try discriminate E; injection E as <-; discriminate Q).
      cbn [yact rbind option_map] in E. injection E as <-. cbn in Nw. cbn [q_sys q_env q_t y_nar]. cbn. rewrite Nw. unfold event_happened. eauto.
    + destruct (yact _ _ _) as [[y'|]|]; try discriminate E. injection E as <-. discriminate Q.
    + destruct (simStep e dr); [|discriminate E]. cbn [rbind] in E. destruct (t >=? 5000); injection E as <-; discriminate Q.
    + destruct (debugEvidence _); [|discriminate E]. cbn [rbind] in E. destruct (pcs _); [discriminate E|]. cbn [rbind] in E. destruct (goalsText _); [|discriminate E]. cbn [rbind] in E. injection E as <-. discriminate Q.
    + discriminate E.
Qed.
(** what the reasoner does *)
Definition opName (o : pongOp) : string := match o with OpL => "^L" | OpR => "^R" end.
Lemma does : forall pf n q rs r dr q', played pf n q -> n * 3 < 2 ^ 63 -> q_pc q = PHalf1 -> progStep pf (AMain rs r dr) q = Ok (Some q') ->
  (q_env q' = q_env q /\ n_trace (y_nar (q_sys q')) = lastEvents 20 (n_trace (y_nar (q_sys q)))) \/
  (exists o t args, opCall t args (opName o) /\ q_env q' = callPong o (q_env q) /\ n_trace (y_nar (q_sys q')) = lastEvents 20 (n_trace (y_nar (q_sys q)) ++ [mkEvent t (q_t q) (q_t q)])).
Proof.
  intros pf n q rs r dr q' P L Q E. assert (I := played_inv _ _ _ P L). destruct q as [y d e t pc]. cbn [q_pc] in Q. subst pc. destruct I as [_ _ I3 _ _ _ I7 _ _ I10 _]. cbn in I3, I7, I10. destruct I7 as [I7|I7]; [discriminate I7|].
  cbn [progStep] in E. destruct y as [nn p c w]. cbn in I3, I7, I10. subst p. cbn [yact y_nar] in E. destruct (narStep1 nn true r) as [n'|] eqn:S; [|discriminate E]. cbn [rbind option_map] in E. injection E as <-. cbn [q_sys q_env q_t y_nar].
  assert (C := called_spec _ _ _ S). rewrite I3 in C. specialize (C ltac:(intros o [<-|[<-|[]]]; reflexivity)). destruct (called nn r) as [name|] eqn:Cl; [|left; split; [reflexivity|exact C]]. right.
  apply called_op in Cl. destruct Cl as (o & Ho & En). rewrite I3 in Ho. rewrite I10 in C. destruct C as (tt0 & args & C1 & C2).
  destruct Ho as [<-|[<-|[]]]; cbn in En; subst name; [exists OpL, tt0, args|exists OpR, tt0, args]; (split; [exact C1|]; split; [reflexivity|exact C2]).
Qed.
(** somebody can go on *)
Lemma goes_on : forall pf n q a b, played pf n q -> (n + 1) * 3 < 2 ^ 63 -> (exists rs r d, a = AMain rs r d) -> (exists ds, b = AWork ds) -> fairMove a -> fairMove b ->
  (forall x, q_pc q <> PDone x) -> ~ (q_pc q = PShow /\ pcs (n_mem (y_nar (q_sys q))) = []) ->
  (exists q', progStep pf a q = Ok (Some q')) \/ (exists q', progStep pf b q = Ok (Some q')).
Proof.
  intros pf n q a b P L (rs & r & dr & Ea) (ds & Eb) Fa Fb Nd Ns. assert (I := played_inv _ _ _ P ltac:(lia)).
  destruct (prog_ok pf n q a I L Fa) as [(oa & Ha & _)|((S1 & S2 & _) & _)]; [|tauto]. destruct (prog_ok pf n q b I L Fb) as [(ob & Hb & _)|((_ & _ & (? & ? & ? & S)) & _)]; [|congruence].
  destruct oa as [qa|]; [left; eauto|]. destruct ob as [qb|]; [right; eauto|]. exfalso. subst a b. destruct q as [y d e t pc]. destruct I as [_ _ _ _ _ _ I7 _ _ _ _]. cbn [q_pc q_sys] in *. cbn [progStep] in Ha, Hb. destruct y as [nn p c w]. cbn [y_main] in *.
  assert (W : w = WIdle /\ c = []).
  { destruct (yact (usages d) _ (XWork ds)) as [[y'|]|] eqn:Y; try discriminate Hb. unfold yact in Y. destruct w as [|s now [|x l] rv|now [|s todo]].
    - destruct c as [|[s now] c]; [auto|]. destruct (mergeTargets _ _); [|destruct p; discriminate Y]. destruct p; discriminate Y.
    - destruct rv; [destruct p; discriminate Y|]. destruct (matchandintro_var1_sentence _ _); destruct p; discriminate Y.
    - destruct (mergeInto _ _ _) as [[h b]|]; destruct p; discriminate Y.
    - destruct p; discriminate Y.
    - destruct (mem_add_evidence_internal _ _ _ _ _); destruct p; discriminate Y. }
  destruct W as (-> & ->). destruct pc; try (destruct I7 as [I7|I7]; [discriminate I7|subst p]).
  - destruct (Z.rem t 10 =? 0); [|discriminate Ha]. destruct (inputN _ _ _ _) as [[n' b']|]; discriminate Ha.
  - cbn [yact] in Ha. destruct (confirm nn); discriminate Ha.
  - destruct p as [|[|x todo]|[|m ms]|now [|s todo]]; cbn [yact] in Ha; try discriminate Ha.
    + destruct (traceStep nn rs) as [[g ms]|]; discriminate Ha.
    + destruct (negConfirm _ _); discriminate Ha.
    + destruct (mem_add_evidence_internal _ _ _ _ _); discriminate Ha.
  - cbn [yact] in Ha. destruct (narStep1 nn true r); discriminate Ha.
  - destruct (simStep e dr); discriminate Ha.
  - destruct (debugEvidence _); [|discriminate Ha]. cbn [rbind] in Ha. destruct (pcs _); [discriminate Ha|]. cbn [rbind] in Ha. destruct (goalsText _); discriminate Ha.
  - now apply (Nd ratio).
Qed.
