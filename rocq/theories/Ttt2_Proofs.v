(** The program "envTTT2": what its steps do. *)
From Coq Require Import String Ascii ZArith Bool Lia List.
From Verif Require Import Base F64_Model Term_Model Stamp_Model Tv_Model Tv_Spec Sentence_Model Mem_Model Cycle_Model PMem_Model Goal_Model Proc_Model
  Proc_Spec ProcS_Model ProcX_Model Parser_Model Nar_Model Env_Model Env_Spec Env_Proofs Play_Model Play2_Proofs Ttt_Model Ttt_Spec Ttt_Proofs.
Import ListNotations.
Local Open Scope list_scope.
Local Open Scope Z_scope.

Definition begun (q q' : ttt) : Prop := begins q q' (u_games q) (u_games q').
Lemma work_keeps : forall pf mx ds q q', tttStep pf mx (BWork ds) q = Ok (Some q') ->
  exists y', yact (usages (u_decl q)) (u_sys q) (XWork ds) = Ok (Some y') /\ q' = mkTtt y' (u_decl q) (u_time q) (u_dq q) (u_game q) (u_move q) (u_games q) (u_wins q) (u_losses q) (u_pc q).
Proof.
  intros pf mx ds [y d tm dq g mv games wins losses pc] q' H. cbn [tttStep] in H. cbn [u_sys u_decl u_time u_dq u_game u_move u_games u_wins u_losses u_pc].
  destruct (yact (usages d) y (XWork ds)) as [[y'|]|] eqn:E; cbn [rbind option_map] in H; try discriminate H. injection H as <-. eauto.
Qed.
(** what a step of the main thread changes besides the reasoner *)
Inductive goes (mx : Z) (q q' : ttt) : Prop :=
| go_same : u_game q' = u_game q -> u_games q' = u_games q -> u_wins q' = u_wins q -> u_losses q' = u_losses q -> u_pc q <> TCheck -> u_pc q' <> TTurn -> goes mx q q'
| go_new : u_pc q = TEpoch -> u_pc q' = TTurn -> u_game q' = newGame -> u_games q' = u_games q + 1 -> u_wins q' = u_wins q -> u_losses q' = u_losses q -> goes mx q q'
| go_move : forall m ok, tryMove (u_game q) m = Ok (u_game q', ok) -> (u_pc q = TMove m \/ u_pc q = TPick) -> u_pc q' = (if ok then TCheck else TPick) -> u_games q' = u_games q -> u_wins q' = u_wins q -> u_losses q' = u_losses q -> goes mx q q'
| go_check : u_pc q = TCheck -> u_pc q' <> TCheck -> u_pc q' <> TTurn -> u_game q' = u_game q -> u_games q' = u_games q ->
    (exists w, winner (g_field (u_game q)) = Ok w /\ u_wins q' = u_wins q + (match w with Some c => if Ascii.eqb c "a" then 1 else 0 | None => 0 end) /\
       u_losses q' = u_losses q + (match w with Some c => if Ascii.eqb c "a" then 0 else if Ascii.eqb c "b" then 1 else 0 | None => 0 end)) -> goes mx q q'
| go_cycle : u_pc q = TCycle -> u_pc q' = TTurn -> u_game q' = mkGame (g_field (u_game q)) (negb (g_player (u_game q))) -> u_games q' = u_games q -> u_wins q' = u_wins q -> u_losses q' = u_losses q -> goes mx q q'.
Lemma main_goes : forall pf mx rs r opp expf sel q q', tttStep pf mx (BMain rs r opp expf sel) q = Ok (Some q') -> goes mx q q'.
Proof.
  intros pf mx rs r opp expf sel [y d tm dq g mv games wins losses pc] q' H. cbn [tttStep] in H. destruct pc.
  - destruct (games >=? mx); [injection H as <-; apply go_same; auto; discriminate|].
    destruct (if knowsGoal (n_goals (y_nar y)) then _ else _) as [[n1 d1]|]; cbn [rbind] in H; [|discriminate H]. injection H as <-. apply go_new; auto.
  - injection H as <-. apply go_same; auto; discriminate.
  - destruct (g_player g) eqn:Pl; [injection H as <-; apply go_same; auto; discriminate|]. destruct (range 9 opp) as [m|]; cbn [rbind] in H; [|discriminate H].
    destruct (tryMove g m) as [[g1 ok]|] eqn:E; cbn [rbind] in H; [|discriminate H]. injection H as <-. eapply go_move with (m := m); eauto.
  - destruct (yact _ y XStep0) as [[y'|]|]; cbn [rbind option_map] in H; try discriminate H. injection H as <-. apply go_same; auto; discriminate.
  - destruct (y_main y); [injection H as <-; apply go_same; auto; discriminate| | |];
      (destruct (yact _ y (XMain 20 rs)) as [[y'|]|]; cbn [rbind option_map] in H; try discriminate H; injection H as <-; apply go_same; auto; discriminate).
  - destruct (yact _ y (XStep1 true r)) as [[y'|]|]; cbn [rbind] in H; try discriminate H; [|destruct w as [k| |won k]; [destruct (moveOf _ mv)| |]; discriminate H].
    destruct w as [k| |won k]; [destruct (moveOf _ mv)| |]; cbn [option_map] in H; injection H as <-; apply go_same; auto; try discriminate; destruct k as [|[|k']]; try discriminate; destruct won; discriminate.
  - destruct (tryMove g m) as [[g1 ok]|] eqn:E; cbn [rbind] in H; [|discriminate H]. injection H as <-. eapply go_move with (m := m); eauto.
  - destruct (winner (g_field g)) as [w|] eqn:W; cbn [rbind] in H; [|discriminate H]. destruct w as [c|].
    + destruct (Ascii.eqb c "a") eqn:Ca.
      * destruct (inputN _ _ _ _) as [[x b]|]; cbn [rbind] in H; [|discriminate H]. injection H as <-. apply go_check; auto; try discriminate. exists (Some c). split; auto. rewrite Ca. cbn. split; lia.
      * injection H as <-. apply go_check; auto; try discriminate. exists (Some c). split; auto. rewrite Ca. cbn. split; [lia|]. destruct (Ascii.eqb c "b"); lia.
    + destruct (isDraw (g_field g)); injection H as <-; apply go_check; auto; try discriminate; exists None; (split; [exact W|cbn; split; lia]).
  - destruct (reasonCycle expf sel d tm) as [[[[d1 tm1] an] m]|]; cbn [rbind] in H; [|discriminate H]. injection H as <-. apply go_cycle; auto.
  - discriminate H.
Qed.

(** * The boards *)
Lemma board_legal : forall pf mx n q, tplayed pf mx n q -> n * 10000 < 2 ^ 63 -> exists p, legal (mkGame (g_field (u_game q)) p).
Proof.
  intros pf mx n q P. induction P as [|n q a q' P IH Fa E]; intros L; [exists true; exact lg_new|]. destruct IH as (p & IH); [lia|].
  assert (I := ttt_inv _ _ _ _ P ltac:(lia)). destruct a as [rs r opp expf sel|ds].
  - destruct (main_goes _ _ _ _ _ _ _ _ _ E) as [G _ _ _ _ _|_ _ G _ _ _|m ok T Pc _ _ _ _|_ _ _ G _ _|_ _ G _ _ _].
    + rewrite G. eauto.
    + rewrite G. exists true. exact lg_new.
    + assert (Gg : going (u_game q)). { assert (I6 := ti_game _ _ _ I). destruct Pc as [Pc|Pc]; rewrite Pc in I6; [apply I6|exact I6]. }
      destruct (move_cases (u_game q) m Gg) as [(T' & _)|[(T' & _)|(f' & T' & _ & _ & Lg & _)]]; rewrite T in T'; [discriminate T'| |].
      * injection T' as -> _. eauto.
      * injection T' as -> _. cbn [g_field]. eauto.
    + rewrite G. eauto.
    + rewrite G. cbn [g_field]. eauto.
  - destruct (work_keeps _ _ _ _ _ E) as (y' & _ & ->). cbn [u_game]. eauto.
Qed.

(** * What is counted *)
Lemma step_counts : forall pf mx n q a q', tInv mx n q -> tttStep pf mx a q = Ok (Some q') -> begun q q' /\ scores "a" q q' (u_wins q) (u_wins q') /\ scores "b" q q' (u_losses q) (u_losses q').
Proof.
  intros pf mx n q a q' I E. unfold begun, begins, scores, moved. destruct a as [rs r opp expf sel|ds].
  2:{ destruct (work_keeps _ _ _ _ _ E) as (y' & _ & ->). cbn [u_pc u_games u_wins u_losses]. split; [right; split; [intros (A & B); congruence|reflexivity]|]. split; right; (split; [intros ((A & B) & _); congruence|reflexivity]). }
  destruct (main_goes _ _ _ _ _ _ _ _ _ E) as [_ G1 G2 G3 Nc Nt|Pe Pt _ G1 G2 G3|m ok _ Pc Pc' G1 G2 G3|Pc Pc' Nt _ G1 (w & W & G2 & G3)|Pc Pt _ G1 G2 G3].
  - split; [right; split; [tauto|auto]|]. split; right; (split; [tauto|auto]).
  - split; [left; auto|]. split; right; (split; [intros ((A & _) & _); congruence|auto]).
  - split; [right; split; [|auto]|]; [|split; right; (split; [|auto])].
    + intros (A & _). destruct Pc as [Pc|Pc]; rewrite Pc in A; discriminate A.
    + intros ((A & _) & _). destruct Pc as [Pc|Pc]; rewrite Pc in A; discriminate A.
    + intros ((A & _) & _). destruct Pc as [Pc|Pc]; rewrite Pc in A; discriminate A.
  - split; [right; split; [tauto|auto]|]. assert (I6 := ti_game _ _ _ I). rewrite Pc in I6. destruct I6 as (w' & W' & Hw). rewrite W in W'. injection W' as <-. destruct w as [c|].
    + destruct Hw as (_ & Hw & Hc & Uq). destruct (Ascii.eqb_spec c "a") as [Ea|Na].
      * split; [left; rewrite <- Ea; auto|]. right. split; [|lia]. intros (_ & Wb). apply Uq in Wb. congruence.
      * destruct (Ascii.eqb_spec c "b") as [Eb|Nb]; [|destruct (g_player (u_game q)); congruence]. split; [right|left; rewrite <- Eb; auto]. split; [|lia]. intros (_ & Wb). apply Uq in Wb. congruence.
    + assert (N : forall p, ~ wins p (g_field (u_game q))). { destruct (isDraw (g_field (u_game q))); [apply Hw|]. destruct Hw as (_ & Hw & _). exact Hw. }
      split; right; (split; [intros (_ & X); exact (N _ X)|lia]).
  - split; [right; split; [intros (A & _); congruence|auto]|]. split; right; (split; [intros ((A & _) & _); congruence|auto]).
Qed.
Lemma scores_fun : forall p q q' k k' w w', scores p q q' k k' -> scores p q q' w w' -> k = w -> k' = w'.
Proof. intros p q q' k k' w w' [(A & B & C)|(A & C)] [(A' & B' & C')|(A' & C')] E; try lia; tauto. Qed.
Lemma tallied_played : forall pf mx n k a b q, tallied pf mx n k a b q -> tplayed pf mx n q.
Proof. intros pf mx n k a b q T. induction T; [constructor|econstructor; eauto]. Qed.
Lemma tally_ok : forall pf mx n k a b q, tallied pf mx n k a b q -> n * 10000 < 2 ^ 63 -> k = u_games q + 1 /\ a = u_wins q /\ b = u_losses q.
Proof.
  intros pf mx n k a b q T. induction T as [|n k a b q act q' k' a' b' T IH F E B A1 A2]; intros L; [cbn; lia|].
  destruct IH as (H1 & H2 & H3); [lia|]. assert (I := ttt_inv _ _ _ _ (tallied_played _ _ _ _ _ _ _ T) ltac:(lia)).
  destruct (step_counts _ _ _ _ _ _ I E) as (C1 & C2 & C3). split; [|split; eapply scores_fun; eauto].
  destruct B as [(B1 & B2 & B3)|(B1 & B3)]; destruct C1 as [(D1 & D2 & D3)|(D1 & D3)]; try lia; tauto.
Qed.
Lemma tally_exists : forall pf mx n q, tplayed pf mx n q -> n * 10000 < 2 ^ 63 -> exists k a b, tallied pf mx n k a b q.
Proof.
  intros pf mx n q P. induction P as [|n q act q' P IH F E]; intros L; [exists 0, 0, 0; constructor|].
  destruct IH as (k & a & b & T); [lia|]. destruct (tally_ok _ _ _ _ _ _ _ T) as (H1 & H2 & H3); [lia|]. assert (I := ttt_inv _ _ _ _ P ltac:(lia)).
  destruct (step_counts _ _ _ _ _ _ I E) as (C1 & C2 & C3). exists (u_games q' + 1), (u_wins q'), (u_losses q'). eapply ta_step; eauto; subst; auto.
  destruct C1 as [(D1 & D2 & D3)|(D1 & D3)]; [left|right]; repeat split; auto; lia.
Qed.

(** * What the reasoner is told and does *)
Lemma work_trace : forall us y ds y', yact us y (XWork ds) = Ok (Some y') -> n_trace (y_nar y') = n_trace (y_nar y) /\ n_t (y_nar y') = n_t (y_nar y).
Proof.
  intros us [n p c w] ds y' H. cbn [yact] in H. cbn [y_nar].
  destruct w as [|s now [|a l] rv|now [|s todo]].
  - destruct c as [|[s now] c']; [discriminate H|]. destruct (mergeTargets (n_mem n) s); cbn [rbind] in H; [|discriminate H]. injection H as <-. auto.
  - destruct rv; [injection H as <-; auto|]. destruct (matchandintro_var1_sentence s ds); cbn [rbind] in H; [|discriminate H]. injection H as <-. auto.
  - destruct (mergeInto s (cells (n_mem n)) a) as [[h b]|]; cbn [rbind] in H; [|discriminate H]. injection H as <-. auto.
  - injection H as <-. auto.
  - destruct (mem_add_evidence_internal us (n_mem n) s (c_nBeliefs (n_cfg n)) now); cbn [rbind] in H; [|discriminate H]. injection H as <-. auto.
Qed.
Lemma reads_board : forall f, readsAs f (string_of_list_ascii (retFieldAsString f)).
Proof.
  intros f. split.
  - unfold retFieldAsString. induction f as [|c f IH]; [reflexivity|]. cbn [map string_of_list_ascii String.length length]. now rewrite IH.
  - induction f as [|c f IH]; intros [|i] x H; cbn [nth_error] in H; try discriminate H.
    + injection H as <-. unfold retFieldAsString. cbn [map string_of_list_ascii String.get]. destruct (Ascii.eqb_spec c " "); destruct (ascii_dec c " "); congruence.
    + unfold retFieldAsString. cbn [map string_of_list_ascii String.get]. now apply IH.
Qed.
Lemma told_board : forall pf mx n q, tplayed pf mx n q -> n * 10000 < 2 ^ 63 -> u_pc q = THalf0 (Think 4) ->
  exists s, readsAs (g_field (u_game q)) s /\ n_trace (y_nar (u_sys q)) = [mkEvent (Name s) (n_t (y_nar (u_sys q))) (n_t (y_nar (u_sys q)))].
Proof.
  intros pf mx n q P. induction P as [|n q a q' P IH Fa E]; intros L Pc; [discriminate Pc|].
  assert (I := ttt_inv _ _ _ _ P ltac:(lia)). destruct a as [rs r opp expf sel|ds].
  2:{ destruct (work_keeps _ _ _ _ _ E) as (y' & Y & ->). cbn [u_pc u_game u_sys] in *. destruct (work_trace _ _ _ _ Y) as (-> & ->). apply IH; auto. lia. }
  clear IH. destruct q as [y d tm dq g mv games wins losses pc]. cbn [tttStep] in E. destruct pc.
  - destruct (games >=? mx); [injection E as <-; discriminate Pc|].
    destruct (if knowsGoal (n_goals (y_nar y)) then _ else _) as [[n1 d1]|]; cbn [rbind] in E; [|discriminate E]. injection E as <-. discriminate Pc.
  - injection E as <-. discriminate Pc.
  - destruct (g_player g) eqn:Pl; [injection E as <-|].
    + exists (boardName g). split; [apply reads_board|]. reflexivity.
    + destruct (range 9 opp) as [m|]; cbn [rbind] in E; [|discriminate E]. destruct (tryMove g m) as [[g1 [|]]|]; cbn [rbind] in E; try discriminate E; injection E as <-; discriminate Pc.
  - destruct (yact _ y XStep0) as [[y'|]|]; cbn [rbind option_map] in E; try discriminate E. injection E as <-. discriminate Pc.
  - destruct (y_main y); [injection E as <-; discriminate Pc| | |]; (destruct (yact _ y (XMain 20 rs)) as [[y'|]|]; cbn [rbind option_map] in E; try discriminate E; injection E as <-; discriminate Pc).
  - assert (I6 := ti_game _ _ _ I). cbn [u_pc u_game gameBy] in I6. destruct (yact _ y (XStep1 true r)) as [[y'|]|]; cbn [rbind] in E; try discriminate E; [|destruct w as [k| |won k]; [destruct (moveOf _ mv)| |]; discriminate E].
    destruct w as [k| |won k]; [destruct (moveOf _ mv)| |]; cbn [option_map] in E; injection E as <-; cbn [u_pc] in Pc; try discriminate Pc; destruct k as [|[|k']]; try discriminate Pc; [|destruct won; discriminate Pc|destruct won; discriminate Pc].
    injection Pc as ->. destruct I6 as (_ & _ & I6). lia.
  - destruct (tryMove g m) as [[g1 [|]]|]; cbn [rbind] in E; try discriminate E; injection E as <-; discriminate Pc.
  - destruct (winner (g_field g)) as [[c|]|]; cbn [rbind] in E; [| |discriminate E].
    + destruct (Ascii.eqb c "a"); [destruct (inputN _ _ _ _) as [[x b]|]; cbn [rbind] in E; [|discriminate E]|]; injection E as <-; discriminate Pc.
    + destruct (isDraw (g_field g)); [|destruct (g_player g)]; injection E as <-; discriminate Pc.
  - destruct (reasonCycle expf sel d tm) as [[[[d1 tm1] an] m]|]; cbn [rbind] in E; [|discriminate E]. injection E as <-. discriminate Pc.
  - discriminate E.
Qed.

(** somebody can go on *)
Lemma ttt_goes_on : forall pf mx n q rs r opp expf sel ds, tplayed pf mx n q -> (n + 1) * 10000 < 2 ^ 63 -> fairTurn (BMain rs r opp expf sel) -> fairTurn (BWork ds) -> u_pc q <> TDone ->
  (exists q', tttStep pf mx (BMain rs r opp expf sel) q = Ok (Some q')) \/ (exists q', tttStep pf mx (BWork ds) q = Ok (Some q')).
Proof.
  intros pf mx n q rs r opp expf sel ds P L Fa Fb Nd. assert (I := ttt_inv _ _ _ _ P ltac:(lia)).
  destruct (ttt_step pf mx n q _ I L Fa) as (oa & Ha & _). destruct (ttt_step pf mx n q _ I L Fb) as (ob & Hb & _).
  destruct oa as [qa|]; [left; eauto|]. destruct ob as [qb|]; [right; eauto|]. exfalso. destruct q as [y d tm dq g mv games wins losses pc]. destruct I as [_ _ _ I4 _ _ _ _ _]. cbn [u_pc u_sys] in *. cbn [tttStep] in Ha, Hb. destruct y as [nn p c w]. cbn [y_main y_nar] in *.
  assert (W : w = WIdle /\ c = []).
  { destruct (yact (usages d) _ (XWork ds)) as [[y'|]|] eqn:Y; try discriminate Hb. unfold yact in Y. destruct w as [|s now [|x l] rv|now [|s todo]].
    - destruct c as [|[s now] c]; [auto|]. destruct (mergeTargets _ _); [|destruct p; discriminate Y]. destruct p; discriminate Y.
    - destruct rv; [destruct p; discriminate Y|]. destruct (matchandintro_var1_sentence _ _); destruct p; discriminate Y.
    - destruct (mergeInto _ _ _) as [[h b]|]; destruct p; discriminate Y.
    - destruct p; discriminate Y.
    - destruct (mem_add_evidence_internal _ _ _ _ _); destruct p; discriminate Y. }
  destruct W as (-> & ->). destruct pc; try (destruct I4 as [(w' & I4)|I4]; [discriminate I4|subst p]).
  - destruct (games >=? mx); [discriminate Ha|]. destruct (if knowsGoal (n_goals nn) then _ else _) as [[n1 d1]|]; discriminate Ha.
  - discriminate Ha.
  - destruct (g_player g); [discriminate Ha|]. destruct (range 9 opp) as [m|]; cbn [rbind] in Ha; [|discriminate Ha]. destruct (tryMove g m) as [[g1 b]|]; discriminate Ha.
  - cbn [yact] in Ha. destruct (confirm nn); discriminate Ha.
  - destruct p as [|[|x todo]|[|m ms]|now [|s todo]]; cbn [yact] in Ha; try discriminate Ha.
    + destruct (traceStep nn rs) as [[g' ms]|]; discriminate Ha.
    + destruct (negConfirm _ _); discriminate Ha.
    + destruct (mem_add_evidence_internal _ _ _ _ _); discriminate Ha.
  - cbn [yact] in Ha. destruct (narStep1 nn true r); [|discriminate Ha]. cbn [rbind] in Ha. destruct w as [k| |won k]; [destruct (moveOf _ mv)| |]; discriminate Ha.
  - destruct (tryMove g m) as [[g1 b]|]; discriminate Ha.
  - destruct (winner (g_field g)) as [[c|]|]; cbn [rbind] in Ha; [| |discriminate Ha].
    + destruct (Ascii.eqb c "a"); [destruct (inputN _ _ _ _) as [[x b]|]|]; discriminate Ha.
    + destruct (isDraw (g_field g)); discriminate Ha.
  - destruct (reasonCycle expf sel d tm) as [[[[d1 tm1] an] m]|]; discriminate Ha.
  - now apply Nd.
Qed.

(** which operator stands for which cell *)
Definition decided (q q' : ttt) (m : Z) : Prop :=
  match u_pc q with THalf1 (Think _) => u_pc q' = TMove m /\ u_move q' = None | _ => u_move q' = Some m end.
Definition undecided (q q' : ttt) : Prop :=
  match u_pc q, u_move q with
  | THalf1 (Think _), Some m => u_pc q' = TMove m /\ u_move q' = None
  | THalf1 (Think _), None => (forall m, u_pc q' <> TMove m) /\ u_move q' = None
  | _, _ => u_move q' = u_move q
  end.
Lemma ttt_does : forall pf mx n q w rs r opp expf sel q', tplayed pf mx n q -> n * 10000 < 2 ^ 63 -> u_pc q = THalf1 w -> tttStep pf mx (BMain rs r opp expf sel) q = Ok (Some q') ->
  (undecided q q' /\ n_trace (y_nar (u_sys q')) = lastEvents 20 (n_trace (y_nar (u_sys q)))) \/
  (exists m t args, (m < 9)%nat /\ opCall t args (String "^" (String (ascii_of_nat (48 + m)) "")) /\ decided q q' (Z.of_nat m) /\
    n_trace (y_nar (u_sys q')) = lastEvents 20 (n_trace (y_nar (u_sys q)) ++ [mkEvent t (n_t (y_nar (u_sys q))) (n_t (y_nar (u_sys q)))])).
Proof.
  intros pf mx n q w rs r opp expf sel q' P L Q E. assert (I := ttt_inv _ _ _ _ P L). destruct q as [y d tm dq g mv games wins losses pc]. cbn [u_pc] in Q. subst pc. destruct I as [I1 _ _ I4 _ _ _ _ _]. cbn [u_sys u_pc] in I1, I4. destruct I4 as [(w' & I4)|I4]; [discriminate I4|].
  assert (I3 := so_ops _ _ I1). cbn [tttStep] in E. destruct y as [nn p c ws]. cbn [y_main y_nar] in *. subst p. cbn [yact y_nar] in E. destruct (narStep1 nn true r) as [n'|] eqn:S; [|discriminate E]. cbn [rbind] in E.
  assert (C := called_spec _ _ _ S). rewrite I3 in C. specialize (C ltac:(intros o Ho; apply in_map_iff in Ho; destruct Ho as (s & <- & _); reflexivity)).
  destruct (called nn r) as [name|] eqn:Cl.
  - right. apply called_op in Cl. destruct Cl as (o & Ho & En). rewrite I3 in Ho. destruct C as (t & args & C1 & C2).
    assert (X : exists m, (m < 9)%nat /\ name = String "^" (String (ascii_of_nat (48 + m)) "") /\ indexOf name moveNames 0 = Some (Z.of_nat m)).
    { subst name. unfold tttOps, moveNames in Ho. cbn [map] in Ho. 
      repeat (destruct Ho as [<-|Ho]; [|]); [exists 0%nat|exists 1%nat|exists 2%nat|exists 3%nat|exists 4%nat|exists 5%nat|exists 6%nat|exists 7%nat|exists 8%nat|contradiction Ho]; (split; [lia|split; reflexivity]). }
    destruct X as (m & Hm & Hn & Hi). exists m, t, args. split; auto. split; [now rewrite <- Hn|]. unfold moveOf in E. rewrite Hi in E. unfold decided. cbn [u_pc u_sys y_nar].
    destruct w as [k| |won k]; cbn [option_map] in E; injection E as <-; cbn [u_pc u_move u_sys y_nar]; auto.
  - left. unfold moveOf in E. unfold undecided. cbn [u_pc u_sys y_nar u_move]. destruct w as [k| |won k]; [destruct mv as [m|]| |]; cbn [option_map] in E; injection E as <-; cbn [u_pc u_move u_sys y_nar]; auto. split; auto. split; auto. intros m. destruct k as [|[|k']]; discriminate.
Qed.
(** what the move does *)
Lemma ttt_plays : forall pf mx n q m rs r opp expf sel q', tplayed pf mx n q -> n * 10000 < 2 ^ 63 -> u_pc q = TMove m -> tttStep pf mx (BMain rs r opp expf sel) q = Ok (Some q') ->
  0 <= m < 9 /\
  ((nth_error (g_field (u_game q)) (Z.to_nat m) = Some " "%char /\ u_pc q' = TCheck /\ nth_error (g_field (u_game q')) (Z.to_nat m) = Some "a"%char) \/
   (nth_error (g_field (u_game q)) (Z.to_nat m) <> Some " "%char /\ u_pc q' = TPick /\ u_game q' = u_game q)) /\
  (forall j, Z.of_nat j <> m -> nth_error (g_field (u_game q')) j = nth_error (g_field (u_game q)) j).
Proof.
  intros pf mx n q m rs r opp expf sel q' P L Q E. assert (I := ttt_inv _ _ _ _ P L). assert (I6 := ti_game _ _ _ I). rewrite Q in I6. destruct I6 as ((Lg & _) & Pl & B). split; auto.
  destruct (legal_inv _ Lg) as (Lf & _). assert (T := tryMove_spec (u_game q) m Lf).
  destruct q as [y d tm dq g mv games wins losses pc]. cbn [u_pc u_game] in *. subst pc. cbn [tttStep] in E. destruct (tryMove g m) as [[g1 ok]|] eqn:Em; [|discriminate E]. cbn [rbind] in E. injection E as <-. cbn [u_pc u_game].
  destruct T as (_ & _ & _ & K & T). split; auto. destruct ok.
  - left. destruct T as (T1 & T2). rewrite Pl in T2. auto.
  - right. destruct (move_cases g m) as [(T' & _)|[(T' & _ & N)|(f' & T' & _)]]; [| | |]; try (rewrite Em in T').
    + assert (I6 := ti_game _ _ _ I). cbn [u_pc u_game gameBy] in I6. apply I6.
    + discriminate T'.
    + injection T' as ->. auto.
    + discriminate T'.
Qed.
