(** C117: the win that follows is counted. *)
From Coq Require Import String Ascii ZArith Bool Lia List.
From Verif Require Import Base F64_Model Term_Model Tv_Model Sentence_Model PMem_Model Goal_Model Goal_Spec Goal_Proofs Proc_Model Proc_Spec ProcC_Proofs ProcS_Model ProcX_Model Mem_Model Cycle_Model Parser_Model Nar_Model Play_Model Play_Spec
  Env_Model Env_Spec Env_Proofs Ttt_Model Ttt_Spec Ttt_Proofs Ttt2_Proofs Teach_Spec Props_Play Props_Ttt Props_Vocab Props_Backed Props_Use.
Import ListNotations.
Local Open Scope list_scope.
Local Open Scope Z_scope.

Definition byWorker (a : tact) : Prop := match a with BWork _ => True | _ => False end.
Lemma works_keep : forall pf mx ws l q q', Forall byWorker ws -> tttRun pf mx (ws ++ l) q = Ok q' ->
  exists q1, tttRun pf mx l q1 = Ok q' /\ u_pc q1 = u_pc q /\ u_game q1 = u_game q /\ u_wins q1 = u_wins q /\ u_losses q1 = u_losses q.
Proof.
  intros pf mx ws. induction ws as [|w ws IH]; intros l q q' F E; cbn [app] in E; [exists q; auto|]. inversion F as [|? ? Fw Fl]; subst. cbn [tttRun] in E.
  destruct (tttStep pf mx w q) as [o|] eqn:S; cbn [rbind] in E; [|discriminate E]. destruct w as [|ds]; [destruct Fw|]. destruct o as [q2|]; [|now apply IH].
  destruct (work_keeps _ _ _ _ _ S) as (y' & _ & ->). destruct (IH l _ q' Fl E) as (q1 & R & K). cbn [u_pc u_game u_wins u_losses] in K. exists q1. auto.
Qed.
(** If everything remembered that starts from the board says that a move wins, the program's next
    three steps are to decide on it, to make it and to count the win, whatever is drawn and whenever
    the worker runs. *)
Theorem c117_counted : forall pf mx n q k s o m v rs r opp expf sel q1 ws ws' rs2 r2 opp2 expf2 sel2 rs3 r3 opp3 expf3 sel3 q', tplayed pf mx n q -> n * 10000 < 2 ^ 63 -> u_pc q = THalf1 (Think k) ->
  readsAs (g_field (u_game q)) s -> nth_error moveNames m = Some o ->
  (exists a, relevant (y_nar (u_sys q)) (Name s) a) -> (forall a, relevant (y_nar (u_sys q)) (Name s) a -> advises (y_nar (u_sys q)) (Name s) (plainCall o) (Name "w") v a) ->
  Teach_Spec.wants (y_nar (u_sys q)) (Name "w") v -> noneFor (y_nar (u_sys q)) (plainCall o) ->
  tttStep pf mx (BMain rs r opp expf sel) q = Ok (Some q1) -> Forall byWorker ws -> Forall byWorker ws' ->
  tttRun pf mx (ws ++ BMain rs2 r2 opp2 expf2 sel2 :: ws' ++ [BMain rs3 r3 opp3 expf3 sel3]) q1 = Ok q' ->
  wins "a" (g_field (u_game q')) /\ u_wins q' = u_wins q + 1 /\ u_losses q' = u_losses q /\ u_pc q' = THalf0 (Rest true 50).
Proof.
  intros pf mx n q k s o m v rs r opp expf sel q1 ws ws' rs2 r2 opp2 expf2 sel2 rs3 r3 opp3 expf3 sel3 q' P L Pc Rd Nm Ex Al Wa No E Fw Fw' R.
  destruct (c117_move _ _ _ _ _ _ _ _ _ _ _ _ _ _ _ _ P L Pc Rd Nm Ex Al Wa No E) as (_ & Eg). destruct (c117_wins _ _ _ _ _ _ _ _ _ _ _ _ _ _ _ P L Pc Rd Nm Ex Al Wa No E) as (g1 & Pc1 & Tm & Wi).
  assert (K1 : u_wins q1 = u_wins q /\ u_losses q1 = u_losses q).
  { clear - E Pc. destruct q as [y d tm dq g mv games wns losses pc]. cbn [u_pc] in Pc. subst pc. cbn [tttStep] in E. destruct (yact (usages d) y (XStep1 true r)) as [[y'|]|]; cbn [rbind option_map] in E; [| |discriminate E];
      match type of E with (let '(_, _) := ?t in _) = _ => destruct t as [mv2 pc2] end; [injection E as <-; auto|discriminate E]. }
  destruct (ttt_inv pf mx n q P L) as [_ _ _ _ _ I6 _ _ _]. rewrite Pc in I6. destruct I6 as (Go & Pl & _). rewrite Eg in Tm. destruct Go as (Lg & Nw & _). destruct (legal_inv _ Lg) as (L9 & _).
  assert (T := tryMove_spec (u_game q) (Z.of_nat m) L9). rewrite Tm in T. destruct T as (Rm & Pl1 & L1 & Kp & T1 & T2). rewrite Nat2Z.id in T1, T2.
  assert (Lg1 : legal (mkGame (g_field g1) (negb (g_player (u_game q))))).
  { destruct (u_game q) as [f p]. cbn [g_field g_player] in *. eapply lg_move with (i := m); eauto; [lia|lia|]. intros j Hj. apply Kp. lia. }
  destruct K1 as (K1 & K2). destruct (works_keep _ _ _ _ _ _ Fw R) as (q2 & R2 & P2 & G2 & W2 & O2). clear R E Rd Ex Al Wa No. cbn [tttRun] in R2.
  rewrite Pc1 in P2. rewrite Eg in G2. rewrite K1 in W2. rewrite K2 in O2. clear Pc1 Eg K1 K2. destruct q2 as [y d tm dq g mv games wns losses pc]. cbn [u_pc u_game u_wins u_losses] in *. subst pc g. cbn [tttStep] in R2. rewrite Tm in R2. cbn [rbind] in R2.
  destruct (works_keep _ _ _ _ _ _ Fw' R2) as (q3 & R3 & P3 & G3 & W3 & O3). clear R2. cbn [u_pc u_game u_wins u_losses] in *. rewrite W2 in W3. rewrite O2 in O3. clear y d tm dq mv games wns losses W2 O2. destruct q3 as [y d tm dq g mv games wns losses pc]. cbn [u_pc u_game u_wins u_losses] in *. subst pc g. cbn [tttRun tttStep] in R3.
  destruct (winner_spec (g_field g1) L1) as (w & Ew & Ws & Wn). rewrite Ew in R3. cbn [rbind] in R3. destruct w as [c|]; [|exfalso; exact (Wn eq_refl _ Wi)].
  assert (c = "a"%char) by (rewrite (legal_winner _ Lg1 c (Ws c eq_refl)); cbn [g_player]; rewrite Pl; reflexivity). subst c. cbn [Ascii.eqb Bool.eqb] in R3.
  destruct (inputN _ _ _ _) as [[x b]|]; cbn [rbind] in R3; [|discriminate R3]. injection R3 as <-. cbn [u_pc u_game u_wins u_losses]. split; [exact Wi|]. split; [lia|]. split; [exact O3|reflexivity].
Qed.
(** the run of [c117_ex], three steps further: the games won before and after, and the board *)
Definition lastThree : list tact :=
  let b := BMain pick0 (mkIn 0 [] 80 (fun _ => f1) []) 0 (fun x => x) f1 in let w := BWork (repeat 3%nat 24) in [b; w; b; w; w; b].
Example c117_counted_ex : (do q <- tttRun noNumber 2 (concat (map tplays (seq 4 2890))) tttStart; do q1 <- replay 4000 q; do q2 <- tttRun noNumber 2 lastThree q1; Ok (u_wins q1, u_wins q2, g_field (u_game q2), u_pc q2)) =
  Ok (1, 2, ["a"; "a"; "a"; "b"; "b"; "a"; "b"; "a"; "b"]%char, THalf0 (Rest true 50)).
Proof. vm_cast_no_check (@eq_refl (res (Z * Z * list ascii * tpc)) (Ok (1, 2, ["a"; "a"; "a"; "b"; "b"; "a"; "b"; "a"; "b"]%char, THalf0 (Rest true 50)))). Qed.
Print Assumptions c117_counted.
