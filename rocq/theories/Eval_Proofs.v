(** Proofs for Eval_Model: the evaluation under all schedules. *)
From Coq Require Import String ZArith Bool Lia List Wf_nat.
From Verif Require Import Base F64_Model Term_Model Tv_Model Sentence_Model Mem_Model Cycle_Model Run_Proofs Sched_Model Sched_Spec Sched_Proofs Sched2_Proofs Eval_Model.
Import ListNotations.
Local Open Scope list_scope.

(** * What steps keep *)
Lemma addStep_ctr : forall x f sh sh' o, addStep x f sh = Ok (sh', o) -> cycleCtr sh' = cycleCtr sh.
Proof.
  intros x f sh sh' o H. destruct f as [[|t ts] r| |[|s l]|s l a|s l a]; cbn [addStep] in H.
  - destruct r; injection H as <- <-; reflexivity.
  - destruct (reviseConcept _ _ _) as [[[m r'] u]|]; [|discriminate]. cbn [rbind] in H. injection H as <- <-. reflexivity.
  - destruct (storeInConcepts _ _ _ _ _); [|discriminate]. cbn [rbind] in H. injection H as <- <-. reflexivity.
  - injection H as <- <-. reflexivity.
  - destruct (s_punct s); [destruct (taskExists sh s)| |]; injection H as <- <-; reflexivity.
  - injection H as <- <-. reflexivity.
  - injection H as <- <-. reflexivity.
Qed.
Lemma cycStep_ctr : forall y p sh qu sh' qu' ans o, cycStep y p sh qu = Ok (Some (sh', qu', ans, o)) -> cycleCtr sh' = cycleCtr sh.
Proof.
  intros y p sh qu sh' qu' ans o H. destruct p as [| | |i [|t ts]| | |a [|t ts] acc|m|m| | | | |]; cbn [cycStep] in H.
  all: try (injection H as <- _ _ _; reflexivity).
  - destruct (questions sh); [injection H as <- _ _ _; reflexivity|]. destruct (task2SelByCreditRandom _ _); [|discriminate]. cbn [rbind] in H.
    destruct (idx _ _); [|discriminate]. cbn [rbind] in H. injection H as <- _ _ _. reflexivity.
  - destruct (idx _ _); [|discriminate]. cbn [rbind] in H. destruct (qaTryAll _ _); [|discriminate]. cbn [rbind] in H. injection H as <- _ _ _. reflexivity.
  - destruct (idx _ _); [|discriminate]. cbn [rbind] in H. injection H as <- _ _ _. reflexivity.
  - destruct (length qu <? 4); [|discriminate]. injection H as <- _ _ _. reflexivity.
  - destruct (limitTasks _ _) as [s1|] eqn:L; [|discriminate]. cbn [rbind] in H. injection H as <- _ _ _. apply limitTasks_ok in L. destruct L as (kept & -> & _). reflexivity.
  - unfold maintainConcepts in H. destruct (Z.rem (cycleCtr sh) 173 =? 0)%Z; [destruct (limitMemory _ _); [|discriminate]|]; cbn [rbind] in H; injection H as <- _ _ _; reflexivity.
Qed.
Lemma cliStep_ctr : forall p sh qu sh' qu' ans p', cliStep p sh qu = Ok (Some (sh', qu', ans, p')) -> cycleCtr sh' = cycleCtr sh.
Proof.
  intros p sh qu sh' qu' ans p' H. destruct p as [|x f|y p]; cbn [cliStep] in H; [discriminate| |].
  - destruct (addStep x f sh) as [[s1 o]|] eqn:E; [|discriminate]. cbn [rbind fst snd] in H. injection H as <- _ _ _. eapply addStep_ctr; eauto.
  - destruct (cycStep y p sh qu) as [[[[[s1 q1] a1] o]|]|] eqn:E; cbn [rbind] in H; try discriminate. injection H as <- _ _ _. eapply cycStep_ctr; eauto.
Qed.
Lemma workStep_ctr : forall maxC n p sh qu sh' qu' ans p', workStep maxC n p sh qu = Ok (Some (sh', qu', ans, p')) -> cycleCtr sh' = cycleCtr sh.
Proof.
  intros maxC n p sh qu sh' qu' ans p' H. destruct p as [|m|m cs [|c todo]|m [|c cs]|m x f cs]; cbn [workStep] in H.
  - destruct qu; [discriminate|]. injection H as <- _ _ _. reflexivity.
  - destruct (derive sh m); [|discriminate]. cbn [rbind] in H. injection H as <- _ _ _. reflexivity.
  - injection H as <- _ _ _. reflexivity.
  - destruct (punct_eqb _ _); [|injection H as <- _ _ _; reflexivity]. destruct (qaTryQuestions _ _); [|discriminate]. cbn [rbind] in H. injection H as <- _ _ _. reflexivity.
  - injection H as <- _ _ _. reflexivity.
  - injection H as <- _ _ _. reflexivity.
  - destruct (addStep x f sh) as [[s1 o]|] eqn:E; [|discriminate]. cbn [rbind fst snd] in H. injection H as <- _ _ _. eapply addStep_ctr; eauto.
Qed.
(** the three moves *)
Lemma start_inv : forall maxC n st y st', exec maxC n (ChStart 0 (OpCycle y)) st = Ok (Some st') ->
  nth_error (y_clients st) 0 = Some CIdle /\
  st' = mkSys (setCycleCtr (cycleCtr (y_sh st) + 1) (y_sh st)) (y_queue st) (replace_at 0 (CCycle y YTransfer) (y_clients st)) (y_worker st) (y_log st).
Proof.
  intros maxC n st y st' H. cbn [exec] in H. destruct (nth_error (y_clients st) 0) as [[| |]|]; try discriminate. cbn [opStart] in H. injection H as <-. auto.
Qed.
Lemma client_inv : forall maxC n st st', exec maxC n (ChClient 0) st = Ok (Some st') ->
  exists p p' ans, nth_error (y_clients st) 0 = Some p /\ clientMoves p p' /\ cliStep p (y_sh st) (y_queue st) = Ok (Some (y_sh st', y_queue st', ans, p')) /\
    y_clients st' = replace_at 0 p' (y_clients st) /\ y_worker st' = y_worker st /\ y_log st' = y_log st ++ ans /\ cycleCtr (y_sh st') = cycleCtr (y_sh st).
Proof.
  intros maxC n st st' H. cbn [exec] in H. destruct (nth_error (y_clients st) 0) as [p|]; [|discriminate]. destruct (cliStep p _ _) as [[[[[sh qu] ans] p']|]|] eqn:E; cbn [rbind] in H; try discriminate.
  injection H as <-. exists p, p', ans. cbn. repeat (split; auto); [now exists (y_sh st), (y_queue st), sh, qu, ans|]. eapply cliStep_ctr; eauto.
Qed.
Lemma worker_inv : forall maxC n st st', exec maxC n ChWorker st = Ok (Some st') ->
  exists ans, workStep maxC n (y_worker st) (y_sh st) (y_queue st) = Ok (Some (y_sh st', y_queue st', ans, y_worker st')) /\
    y_clients st' = y_clients st /\ y_log st' = y_log st ++ ans /\ cycleCtr (y_sh st') = cycleCtr (y_sh st).
Proof.
  intros maxC n st st' H. cbn [exec] in H. destruct (workStep maxC n _ _ _) as [[[[[sh qu] ans] p']|]|] eqn:E; cbn [rbind] in H; try discriminate.
  injection H as <-. exists ans. cbn. repeat (split; auto). eapply workStep_ctr; eauto.
Qed.
Lemma nth0_replace : forall A (p : A) l, l <> [] -> nth_error (replace_at 0 p l) 0 = Some p.
Proof. intros A p [|x l] H; [contradiction|]. reflexivity. Qed.
Lemma cycle_stays : forall y p sh qu sh' qu' ans p', cliStep (CCycle y p) sh qu = Ok (Some (sh', qu', ans, p')) -> p' = CIdle \/ exists p1, p' = CCycle y p1.
Proof. intros y p sh qu sh' qu' ans p' H. cbn [cliStep] in H. destruct (cycStep y p sh qu) as [[[[[s1 q1] a1] [o|]]|]|]; cbn [rbind] in H; try discriminate; injection H as _ _ _ <-; eauto. Qed.

(** * Results *)
Section Run.
Variables (maxC : Z) (n : nat) (st : sys).
Definition idle0 (s : sys) : Prop := nth_error (y_clients s) 0 = Some CIdle.
(** a check after cycle [j] that saw no answer *)
Definition quiet (e : esys) (j : nat) : Prop := exists e', esteps maxC n (evalStart st) e' /\ esteps maxC n e' e /\ es_pc e' = EIn j /\ idle0 (es_sys e') /\
  cycleCtr (y_sh (es_sys e')) = (cycleCtr (y_sh st) + Z.of_nat j + 1)%Z /\ y_log (es_sys e') = y_log st.
Lemma quiet_more : forall e e' j, quiet e j -> estep maxC n e e' -> quiet e' j.
Proof. intros e e' j (x & A & B & C) H. exists x. split; auto. split; [eapply et_more; eauto|auto]. Qed.
Definition evInv (e : esys) : Prop := es_from e = length (y_log st) /\ (exists l, y_log (es_sys e) = y_log st ++ l) /\
  match es_pc e with
  | ELoop i => i <= maxCycles /\ idle0 (es_sys e) /\ cycleCtr (y_sh (es_sys e)) = (cycleCtr (y_sh st) + Z.of_nat i)%Z /\ (forall j, j < i -> quiet e j)
  | EIn i => i < maxCycles /\ (idle0 (es_sys e) \/ exists y p, nth_error (y_clients (es_sys e)) 0 = Some (CCycle y p)) /\
      cycleCtr (y_sh (es_sys e)) = (cycleCtr (y_sh st) + Z.of_nat i + 1)%Z /\ (forall j, j < i -> quiet e j)
  | EDone (Some i) => i < maxCycles /\ cycleCtr (y_sh (es_sys e)) = (cycleCtr (y_sh st) + Z.of_nat i + 1)%Z /\ (forall j, j < i -> quiet e j) /\ length (y_log st) < length (y_log (es_sys e))
  | EDone None => cycleCtr (y_sh (es_sys e)) = (cycleCtr (y_sh st) + Z.of_nat maxCycles)%Z /\ (forall j, j < maxCycles -> quiet e j)
  end.
Lemma run_inv : forall e, idle0 st -> esteps maxC n (evalStart st) e -> evInv e.
Proof.
  intros e Id H. remember (evalStart st) as e0 eqn:E0. induction H as [e|e e1 e2 H IH S]; subst e.
  - split; [reflexivity|]. split; [exists []; now rewrite app_nil_r|]. cbn. split; [lia|]. split; auto. split; [lia|]. intros j Hj. lia.
  - specialize (IH eq_refl). assert (Q : forall j, quiet e1 j -> quiet e2 j) by (intros; eapply quiet_more; eauto).
    destruct IH as (Fr & (l & Lg) & IH). destruct S as [s from i y s' Li X|s from i s' X|s from i Ci Fn|s from i Ci Fn|s from i Li|s from p s' X]; cbn [es_sys es_from es_pc] in *.
    + apply start_inv in X. destruct X as (Ci & ->). destruct IH as (_ & _ & C & K). split; auto. split; [exists l; auto|]. cbn [es_pc es_sys y_clients y_sh cycleCtr setCycleCtr]. split; auto. split.
      * right. exists y, YTransfer. apply nth0_replace. intros E. rewrite E in Ci. discriminate.
      * split; [cbn; lia|]. intros j Hj. apply Q, K, Hj.
    + apply client_inv in X. destruct X as (p & p' & ans & Cp & _ & Hs & Cl & _ & Lg' & Ct). destruct IH as (Li & St & C & K). split; auto. split; [exists (l ++ ans); cbn; rewrite Lg', Lg, app_assoc; reflexivity|].
      cbn [es_pc es_sys]. split; auto. split; [|split; [congruence|intros j Hj; apply Q, K, Hj]].
      assert (N : y_clients s <> []) by (intros E; rewrite E in Cp; discriminate).
      destruct St as [I|(y & q & I)]; [unfold idle0 in I; rewrite I in Cp; injection Cp as <-; discriminate Hs|]. rewrite I in Cp. injection Cp as <-.
      unfold idle0. rewrite Cl, nth0_replace by auto. apply cycle_stays in Hs. destruct Hs as [->|(p1 & ->)]; eauto.
    + destruct IH as (Li & _ & C & K). split; auto. split; [eauto|]. cbn [es_pc es_sys]. split; auto. split; auto. split; [intros j Hj; apply Q, K, Hj|].
      unfold foundAnswer in Fn. apply Nat.ltb_lt in Fn. congruence.
    + destruct IH as (Li & _ & C & K). split; auto. split; [eauto|]. cbn [es_pc es_sys]. split; [lia|]. split; auto. split; [lia|].
      intros j Hj. destruct (Nat.eq_dec j i) as [->|Ne]; [|apply Q, K; lia].
      exists (mkEsys s from (EIn i)). split; auto. split; [eapply et_more; [apply et_refl|now apply es_next]|]. cbn. repeat (split; auto).
      unfold foundAnswer in Fn. apply Nat.ltb_ge in Fn. rewrite Lg, app_length in Fn. destruct l; [now rewrite app_nil_r in Lg|cbn in Fn; lia].
    + destruct IH as (Li' & Id' & C & K). assert (i = maxCycles) by lia. subst i. split; auto. split; [eauto|]. cbn [es_pc es_sys]. split; auto.
    + apply worker_inv in X. destruct X as (ans & Hs & Cl & Lg' & Ct). split; auto. split; [exists (l ++ ans); cbn; rewrite Lg', Lg, app_assoc; reflexivity|].
      cbn [es_pc es_sys] in *. destruct p as [i|i|[i|]].
      * destruct IH as (A & B & C & K). unfold idle0 in *. rewrite Cl, Ct. repeat (split; auto).
      * destruct IH as (A & B & C & K). unfold idle0 in *. rewrite Cl, Ct. repeat (split; auto).
      * destruct IH as (A & C & K & M). rewrite Ct. repeat (split; auto). rewrite Lg', app_length. lia.
      * destruct IH as (C & K). rewrite Ct. split; auto.
Qed.
End Run.

(** * Termination *)
Lemma work_rank : forall maxC n p sh qu sh' qu' ans p', workStep maxC n p sh qu = Ok (Some (sh', qu', ans, p')) ->
  (p = WIdle /\ length qu = S (length qu')) \/ (workerMoves maxC n p p' /\ qu' = qu).
Proof.
  intros maxC n p sh qu sh' qu' ans p' H. assert (W : p <> WIdle -> workerMoves maxC n p p') by (intros K; split; auto; now exists sh, qu, sh', qu', ans).
  destruct p as [|m|m cs todo|m cs|m x f cs]; [|right; split; [now apply W|]..]; cbn [workStep] in H.
  - destruct qu as [|q qu]; [discriminate|]. injection H as _ <- _ _. left. auto.
  - destruct (derive sh m); [|discriminate]. cbn [rbind] in H. now injection H as _ <- _ _.
  - destruct todo as [|c todo]; [now injection H as _ <- _ _|]. destruct (punct_eqb _ _); [|now injection H as _ <- _ _]. destruct (qaTryQuestions _ _); [|discriminate]. cbn [rbind] in H. now injection H as _ <- _ _.
  - destruct cs; now injection H as _ <- _ _.
  - destruct (addStep x f sh); [|discriminate]. cbn [rbind] in H. now injection H as _ <- _ _.
Qed.
Definition cli0 (s : sys) : cpc := match nth_error (y_clients s) 0 with Some p => p | None => CIdle end.
Definition pcRank (p : evalPc) : nat := match p with ELoop i => if i <? maxCycles then 2 * (maxCycles - i) + 3 else 1 | EIn i => 2 * (maxCycles - i) + 2 | EDone _ => 0 end.
Definition esMeas (maxC : Z) (n : nat) (e : esys) : nat * (cpc * (nat * wphase)) :=
  (pcRank (es_pc e), (cli0 (es_sys e), (length (y_queue (es_sys e)), y_worker (es_sys e)))).
Lemma lex_acc : forall A B (RA : A -> A -> Prop) (RB : B -> B -> Prop), well_founded RA -> well_founded RB ->
  well_founded (fun x y : A * B => RA (fst x) (fst y) \/ (fst x = fst y /\ RB (snd x) (snd y))).
Proof.
  intros A B RA RB WA WB [a b]. revert b. induction (WA a) as [a _ IHa]. intros b. induction (WB b) as [b _ IHb]. constructor.
  intros [a' b'] [H|[E H]]; cbn [fst snd] in *; [now apply IHa|subst a'; now apply IHb].
Qed.
Theorem eval_ends : forall maxC n, well_founded (fun e' e => estep maxC n e e').
Proof.
  intros maxC n. set (RW := fun p' p => workerMoves maxC n p p').
  set (R1 := fun x y : nat * wphase => fst x < fst y \/ (fst x = fst y /\ RW (snd x) (snd y))).
  set (R2 := fun x y : cpc * (nat * wphase) => clientMoves (fst y) (fst x) \/ (fst x = fst y /\ R1 (snd x) (snd y))).
  set (R3 := fun x y : nat * (cpc * (nat * wphase)) => fst x < fst y \/ (fst x = fst y /\ R2 (snd x) (snd y))).
  assert (W : well_founded R3).
  { apply (lex_acc _ _ lt R2 lt_wf). apply (lex_acc _ _ (fun p' p => clientMoves p p') R1 clients_finish). apply (lex_acc _ _ lt RW lt_wf). apply worker_finishes. }
  intros e. remember (esMeas maxC n e) as m eqn:E. revert e E. induction (W m) as [m _ IH]. intros e ->. constructor. intros e' S. apply (IH (esMeas maxC n e')); auto. clear IH W.
  destruct S as [s from i y s' Li X|s from i s' X|s from i Ci Fn|s from i Ci Fn|s from i Li|s from p s' X]; unfold R3, esMeas; cbn [es_pc es_sys fst snd pcRank].
  - left. apply Nat.ltb_lt in Li as ->. lia.
  - right. split; auto. apply client_inv in X. destruct X as (p & p' & ans & Cp & M & _ & Cl & _). left. cbn [fst]. unfold cli0. rewrite Cp, Cl, nth0_replace; auto. intros E. rewrite E in Cp. discriminate.
  - left. lia.
  - left. destruct (Nat.ltb_spec (S i) maxCycles); lia.
  - left. destruct (Nat.ltb_spec i maxCycles); lia.
  - right. split; auto. apply worker_inv in X. destruct X as (ans & Hs & Cl & _ & _). right. unfold cli0. rewrite Cl. split; auto. cbn [snd]. unfold R1. cbn [fst snd].
    apply work_rank in Hs. destruct Hs as [(_ & L)|(M & ->)]; [left; lia|right; split; auto].
Qed.
Theorem eval_moves : forall maxC n st e, idle0 st -> esteps maxC n (evalStart st) e ->
  (exists r, es_pc e = EDone r) \/ (exists e', estep maxC n e e') \/ exec maxC n (ChClient 0) (es_sys e) = Panic \/ exec maxC n ChWorker (es_sys e) = Panic.
Proof.
  intros maxC n st e Id H. apply run_inv in H; auto. destruct H as (_ & _ & H). destruct e as [s from [i|i|r]]; cbn [es_sys es_pc] in *; [right; left|right|left; eauto].
  - destruct H as (Li & I & _). destruct (le_lt_dec maxCycles i) as [G|L]; [eexists; now apply es_end|]. unfold idle0 in I.
    destruct (exec maxC n (ChStart 0 (OpCycle (mkCycArgs (fun x => x) f0 0))) s) as [[s'|]|] eqn:X; [eexists; eapply es_cycle; eauto| |]; cbn [exec opStart] in X; rewrite I in X; discriminate.
  - destruct H as (Li & [I|(y & p & I)] & _).
    + left. destruct (foundAnswer s from) eqn:Fn; eexists; [now apply es_found|now apply es_next].
    + destruct (exec maxC n (ChClient 0) s) as [[s'|]|] eqn:X; [left; eexists; eapply es_run; eauto| |auto].
      apply client_blocked in X. destruct (exec maxC n ChWorker s) as [[s'|]|] eqn:Y; [left; eexists; eapply es_worker; eauto| |auto].
      rewrite I in X. destruct p; try contradiction. destruct X as (_ & X). contradiction.
Qed.
Lemma steps_app : forall maxC n a b c, esteps maxC n a b -> esteps maxC n b c -> esteps maxC n a c.
Proof. intros maxC n a b c H K. induction K as [e|e e1 e2 K IH S]; auto. eapply et_more; [now apply IH|exact S]. Qed.
Lemma eval_reach : forall Inp nB maxC wN k st e, reach (choiceOk Inp nB) maxC wN k st -> esteps maxC wN (evalStart st) e -> reach (choiceOk Inp nB) maxC wN k (es_sys e).
Proof.
  intros Inp nB maxC wN k st e R H. remember (evalStart st) as e0 eqn:E0. induction H as [e|e e1 e2 H IH S]; subst e; auto. specialize (IH eq_refl).
  destruct S; cbn [es_sys] in *; auto; (eapply re_step; [exact IH| |eassumption]; exact Logic.I).
Qed.
(** the main thread alone *)
Fixpoint mainRun (maxC : Z) (n : nat) (y : cycArgs) (fuel : nat) (e : esys) : esys :=
  match fuel with
  | O => e
  | S k =>
      match es_pc e with
      | ELoop i => if i <? maxCycles then match exec maxC n (ChStart 0 (OpCycle y)) (es_sys e) with Ok (Some s) => mainRun maxC n y k (mkEsys s (es_from e) (EIn i)) | _ => e end
                   else mkEsys (es_sys e) (es_from e) (EDone None)
      | EIn i => match nth_error (y_clients (es_sys e)) 0 with
                 | Some CIdle => if foundAnswer (es_sys e) (es_from e) then mkEsys (es_sys e) (es_from e) (EDone (Some i)) else mainRun maxC n y k (mkEsys (es_sys e) (es_from e) (ELoop (S i)))
                 | _ => match exec maxC n (ChClient 0) (es_sys e) with Ok (Some s) => mainRun maxC n y k (mkEsys s (es_from e) (EIn i)) | _ => e end
                 end
      | EDone _ => e
      end
  end.
Lemma mainRun_steps : forall maxC n y fuel e, esteps maxC n e (mainRun maxC n y fuel e).
Proof.
  induction fuel as [|k IH]; intros e; [apply et_refl|]. cbn [mainRun]. assert (One : forall e', estep maxC n e e' -> esteps maxC n e e') by (intros; eapply et_more; [apply et_refl|auto]).
  destruct e as [s from [i|i|r]]; cbn [es_pc es_sys es_from] in *; [| |apply et_refl].
  - destruct (Nat.ltb_spec i maxCycles) as [L|L]; [|apply One; now apply es_end]. destruct (exec maxC n (ChStart 0 (OpCycle y)) s) as [[s'|]|] eqn:X; try apply et_refl.
    eapply steps_app; [apply One; eapply es_cycle; eauto|apply IH].
  - assert (Go : esteps maxC n (mkEsys s from (EIn i)) (match exec maxC n (ChClient 0) s with Ok (Some s) => mainRun maxC n y k (mkEsys s from (EIn i)) | _ => mkEsys s from (EIn i) end)).
    { destruct (exec maxC n (ChClient 0) s) as [[s'|]|] eqn:X; try apply et_refl. eapply steps_app; [apply One; eapply es_run; eauto|apply IH]. }
    destruct (nth_error (y_clients s) 0) as [[| |]|] eqn:I; auto. destruct (foundAnswer s from) eqn:Fn; [apply One; now apply es_found|]. eapply steps_app; [apply One; now apply es_next|apply IH].
Qed.
Lemma workers_steps : forall maxC n k st from p st', execAll maxC n (repeat ChWorker k) st = Ok (Some st') -> esteps maxC n (mkEsys st from p) (mkEsys st' from p).
Proof.
  induction k as [|k IH]; intros st from p st' H; cbn [repeat execAll] in H; [injection H as <-; apply et_refl|].
  destruct (exec maxC n ChWorker st) as [[s|]|] eqn:X; cbn [rbind] in H; try discriminate. eapply steps_app; [eapply et_more; [apply et_refl|eapply es_worker; eauto]|now apply IH].
Qed.
