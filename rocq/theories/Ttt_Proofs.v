(** The program "envTTT2": what holds in all its states. *)
From Coq Require Import String Ascii ZArith Bool Lia List Relations Sorted.
From Verif Require Import Base F64_Model Term_Model Term_Spec Term_Proofs Unify_Model Stamp_Model Tv_Model Tv_Spec Tv_Proofs Sentence_Model Mem_Model Cycle_Model PMem_Model
  Goal_Model Goal_Spec Goal_Proofs Proc_Model Proc_Spec ProcA_Proofs ProcP_Proofs ProcC_Proofs ProcS_Model ProcX_Model Speak_Spec Speak_Proofs ProcX_Spec
  ProcX2_Proofs ProcX3_Proofs ProcX4_Proofs Parser_Model Nar_Model Nar3_Proofs Whole_Proofs Env_Model Env_Spec Env_Proofs Play_Model Play_Proofs Play2_Proofs Ttt_Model Ttt_Spec.
Import ListNotations.
Local Open Scope list_scope.
Local Open Scope Z_scope.

(** * The reasoner *)
Record sOk (n : Z) (y : psys) : Prop := mkSOk { so_y : yX y; so_lim : lim us0 10000 n y; so_ops : n_ops (y_nar y) = tttOps }.
Lemma sok_more : forall n y, sOk n y -> sOk (n + 1) y.
Proof. intros n y [A B C]. constructor; auto. eapply lim_more; eauto; lia. Qed.
Lemma sok_trace : forall n y, sOk n y -> sOk n (withNar y (flushTrace (y_nar y))).
Proof.
  intros n [nn p c w] [A B C]. constructor; auto.
  - apply (yx_frame nn p c w); auto; try apply A; try apply Z.le_refl; try apply le_n. intros e [].
  - destruct B; constructor; auto. intros e [].
Qed.
Lemma sok_ant : forall n y, sOk n y -> sOk n (withNar y (setAnt (y_nar y) [])).
Proof.
  intros n [nn p c w] [A B C]. constructor; auto.
  - apply (yx_frame nn p c w); auto; try apply A; try apply Z.le_refl; try apply le_n. intros e [].
  - destruct B; constructor; auto.
Qed.
Lemma sok_babble : forall n y b, sOk n y -> sOk n (withNar y (setBabble (y_nar y) b)).
Proof.
  intros n [nn p c w] b [A B C]. destruct A as [A1 A2 A3 A4 A5 A6 A7 A8 A9 A10]. constructor; auto.
  - constructor; auto. destruct A1. constructor; auto.
  - destruct B; constructor; auto.
Qed.
Lemma sys_step2 : forall n y d a, sOk n y -> reading d -> (n + 1) * 10000 < 2 ^ 63 -> fairAct a -> (forall e, a = XEvent e -> safeEvent tttOps e) ->
  exists o, yact (usages d) y a = Ok o /\ forall y', o = Some y' -> sOk (n + 1) y'.
Proof.
  intros n y d a [A B C] R L F Se. destruct (p_step (usages d) 10000 n y a A B L R F) as (o & E & H).
  { intros e ->. rewrite C. now apply Se. }
  exists o. split; auto. intros y' ->. destruct (H y' eq_refl) as (A1 & A2 & A3). constructor; auto. now rewrite A3.
Qed.
Lemma name_safe : forall ops s, safeEvent ops (Name s).
Proof. intros ops s. split; [apply sp_name|]. intros x l H. discriminate H. Qed.
Lemma sok_told : forall n y d s, sOk n y -> reading d -> (n + 1) * 10000 < 2 ^ 63 -> y_main y = MFree ->
  sOk (n + 1) (withNar y (setTrace (y_nar y) (event_happened (n_trace (y_nar y)) (mkEvent (Name s) (n_t (y_nar y)) (n_t (y_nar y)))))).
Proof.
  intros n [nn p c w] d s S R L M. cbn [y_main] in M. subst p. destruct (sys_step2 n _ d (XEvent (Name s)) S R L Logic.I) as (o & E & H); [intros e [= <-]; apply name_safe|].
  cbn [yact] in E. injection E as <-. exact (H _ eq_refl).
Qed.

(** * What is typed *)
Definition aimGoal (d : shared) : sentence := newEternalSentenceByTv (Name "w") GOAL (mkTv f1 (f_frac 9 10)) (newStamp [stampCtr d]) (nextU d).
Lemma aim_parse : forall pf, exists v, parseNarsese pf (tx "w! :|:") = Ok (Some (Name "w", v, GOAL, true)) /\ v = mkTv f1 (f_frac 9 10).
Proof. intros pf. eexists. split; vm_compute; reflexivity. Qed.
Lemma won_parse : forall pf, exists v, parseNarsese pf (tx "w. :|:") = Ok (Some (Name "w", v, JUGEMENT, true)).
Proof. intros pf. eexists. vm_compute. reflexivity. Qed.
Lemma aim_goal : forall pf us y d, y_main y = MFree ->
  match yact us y (XGoal (aimGoal d)) with
  | Ok (Some y') => exists n', inputN pf (asNar y d) (tx "w! :|:") [] = Ok (n', true) /\ withNar y (nr_proc n') = y' /\ nr_decl n' = idTaken d
  | Ok None => False
  | Panic => inputN pf (asNar y d) (tx "w! :|:") [] = Panic
  end.
Proof.
  intros pf us y d M. destruct y as [n p c w]. cbn [y_main] in M. subst p. cbn [yact]. unfold inputN. destruct (aim_parse pf) as (v & -> & ->). cbn [rbind]. unfold inputT2. cbn [takeId asNar nr_decl withDecl nr_verb nr_proc Z.geb Z.compare rbind y_nar].
  fold (aimGoal d). fold (idTaken d). destruct (addEntry (n_goals n) (n_t n) (aimGoal d) None 0) as [g|]; cbn [rbind]; [|reflexivity].
  eexists. split; [reflexivity|]. cbn [withProc nr_proc nr_decl withNar y_main y_chan y_work]. auto.
Qed.
Lemma aim_fair : forall d, fairAct (XGoal (aimGoal d)).
Proof. intros d. split; [reflexivity|]. exists (mkTv f1 (f_frac 9 10)). split; [reflexivity|]. split; (split; [|split]); vm_compute; reflexivity. Qed.
Lemma won_typed : forall pf y d, exists n', inputN pf (asNar y d) (tx "w. :|:") [] = Ok (n', true) /\ nr_decl n' = idTaken d /\
  nr_proc n' = setTrace (y_nar y) (event_happened (n_trace (y_nar y)) (mkEvent (Name "w") (n_t (y_nar y)) (n_t (y_nar y)))).
Proof.
  intros pf y d. unfold inputN. destruct (won_parse pf) as (v & ->). cbn [rbind]. unfold inputT2. cbn [takeId asNar nr_decl withDecl nr_verb nr_proc Z.geb Z.compare rbind y_nar].
  eexists. split; [reflexivity|]. split; reflexivity.
Qed.

(** * The declarative part has nothing to do *)
Record still (d : shared) : Prop := mkStill { sl_judg : judg d = []; sl_q : questions d = []; sl_mem : memory d = []; sl_heap : heap d = []; sl_us : reading d }.
Lemma still_taken : forall d, still d -> still (idTaken d).
Proof. intros d [A B C D E]. constructor; auto. Qed.
Lemma still_tasks : forall expf d, still d -> exists d', maintainTasks expf d = Ok d' /\ still d'.
Proof.
  intros expf d S. unfold maintainTasks. destruct (_ =? 0); [|exists d; auto]. destruct S as [A B C D E]. unfold limitTasks. rewrite A. eexists. split; [reflexivity|]. constructor; auto.
Qed.
Lemma still_concepts : forall d, still d -> exists d', maintainConcepts d = Ok d' /\ still d'.
Proof.
  intros d S. unfold maintainConcepts. destruct (_ =? 0); [|exists d; auto]. destruct S as [A B C D E]. unfold limitMemory. rewrite C. eexists. split; [reflexivity|]. constructor; auto.
Qed.
Lemma still_cycle : forall expf sel d now, still d -> exists d', reasonCycle expf sel d now = Ok (d', now + 1, [], None) /\ still d'.
Proof.
  intros expf sel d now S. unfold reasonCycle. cbv zeta.
  assert (S1 : still (baseCredits (transferCredits (setCycleCtr (cycleCtr d + 1) d)))).
  { destruct S as [A B C D E]. destruct d as [h j bt qs m pm sc tc cc us nu]. cbn in A, B, C, D. subst. constructor; auto. }
  remember (baseCredits (transferCredits (setCycleCtr (cycleCtr d + 1) d))) as d1 eqn:Hd. clear Hd.
  assert (Q : sampleQuestion sel d1 = Ok (d1, [])). { unfold sampleQuestion. now rewrite (sl_q _ S1). }
  rewrite Q. cbn [rbind fst snd].
  assert (W : selectWork expf d1 = Ok (d1, None)). { unfold selectWork. now rewrite (sl_judg _ S1). }
  rewrite W. cbn [rbind fst snd touchAll].
  destruct (still_tasks expf d1 S1) as (d2 & -> & S2). cbn [rbind]. destruct (still_concepts d2 S2) as (d3 & -> & S3). cbn [rbind]. exists d3. auto.
Qed.

(** * All states *)
Definition checked (g : gamestate) : Prop :=
  exists w, winner (g_field g) = Ok w /\ match w with
    | Some c => over (Won c g)
    | None => if isDraw (g_field g) then over (Drawn g) else going (mkGame (g_field g) (negb (g_player g)))
    end.
Definition gameBy (g : gamestate) (pc : tpc) : Prop :=
  match pc with
  | TTurn | TPick => going g
  | TMove m => going g /\ g_player g = true /\ 0 <= m < 9
  | TCheck => checked g
  | TCycle => going (mkGame (g_field g) (negb (g_player g)))
  | THalf0 w | TIn0 w | THalf1 w =>
      match w with
      | Think k => going g /\ g_player g = true /\ (1 <= k <= 4)%nat
      | See => going (mkGame (g_field g) (negb (g_player g)))
      | Rest won k => (won = false -> going (mkGame (g_field g) (negb (g_player g)))) /\ (1 <= k)%nat
      end
  | TEpoch | TDone => True
  end.
Record tInv (maxEpochs n : Z) (q : ttt) : Prop := mkTInv {
  ti_sys : sOk n (u_sys q);
  ti_still : still (u_decl q);
  ti_dq : u_dq q = [];
  ti_free : (exists w, u_pc q = TIn0 w) \/ y_main (u_sys q) = MFree;
  ti_move : forall m, u_move q = Some m -> 0 <= m < 9;
  ti_game : gameBy (u_game q) (u_pc q);
  ti_wins : 0 <= u_wins q /\ 0 <= u_losses q /\ u_wins q + u_losses q <= u_games q + (if gameOver (u_pc q) then 1 else 0);
  ti_games : -1 <= u_games q <= Z.max (-1) maxEpochs /\ (u_pc q = TEpoch \/ u_pc q = TDone \/ 0 <= u_games q);
  ti_done : u_pc q = TDone -> maxEpochs <= u_games q
}.
Lemma indexOf_range : forall name l i m, indexOf name l i = Some m -> i <= m < i + Z.of_nat (length l).
Proof.
  intros name l. induction l as [|s l IH]; intros i m H; cbn [indexOf] in H; [discriminate|]. cbn [length]. rewrite Nat2Z.inj_succ. destruct (String.eqb s name); [injection H as <-; lia|]. apply IH in H. lia.
Qed.
Lemma moveOf_range : forall c b m, (forall x, b = Some x -> 0 <= x < 9) -> moveOf c b = Some m -> 0 <= m < 9.
Proof.
  intros [name|] b m B H; cbn [moveOf] in H; auto. destruct (indexOf name moveNames 0) as [i|] eqn:E; auto. injection H as <-. apply indexOf_range in E. exact E.
Qed.
Lemma ttt_start : forall maxEpochs, tInv maxEpochs 0 tttStart.
Proof.
  intros mx. constructor; cbn [tttStart u_sys u_decl u_dq u_pc u_move u_game u_wins u_losses u_games gameOver gameBy]; auto; try lia; try discriminate.
  - constructor; [| |reflexivity].
    + constructor; cbn [ystart y_nar y_main y_chan y_work n_cfg n_ops n_table n_t n_mem n_goals n_ant n_trace]; try exact Logic.I; try (intros ? []).
      * constructor; [cbn; lia| |apply build_sorted|vm_compute; discriminate]. intros o Ho. unfold tttOps in Ho. apply in_map_iff in Ho. destruct Ho as (s & <- & _). cbn [op_evi]. change (1 <= 10000 < 2 ^ 63). lia.
      * split; [intros t c a []|]. split; [constructor|]. split; [intros t c []|constructor].
      * constructor; [exact (gr_cfg _ 1000 false _ (gr_make 20 8))|cbn; lia|cbn; lia|].
        intros e [(i & b0 & gr & H & Hg & _)|[]]. exfalso. apply nth_error_In in H. apply repeat_spec in H. now subst b0.
      * lia.
    + constructor; cbn [ystart y_nar y_main y_chan y_work narInit n_ops n_trace n_t n_mem cells pmemMake ProcS_Proofs.mainMsgs ProcS_Proofs.workMsgs]; try lia; try exact us0_ok; try solve [intros ? []]; try solve [intros ? ? []].
      intros o Ho. unfold tttOps in Ho. apply in_map_iff in Ho. destruct Ho as (s & <- & _). cbn. split; [discriminate|lia].
  - constructor; auto. intros a. cbn. lia.
  - split; [lia|auto].
Qed.

(** * One step *)
Definition stepsTo (mx n : Z) (x : res (option ttt)) : Prop := exists o, x = Ok o /\ forall q', o = Some q' -> tInv mx (n + 1) q'.
Lemma to_some : forall mx n q', tInv mx (n + 1) q' -> stepsTo mx n (Ok (Some q')).
Proof. intros mx n q' I. exists (Some q'). split; auto. intros q1 [= <-]. exact I. Qed.
Lemma step1_free : forall us y d r y', yact us y (XStep1 d r) = Ok (Some y') -> y_main y' = MFree.
Proof.
  intros us [n p c w] d r y' H. cbn [yact] in H. destruct p; try discriminate H. destruct (narStep1 n d r) as [m|]; cbn [rbind] in H; [|discriminate H]. injection H as <-. reflexivity.
Qed.
Lemma work_main : forall us y ds y', yact us y (XWork ds) = Ok (Some y') -> y_main y' = y_main y.
Proof.
  intros us [n p c w] ds y' H. cbn [yact] in H. cbn [y_main].
  destruct w as [|s now [|a l] rv|now [|s todo]].
  - destruct c as [|[s now] c']; [discriminate H|]. destruct (mergeTargets (n_mem n) s); cbn [rbind] in H; [|discriminate H]. now injection H as <-.
  - destruct rv; [now injection H as <-|]. destruct (matchandintro_var1_sentence s ds); cbn [rbind] in H; [|discriminate H]. now injection H as <-.
  - destruct (mergeInto s (cells (n_mem n)) a) as [[h b]|]; cbn [rbind] in H; [|discriminate H]. now injection H as <-.
  - now injection H as <-.
  - destruct (mem_add_evidence_internal us (n_mem n) s (c_nBeliefs (n_cfg n)) now); cbn [rbind] in H; [|discriminate H]. now injection H as <-.
Qed.
Lemma ttt_move : forall mx n y d tm dq g mv games wins losses m pc, tInv mx n (mkTtt y d tm dq g mv games wins losses pc) -> y_main y = MFree ->
  going g -> 0 <= m < 9 -> gameOver pc = false -> 0 <= games ->
  stepsTo mx n (do '(g1, valid) <- tryMove g m; Ok (Some (mkTtt y d tm dq g1 mv games wins losses (if valid : bool then TCheck else TPick)))).
Proof.
  intros mx n y d tm dq g mv games wins losses m pc [I1 I2 I3 I4 I5 I6 I7 I8 I9] F G B Go P. cbn [u_sys u_decl u_dq u_pc u_move u_game u_wins u_losses u_games] in *. rewrite Go in I7.
  destruct (move_cases g m G) as [(_ & C)|[(-> & _)|(f' & -> & _ & _ & _ & _ & H)]]; [lia| |]; cbn [rbind]; apply to_some;
    (constructor; cbn [u_sys u_decl u_dq u_pc u_move u_game u_wins u_losses u_games gameOver gameBy]; auto; [now apply sok_more|lia|discriminate]).
Qed.
Lemma ttt_step : forall pf mx n q a, tInv mx n q -> (n + 1) * 10000 < 2 ^ 63 -> fairTurn a -> stepsTo mx n (tttStep pf mx a q).
Proof.
  intros pf mx n q a I L F. destruct q as [y d tm dq g mv games wins losses pc]. assert (I0 := I).
  destruct I as [I1 I2 I3 I4 I5 I6 I7 I8 I9]. cbn [u_sys u_decl u_dq u_pc u_move u_game u_wins u_losses u_games] in *.
  assert (R := sl_us _ I2). cbn [tttStep]. destruct a as [rs r opp expf sel|ds].
  2:{ destruct (sys_step2 n y d (XWork ds) I1 R L F) as (o & E & H); [discriminate|]. rewrite E. cbn [rbind]. exists (option_map (fun y' => mkTtt y' d tm dq g mv games wins losses pc) o). split; auto. intros q' Hq. destruct o as [y'|]; [|discriminate Hq].
    injection Hq as <-. constructor; cbn [u_sys u_decl u_dq u_pc u_move u_game u_wins u_losses u_games]; auto. destruct I4 as [I4|I4]; auto. right. rewrite (work_main _ _ _ _ E). exact I4. }
  destruct F as (Fd & Fo). destruct pc.
  - (* a new game *)
    destruct I4 as [(w & [=])|M]. destruct (games >=? mx) eqn:Gm.
    + apply Z.geb_le in Gm. apply to_some. constructor; cbn [u_sys u_decl u_dq u_pc u_move u_game u_wins u_losses u_games gameOver gameBy]; auto; [now apply sok_more|split; auto; apply I8].
    + assert (games < mx) by (rewrite Z.geb_leb in Gm; apply Z.leb_gt in Gm; lia).
      assert (K : exists y1 d1, (if knowsGoal (n_goals (y_nar y)) then Ok (y_nar y, d) else do '(x, _) <- inputN pf (asNar y d) (tx "w! :|:") []; Ok (nr_proc x, nr_decl x)) = Ok (y_nar y1, d1) /\ withNar y (y_nar y1) = y1 /\ sOk (n + 1) y1 /\ still d1).
      { destruct (knowsGoal (n_goals (y_nar y))).
        - exists y, d. split; auto. split; [destruct y; reflexivity|]. split; auto. now apply sok_more.
        - assert (T := aim_goal pf (usages d) y d M). destruct (sys_step2 n y d (XGoal (aimGoal d)) I1 R L (aim_fair d)) as (o & E & H1); [discriminate|]. rewrite E in T. destruct o as [y'|]; [|contradiction T].
          destruct T as (n' & -> & T1 & T2). cbn [rbind]. exists y', (nr_decl n'). split; [now rewrite <- T1|]. split; [rewrite <- T1; reflexivity|]. split; auto. rewrite T2. now apply still_taken. }
      destruct K as (y1 & d1 & -> & K1 & K2 & K3). cbn [rbind]. apply to_some. assert (M1 : y_main y1 = MFree) by (rewrite <- K1; exact M).
      assert (E1 : withNar y (flushTrace (y_nar y1)) = withNar y1 (flushTrace (y_nar y1))) by (rewrite <- K1; reflexivity). rewrite E1.
      constructor; cbn [u_sys u_decl u_dq u_pc u_move u_game u_wins u_losses u_games gameOver gameBy]; auto; try discriminate; try apply going_new; try (cbn in I7; lia); now apply sok_trace.
  - (* a new turn *)
    destruct I4 as [(w & [=])|M]. apply to_some. constructor; cbn [u_sys u_decl u_dq u_pc u_move u_game u_wins u_losses u_games gameOver gameBy]; auto; try discriminate.
    + apply sok_ant. now apply sok_more.
    + destruct I8 as (I8 & [[=]|[[=]|I8']]). auto.
  - (* whose turn *)
    destruct I4 as [(w & [=])|M]. destruct I8 as (I8 & [[=]|[[=]|I8']]). destruct (g_player g) eqn:Pl.
    + apply to_some. constructor; cbn [u_sys u_decl u_dq u_pc u_move u_game u_wins u_losses u_games gameOver gameBy]; auto; try discriminate; [|repeat split; auto; try apply I6; lia].
      assert (T := sok_babble _ _ true (sok_ant _ _ (sok_trace _ _ I1))). exact (sok_told n _ d (boardName g) T R L M).
    + assert (E : range 9 opp = Ok opp). { unfold range. destruct (0 <=? opp) eqn:E1; [|apply Z.leb_gt in E1; lia]. destruct (opp <? 9) eqn:E2; [|apply Z.ltb_ge in E2; lia]. reflexivity. }
      rewrite E. cbn [rbind]. eapply ttt_move; eauto.
  - (* the first half step begins *)
    destruct I4 as [(w' & [=])|M]. destruct I8 as (I8 & [[=]|[[=]|I8']]). destruct (sys_step2 n y d XStep0 I1 R L Logic.I) as (o & E & H); [discriminate|]. rewrite E. cbn [rbind]. eexists. split; [reflexivity|]. intros q' Hq. destruct o as [y'|]; [|discriminate Hq].
    injection Hq as <-. constructor; cbn [u_sys u_decl u_dq u_pc u_move u_game u_wins u_losses u_games]; eauto; try discriminate.
  - (* inside the first half step *)
    destruct I8 as (I8 & [[=]|[[=]|I8']]).
    assert (Go : stepsTo mx n (do o <- yact (usages d) y (XMain 20 rs); Ok (option_map (fun y' => mkTtt y' d tm dq g mv games wins losses (TIn0 w)) o))).
    { destruct (sys_step2 n y d (XMain 20 rs) I1 R L Logic.I) as (o & E & H); [discriminate|]. rewrite E. cbn [rbind]. eexists. split; [reflexivity|]. intros q' Hq. destruct o as [y'|]; [|discriminate Hq].
      injection Hq as <-. constructor; cbn [u_sys u_decl u_dq u_pc u_move u_game u_wins u_losses u_games]; eauto; try discriminate. }
    destruct (y_main y) eqn:M; auto. clear Go. apply to_some.
    constructor; cbn [u_sys u_decl u_dq u_pc u_move u_game u_wins u_losses u_games]; auto; try discriminate.
    + destruct w; try now apply sok_more. exact (sok_told n _ d (boardName g) I1 R L M).
    + right. destruct w; auto.
  - (* the second half step *)
    destruct I4 as [(w' & [=])|M]. destruct I8 as (I8 & [[=]|[[=]|I8']]). destruct (sys_step2 n y d (XStep1 true r) I1 R L (conj eq_refl Fd)) as (o & E & H); [discriminate|]. rewrite E. cbn [rbind].
    set (mv1 := moveOf (called (y_nar y) r) mv). assert (B : forall m, mv1 = Some m -> 0 <= m < 9) by (intros m; now apply moveOf_range).
    clearbody mv1.
    assert (Go : forall mv2 pc', (forall m, mv2 = Some m -> 0 <= m < 9) -> gameBy g pc' -> gameOver pc' = gameOver (THalf1 w) -> pc' <> TDone -> stepsTo mx n (Ok (option_map (fun y' => mkTtt y' d tm dq g mv2 games wins losses pc') o))).
    { intros mv2 pc' B2 G2 O2 N2. eexists. split; [reflexivity|]. intros q' Hq. destruct o as [y'|]; [|discriminate Hq]. injection Hq as <-.
      constructor; cbn [u_sys u_decl u_dq u_pc u_move u_game u_wins u_losses u_games]; auto; [right; exact (step1_free _ _ _ _ _ E)|rewrite O2; auto|intros X; contradiction]. }
    cbn [gameBy] in I6. destruct w as [k| |won k].
    + destruct I6 as (G & Pl & K). destruct mv1 as [m|].
      * apply Go; auto; try discriminate. cbn [gameBy]. auto.
      * apply Go; auto; try discriminate; destruct k as [|[|k']]; auto; try discriminate. cbn [gameBy]. split; auto. split; auto. lia.
    + apply Go; auto; try discriminate. cbn [gameBy]. split; auto. lia.
    + destruct I6 as (G & K). apply Go; auto; destruct k as [|[|k']]; try destruct won; auto; try discriminate; cbn [gameBy]; auto; split; auto; lia.
  - (* the move of the reasoner *)
    destruct I4 as [(w' & [=])|M]. destruct I8 as (I8 & [[=]|[[=]|I8']]). destruct I6 as (G & Pl & B). eapply ttt_move; eauto.
  - (* is the game over *)
    destruct I4 as [(w' & [=])|M]. destruct I8 as (I8 & [[=]|[[=]|I8']]). destruct I6 as (w & -> & Hw). cbn [rbind]. assert (T := sok_babble _ _ false I1). cbn [gameOver] in I7. destruct w as [c|].
    + destruct (Ascii.eqb c "a").
      * destruct (won_typed pf (withNar y (setBabble (y_nar y) false)) d) as (n' & -> & T2 & T3). cbn [rbind]. apply to_some. rewrite T2, T3.
        constructor; cbn [u_sys u_decl u_dq u_pc u_move u_game u_wins u_losses u_games gameOver gameBy]; auto; try lia; try discriminate.
        -- exact (sok_told n _ d "w" T R L M).
        -- now apply still_taken.
      * apply to_some. constructor; cbn [u_sys u_decl u_dq u_pc u_move u_game u_wins u_losses u_games gameOver gameBy]; auto; try discriminate; [now apply sok_more|destruct (Ascii.eqb c "b"); lia].
    + destruct (isDraw (g_field g)).
      * apply to_some. constructor; cbn [u_sys u_decl u_dq u_pc u_move u_game u_wins u_losses u_games gameOver gameBy]; auto; try discriminate; [now apply sok_more|lia].
      * apply to_some. constructor; cbn [u_sys u_decl u_dq u_pc u_move u_game u_wins u_losses u_games]; auto; try discriminate.
        -- now apply sok_more.
        -- assert (A : forall b : bool, gameBy g (THalf0 (if b then Rest false 50 else See))) by (intros []; cbn [gameBy]; [split; [intros _; exact Hw|lia]|exact Hw]). apply A.
        -- assert (A : forall b : bool, gameOver (THalf0 (if b then Rest false 50 else See)) = false) by (intros []; reflexivity). rewrite A. exact I7.
  - (* the next player *)
    destruct I4 as [(w' & [=])|M]. destruct I8 as (I8 & [[=]|[[=]|I8']]). destruct (still_cycle expf sel d tm I2) as (d' & -> & S'). cbn [rbind]. apply to_some.
    constructor; cbn [u_sys u_decl u_dq u_pc u_move u_game u_wins u_losses u_games gameOver gameBy]; auto; [now apply sok_more|subst dq; reflexivity|discriminate].
  - exists None. split; [reflexivity|discriminate].
Qed.
Lemma ttt_inv : forall pf mx n q, tplayed pf mx n q -> n * 10000 < 2 ^ 63 -> tInv mx n q.
Proof.
  intros pf mx n q P. induction P as [|n q a q' P IH Fa E]; intros L; [apply ttt_start|]. assert (I : tInv mx n q) by (apply IH; lia).
  destruct (ttt_step pf mx n q a I L Fa) as (o & E1 & H). rewrite E in E1. injection E1 as <-. now apply H.
Qed.
