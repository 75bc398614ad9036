(** No step of any thread of the whole program panics. *)
From Coq Require Import String Ascii ZArith Bool Lia List Sorted.
From Verif Require Import Base F64_Model Term_Model Term_Spec Term_Proofs Unify_Spec Stamp_Model Tv_Model Tv_Spec Sentence_Model Mem_Model Mem_Spec
  Cycle_Model Cycle_Spec Sched_Model Sched_Spec Sched_Proofs Sched2_Proofs Safe_Spec Safe_Proofs Safe2_Proofs Safe3_Proofs Safe4_Proofs Safe5_Proofs
  PMem_Model PMem_Proofs PMem2_Proofs Goal_Model Goal_Spec Proc_Model Proc_Spec ProcA_Proofs ProcC_Proofs ProcS_Model ProcX_Model Speak_Spec Speak_Proofs ProcX_Spec
  ProcX2_Proofs ProcX3_Proofs ProcX4_Proofs Parser_Model Parser_Spec Parser3_Proofs Read_Spec Read_Proofs Nar_Model Nar3_Proofs Whole_Model Whole_Spec.
Import ListNotations.
Local Open Scope list_scope.
Local Open Scope Z_scope.

(** * The declarative part *)
Lemma sreach_more : forall (C D : choice -> Prop) maxC wN k st, (forall c, C c -> D c) -> sreach C maxC wN k st -> sreach D maxC wN k st.
Proof. intros C D maxC wN k st H R. induction R; [apply sr_start|eapply sr_step; eauto|apply sr_env; auto]. Qed.
Lemma observed_more : forall i ids s, observed ids s -> observed (i :: ids) s.
Proof. intros i ids s [W H]. split; auto. intros J. destruct (H J) as (k & v & A & B & C). exists k, v. split; auto. split; [now right|auto]. Qed.
Lemma safe_more : forall i ids nB c, safeChoice (observed ids) nB 0 c -> safeChoice (observed (i :: ids)) nB 0 c.
Proof. intros i ids nB [k [x|q| |y]|k|] H; cbn in *; auto. destruct H as (H & K). split; [now apply observed_more|auto]. Qed.
Lemma observed_fair : forall ids s, observed ids s -> fairInput s.
Proof. intros ids s [W K]. split; auto. intros P. destruct (K P) as (i & v & _ & _ & E & R & _). eauto. Qed.
Lemma ids_tempered : forall ids, (length ids <= 120)%nat -> tempered (observed ids).
Proof. intros ids L. apply (observed_tempered ids); auto. Qed.
Definition reachW (ids : list Z) (nB : nat) (maxC : Z) (d : sys) : Prop := sreach (safeChoice (observed ids) nB 0) maxC nB 1 d.
Section Decl.
  Variable ids : list Z.
  Variable nB : nat.
  Variable maxC : Z.
  Hypothesis HL : (length ids <= 120)%nat.
  Hypothesis HM : maxC < 2 ^ 63.
  Hypothesis HB : (1 <= nB)%nat.
  Let HW : (1 <= nB <= nB)%nat. Proof. lia. Qed.
  Lemma r_good : forall d, reachW ids nB maxC d -> goodSys d.
  Proof. intros d. apply (sreach_good (observed ids) maxC nB nB 0 1 (observed_fair ids) (ids_tempered ids HL) HM HW). Qed.
  Lemma r_inv : forall d, reachW ids nB maxC d -> sysInv (derivable (observed ids)) maxC nB d.
  Proof. intros d. apply (sreach_inv (observed ids) maxC nB nB 0 1 HW). Qed.
  Lemma r_env : forall d sh pm sc nu, reachW ids nB maxC d -> readable pm ->
    sh = mkShared (heap (y_sh d)) (judg (y_sh d)) (byTerm (y_sh d)) (questions (y_sh d)) (memory (y_sh d)) pm sc (taskCtr (y_sh d)) (cycleCtr (y_sh d)) (usages (y_sh d)) nu ->
    reachW ids nB maxC (withSh d sh).
  Proof.
    intros d sh pm sc nu R P ->. assert (Gd := r_good d R). destruct (gy_sh _ Gd) as [A B C D E].
    apply (sr_env _ _ _ _ d (heap (y_sh d)) (usages (y_sh d)) pm sc nu R); auto.
    - split; auto.
    - intros a Ha. apply (A a Ha).
  Qed.
  Lemma r_step : forall d c n, reachW ids nB maxC d -> slow n d -> 301 * n < 2 ^ 63 -> safeChoice (observed ids) nB 0 c ->
    exists o, exec maxC nB c d = Ok o /\ forall d', o = Some d' -> reachW ids nB maxC d' /\ slow (n + 1) d'.
  Proof.
    intros d c n R S L C. assert (Gd := r_good d R).
    assert (T : inTime d).
    { destruct S as [S1 S2]. assert (K := gs_ctr _ (gy_sh _ Gd)). split; [split; lia|]. intros a. specialize (S2 a). lia. }
    assert (NP := never_panics (observed ids) maxC nB nB 0 1 (observed_fair ids) (ids_tempered ids HL) HM HW d c R T).
    destruct (exec maxC nB c d) as [o|] eqn:E; [|contradiction]. exists o. split; auto. intros d' ->. split.
    - eapply sr_step; eauto.
    - apply (step_good (observed ids) maxC nB nB 0 (observed_fair ids) (ids_tempered ids HL) HM HW d c d' (r_inv d R) Gd C E). exact S.
  Qed.
  Lemma r_usage : forall d n, reachW ids nB maxC d -> slow n d -> 301 * n < 2 ^ 63 ->
    forall a, 0 <= useCount (usages (y_sh d) a) < 2 ^ 63 /\ 0 <= lastUsed (usages (y_sh d) a).
  Proof.
    intros d n R [_ S] L a. destruct (gs_us _ (gy_sh _ (r_good d R)) a) as [A B]. specialize (S a). lia.
  Qed.
  Lemma r_tasks : forall d, reachW ids nB maxC d -> exists k, debugTasks (y_sh d) = Ok k.
  Proof.
    intros d R. assert (V := sy_sh _ _ _ _ (r_inv d R)). unfold debugTasks.
    assert (K : forall l, (forall a, In a l -> (a < length (heap (y_sh d)))%nat) -> exists r, rmapM (fun a => printSentence (tk_s (hget (heap (y_sh d)) a))) l = Ok r).
    { induction l as [|a l IH]; intros H; cbn [rmapM]; [eauto|]. assert (Ga := si_heap _ _ _ _ _ _ V a (H a (or_introl eq_refl))).
      rewrite printable.
      - destruct IH as (r & ->); [intros x Hx; apply H; now right|]. cbn [rbind]. eauto.
      - apply wf_speaks. apply (derivable_wf (observed ids)); auto. intros s Hs. apply Hs.
      - right. destruct (derivable_range (observed ids) (observed_fair ids) (ids_tempered ids HL) _ Ga) as (v & E & _). congruence. }
    destruct (K (judg (y_sh d))) as (r & ->); [|cbn [rbind]; eauto]. intros a Ha.
    apply (ti_live _ _ _ _ (si_t _ _ _ _ _ _ V)). apply in_app_iff. now left.
  Qed.
End Decl.
Lemma slow_same : forall n d d', slow n d -> cycleCtr (y_sh d') = cycleCtr (y_sh d) -> usages (y_sh d') = usages (y_sh d) -> slow n d'.
Proof. intros n d d' [A B] E1 E2. split; rewrite ?E1, ?E2; auto. Qed.
Lemma slow_more : forall n n' d, slow n d -> n <= n' -> slow n' d.
Proof. intros n n' d [A B] L. split; [lia|]. intros a. specialize (B a). lia. Qed.

(** * The procedural part *)
Lemma lim_us : forall us us' M k y, lim us M k y -> (forall a, 0 <= useCount (us' a) < 2 ^ 63 /\ 0 <= lastUsed (us' a)) -> lim us' M k y.
Proof. intros us us' M k y [A B C D E F G H I J] U. constructor; auto. Qed.
Definition us0 : nat -> usage := fun _ => mkUsage 0 0.
Lemma us0_ok : forall a, 0 <= useCount (us0 a) < 2 ^ 63 /\ 0 <= lastUsed (us0 a).
Proof. intros a. cbn. lia. Qed.
Lemma p_step : forall us M n y a, yX y -> lim us0 M n y -> (n + 1) * M < 2 ^ 63 -> (forall a, 0 <= useCount (us a) < 2 ^ 63 /\ 0 <= lastUsed (us a)) ->
  fairAct a -> (forall e, a = XEvent e -> safeEvent (n_ops (y_nar y)) e) ->
  exists o, yact us y a = Ok o /\ forall y', o = Some y' -> yX y' /\ lim us0 M (n + 1) y' /\ n_ops (y_nar y') = n_ops (y_nar y).
Proof.
  intros us M n y a Y Li B U F Se. assert (Lu := lim_us us0 us M n y Li U). assert (C := lim_calm us M n y Lu B).
  destruct (act_ok us y a C Y F) as (o & E & Hy). exists o. split; auto. intros y' ->. split; [auto|]. split.
  - apply (lim_us us); [|exact us0_ok]. eapply act_lim; eauto.
  - eapply act_ops; eauto.
Qed.
Lemma cell_ok : forall y t c a, yX y -> In (t, c) (pcs (n_mem (y_nar y))) -> In a (pExp c) \/ In a (pUse c) -> beliefOk (n_table (y_nar y)) (rd (cells (n_mem (y_nar y))) a).
Proof.
  intros y t c a Y H Ha. apply (yx_cells _ Y). unfold rd. apply nth_In. apply (proj1 (yx_mem _ Y) t c a H Ha).
Qed.
Lemma counts_tv : forall s, okCounts s -> retTv s <> None.
Proof. intros s (p & c & E & _). unfold retTv. rewrite E. discriminate. Qed.
Lemma view_readable : forall y, yX y -> readable (viewMem (n_mem (y_nar y))).
Proof.
  intros y Y t c b H Hb _. unfold viewMem, holds in H. apply in_map_iff in H. destruct H as ([t0 c0] & E & H). cbn in E. injection E as <- <-. cbn in Hb.
  assert (K : exists a, (In a (pExp c0) \/ In a (pUse c0)) /\ b = rd (cells (n_mem (y_nar y))) a).
  { destruct Hb as [Hb|Hb]; apply in_map_iff in Hb; destruct Hb as (a & <- & Ha); eauto. }
  destruct K as (a & Ha & ->). destruct (cell_ok y t0 c0 a Y H Ha) as [_ Sp _ Ct _ _]. split; [exact Sp|now apply counts_tv].
Qed.
Lemma evidence_ok : forall y, yX y -> debugEvidence (n_mem (y_nar y)) = Ok tt.
Proof.
  intros y Y. unfold debugEvidence.
  assert (K : forall l, (forall a, In a l -> beliefOk (n_table (y_nar y)) (rd (cells (n_mem (y_nar y))) a)) ->
    rfold (fun _ a => do _ <- convTermToStr (s_term (rd (cells (n_mem (y_nar y))) a));
      match s_evi (rd (cells (n_mem (y_nar y))) a) with Some (CNT _ _) => Ok tt | _ => Panic end) l tt = Ok tt).
  { induction l as [|a l IH]; intros H; cbn [rfold]; [reflexivity|]. destruct (H a (or_introl eq_refl)) as [_ Sp _ (p & c & E & _) _ _].
    destruct (sp_text _ Sp) as (s & ->). cbn [rbind]. rewrite E. apply IH. intros x Hx. apply H. now right. }
  apply K. intros a Ha. apply in_flat_map in Ha. destruct Ha as ([t c] & Hc & Ha). cbn [snd] in Ha. apply in_app_iff in Ha. eapply cell_ok; eauto.
Qed.
Lemma no_calls : forall n r n', (forall o, In o (n_ops n) -> op_kind o = OpPlain) -> narStep1 n true r = Ok n' -> nlpOf n r = Ok [].
Proof.
  intros n r n' Pl H. unfold nlpOf. destruct (chosen n r) as [[n2 pk]|] eqn:Ch.
  - pose proof (chosen_frame _ _ _ _ Ch) as (F1 & _). cbn [rbind]. unfold chosen in Ch. unfold narStep1 in H.
    destruct (bestByState n) as [b0|]; [|discriminate]. cbn [rbind] in H, Ch.
    destruct (planForward n (i_u r) (i_plan r) b0) as [b1|]; [|discriminate]. cbn [rbind] in H, Ch.
    destruct (decide n true (i_u r) b1) as [n1|]; [|discriminate]. cbn [rbind] in H, Ch.
    destruct (execGoal n1) as [[n2' pk0]|]; [|discriminate]. cbn [rbind] in H, Ch.
    destruct (babble n2' (i_babble r) pk0) as [pk1|]; [|discriminate]. cbn [rbind] in H, Ch. injection Ch as -> ->.
    destruct (execAction n2 pk) as [n3|] eqn:Ea; [|discriminate]. clear H. destruct pk as [t|]; [|reflexivity].
    unfold execAction in Ea. destruct (decodeOp t) as [[args name]|]; [|discriminate]. cbn [unwrap rbind snd fst].
    destruct (ret_op_by_name (n_ops n2) name) as [o|] eqn:R; [|reflexivity]. apply ret_op_some in R. destruct R as (pre & post & E & _).
    rewrite (Pl o); [|rewrite <- F1, E; apply in_elt]. destruct (height t); reflexivity.
  - exfalso. unfold chosen in Ch. unfold narStep1 in H.
    destruct (bestByState n) as [b0|]; [|discriminate]. cbn [rbind] in H, Ch.
    destruct (planForward n (i_u r) (i_plan r) b0) as [b1|]; [|discriminate]. cbn [rbind] in H, Ch.
    destruct (decide n true (i_u r) b1) as [n1|]; [|discriminate]. cbn [rbind] in H, Ch.
    destruct (execGoal n1) as [[n2' pk0]|]; [|discriminate]. cbn [rbind] in H, Ch.
    destruct (babble n2' (i_babble r) pk0) as [pk1|]; discriminate.
Qed.

(** * Lines *)
Lemma bw_ok : forall w i, asciiOnly i -> beginsWith w i = Ok (starts w i).
Proof.
  intros w i A. unfold beginsWith, starts, text_eqb. destruct (Nat.leb_spec (length w) (length i)) as [L|L].
  - unfold prefix. destruct (nth_error i (length w)) as [c|] eqn:N.
    + assert (C : isCont c = false).
      { apply nth_error_In in N. specialize (A c N). unfold isCont, inRange. apply andb_false_iff. left. apply Nat.leb_gt. lia. }
      rewrite C. cbn [rbind]. now destruct (list_eq_dec _ _ _).
    + apply nth_error_None in N. assert (E : length i = length w) by lia. rewrite E, Nat.eqb_refl. cbn [rbind]. rewrite <- E, firstn_all. now destruct (list_eq_dec _ _ _).
  - destruct (list_eq_dec _ _ _) as [E|]; [|reflexivity]. exfalso. apply (f_equal (@length ascii)) in E. rewrite firstn_length in E. lia.
Qed.
Lemma trim_in : forall c i, In c (trimNewline i) -> In c i.
Proof.
  intros c i H. unfold trimNewline in H. apply in_rev in H. rewrite in_rev. revert H. generalize (List.rev i). intros l. induction l as [|x l IH]; cbn [dropNl]; [auto|].
  destruct (_ || _); [intros H; right; auto|auto].
Qed.
Lemma trim_ascii : forall i, asciiOnly i -> asciiOnly (trimNewline i).
Proof. intros i A c H. apply A. now apply trim_in. Qed.
Definition goodJob (pf : text -> option f64) (ops : list op) (j : job) : Prop :=
  match j with
  | JText i _ => goodText pf ops i
  | JStep1 r => forall z, 0 <= z -> unit64 (i_decay r z)
  | JCycle e _ => expLike e
  | JOp _ | JRel _ _ => False
  | _ => True
  end.
Definition jobTexts (j : job) : list text := match j with JText i _ => [i] | _ => [] end.
Lemma starts_short : forall w i, starts w i = true -> (length w <= length i)%nat.
Proof. intros w i H. unfold starts in H. destruct (list_eq_dec _ _ _) as [E|]; [|discriminate]. apply (f_equal (@length ascii)) in E. rewrite firstn_length in E. lia. Qed.
Lemma starts_all : forall w i, starts w i = true -> length i = length w -> i = w.
Proof. intros w i H L. unfold starts in H. destruct (list_eq_dec _ _ _) as [E|]; [|discriminate]. rewrite <- L, firstn_all in E. exact E. Qed.
Lemma eqb_same : forall a b, text_eqb a b = same b a.
Proof. intros a b. unfold text_eqb, same. destruct (list_eq_dec ascii_dec a b), (list_eq_dec ascii_dec b a); congruence. Qed.
Lemma jobs_ok : forall pf ops line r, goodLine pf ops line r -> exists l, lineJobs line r = Ok l /\ Forall (goodJob pf ops) l /\
  flat_map jobTexts l = lineTexts (ln_net r) (trimNewline line).
Proof.
  intros pf ops line r (A & S & P & N & T & X & D). set (i := trimNewline line) in *. assert (Ai : asciiOnly i) by now apply trim_ascii.
  unfold lineJobs. fold i. rewrite !bw_ok by auto. cbn [rbind]. unfold lineTexts in *. cbn [existsb] in *. clearbody i.
  rewrite (eqb_same i (tx "!dtf")), (eqb_same i (tx "!pse")), (eqb_same i (tx "!peb 0")), (eqb_same i (tx "!peb 1")), (eqb_same i (tx "!dt")), (eqb_same i (tx "!dmd")), (eqb_same i (tx "!QQ")), (eqb_same i []).
  destruct (starts (tx "//") i) eqn:E1; [exists []; auto|]. cbn [orb] in *.
  destruct (starts (tx "!sp") i) eqn:E2.
  { assert (E3 : starts (tx "!s") i = true).
    { unfold starts in *. destruct (list_eq_dec _ (firstn (length (tx "!sp")) i) _) as [E|]; [|discriminate]. destruct (list_eq_dec _ _ _) as [|E3]; [auto|]. exfalso. apply E3.
      change (length (tx "!s")) with 2%nat. change (length (tx "!sp")) with 3%nat in E. destruct i as [|a [|b i]]; try discriminate E. cbn in E. injection E as -> -> _. reflexivity. }
    rewrite E3. exists [JStep0; JStep1 (ln_step r)]. split; auto. split; auto. constructor; [exact Logic.I|]. constructor; [exact D|constructor]. }
  destruct (starts (tx "!s") i) eqn:E3; cbn [orb] in *.
  { assert (K : exists k, (if Nat.ltb 2 (length i) then unwrap (parseI64 (skipn 2 i)) else Ok 1) = Ok k).
    { destruct (Nat.ltb_spec 2 (length i)) as [L|L]; [|eauto]. destruct (parseI64 (skipn 2 i)) as [k|] eqn:Q; [cbn; eauto|]. exfalso. apply S; auto. intros E. rewrite E in L. cbn in L. lia. }
    destruct K as (k & ->). cbn [rbind]. eexists. split; [reflexivity|]. split.
    - apply Forall_forall. intros j Hj. apply in_map_iff in Hj. destruct Hj as (x & <- & _). exact X.
    - generalize (List.rev (seq 0 (Z.to_nat k))). intros l. induction l; auto. }
  destruct (starts (tx "!por ") i) eqn:E4; cbn [orb] in *.
  { destruct (same (tx "!dtf") i) eqn:Q; [exists [JFlush]; repeat constructor|]. rewrite P by auto. exists []. auto. }
  destruct (same (tx "!dtf") i) eqn:F1; cbn [orb] in *; [exists [JFlush]; repeat constructor|].
  destruct (same (tx "!pse") i) eqn:F2; cbn [orb] in *; [exists [JEvidence]; repeat constructor|].
  destruct (same (tx "!peb 0") i) eqn:F3; cbn [orb] in *; [exists [JBabble false]; repeat constructor|].
  destruct (same (tx "!peb 1") i) eqn:F4; cbn [orb] in *; [exists [JBabble true]; repeat constructor|].
  assert (Nl : forall m, (if Nat.ltb 6 (length i) then Ok (starts (tx "!.nlp ") i) else Ok false) = Ok m -> m = starts (tx "!.nlp ") i && negb (same i (tx "!.nlp "))).
  { intros m Q. unfold same. destruct (Nat.ltb_spec 6 (length i)) as [L|L]; injection Q as <-.
    - destruct (list_eq_dec _ _ _) as [E|]; [rewrite E in L; cbn in L; lia|]. now rewrite andb_true_r.
    - destruct (starts (tx "!.nlp ") i) eqn:Q; auto. pose proof (starts_short _ _ Q) as L2. change (length (tx "!.nlp ")) with 6%nat in L2.
      rewrite (starts_all _ _ Q) by (cbn; lia). reflexivity. }
  destruct (if Nat.ltb 6 (length i) then Ok (starts (tx "!.nlp ") i) else Ok false) as [m|] eqn:Q; [|destruct (Nat.ltb 6 (length i)); discriminate].
  specialize (Nl m eq_refl). cbn [rbind]. rewrite Nl.
  destruct (starts (tx "!.nlp ") i && negb (same i (tx "!.nlp "))) eqn:F5.
  - apply andb_true_iff in F5. destruct F5 as [F5 F6].
    assert (Ex : forall w, same w i = true -> starts (tx "!.nlp ") w = true) by (intros w; unfold same; destruct (list_eq_dec _ _ _) as [->|]; [auto|discriminate]).
    destruct (same (tx "!dt") i) eqn:G1; [specialize (Ex _ G1); discriminate Ex|].
    destruct (same (tx "!dmd") i) eqn:G2; [specialize (Ex _ G2); discriminate Ex|].
    destruct (same (tx "!QQ") i) eqn:G3; [specialize (Ex _ G3); discriminate Ex|].
    destruct (same (tx "") i) eqn:G4; [specialize (Ex _ G4); discriminate Ex|]. cbn [orb] in *.
    destruct (ln_net r (skipn 6 i)) as [l|] eqn:Ln; [|exfalso; now apply N]. cbn [rbind]. eexists. split; [reflexivity|].
    assert (K : forall l k, (forall j, In j l -> goodText pf ops j) ->
      Forall (goodJob pf ops) (map (fun x => JText (snd x) (ln_draws r (fst x))) (combine (seq k (length l)) l)) /\
      flat_map jobTexts (map (fun x => JText (snd x) (ln_draws r (fst x))) (combine (seq k (length l)) l)) = l).
    { clear. induction l as [|x l IH]; intros k H; cbn [length seq combine map flat_map jobTexts snd app]; [auto|].
      destruct (IH (Datatypes.S k)) as [A B]; [intros j Hj; apply H; now right|]. split; [constructor; [apply H; now left|auto]|]. now rewrite B. }
    now apply K.
  - destruct (same (tx "!dt") i) eqn:G1; cbn [orb] in *; [exists [JTasks]; repeat constructor|].
    destruct (same (tx "!dmd") i) eqn:G2; cbn [orb] in *; [exists []; repeat constructor|].
    destruct (same (tx "!QQ") i) eqn:G3; cbn [orb] in *; [exists [JQuit]; repeat constructor|].
    change [] with (tx "") at 1. destruct (same (tx "") i) eqn:G4; cbn [orb] in *; [exists []; repeat constructor|].
    exists [JText i (ln_draws r 0)]. split; auto. split; auto. constructor; auto. apply T. now left.
Qed.
