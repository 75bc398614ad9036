(** The invariant of the whole program. *)
From Coq Require Import String Ascii ZArith Bool Lia List Sorted.
From Verif Require Import Base F64_Model Term_Model Term_Spec Term_Proofs Unify_Spec Stamp_Model Tv_Model Tv_Spec Sentence_Model Mem_Model Mem_Spec
  Cycle_Model Cycle_Spec Sched_Model Sched_Spec Safe_Spec Safe_Proofs Safe3_Proofs
  PMem_Model Goal_Model Goal_Spec Proc_Model Proc_Spec ProcS_Model ProcX_Model Speak_Spec Speak_Proofs ProcX_Spec
  ProcX2_Proofs ProcX3_Proofs ProcX4_Proofs Parser_Model Parser_Spec Parser3_Proofs Read_Spec Read_Proofs Nar_Model Whole_Model Whole_Spec Whole_Proofs.
Import ListNotations.
Local Open Scope list_scope.
Local Open Scope Z_scope.

Section Inv.
  Variable pf : text -> option f64.
  Variable M : Z.
  Variable ops : list op.
  Definition opsOf (w : whole) : list op := n_ops (y_nar (w_proc w)).
  Definition plainOps (w : whole) : Prop := forall o, In o (opsOf w) -> op_kind o = OpPlain.
  (** the state after at most [n] steps, [b] more statements may be typed *)
  Record inv (n : Z) (b : nat) (w : whole) : Prop := mkInv {
    iv_nB : (1 <= w_nB w)%nat;
    iv_maxC : w_maxC w < 2 ^ 63;
    iv_ids : exists ids, (length ids + statements pf (flat_map jobTexts (w_jobs w)) + b <= 120)%nat /\ reachW ids (w_nB w) (w_maxC w) (w_decl w);
    iv_slow : slow n (w_decl w);
    iv_yX : yX (w_proc w);
    iv_lim : lim us0 M n (w_proc w);
    iv_ops : plainOps w;
    iv_jobs : Forall (goodJob pf (opsOf w)) (w_jobs w);
    iv_time : 0 <= w_time w <= n;
    iv_same : opsOf w = ops
  }.
  Definition roomy (n : Z) : Prop := 301 * (n + 1) < 2 ^ 63 /\ (n + 1) * M < 2 ^ 63.
  Lemma inv_more : forall n n' b b' w, inv n b w -> n <= n' -> (b' <= b)%nat -> inv n' b' w.
  Proof.
    intros n n' b b' w [A B (ids & C1 & C2) D E F G H I J] L Lb. constructor; auto; [|eapply slow_more; eauto|eapply lim_more; eauto|lia]. exists ids. split; [lia|auto].
  Qed.
  (** a step of the declarative part that takes the sentences with [ids] *)
  Lemma decl_ok : forall w c ids n b, reachW ids (w_nB w) (w_maxC w) (w_decl w) -> (length ids + statements pf (flat_map jobTexts (w_jobs w)) + b <= 120)%nat ->
    (1 <= w_nB w)%nat -> w_maxC w < 2 ^ 63 -> slow n (w_decl w) -> yX (w_proc w) -> lim us0 M n (w_proc w) -> plainOps w -> Forall (goodJob pf (opsOf w)) (w_jobs w) ->
    0 <= w_time w <= n + 1 -> opsOf w = ops -> roomy n ->
    safeChoice (observed ids) (w_nB w) 0 c -> exists o, declStep (w_maxC w) w c = Ok o /\ forall w', o = Some w' -> inv (n + 1) b w'.
  Proof.
    intros w c ids n b R L Nb Mx Sl Y Li Pl Jb Tm So (R1 & R2) C.
    assert (K : 0 <= n) by apply Li.
    assert (Sn : reachW ids (w_nB w) (w_maxC w) (seen w) /\ slow n (seen w)).
    { unfold seen. destruct (w_wired w); [|auto]. split; [|eapply slow_same; [exact Sl| |]; reflexivity].
      eapply (r_env ids (w_nB w) (w_maxC w)); [lia|auto|auto|exact R|apply view_readable; exact Y|reflexivity]. }
    destruct Sn as (R' & S').
    destruct (r_step ids (w_nB w) (w_maxC w)) with (d := seen w) (c := c) (n := n) as (o & E & H); auto; try lia.
    unfold declStep. rewrite E. cbn [rbind]. eexists. split; [reflexivity|]. intros w' Q. destruct o as [d|]; [|discriminate]. injection Q as <-.
    destruct (H d eq_refl) as (H1 & H2). constructor; cbn; auto; [exists ids; auto|eapply lim_more; eauto; lia].
  Qed.
  Lemma proc_ok : forall w a n b, inv n b w -> roomy n -> fairAct a -> (forall e, a = XEvent e -> safeEvent (opsOf w) e) ->
    exists o, procStep w a = Ok o /\ forall w', o = Some w' -> inv (n + 1) b w' /\ w_jobs w' = w_jobs w.
  Proof.
    intros w a n b I (R1 & R2) F Se. destruct (iv_ids _ _ _ I) as (ids & L & R).
    assert (K : 0 <= n) by apply (iv_lim _ _ _ I).
    assert (U : forall a, 0 <= useCount (wUsages w a) < 2 ^ 63 /\ 0 <= lastUsed (wUsages w a)).
    { apply (r_usage ids (w_nB w) (w_maxC w)) with (n := n); try lia; try apply I. exact R. }
    destruct (p_step (wUsages w) M n (w_proc w) a (iv_yX _ _ _ I) (iv_lim _ _ _ I) R2 U F Se) as (o & E & H).
    unfold procStep. rewrite E. cbn [rbind]. eexists. split; [reflexivity|]. intros w' Q. destruct o as [p|]; [|discriminate]. injection Q as <-.
    destruct (H p eq_refl) as (H1 & H2 & H3). split; [|reflexivity]. destruct I. constructor; cbn; auto.
    - eapply slow_more; [eassumption|lia].
    - unfold plainOps, opsOf in *. cbn. now rewrite H3.
    - unfold opsOf in *. cbn. now rewrite H3.
    - lia.
    - unfold opsOf in *. cbn. now rewrite H3.
  Qed.
  Lemma goodText_reads : forall os i, goodText pf os i -> exists r, parseNarsese pf i = Ok r.
  Proof.
    intros os i (A & B & _). destruct (parseNarsese pf i) as [r|] eqn:E; [eauto|]. exfalso. apply narsese_panic in E. destruct E as [(c & Hc & Nc)|E]; [|contradiction].
    specialize (A c Hc). unfold isAscii in Nc. apply Nat.ltb_ge in Nc. lia.
  Qed.
  Lemma statements_cons : forall i l, statements pf (i :: l) = ((if statement pf i then 1 else 0) + statements pf l)%nat.
  Proof. intros i l. unfold statements. cbn. destruct (statement pf i); reflexivity. Qed.
  Lemma text_ok : forall w i draws n b, inv n b (wJobs w (JText i draws :: w_jobs w)) -> roomy n ->
    exists o, startJob pf w (JText i draws) = Ok o /\ forall w', o = Some w' -> inv (n + 1) b w'.
  Proof.
    intros w i draws n b I Ro. assert (Jb := iv_jobs _ _ _ I). cbn in Jb. inversion Jb as [|? ? Ji Jl]; subst. cbn [goodJob] in Ji.
    destruct (iv_ids _ _ _ I) as (ids & L & R). cbn [w_nB w_maxC w_decl w_jobs wJobs flat_map jobTexts app] in *. rewrite statements_cons in L.
    assert (Iw : inv n b w). { destruct I. cbn in *. constructor; auto. exists ids. split; [lia|auto]. }
    destruct (goodText_reads _ _ Ji) as (r & E). cbn [startJob]. rewrite E. cbn [rbind].
    destruct r as [[[[t v] p] ev]|]; [|exists (Some w); split; [auto|]; intros w' [= <-]; apply (inv_more n _ b); auto; lia].
    assert (Ty := sentence_typable _ _ _ _ _ _ E). assert (Wt := typable_wf _ Ty). assert (Sp := wf_speaks _ Wt).
    destruct Ji as (_ & _ & Cond). specialize (Cond _ _ _ _ E).
    unfold putIn, takeId. set (id := stampCtr (y_sh (w_decl w))). set (u := nextU (y_sh (w_decl w))).
    set (d := setNextU (Datatypes.S u) (setStampCtr (id + 1) (y_sh (w_decl w)))). set (w1 := wDecl w (withSh (w_decl w) d)).
    set (s := newEternalSentenceByTv t p v (newStamp [id]) u).
    assert (St : s_term s = t) by (cbn; apply term_clone_id || reflexivity).
    assert (Pr : printSentence s = Ok tt).
    { apply printable; [now rewrite St|destruct p; [right; discriminate|left; reflexivity|right; discriminate]]. }
    cbn zeta. replace (w_verb w1) with (w_verb w) by reflexivity.
    assert (Vb : (if w_verb w >=? 1 then printSentence s else Ok tt) = Ok tt) by (destruct (w_verb w >=? 1); auto). rewrite Vb. cbn [rbind].
    assert (R1 : reachW ids (w_nB w1) (w_maxC w1) (w_decl w1)).
    { destruct Iw. eapply (r_env ids (w_nB w) (w_maxC w)); [lia|auto|auto|exact R| |reflexivity]. 
      assert (Gd := r_good ids (w_nB w) (w_maxC w) ltac:(lia) ltac:(auto) ltac:(auto) _ R). exact (gs_pm _ (gy_sh _ Gd)). }
    assert (S1 : slow n (w_decl w1)) by (eapply slow_same; [apply Iw| |]; reflexivity).
    assert (I1 : inv n b w1). { destruct Iw. constructor; auto. exists ids. split; [change (w_jobs w1) with (w_jobs w); lia|exact R1]. }
    assert (N0 : 0 <= n) by apply (iv_lim _ _ _ I1). assert (Ro' := Ro). destruct Ro' as (Ro1 & Ro2).
    assert (Stay : exists o, Ok (Some w1) = Ok o /\ forall w', o = Some w' -> inv (n + 1) b w') by (exists (Some w1); split; [auto|]; intros w' [= <-]; apply (inv_more n _ b); auto; lia).
    assert (Add : (p = JUGEMENT -> statement pf i = true /\ tvInRange v /\ fleb (tvc v) (f_frac 999999 1000000) = true) ->
      exists o, declStep (w_maxC w1) w1 (ChStart 0 (OpAdd (mkAddArgs s true f1 (w_nB w1) (n_t (y_nar (w_proc w1)))))) = Ok o /\ forall w', o = Some w' -> inv (n + 1) b w').
    { intros J. set (ids' := match p with JUGEMENT => id :: ids | _ => ids end).
      assert (L' : (length ids' + statements pf (flat_map jobTexts (w_jobs w1)) + b <= 120)%nat).
      { unfold ids'. change (w_jobs w1) with (w_jobs w). destruct p; try lia. rewrite (proj1 (J eq_refl)) in L. cbn [length]. lia. }
      assert (Rr : reachW ids' (w_nB w1) (w_maxC w1) (w_decl w1)).
      { unfold ids'. destruct p; auto. eapply sreach_more; [|exact R1]. intros c. apply safe_more. }
      apply (decl_ok w1 _ ids' n b); auto; try apply I1; [destruct (iv_time _ _ _ I1); lia|]. cbn [safeChoice ar_s ar_n ar_mul ar_now]. split.
      - split; [now rewrite St|]. intros Pj. assert (p = JUGEMENT) by exact Pj. subst p. destruct (J eq_refl) as (_ & J1 & J2). exists id, v. unfold ids'. 
        split; [reflexivity|]. split; [now left|]. split; [reflexivity|]. auto.
      - split; [split; [apply I1|auto]|]. split; [exact unit_1|].
        split; [apply (yx_time _ (iv_yX _ _ _ I1))|]. assert (Lt := l_time _ _ _ _ (iv_lim _ _ _ I1)). lia. }
    destruct ev.
    - destruct p.
      + assert (F : fairAct (XEvent t)) by exact Logic.I. destruct (proc_ok w1 (XEvent t) n b I1 Ro F) as (o & Eo & Ho); [|exists o; split; auto; intros w' Q; apply (Ho w' Q)].
        intros e [= <-]. split; auto.
      + apply Add. discriminate.
      + assert (F : fairAct (XGoal s)) by (split; [reflexivity|]; exists v; split; [reflexivity|exact Cond]).
        destruct (proc_ok w1 (XGoal s) n b I1 Ro F) as (o & Eo & Ho); [discriminate|exists o; split; auto; intros w' Q; apply (Ho w' Q)].
    - destruct p.
      + destruct Cond as (C1 & C2 & C3). rewrite C3. apply Add. intros _. split; auto. unfold statement. now rewrite E.
      + destruct (isTemporal t); exact Stay.
      + destruct (isTemporal t); exact Stay.
  Qed.
  Lemma babble_ok : forall y b n, yX y -> lim us0 M n y ->
    yX (mkPsys (setBabble (y_nar y) b) (y_main y) (y_chan y) (y_work y)) /\ lim us0 M n (mkPsys (setBabble (y_nar y) b) (y_main y) (y_chan y) (y_work y)).
  Proof.
    intros [nn m ch wk] b n [A B C D E F G H I J] Li. split; [|destruct Li; constructor; auto].
    constructor; auto. destruct A. constructor; auto.
  Qed.
  Lemma job_ok : forall w j n b, inv n b (wJobs w (j :: w_jobs w)) -> roomy n -> y_main (w_proc w) = MFree ->
    exists o, startJob pf w j = Ok o /\ forall w', o = Some w' -> inv (n + 1) b w'.
  Proof.
    intros w j n b I Ro Mf. destruct j as [i draws| |r|t args|e sel| |o|bb| | |]; [now apply text_ok|..];
      (assert (Iw : inv n b w) by
        (destruct I as [A B (ids & C1 & C2) D E F G H J J2]; cbn in *; inversion H; subst; constructor; auto; exists ids; split; auto));
      assert (Jb := iv_jobs _ _ _ I); cbn [wJobs w_jobs] in Jb; inversion Jb as [|? ? Ji Jl]; subst; cbn [goodJob] in Ji; clear Jb;
      assert (Up : forall w', w' = w -> inv (n + 1) b w') by (intros w' ->; apply (inv_more n _ b); auto; lia);
      assert (N0 : 0 <= n) by apply (iv_lim _ _ _ Iw); assert (Ro' := Ro); destruct Ro' as (Ro1 & Ro2);
      destruct (iv_ids _ _ _ Iw) as (ids & L & R); cbn [startJob].
    - destruct (proc_ok w XStep0 n b Iw Ro Logic.I) as (o & E & H); [discriminate|]. exists o. split; auto. intros w' Q. apply (H w' Q).
    - destruct (proc_ok w (XStep1 true r) n b Iw Ro (conj eq_refl Ji)) as (o & E & H); [discriminate|].
      assert (NC : nlpOf (y_nar (w_proc w)) r = Ok []).
      { assert (Pl := iv_ops _ _ _ Iw). unfold procStep in E. destruct (w_proc w) as [nn m ch wk] eqn:Ep. cbn [y_main] in Mf. subst m. cbn [yact] in E.
        destruct (narStep1 nn true r) as [n'|] eqn:En; [|discriminate]. apply (no_calls nn r n'); [|exact En].
        intros o0 Ho. apply Pl. unfold opsOf. rewrite Ep. exact Ho. }
      rewrite NC, E. cbn [rbind map app]. eexists. split; [reflexivity|]. intros w' Q. destruct o as [w1|]; [|discriminate]. injection Q as <-.
      destruct (H w1 eq_refl) as (H1 & _). destruct w1. exact H1.
    - contradiction.
    - apply (decl_ok (wTime w (w_time w + 1)) _ ids n b); auto; try apply Iw; cbn [wTime w_time]; [destruct (iv_time _ _ _ Iw); lia|].
      cbn [safeChoice cy_exp cy_now]. split; [reflexivity|]. split; [exact Ji|]. destruct (iv_time _ _ _ Iw). split; lia.
    - apply (decl_ok w _ ids n b); auto; try apply Iw; [destruct (iv_time _ _ _ Iw); lia|reflexivity].
    - contradiction.
    - destruct (babble_ok (w_proc w) bb n (iv_yX _ _ _ Iw) (iv_lim _ _ _ Iw)) as (B1 & B2). assert (Pl := iv_ops _ _ _ Iw).
      destruct (w_proc w) as [nn m ch wk] eqn:Ep. eexists. split; [reflexivity|]. intros w' [= <-]. apply (inv_more n _ b); [|lia|lia].
      destruct Iw. unfold plainOps, opsOf in *. rewrite Ep in *. constructor; auto; unfold plainOps, opsOf; cbn; auto.
    - rewrite (evidence_ok _ (iv_yX _ _ _ Iw)). cbn [rbind]. eexists. split; [reflexivity|]. intros w' [= <-]. now apply Up.
    - destruct (r_tasks ids (w_nB w) (w_maxC w) ltac:(lia) (iv_nB _ _ _ Iw) _ R) as (k & ->). cbn [rbind].
      eexists. split; [reflexivity|]. intros w' [= <-]. now apply Up.
    - eexists. split; [reflexivity|]. intros w' [= <-]. specialize (Up w eq_refl). destruct Up. constructor; auto.
  Qed.
  Lemma wstep_ok : forall a w n b b', inv n b w -> roomy n -> goodMove pf ops a -> (statements pf (typed a) + b' <= b)%nat ->
    exists o, wstep pf a w = Ok o /\ inv (n + 1) b' (match o with Some w' => w' | None => w end).
  Proof.
    intros a w n b b' I Ro G Lb. assert (N0 : 0 <= n) by apply (iv_lim _ _ _ I). assert (Ro' := Ro); destruct Ro' as (Ro1 & Ro2).
    assert (Up : inv (n + 1) b' w) by (apply (inv_more n _ b); auto; lia).
    assert (Pass : forall r : res (option whole), (exists o, r = Ok o /\ forall w', o = Some w' -> inv (n + 1) b w') ->
      exists o, r = Ok o /\ inv (n + 1) b' (match o with Some w' => w' | None => w end)).
    { intros r (o & -> & H). exists o. split; auto. destruct o as [w'|]; auto. apply (inv_more (n + 1) _ b); auto; lia. }
    assert (Tm := iv_time _ _ _ I). destruct (iv_ids _ _ _ I) as (ids & L & R).
    assert (De : forall c, safeChoice (observed ids) (w_nB w) 0 c -> exists o, declStep (w_maxC w) w c = Ok o /\ inv (n + 1) b' (match o with Some w' => w' | None => w end)).
    { intros c Hc. apply Pass. apply (decl_ok w c ids n b); auto; try apply I. lia. }
    assert (Pr : forall x, fairAct x -> (forall e, x <> XEvent e) -> exists o, procStep w x = Ok o /\ inv (n + 1) b' (match o with Some w' => w' | None => w end)).
    { intros x Hx Ne. apply Pass. destruct (proc_ok w x n b I Ro Hx) as (o & E & H); [intros e ->; now destruct (Ne e)|]. exists o. split; auto. intros w' Q. apply (H w' Q). }
    assert (None1 : exists o, @Ok (option whole) None = Ok o /\ inv (n + 1) b' (match o with Some w' => w' | None => w end)) by (exists None; auto).
    destruct a as [line r|rs| |draws]; cbn [wstep goodMove typed] in *.
    - destruct (mainFree w); [|exact None1]. destruct (w_jobs w) as [|? ?] eqn:Ej; [|exact None1]. destruct (w_quit w); [exact None1|].
      destruct (jobs_ok _ _ _ _ G) as (l & -> & Gl & El). cbn [rbind]. eexists. split; [reflexivity|].
      destruct Up as [A B _ D E F P H J J2]. constructor; auto.
      + exists ids. split; [|exact R]. cbn [w_jobs wJobs]. rewrite El. cbn in L. lia.
      + unfold opsOf in *. cbn [w_jobs wJobs w_proc]. now rewrite J2.
    - destruct (y_main (w_proc w)) eqn:Em; try (apply Pr; [exact Logic.I|discriminate]).
      assert (Cl : exists o, declStep (w_maxC w) w (ChClient 0) = Ok o /\ inv (n + 1) b' (match o with Some w' => w' | None => w end)) by (apply De; exact Logic.I).
      destruct (y_clients (w_decl w)) as [|c cs]; [exact Cl|]. destruct c; try exact Cl.
      destruct (w_jobs w) as [|j l] eqn:Ej; [exact None1|]. apply Pass. apply job_ok; auto. 
      replace (wJobs (wJobs w l) (j :: w_jobs (wJobs w l))) with w; auto. destruct w. cbn in *. now subst.
    - apply De. exact Logic.I.
    - apply Pr; [exact G|discriminate].
  Qed.
  Lemma wrun_ok : forall acts w n b, inv n b w -> (statements pf (flat_map typed acts) <= b)%nat -> Forall (goodMove pf ops) acts ->
    roomy (n + Z.of_nat (length acts)) -> exists w', wrun pf acts w = Ok w'.
  Proof.
    induction acts as [|a acts IH]; intros w n b I L F Ro; cbn [wrun]; [eauto|]. inversion F as [|? ? Fa Fl]; subst. cbn [flat_map length] in *.
    assert (K : (statements pf (typed a) + statements pf (flat_map typed acts) <= b)%nat) by (unfold statements in *; rewrite filter_app, app_length in L; exact L).
    assert (N0 : 0 <= n) by apply (iv_lim _ _ _ I). assert (M1 : 1 <= M) by apply (iv_lim _ _ _ I).
    assert (Rn : roomy n) by (destruct Ro; split; nia).
    destruct (wstep_ok a w n b (statements pf (flat_map typed acts)) I Rn Fa K) as (o & -> & H). cbn [rbind].
    apply (IH _ (n + 1) (statements pf (flat_map typed acts))); auto. replace (n + 1 + Z.of_nat (length acts)) with (n + Z.of_nat (Datatypes.S (length acts))) by lia. exact Ro.
  Qed.
End Inv.
(** The start. *)
Lemma start_inv : forall pf M p verb nB maxC wired, fairStart (ystart p) -> 1 <= M -> (forall o, In o (n_ops p) -> op_kind o = OpPlain /\ op_evi o <= M) ->
  (1 <= nB)%nat -> maxC < 2 ^ 63 -> inv pf M (n_ops p) 0 120 (wholeMake p verb nB maxC wired).
Proof.
  intros pf M p verb nB maxC wired S HM Ho HB HC. constructor; cbn [wholeMake w_nB w_maxC w_decl w_proc w_jobs w_time]; auto; try lia.
  - exists []. split; [cbn; lia|]. apply sr_start.
  - split; simpl; intros; lia.
  - now apply start_yX.
  - destruct S as (cfg & ops & tab & nMax & depth & E & _). unfold ystart in E. injection E as ->.
    constructor; cbn [ystart y_nar y_main y_chan y_work n_ops n_trace n_t n_mem cells pmemMake ProcS_Proofs.mainMsgs ProcS_Proofs.workMsgs] in *; auto; try lia; try solve [intros ? []]; try solve [intros ? ? []].
    + exact us0_ok.
    + intros o H. destruct (Ho o H) as (-> & H2). split; [discriminate|auto].
  - intros o H. now apply Ho.
Qed.
Theorem runs : forall pf M p verb nB maxC wired acts, fairStart (ystart p) -> 1 <= M -> (forall o, In o (n_ops p) -> op_kind o = OpPlain /\ op_evi o <= M) ->
  (1 <= nB)%nat -> maxC < 2 ^ 63 -> Forall (goodMove pf (n_ops p)) acts -> (statements pf (flat_map typed acts) <= 120)%nat ->
  (Z.of_nat (length acts) + 1) * Z.max M 301 < 2 ^ 63 -> exists w, wrun pf acts (wholeMake p verb nB maxC wired) = Ok w.
Proof.
  intros pf M p verb nB maxC wired acts S HM Ho HB HC F L R. apply (wrun_ok pf M (n_ops p) acts _ 0 120); auto; [now apply start_inv|]. split; nia.
Qed.
