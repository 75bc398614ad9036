(** Proofs for Nar_Model: the relations told by an executed operation. *)
From Coq Require Import String ZArith Bool Lia List.
From Verif Require Import Base F64_Model Term_Model Stamp_Model Tv_Model Sentence_Model PMem_Model Goal_Model Proc_Model Proc_Spec ProcA_Proofs ProcB_Proofs ProcC_Proofs Nar_Model.
Import ListNotations.
Local Open Scope list_scope.
Local Open Scope nat_scope.

(** * What an executed operation tells *)
Lemma calls_performs : forall fuel ops t args name o, (height t <= fuel)%nat -> opCall t args name -> firstNamed ops name o ->
  exists inj, performs ops t inj (nlpCalls fuel ops (op_kind o) args).
Proof.
  induction fuel as [|f IH]; intros ops t args name o L C Fn; [destruct C as (_ & ->); cbn in L; lia|].
  cbn [nlpCalls]. destruct (op_kind o) eqn:K; [exists []; destruct args as [|? [|? [|? [|? ?]]]]; eapply pf_plain; eauto| |exists []; eapply pf_rel; eauto].
  assert (Bad : (forall x sq inj, args <> [x; Seq sq; inj]) -> exists inj, performs ops t inj []) by (intros B; exists []; eapply pf_bad; eauto).
  destruct args as [|a0 [|a1 [|a2 [|a3 r]]]]; try (apply Bad; intros; discriminate);
  destruct a1 as [|l|l|l|l|l|l|l|l|l|l|l|l|l|l]; try (apply Bad; intros; discriminate). clear Bad.
  match goal with |- context [flat_map ?h _] => set (g := h) end. assert (G : forall sq, (forall x, In x sq -> (height x <= f)%nat) -> exists inj, performsAll ops sq inj (flat_map g sq)).
  { induction sq as [|x sq IHs]; intros H; [exists []; constructor|]. destruct IHs as (e1 & P1); [intros; apply H; now right|]. cbn [flat_map].
    assert (X : exists e0, performs ops x e0 (g x)).
    { unfold g. destruct (decodeOp x) as [(a, nm)|] eqn:D.
      - apply decodeOp_some in D. destruct (ret_op_by_name ops nm) as [o'|] eqn:R.
        + apply ret_op_some in R. eapply IH; eauto. apply H. now left.
        + exists []. apply pf_nothing. intros a' n' o' C' F'. destruct (call_unique _ _ _ _ _ D C') as (_ & <-). apply ret_op_some in F'. congruence.
      - exists []. apply pf_nothing. intros a' n' o' C' _. apply decodeOp_some in C'. congruence. }
    destruct X as (e0 & P0). exists (e0 ++ e1). now constructor. }
  match goal with |- context [flat_map g ?sq] => destruct (G sq) as (inj & P) end.
  - intros x Hx. apply seq_height in Hx. pose proof (call_height _ _ _ C _ (or_intror (or_introl eq_refl))). lia.
  - exists (inj ++ [a2]). eapply pf_exec; eauto.
Qed.
Lemma chosen_frame : forall n r n2 pk, chosen n r = Ok (n2, pk) -> n_ops n2 = n_ops n /\ n_t n2 = n_t n /\ n_trace n2 = n_trace n.
Proof.
  intros n r n2 pk' H. unfold chosen in H.
  destruct (bestByState n) as [b0|] eqn:E0; [|discriminate]. cbn [rbind] in H.
  destruct (planForward n (i_u r) (i_plan r) b0) as [b1|] eqn:E1; [|discriminate]. cbn [rbind] in H.
  destruct (decide n true (i_u r) b1) as [n1|] eqn:E2; [|discriminate]. cbn [rbind] in H.
  destruct (execGoal n1) as [[n2' pk]|] eqn:E3; [|discriminate]. cbn [rbind] in H.
  destruct (babble n2' (i_babble r) pk) as [pk0|] eqn:E4; [|discriminate]. cbn [rbind] in H. injection H as -> ->.
  assert (T1 : n_ops n1 = n_ops n /\ n_t n1 = n_t n /\ n_trace n1 = n_trace n).
  { pose proof (decide_spec _ _ _ _ _ E2) as D. destruct b1 as [[sq x [a0|]]|]; try (now subst n1). destruct (fltb (c_thresh (n_cfg n)) x); [|now subst n1].
    destruct D as (pre & opT & e0 & _ & _ & _ & _ & (g0 & ->) & _). auto. }
  assert (T2 : n_ops n2 = n_ops n1 /\ n_t n2 = n_t n1 /\ n_trace n2 = n_trace n1).
  { pose proof (exec_spec _ _ _ E3) as X. destruct pk; [destruct X as (pre & e & post & x & a & iv & X1 & X2 & X3 & X4 & X5 & X6 & X7 & ->); auto|now subst n2]. }
  destruct T1 as (<- & <- & <-). exact T2.
Qed.
Theorem step1_calls : forall n r calls n', nlpOf n r = Ok calls -> narStep1 n true r = Ok n' ->
  exists evs, n_trace n' = lastEvents 20 (n_trace n ++ evs) /\
    ((evs = [] /\ calls = []) \/ exists t inj, evs = map (fun e => mkEvent e (n_t n) (n_t n)) (inj ++ [t]) /\ performs (n_ops n) t inj calls).
Proof.
  intros n r calls n' Hc H. unfold nlpOf in Hc. destruct (chosen n r) as [[n2 pk]|] eqn:Ch; [|discriminate]. cbn [rbind] in Hc.
  pose proof (chosen_frame _ _ _ _ Ch) as (F1 & F2 & F3).
  assert (S : exists n3, execAction n2 pk = Ok n3 /\ n_trace n' = lastEvents 20 (n_trace n3)).
  { unfold chosen in Ch. unfold narStep1 in H. destruct (bestByState n) as [b0|]; [|discriminate]. cbn [rbind] in H, Ch.
    destruct (planForward n (i_u r) (i_plan r) b0) as [b1|]; [|discriminate]. cbn [rbind] in H, Ch.
    destruct (decide n true (i_u r) b1) as [n1|]; [|discriminate]. cbn [rbind] in H, Ch.
    destruct (execGoal n1) as [[n2' pk0]|]; [|discriminate]. cbn [rbind] in H, Ch.
    destruct (babble n2' (i_babble r) pk0) as [pk1|]; [|discriminate]. cbn [rbind] in H, Ch. injection Ch as -> ->.
    destruct (execAction n2 pk) as [n3|]; [|discriminate]. cbn [rbind] in H. exists n3. split; auto.
    set (n4 := setTrace n3 (traceLimit (n_trace n3))) in *.
    destruct (if Z.rem (n_t n4) 101 =? 1 then _ else _)%Z as [n5|] eqn:E6; [|discriminate]. cbn [rbind] in H.
    destruct (if Z.rem (n_t n5) 13 =? 1 then _ else _)%Z as [n6|] eqn:E7; [|discriminate]. cbn [rbind] in H.
    destruct (rfold _ (i_derive r) (n_goals n6)) as [g|] eqn:E8; [|discriminate]. cbn [rbind] in H.
    assert (n' = setTime (setGoals n6 g) (n_t n6 + 1)) by congruence. subst n'. clear H. cbn [n_trace setTime setGoals].
    assert (A5 : n_trace n5 = n_trace n4) by (destruct (Z.rem (n_t n4) 101 =? 1)%Z; [destruct (pLimit _ _); [|discriminate]; cbn [rbind] in E6|]; injection E6 as <-; reflexivity).
    assert (A6 : n_trace n6 = n_trace n5) by (destruct (Z.rem (n_t n5) 13 =? 1)%Z; [destruct (enforce true); [|discriminate]; cbn [rbind] in E7; destruct (limitGoals _ _ _); [|discriminate]; cbn [rbind] in E7|]; injection E7 as <-; reflexivity).
    rewrite A6, A5. cbn. apply limit_last. }
  destruct S as (n3 & Ea & Et). pose proof (action_spec _ _ _ Ea) as Ac. destruct pk as [t|].
  - destruct Ac as (args & name & A1 & A2). assert (D : decodeOp t = Some (args, name)) by now apply decodeOp_some. rewrite D in Hc. cbn [unwrap rbind fst snd] in Hc. injection Hc as <-.
    destruct A2 as [(A2 & ->)|(o & inj & rels & A2 & A3 & ->)].
    + exists []. rewrite app_nil_r, <- F3. split; auto. left. split; auto. destruct (ret_op_by_name (n_ops n2) name) eqn:R; auto. exfalso. apply ret_op_none in A2. congruence.
    + cbn [n_trace setTrace] in Et. rewrite F2, F3 in Et. eexists. split; [exact Et|]. right. exists t, inj. split; auto.
      pose proof A2 as R. apply ret_op_some in R. rewrite R. destruct (calls_performs (height t) _ _ _ _ _ (le_n _) A1 A2) as (inj' & P).
      destruct (performs_unique _ _ _ _ P _ _ A3) as (-> & ->). now rewrite <- F1.
  - injection Hc as <-. subst n3. exists []. rewrite app_nil_r, <- F3. split; auto.
Qed.
