(** Properties C89 and C90: where temporal beliefs come from, and why anything is done. *)
From Coq Require Import String Ascii ZArith Bool Lia List Permutation.
From Verif Require Import Base F64_Model Term_Model Term_Spec Term_Proofs Unify_Model Unify_Spec Stamp_Model Tv_Model Sentence_Model Mem_Model Cycle_Model PMem_Model Goal_Model Goal_Spec
  Proc_Model Proc_Spec ProcS_Model ProcX_Model Parser_Model Nar_Model Nar_Spec Whole_Model Whole_Spec Props_Whole Hear_Spec Live_Spec Live_Proofs LiveW_Spec Live2_Proofs.
Import ListNotations.
Local Open Scope string_scope.
Local Open Scope list_scope.
Local Open Scope Z_scope.

(** ** C89 *)
(** Every temporal belief rests on typed beliefs and on observations of events that
    happened in this order, counted as in [restsOn], and on missed predictions. *)
Theorem c89_beliefs : forall H y s, lived H y -> In s (cells (n_mem (y_nar y))) -> learned (n_ops (y_nar y)) (n_table (y_nar y)) H s.
Proof. intros H y s L. apply (li_cells _ _ (lived_inv _ _ L)). Qed.
(** The trace holds the last events of the life. *)
Theorem c89_trace : forall H y, lived H y -> exists pre, eventsIn H = pre ++ n_trace (y_nar y).
Proof. intros H y L. apply (li_trace _ _ (lived_inv _ _ L)). Qed.
(** what is learned from events only was seen *)
Lemma learned_seen : forall H ops tab s, (forall b, ~ In (LBelief b) H) -> learned ops tab H s ->
  exists o i js k e0 es ek, general o s /\ s_term o = Stmt PREDIMPL (Seq (ev_name e0 :: map ev_name es)) (ev_name ek) /\ es <> [] /\
    Sorted.StronglySorted lt (i :: js ++ [k]) /\ nth_error (eventsIn H) i = Some e0 /\ Forall2 (fun j e => nth_error (eventsIn H) j = Some e) js es /\ nth_error (eventsIn H) k = Some ek /\
    (forall e, In e es -> callable ops (ev_name e)) /\ ev_name e0 <> ev_name ek.
Proof.
  intros H ops tab s N (o & os & k0 & (G & _) & [B|S] & _); [destruct (N _ B)|].
  destruct S as (pre & tr & post & ops0 & E & Io & i & js & k & e0 & es & ek & lop & op0 & St & Hi & Hj & Hk & _ & (op1 & rest & Ees & _) & Hc & _ & _ & _ & Ne & Et & _).
  assert (Sh : forall j e, nth_error tr j = Some e -> nth_error (eventsIn H) (length pre + j) = Some e).
  { intros j e Hn. rewrite E, nth_error_app2 by lia. replace (length pre + j - length pre)%nat with j by lia. rewrite nth_error_app1; auto. apply nth_error_Some. congruence. }
  exists o, (length pre + i)%nat, (map (fun j => length pre + j)%nat js), (length pre + k)%nat, e0, es, ek.
  split; [auto|]. split; [auto|]. split; [now rewrite Ees|]. split.
  { replace ((length pre + i)%nat :: map (fun j => (length pre + j)%nat) js ++ [(length pre + k)%nat]) with (map (fun j => (length pre + j)%nat) (i :: js ++ [k])) by (cbn [map]; now rewrite map_app).
    generalize St. clear. generalize (i :: js ++ [k]). induction l as [|a l IH]; intros S; cbn [map]; constructor; inversion S; subst; auto.
    rewrite Forall_map. eapply Forall_impl; [|eassumption]. cbn. intros; lia. }
  split; [auto|]. split.
  { clear - Hj Sh. induction Hj; cbn [map]; constructor; auto. }
  split; [auto|]. split; [|auto].
  intros e He. destruct (Hc e He) as (args & name & o1 & Co & In1 & En). exists args, name, o1. auto.
Qed.
(** Without typed beliefs all of them say what was seen, or generalise it: some event,
    then operations, then another event, at increasing places of the life. *)
Theorem c89_seen : forall H y s, lived H y -> (forall b, ~ In (LBelief b) H) -> In s (cells (n_mem (y_nar y))) ->
  exists o i js k e0 es ek, general o s /\ s_term o = Stmt PREDIMPL (Seq (ev_name e0 :: map ev_name es)) (ev_name ek) /\ es <> [] /\
    Sorted.StronglySorted lt (i :: js ++ [k]) /\ nth_error (eventsIn H) i = Some e0 /\ Forall2 (fun j e => nth_error (eventsIn H) j = Some e) js es /\ nth_error (eventsIn H) k = Some ek /\
    (forall e, In e es -> callable (n_ops (y_nar y)) (ev_name e)) /\ ev_name e0 <> ev_name ek.
Proof. intros H y s L N Hs. apply (learned_seen H (n_ops (y_nar y)) (n_table (y_nar y))); auto. now apply c89_beliefs. Qed.
(** Its positive evidence never exceeds its evidence, and what it lacks are missed
    predictions. *)
Theorem c89_misses : forall H y s p c, lived H y -> In s (cells (n_mem (y_nar y))) -> s_evi s = Some (CNT p c) -> exists k, 0 <= k /\ c = p + k.
Proof.
  intros H y s p c L Hs E. pose proof (lived_inv _ _ L) as V. destruct (c89_beliefs H y s L Hs) as (o & os & k & (_ & _ & _ & K & _ & Ev & _) & So & Sos). exists k. split; auto.
  rewrite Ev in E. injection E as <- <-.
  assert (T : forall l, (forall x, In x l -> exists p, s_evi x = Some (CNT p p)) -> total posOf l = total cntOf l).
  { induction l as [|x l IH]; intros Hl; [reflexivity|]. cbn [total fold_right] in *. fold (total posOf l). fold (total cntOf l). rewrite IH by (intros; apply Hl; now right).
    destruct (Hl x (or_introl eq_refl)) as (p & Ep). unfold posOf, cntOf. now rewrite Ep. }
  change (total cntOf (o :: os) + k = total posOf (o :: os) + k). rewrite (T (o :: os)); [reflexivity|]. intros x [<-|Hx]; eapply source_shape; eauto; apply (li_typed _ _ V).
Qed.

(** ** C90 *)
(** Every goal is wanted: it was typed, is a subgoal of a wanted goal, or is an operation
    that, by the beliefs, leads to one. The belief it was derived with is a reason. *)
Theorem c90_goals : forall H y e, lived H y -> stored (n_goals (y_nar y)) e ->
  wanted (learned (n_ops (y_nar y)) (n_table (y_nar y)) H) (typedGoal H) (e_sentence e) /\
  forall a, e_evi e = Some a -> reason (learned (n_ops (y_nar y)) (n_table (y_nar y)) H) (typedGoal H) (s_term (e_sentence e)) (rd (cells (n_mem (y_nar y))) a).
Proof. intros H y e L S. apply (li_goals _ _ (lived_inv _ _ L) e S). Qed.
(** Nothing is done without a reason, and the reason was there before. *)
Theorem c90_deeds : forall H y, lived H y -> forall H1 x H2, H = H1 ++ x :: H2 -> accounted (n_ops (y_nar y)) (n_table (y_nar y)) H1 x.
Proof. intros H y L. apply (li_log _ _ (lived_inv _ _ L)). Qed.
Lemma wanted_typed : forall L G s, wanted L G s -> exists g, G g.
Proof. intros L G s W. induction W; eauto. Qed.
(** So nothing but random operations is done before a goal is typed. *)
Theorem c90_no_goal : forall H y H1 g evs H2, lived H y -> H = H1 ++ LAct g evs :: H2 -> exists g0, In (LGoal g0) H1.
Proof. intros H y H1 g evs H2 L E. destruct (c90_deeds H y L _ _ _ E) as (W & _). apply (wanted_typed _ _ _ W). Qed.
(** Nor before something was learned. *)
Theorem c90_no_lesson : forall H y H1 g evs H2, lived H y -> H = H1 ++ LAct g evs :: H2 -> (exists b, In (LBelief b) H1) \/ (3 <= length (eventsIn H1))%nat.
Proof.
  intros H y H1 g evs H2 L E. destruct (c90_deeds H y L _ _ _ E) as (_ & (b & (o & os & k0 & _ & [B|S] & _) & _) & _); [left; eauto|]. right.
  destruct S as (pre & tr & post & ops0 & Ee & _ & i & js & k & e0 & es & ek & lop & op0 & St & _ & Hj & Hk & _ & (op1 & rest & Ees & _) & _).
  assert (k < length tr)%nat by (apply nth_error_Some; congruence). rewrite Ee, !app_length. destruct js as [|j js]; [inversion Hj; subst; discriminate|].
  inversion St as [|? ? S1 F1]; subst. inversion F1; subst. inversion S1 as [|? ? S2 F2]; subst. rewrite Forall_forall in F2. specialize (F2 k ltac:(apply in_app_iff; right; now left)). lia.
Qed.
(** Every step of the reasoner goes on with the life. *)
Theorem c90_step : forall us H y a y', lived H y -> yact us y a = Ok (Some y') -> exists x, lived (H ++ x) y' /\ enters y a x.
Proof. exact life_goes_on. Qed.
(** All runs of the whole program, whatever is typed and however its threads interleave,
    are such lives. What is typed into them are the sentences about time among the
    texts that were read, each once and in order. *)
Theorem c90_whole : forall pf acts cfg ops tab nMax depth verb nB maxC wired w, (1 <= c_nOpsMax cfg)%nat ->
  let start := wholeMake (mkPnar cfg ops tab 0 [] [] pmemMake (makeGoalSystem nMax depth)) verb nB maxC wired in
  wrun pf acts start = Ok w -> exists H heard rest, lived H (w_proc w) /\ textsRead pf acts start = heard ++ rest /\
    flat_map said H = flat_map aboutTime (readings pf heard) /\ (w_jobs w = [] -> rest = []).
Proof. exact whole_lived. Qed.

(** ** the session of C87 *)
Definition isGrasp (e : event) : bool := if term_eq_dec (ev_name e) grasp then true else false.
Definition saysGrasp (x : term * option tv * punct * bool) : bool :=
  match x with (t, _, JUGEMENT, true) => if term_eq_dec t grasp then true else false | _ => false end.
(** operations that are not typed are babbled or done for a reason *)
Lemma untyped_grasp : forall H, (length (filter saysGrasp (flat_map said H)) < length (filter isGrasp (eventsIn H)))%nat ->
  exists H1 x H2 e, H = H1 ++ x :: H2 /\ isGrasp e = true /\ ((exists t evs, x = LBabble t evs /\ In e evs) \/ exists g evs, x = LAct g evs /\ In e evs).
Proof.
  assert (F : forall evs, filter isGrasp evs <> [] -> exists e, In e evs /\ isGrasp e = true).
  { intros evs N. destruct (filter isGrasp evs) as [|e l] eqn:E; [now destruct N|]. exists e. apply filter_In. rewrite E. now left. }
  induction H as [|x H IH]; intros Hl; [cbn in Hl; lia|].
  assert (K : (exists e, isGrasp e = true /\ ((exists t evs, x = LBabble t evs /\ In e evs) \/ exists g evs, x = LAct g evs /\ In e evs)) \/
    (length (filter saysGrasp (flat_map said H)) < length (filter isGrasp (eventsIn H)))%nat).
  { destruct x as [e|s|g|t evs|g evs].
    - right. unfold eventsIn in *. cbn [flat_map said app filter] in Hl. unfold isGrasp in Hl at 1. cbn [saysGrasp] in Hl. destruct (term_eq_dec (ev_name e) grasp); cbn [length] in Hl; lia.
    - right. exact Hl.
    - right. unfold eventsIn in *. cbn [flat_map said app filter saysGrasp] in Hl. exact Hl.
    - unfold eventsIn in Hl. cbn [flat_map said app] in Hl. fold (eventsIn H) in Hl. rewrite filter_app, app_length in Hl.
      destruct (filter isGrasp evs) as [|e l] eqn:E; [right; cbn [length] in Hl; lia|]. left. destruct (F evs ltac:(rewrite E; discriminate)) as (e0 & He & Ge). exists e0. split; auto. left. eauto.
    - unfold eventsIn in Hl. cbn [flat_map said app] in Hl. fold (eventsIn H) in Hl. rewrite filter_app, app_length in Hl.
      destruct (filter isGrasp evs) as [|e l] eqn:E; [right; cbn [length] in Hl; lia|]. left. destruct (F evs ltac:(rewrite E; discriminate)) as (e0 & He & Ge). exists e0. split; auto. right. eauto. }
  destruct K as [(e & Ge & D)|K]; [exists [], x, H, e; auto|]. destruct (IH K) as (H1 & z & H2 & e & -> & Ge & D). exists (x :: H1), z, H2, e. auto.
Qed.
Lemma plain_done : forall ops now t evs e, (forall o, In o ops -> op_kind o = OpPlain) -> doneAt ops now t evs -> In e evs -> ev_name e = t.
Proof.
  intros ops now t evs e P (args & name & _ & [->|(o & inj & rels & _ & Pf & ->)]) He; [destruct He|].
  assert (Q : forall o a n, opCall t a n -> firstNamed ops n o -> op_kind o = OpPlain) by (intros o1 a n _ (p & q & -> & _); apply P; apply in_app_iff; right; now left).
  assert (inj = []). { inversion Pf; subst; auto; match goal with H1 : opCall t _ _, H2 : firstNamed _ _ _, H3 : op_kind _ = OpExecAndInject |- _ => rewrite (Q _ _ _ H1 H2) in H3; discriminate H3 end. }
  subst inj. destruct He as [<-|[]]. reflexivity.
Qed.
(** The last event of the session was not typed. Hence it was done for a reason: some
    belief, learned before, says that it leads to something wanted; and what was wanted
    was typed before. *)
Example c90_ex : exists w H heard, wrun noNum session (begin (narInit [])) = Ok w /\ lived H (w_proc w) /\ flat_map said H = flat_map aboutTime (readings noNum heard) /\
  flat_map said H = [(cup "near", None, JUGEMENT, true); (grasp, None, JUGEMENT, true); (cup "held", None, JUGEMENT, true);
    (cup "held", Some (mkTv f1 (f_frac 9 10)), GOAL, true); (cup "near", None, JUGEMENT, true)] /\
  exists H1 g evs H2 b, H = H1 ++ LAct g evs :: H2 /\ s_term g = grasp /\ reason (learned (n_ops (y_nar (w_proc w))) (n_table (y_nar (w_proc w))) H1) (typedGoal H1) grasp b /\
    exists g0, In (LGoal g0) H1 /\ s_term g0 = cup "held".
Proof.
  destruct (wrun noNum session (begin (narInit []))) as [w|] eqn:R; [|exfalso; revert R; vm_compute; discriminate].
  destruct (c90_whole noNum session defaultCfg [] defaultTable 20 8 1 10%nat 50 true w ltac:(cbn; lia) R) as (H & heard & rest & L & Tx & Sd & Jb).
  assert (V : w_jobs w = [] /\ map ev_name (n_trace (y_nar (w_proc w))) = [cup "near"; grasp; cup "held"; cup "near"; grasp] /\ n_ops (y_nar (w_proc w)) = [mkOp "^left" true 3 OpPlain]).
  { revert R. clear. intros R. assert (E : match wrun noNum session (begin (narInit [])) with Ok w => w_jobs w = [] /\ map ev_name (n_trace (y_nar (w_proc w))) = [cup "near"; grasp; cup "held"; cup "near"; grasp] /\
      n_ops (y_nar (w_proc w)) = [mkOp "^left" true 3 OpPlain] | Panic => False end) by (vm_compute; auto). rewrite R in E. exact E. }
  destruct V as (Vj & Vt & Vo). rewrite (Jb Vj), app_nil_r in Tx.
  assert (Sv : flat_map said H = [(cup "near", None, JUGEMENT, true); (grasp, None, JUGEMENT, true); (cup "held", None, JUGEMENT, true);
    (cup "held", Some (mkTv f1 (f_frac 9 10)), GOAL, true); (cup "near", None, JUGEMENT, true)]).
  { rewrite Sd, <- Tx. vm_compute. reflexivity. }
  exists w, H, heard. split; [auto|]. split; [auto|]. split; [auto|]. split; [auto|].
  assert (Lt : (length (filter saysGrasp (flat_map said H)) < length (filter isGrasp (eventsIn H)))%nat).
  { rewrite Sv. destruct (c89_trace H _ L) as (pre & ->). rewrite filter_app, app_length.
    assert (E : forall l, length (filter isGrasp l) = length (filter (fun t => if term_eq_dec t grasp then true else false) (map ev_name l))).
    { induction l as [|a l IH]; [reflexivity|]. cbn [map filter]. unfold isGrasp at 1. destruct (term_eq_dec (ev_name a) grasp); cbn [length]; auto. }
    rewrite (E (n_trace _)), Vt. apply Nat.lt_le_trans with (m := length (filter (fun t => if term_eq_dec t grasp then true else false) [cup "near"; grasp; cup "held"; cup "near"; grasp])); [|lia].
    apply Nat.ltb_lt. vm_compute. reflexivity. }
  destruct (untyped_grasp H Lt) as (H1 & x & H2 & e & E & Ge & D). pose proof (c90_deeds H _ L H1 x H2 E) as Ac. unfold isGrasp in Ge. destruct (term_eq_dec (ev_name e) grasp) as [Eg|]; [|discriminate Ge].
  rewrite Vo in Ac. destruct D as [(t & evs & -> & He)|(g & evs & -> & He)].
  - exfalso. destruct Ac as (o & ops0 & now & _ & _ & -> & Io & Dn). assert (P : forall o, In o ops0 -> op_kind o = OpPlain) by (intros o1 H0; destruct (Io o1 H0) as [<-|[]]; reflexivity).
    pose proof (plain_done _ _ _ _ _ P Dn He) as X. rewrite Eg in X. discriminate X.
  - destruct Ac as (W & (b & Rb) & ops0 & now & Io & Dn). assert (P : forall o, In o ops0 -> op_kind o = OpPlain) by (intros o1 H0; destruct (Io o1 H0) as [<-|[]]; reflexivity).
    pose proof (plain_done _ _ _ _ _ P Dn He) as X. exists H1, g, evs, H2, b. split; [auto|]. split; [congruence|]. split; [rewrite Vo; congruence|].
    destruct (wanted_typed _ _ _ W) as (g0 & Hg). exists g0. split; [exact Hg|].
    assert (In (s_term g0, retTv g0, GOAL, true) (flat_map said H)) as Hs.
    { apply in_flat_map. exists (LGoal g0). split; [rewrite E; apply in_app_iff; now left|]. now left. }
    rewrite Sv in Hs. repeat (destruct Hs as [Hs|Hs]; [try discriminate Hs; injection Hs as Ht _; auto|]). destruct Hs.
Qed.
(** And the belief learned from the lesson is there, with its evidence. *)
Example c89_ex : match wrun noNum (say "!por NOP ^left" 1 ++ lesson ++ store 11) (begin (narInit [])) with
  | Ok w => exists s, In s (cells (n_mem (y_nar (w_proc w)))) /\ s_term s = Stmt PREDIMPL (Seq [cup "near"; grasp]) (cup "held") /\ s_evi s = Some (CNT 3 3) /\ s_stamp s = [0; 1; 2]
  | Panic => False
  end.
Proof. vm_compute. eexists. split; [left; reflexivity|]. repeat split. Qed.

Print Assumptions c89_beliefs.
Print Assumptions c89_trace.
Print Assumptions c89_seen.
Print Assumptions c89_misses.
Print Assumptions c90_goals.
Print Assumptions c90_deeds.
Print Assumptions c90_no_goal.
Print Assumptions c90_no_lesson.
Print Assumptions c90_step.
Print Assumptions c90_whole.
