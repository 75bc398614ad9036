(** Property C91: no event is counted twice for a belief, however long the life, although
    a stamp keeps no more than 120 evidence ids. *)
From Coq Require Import String Ascii ZArith Bool Lia List Permutation.
From Verif Require Import Base F64_Model Term_Model Term_Spec Term_Proofs Unify_Model Unify_Spec Stamp_Model Tv_Model Sentence_Model Mem_Model Cycle_Model PMem_Model Goal_Model Goal_Spec
  Proc_Model Proc_Spec ProcS_Model ProcX_Model Parser_Model Nar_Model Nar_Spec Whole_Model Whole_Spec Props_Whole Hear_Spec Live_Spec Live_Proofs LiveW_Spec Live2_Proofs Once_Proofs Once2_Proofs Once3_Proofs.
Import ListNotations.
Local Open Scope string_scope.
Local Open Scope list_scope.
Local Open Scope Z_scope.

(** The evidence a belief rests on is disjoint: no evidence id, that is the time of an
    event or the number of a typed belief, belongs to two of the things it was counted
    from. So each of several observations took three events or more of its own. *)
Theorem c91_once : forall H y s, lived H y -> (c_nOpsMax (n_cfg (y_nar y)) <= 24)%nat -> In s (cells (n_mem (y_nar y))) ->
  exists o os k, restsOn s o os k /\ (forall x, In x (o :: os) -> source (n_ops (y_nar y)) (n_table (y_nar y)) H x) /\ apart (o :: os) /\
    (os = [] \/ (3 * (length os + 1) <= length (eventsIn H))%nat).
Proof. exact counted_once. Qed.
(** Hence the evidence for a belief, unless it was merely typed, is bounded by the events:
    every three of them give no more than the evidence of one operation. *)
Theorem c91_bound : forall H y s p c E, lived H y -> (c_nOpsMax (n_cfg (y_nar y)) <= 24)%nat -> In s (cells (n_mem (y_nar y))) -> s_evi s = Some (CNT p c) ->
  (forall o, In o (n_ops (y_nar y)) -> op_evi o <= E) -> 0 <= E -> p = 10 \/ 3 * p <= E * Z.of_nat (length (eventsIn H)).
Proof.
  intros H y s p c E L Le Hs Ev HE E0. pose proof (lived_inv _ _ L) as V. destruct (c91_once H y s L Le Hs) as (o & os & k & (_ & Ed & _ & _ & R2 & Ev' & _) & So & _ & Ct).
  rewrite Ev' in Ev. injection Ev as Ep _. change (total posOf (o :: os) = p) in Ep.
  assert (Ob : forall x, In x (o :: os) -> In (LBelief x) H \/ posOf x <= E /\ (3 <= length (eventsIn H))%nat).
  { intros x Hx. destruct (So x Hx) as [B|(pre & tr & post & ops0 & Ee & Io & Ob)]; [auto|right].
    destruct Ob as (i & js & k0 & e0 & es & ek & lo & op0 & St & _ & Hj & Hk & _ & (op1 & rest & Ees & args & name & _ & Fn) & _ & _ & _ & _ & _ & _ & _ & _ & Evx & _).
    split; [unfold posOf; rewrite Evx; apply HE, Io; destruct Fn as (q1 & q2 & -> & _); apply in_app_iff; right; now left|].
    assert (k0 < length tr)%nat by (apply nth_error_Some; congruence). rewrite Ee, !app_length. destruct js as [|j js]; [inversion Hj; subst; discriminate|].
    inversion St as [|? ? S1 F1]; subst. inversion F1; subst. inversion S1 as [|? ? S2 F2]; subst. rewrite Forall_forall in F2. specialize (F2 k0 ltac:(apply in_app_iff; right; now left)). lia. }
  assert (Ty : forall x, In (LBelief x) H -> posOf x = 10 /\ s_expDt x = None) by (intros x Hx; destruct (li_typed _ _ V x Hx) as (t & id & u & ->); auto).
  destruct os as [|o1 os].
  - change (posOf o + 0 = p) in Ep. destruct (Ob o (or_introl eq_refl)) as [B|(B & Le3)]; [left; destruct (Ty o B); lia|right; nia].
  - right. destruct Ct as [Ct|Ct]; [discriminate|].
    assert (All : forall x, In x (o :: o1 :: os) -> posOf x <= E).
    { intros x Hx. destruct (Ob x Hx) as [B|(B & _)]; [|auto]. exfalso. destruct (Ty x B) as (_ & D). destruct Hx as [<-|Hx].
      - destruct (R2 o1 (or_introl eq_refl)) as (_ & d1 & d2 & E1 & _). congruence.
      - destruct (R2 x Hx) as (_ & d1 & d2 & _ & E2 & _). congruence. }
    assert (T : forall l, (forall x, In x l -> posOf x <= E) -> total posOf l <= E * Z.of_nat (length l)).
    { induction l as [|x l IH]; intros Hl; [cbn; lia|]. change (posOf x + total posOf l <= E * Z.of_nat (S (length l))). specialize (IH (fun z Hz => Hl z (or_intror Hz))). specialize (Hl x (or_introl eq_refl)). nia. }
    specialize (T _ All). rewrite Ep in T. assert (Z.of_nat (length (o :: o1 :: os)) * 3 <= Z.of_nat (length (eventsIn H))) by (cbn [length] in *; lia). nia.
Qed.
(** So this holds for all runs of the whole program. *)
Theorem c91_whole : forall pf acts cfg ops tab nMax depth verb nB maxC wired w, (1 <= c_nOpsMax cfg <= 24)%nat ->
  wrun pf acts (wholeMake (mkPnar cfg ops tab 0 [] [] pmemMake (makeGoalSystem nMax depth)) verb nB maxC wired) = Ok w ->
  exists H, lived H (w_proc w) /\ forall s, In s (cells (n_mem (y_nar (w_proc w)))) ->
    exists o os k, restsOn s o os k /\ (forall x, In x (o :: os) -> source (n_ops (y_nar (w_proc w))) (n_table (y_nar (w_proc w))) H x) /\ apart (o :: os) /\
      (os = [] \/ (3 * (length os + 1) <= length (eventsIn H))%nat).
Proof.
  intros pf acts cfg ops tab nMax depth verb nB maxC wired w Hc R. destruct (whole_lived pf acts cfg ops tab nMax depth verb nB maxC wired w ltac:(lia) R) as (H & heard & rest & L & _).
  exists H. split; auto. intros s Hs. apply (c91_once H (w_proc w) s); auto. change (limit (w_proc w) <= 24)%nat. rewrite (run_limit _ _ _ _ R). apply Hc.
Qed.

(** ** a long life *)
Definition idle : nat -> usage := fun _ => mkUsage 0 0.
Definition pause : act := XStep1 true (ln_step rnd1).
Definition lessonNr (j : nat) : list act :=
  let r := fun i : nat => mkSmp false (if Nat.eqb i 0 then [(Nat.min j 7 - 1)%nat] else []) (if Nat.leb j 7 then 3 * j - 3 else 18)%nat false 0 in
  [XEvent (cup "near"); pause; XEvent grasp; pause; XEvent (cup "held"); XStep0] ++ repeat (XMain 100 r) 4 ++ repeat (XWork (repeat 3%nat 24)) 40 ++ [pause].
Definition lessons (k : nat) : list act := flat_map lessonNr (seq 1 k).
(** The lesson is given 50 times. All of them are counted, at three units each, but the
    stamp holds 120 of the 150 ids only. Looking at the last lesson again then changes
    nothing. *)
Example c91_ex : match yrun idle (lessons 50 ++ XStep0 :: skipn 6 (lessonNr 50)) (ystart left3) with
  | Ok y => exists s, In s (cells (n_mem (y_nar y))) /\ s_term s = Stmt PREDIMPL (Seq [cup "near"; grasp]) (cup "held") /\ s_evi s = Some (CNT 150 150) /\ length (s_stamp s) = 120%nat
  | Panic => False
  end.
Proof. vm_compute. eexists. split; [left; reflexivity|]. repeat split. Qed.

Print Assumptions c91_once.
Print Assumptions c91_bound.
Print Assumptions c91_whole.
