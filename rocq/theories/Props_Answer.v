(** Property C92: what is answered, and where answers about time come from. *)
From Coq Require Import String Ascii ZArith Bool Lia List Permutation.
From Verif Require Import Base F64_Model Term_Model Term_Spec Unify_Spec Stamp_Model Tv_Model Sentence_Model Mem_Model Cycle_Model Cycle_Spec Sched_Model PMem_Model Goal_Model Goal_Spec
  Proc_Model Proc_Spec ProcS_Model ProcX_Model Parser_Model Nar_Model Nar_Spec Whole_Model Whole_Spec Whole_Proofs Props_Whole Hear_Spec Hear_Proofs Props_Hear Live_Spec Live_Proofs LiveW_Spec Live2_Proofs
  Props_Live Answer_Spec Answer_Proofs.
Import ListNotations.
Local Open Scope string_scope.
Local Open Scope list_scope.
Local Open Scope Z_scope.

(** Whatever is typed and however the threads interleave: a question that is answered
    was typed; the answer is an instance of it; it follows from what was stated or, if
    the question is about time, it says what was learned in the life of this run. *)
Theorem c92_answers : forall pf acts cfg ops tab nMax depth verb nB maxC w, (1 <= c_nOpsMax cfg)%nat -> (1 <= nB)%nat -> (forall o, In o ops -> op_kind o <> OpNlpRel) -> Forall plainLine acts ->
  let start := wholeMake (mkPnar cfg ops tab 0 [] [] pmemMake (makeGoalSystem nMax depth)) verb nB maxC true in
  wrun pf acts start = Ok w ->
  exists H heard rest, lived H (w_proc w) /\ textsRead pf acts start = heard ++ rest /\ flat_map said H = flat_map aboutTime (readings pf heard) /\ (w_jobs w = [] -> rest = []) /\
    forall q s, In (q, s) (y_log (w_decl w)) -> asked pf heard q /\ instanceOf (s_term s) q /\ s_punct s = JUGEMENT /\
      (derivable (stated pf heard) s \/ isTemporal q = true /\ learned (n_ops (y_nar (w_proc w))) (n_table (y_nar (w_proc w))) H s).
Proof.
  intros pf acts cfg ops tab nMax depth verb nB maxC w Hc Hn Ho F start R.
  assert (I : ainv pf [] [] start).
  { constructor.
    - now apply start_hear.
    - exists [], []. split; [split; [now apply lv_start|intros z []]|auto].
    - reflexivity.
    - constructor; [intros q []|repeat constructor|exact I].
    - intros q s []. }
  destruct (ainv_run pf acts [] [] start w I F R) as (heard & L & [Hh (H & h1 & (Lv & Kp) & Sd & Tx) _ _ Hl] & E). cbn [app flat_map w_jobs start wholeMake] in *.
  apply app_inv_tail in Tx. subst h1. exists H, heard, (flat_map jobTexts (w_jobs w)). split; [auto|]. split; [symmetry; exact E|]. split; [auto|]. split; [now intros ->|].
  intros q s Hs. destruct (Hl q s Hs) as (A & D). split; [auto|]. destruct (c88_answers pf acts (mkPnar cfg ops tab 0 [] [] pmemMake (makeGoalSystem nMax depth)) verb nB maxC true w q s Hn Ho F R Hs) as (B1 & B2 & _). split; [auto|]. split; [auto|].
  destruct D as [D|(D1 & D2)]; [left|right; split; auto]. rewrite <- (app_nil_r heard). now apply evid_stated.
Qed.
(** Nothing is answered unless a question was typed. *)
Theorem c92_silent : forall pf acts cfg ops tab nMax depth verb nB maxC w, (1 <= c_nOpsMax cfg)%nat -> (1 <= nB)%nat -> (forall o, In o ops -> op_kind o <> OpNlpRel) -> Forall plainLine acts ->
  let start := wholeMake (mkPnar cfg ops tab 0 [] [] pmemMake (makeGoalSystem nMax depth)) verb nB maxC true in
  wrun pf acts start = Ok w -> (forall i t v, In i (flat_map typed acts) -> parseNarsese pf i <> Ok (Some (t, v, QUESTION, true))) -> y_log (w_decl w) = [].
Proof.
  intros pf acts cfg ops tab nMax depth verb nB maxC w Hc Hn Ho F start R N. destruct (y_log (w_decl w)) as [|[q s] l] eqn:E; [reflexivity|]. exfalso.
  destruct (c92_answers pf acts cfg ops tab nMax depth verb nB maxC w Hc Hn Ho F R) as (H & heard & rest & _ & Tx & _ & _ & A). fold start in Tx. rewrite E in A. destruct (A q s (or_introl eq_refl)) as ((v & Hv) & _).
  unfold readings in Hv. apply in_flat_map in Hv. destruct Hv as (i & Hi & Hp). apply (N i q v).
  - apply (c88_typed pf acts start). rewrite Tx. apply in_app_iff. now left.
  - destruct (parseNarsese pf i) as [[x|]|]; [|destruct Hp|destruct Hp]. destruct Hp as [->|[]]. reflexivity.
Qed.
(** Without typed temporal beliefs an answer about time that does not follow from what
    was stated says what was seen, or generalises it: some event, then operations, then
    another event, at increasing places of the life. *)
Theorem c92_seen : forall pf acts cfg ops tab nMax depth verb nB maxC w, (1 <= c_nOpsMax cfg)%nat -> (1 <= nB)%nat -> (forall o, In o ops -> op_kind o <> OpNlpRel) -> Forall plainLine acts ->
  let start := wholeMake (mkPnar cfg ops tab 0 [] [] pmemMake (makeGoalSystem nMax depth)) verb nB maxC true in
  wrun pf acts start = Ok w -> (forall i t v, In i (flat_map typed acts) -> parseNarsese pf i = Ok (Some (t, v, JUGEMENT, false)) -> isTemporal t = false) ->
  exists H, lived H (w_proc w) /\ forall q s, In (q, s) (y_log (w_decl w)) -> derivable (stated pf (textsRead pf acts start)) s \/ isTemporal q = true /\
    exists o i js k e0 es ek, general o s /\ s_term o = Stmt PREDIMPL (Seq (ev_name e0 :: map ev_name es)) (ev_name ek) /\ es <> [] /\
      Sorted.StronglySorted lt (i :: js ++ [k]) /\ nth_error (eventsIn H) i = Some e0 /\ Forall2 (fun j e => nth_error (eventsIn H) j = Some e) js es /\ nth_error (eventsIn H) k = Some ek /\
      (forall e, In e es -> callable (n_ops (y_nar (w_proc w))) (ev_name e)) /\ ev_name e0 <> ev_name ek.
Proof.
  intros pf acts cfg ops tab nMax depth verb nB maxC w Hc Hn Ho F start R N.
  destruct (c92_answers pf acts cfg ops tab nMax depth verb nB maxC w Hc Hn Ho F R) as (H & heard & rest & Lv & Tx & Sd & _ & A). fold start in Tx. exists H. split; [auto|].
  intros q s Hs. destruct (A q s Hs) as (_ & _ & _ & [D|(D1 & D2)]).
  { left. rewrite Tx. eapply derivable_mono; [|exact D]. intros x Hx _. now apply stated_more. }
  right. split; [auto|]. apply (learned_seen H (n_ops (y_nar (w_proc w))) (n_table (y_nar (w_proc w)))); auto.
  intros b Hb. assert (K : In (s_term b, None, JUGEMENT, false) (flat_map said H)) by (apply in_flat_map; exists (LBelief b); split; [auto|now left]).
  rewrite Sd in K. apply in_flat_map in K. destruct K as ([[[t v] p] ev] & K1 & K2). unfold readings in K1. apply in_flat_map in K1. destruct K1 as (i & Hi & Hp).
  destruct (parseNarsese pf i) as [[x|]|] eqn:P; [|destruct Hp|destruct Hp]. destruct Hp as [->|[]].
  assert (Ti : In i (flat_map typed acts)) by (apply (c88_typed pf acts start); rewrite Tx; apply in_app_iff; now left).
  destruct p; cbn in K2; destruct ev; try (destruct K2 as [K2|[]]; discriminate); try destruct K2. rewrite (N i t v Ti P) in K2. destruct K2.
Qed.

(** The program watches how a cup comes to be held, is then asked what leads to this, and
    says what it saw. *)
Definition inquiry : list wact := say "!por NOP ^left" 1 ++ lesson ++ store 11 ++ say "<?0 =/> <{cup} --> [held]>>? :|:" 20 ++ say "!s2" 40 ++ say "!QQ" 1.
Example c92_ex : match wrun noNum inquiry (begin (narInit [])) with
  | Ok w => map (fun a => (fst a, s_term (snd a), s_evi (snd a), s_stamp (snd a))) (y_log (w_decl w)) =
              [(Stmt PREDIMPL (QVar "0") (cup "held"), Stmt PREDIMPL (Seq [cup "near"; grasp]) (cup "held"), Some (CNT 3 3), [0; 1; 2])] /\ w_jobs w = []
  | Panic => False
  end.
Proof. vm_compute. split; reflexivity. Qed.
Lemma inquiry_plain : Forall plainLine inquiry.
Proof.
  assert (P : forall l k, (starts (tx "!por ") (tx l) = true -> forall o, registered (words (skipn 5 (tx l))) = Some o -> op_kind o <> OpNlpRel) -> trimNewline (tx l ++ ["010"%char]) = tx l ->
    Forall plainLine (say l k)).
  { intros l k H E. constructor; [cbn [plainLine]; rewrite E; exact H|]. apply Forall_forall. intros a Ha. apply repeat_spec in Ha. subst. exact I. }
  unfold inquiry, lesson. rewrite ?app_assoc. repeat (apply Forall_app; split).
  all: try (apply P; [|vm_compute; reflexivity]; first [(intros H; vm_compute in H; discriminate) | (intros _ o H; vm_compute in H; injection H as <-; discriminate)]).
  apply Forall_forall. intros a Ha. apply repeat_spec in Ha. subst. exact I.
Qed.
(** The answer does not follow from statements, there are none; it was learned. *)
Example c92_ex_learned : forall w, wrun noNum inquiry (begin (narInit [])) = Ok w -> exists H, lived H (w_proc w) /\ forall q s, In (q, s) (y_log (w_decl w)) ->
  learned (n_ops (y_nar (w_proc w))) (n_table (y_nar (w_proc w))) H s.
Proof.
  intros w R. destruct (c92_answers noNum inquiry defaultCfg [] defaultTable 20 8 1 10%nat 50 w ltac:(cbn; lia) ltac:(lia) ltac:(intros o []) inquiry_plain R) as (H & heard & rest & Lv & Tx & _ & _ & A).
  exists H. split; [auto|]. intros q s Hs. destruct (A q s Hs) as (_ & _ & _ & [D|(_ & D)]); [exfalso|auto]. revert D. apply nothing_stated. intros k t v K. apply nth_error_In in K.
  assert (E : forall x, In x (readings noNum (textsRead noNum inquiry (begin (narInit [])))) -> snd x = true).
  { apply Forall_forall. vm_compute. repeat constructor. }
  assert (K' : In (t, v, JUGEMENT, false) (readings noNum (textsRead noNum inquiry (begin (narInit []))))).
  { change (textsRead noNum inquiry (begin (narInit [])) = heard ++ rest) in Tx. rewrite Tx, readings_app. apply in_app_iff. now left. }
  apply E in K'. discriminate.
Qed.

Print Assumptions c92_answers.
Print Assumptions c92_silent.
Print Assumptions c92_seen.
