(** Property C88: whatever the whole program believes follows from what was typed. *)
From Coq Require Import String Ascii ZArith Bool Lia List.
From Verif Require Import Base F64_Model Term_Model Term_Spec Unify_Spec Stamp_Model Tv_Model Sentence_Model Mem_Model Mem_Spec Cycle_Model Cycle_Spec Sched_Model Sched_Spec Props_Sched
  PMem_Model Goal_Model Proc_Model Proc_Spec ProcS_Model ProcX_Model Parser_Model Nar_Model Nar_Spec Whole_Model Whole_Spec Whole_Proofs Props_Whole Hear_Spec Hear_Proofs.
Import ListNotations.
Local Open Scope string_scope.
Local Open Scope list_scope.
Local Open Scope Z_scope.

(** In every run of all threads, whatever is typed: a belief or task follows from typed
    statements by the inference schemas and revision. *)
Theorem c88_beliefs : forall pf acts p verb nB maxC wired w s, (1 <= nB)%nat -> (forall o, In o (n_ops p) -> op_kind o <> OpNlpRel) -> Forall plainLine acts ->
  wrun pf acts (wholeMake p verb nB maxC wired) = Ok w -> inDecl (y_sh (w_decl w)) s -> derivable (stated pf (textsRead pf acts (wholeMake p verb nB maxC wired))) s.
Proof.
  intros pf acts p verb nB maxC wired w s L O F H B. destruct (run_hear pf acts p verb nB maxC wired w L O F H) as (heard & [A R _ _ _] & ->). apply evid_stated.
  destruct (c49_derivable _ _ _ _ _ _ (conj A (Nat.le_refl _)) R) as (D1 & D2). destruct B as [(a & Ha & ->)|(t & c & Hc & Hs)]; eauto.
Qed.
(** So is every answer, unless the question is about time; and it answers its question. *)
Theorem c88_answers : forall pf acts p verb nB maxC wired w q s, (1 <= nB)%nat -> (forall o, In o (n_ops p) -> op_kind o <> OpNlpRel) -> Forall plainLine acts ->
  wrun pf acts (wholeMake p verb nB maxC wired) = Ok w -> In (q, s) (y_log (w_decl w)) ->
  instanceOf (s_term s) q /\ s_punct s = JUGEMENT /\ (isTemporal q = false -> derivable (stated pf (textsRead pf acts (wholeMake p verb nB maxC wired))) s).
Proof.
  intros pf acts p verb nB maxC wired w q s L O F H B. destruct (run_hear pf acts p verb nB maxC wired w L O F H) as (heard & [A R _ _ _] & ->).
  destruct (c49_answers _ _ _ _ _ _ (conj A (Nat.le_refl _)) R q s B) as (X & Y & Z). split; [auto|]. split; [auto|]. intros T. apply evid_stated. auto.
Qed.
(** Its evidence are statements that were typed, each counted once. *)
Theorem c88_evidence : forall pf acts p verb nB maxC wired w s, (1 <= nB)%nat -> (forall o, In o (n_ops p) -> op_kind o <> OpNlpRel) -> Forall plainLine acts ->
  wrun pf acts (wholeMake p verb nB maxC wired) = Ok w -> inDecl (y_sh (w_decl w)) s ->
  NoDup (s_stamp s) /\ forall i, In i (s_stamp s) ->
    exists k t v, i = Z.of_nat k /\ nth_error (readings pf (textsRead pf acts (wholeMake p verb nB maxC wired))) k = Some (t, v, JUGEMENT, false).
Proof.
  intros pf acts p verb nB maxC wired w s L O F H B. split.
  - destruct (run_hear pf acts p verb nB maxC wired w L O F H) as (heard & [A R _ _ _] & _).
    destruct (c49_stamps _ _ _ _ _ _ (fun s (K : evid pf heard s) J => match K J with ex_intro _ k (ex_intro _ v (conj _ (conj _ (conj _ (conj _ (conj E _)))))) =>
      eq_ind_r (fun l => NoDup l) (NoDup_cons _ (fun N : In (Z.of_nat k) [] => N) (NoDup_nil Z)) E end) (conj A (Nat.le_refl _)) R) as (D1 & D2).
    destruct B as [(a & Ha & ->)|(t & c & Hc & Hs)]; eauto.
  - intros i Hi. eapply derivable_ids; [|exact Hi]. eapply c88_beliefs; eauto.
Qed.
(** The next id was never used. *)
Theorem c88_fresh : forall pf acts p verb nB maxC wired w s, (1 <= nB)%nat -> (forall o, In o (n_ops p) -> op_kind o <> OpNlpRel) -> Forall plainLine acts ->
  wrun pf acts (wholeMake p verb nB maxC wired) = Ok w -> inDecl (y_sh (w_decl w)) s -> ~ In (stampCtr (y_sh (w_decl w))) (s_stamp s).
Proof.
  intros pf acts p verb nB maxC wired w s L O F H B Hi. destruct (run_hear pf acts p verb nB maxC wired w L O F H) as (heard & [A R C _ _] & _).
  assert (D : derivable (stated pf (heard ++ [])) s).
  { apply evid_stated. destruct (c49_derivable _ _ _ _ _ _ (conj A (Nat.le_refl _)) R) as (D1 & D2). destruct B as [(a & Ha & ->)|(t & c & Hc & Hs)]; eauto. }
  rewrite app_nil_r in D. destruct (derivable_ids pf _ _ _ D Hi) as (k & t & v & E & N). assert (k < length (readings pf heard))%nat by (apply nth_error_Some; congruence). lia.
Qed.
(** What is read was typed. *)
Theorem c88_typed : forall pf acts w, incl (textsRead pf acts w) (flat_map typed acts).
Proof.
  intros pf. induction acts as [|a acts IH]; intros w; cbn [textsRead flat_map]; [easy|]. destruct (wstep pf a w) as [[w'|]|]; [| |easy].
  - apply incl_app; [apply incl_appl; apply incl_refl|apply incl_appr; apply IH].
  - apply incl_appr. apply IH.
Qed.

(** ** a session *)
Lemma session_plain : Forall plainLine session.
Proof.
  assert (P : forall l k, (starts (tx "!por ") (tx l) = true -> forall o, registered (words (skipn 5 (tx l))) = Some o -> op_kind o <> OpNlpRel) -> trimNewline (tx l ++ ["010"%char]) = tx l ->
    Forall plainLine (say l k)).
  { intros l k H E. constructor; [cbn [plainLine]; rewrite E; exact H|]. apply Forall_forall. intros a Ha. apply repeat_spec in Ha. subst. exact I. }
  unfold session, lesson, talk, store. repeat rewrite Forall_app. repeat split.
  all: first [apply P; [first [discriminate | (intros _ o E; vm_compute in E; injection E as <-; discriminate)]|reflexivity] | (apply Forall_forall; intros a Ha; apply repeat_spec in Ha; subst; exact I)].
Qed.
Definition ac : term := Stmt INH (Name "a") (Name "c").
(** the answer is what the two statements give, the two are its evidence *)
Example c88_ex : match wrun noNum session (begin (narInit [])) with
  | Ok w => match y_log (w_decl w) with
            | [(q, s)] => q = ac /\ s_term s = ac /\ s_stamp s = [3; 4] /\
                map (fun k => option_map (fun r => fst (fst (fst r))) (nth_error (readings noNum (textsRead noNum session (begin (narInit [])))) k)) [3; 4]%nat =
                [Some (Stmt INH (Name "a") (Name "b")); Some (Stmt INH (Name "b") (Name "c"))]
            | _ => False
            end
  | Panic => False
  end.
Proof. vm_compute. repeat split. Qed.
Example c88_ex_derivable : forall w, wrun noNum session (begin (narInit [])) = Ok w -> forall q s, In (q, s) (y_log (w_decl w)) -> isTemporal q = false ->
  derivable (stated noNum (textsRead noNum session (begin (narInit [])))) s.
Proof. intros w H q s Hq T. apply (c88_answers noNum session (narInit []) 1 10 50 true w q s); auto; [lia|exact session_plain]. Qed.
(** Finding: with ^nlpRel0 the program comes to believe what nobody stated. *)
Definition relLesson : list wact :=
  say "!por nlpRel0" 1 ++ say "<{cup} --> [near]>. :|:" 1 ++ say "!sp" 6 ++ say "<{({SELF} * <a --> b>)} --> ^nlpRel0>. :|:" 1 ++ say "!sp" 6 ++ say "<{cup} --> [held]>. :|:" 1 ++ say "!sp" 20 ++ store 40 ++
  say "<{cup} --> [seen]>. :|:" 1 ++ say "!sp" 20 ++ store 40 ++ say "<{cup} --> [held]>! :|:" 2 ++ say "!sp" 6 ++ say "<{cup} --> [near]>. :|:" 2 ++ say "!sp" 40.
Lemma nothing_stated : forall pf texts s, (forall k t v, nth_error (readings pf texts) k <> Some (t, v, JUGEMENT, false)) -> ~ derivable (stated pf texts) s.
Proof. intros pf texts s N D. induction D as [s (k & v & E & _) _| | |]; auto. exact (N _ _ _ E). Qed.
Theorem c88_rel_refuted : exists w s, wrun noNum relLesson (begin (narInit [])) = Ok w /\ inDecl (y_sh (w_decl w)) s /\ s_term s = Stmt INH (Name "a") (Name "b") /\
  ~ derivable (stated noNum (textsRead noNum relLesson (begin (narInit [])))) s.
Proof.
  destruct (wrun noNum relLesson (begin (narInit []))) as [w|] eqn:E; [|vm_compute in E; discriminate].
  assert (H : match wrun noNum relLesson (begin (narInit [])) with Ok w => map (fun t => s_term (tk_s t)) (heap (y_sh (w_decl w))) | Panic => [] end = [Stmt INH (Name "a") (Name "b")]) by (vm_compute; reflexivity).
  rewrite E in H. exists w, (tk_s (hget (heap (y_sh (w_decl w))) 0)). split; [reflexivity|]. split; [|split].
  - left. exists O. split; [|reflexivity]. apply (f_equal (@length term)) in H. rewrite map_length in H. cbn in H. lia.
  - unfold hget. destruct (heap (y_sh (w_decl w))) as [|x l]; [discriminate|]. now injection H as H _.
  - apply nothing_stated. intros k t v K. apply nth_error_In in K.
    assert (F : forallb (fun x => snd x) (readings noNum (textsRead noNum relLesson (begin (narInit [])))) = true) by (vm_compute; reflexivity).
    rewrite forallb_forall in F. specialize (F _ K). discriminate.
Qed.

Print Assumptions c88_beliefs.
Print Assumptions c88_answers.
Print Assumptions c88_evidence.
Print Assumptions c88_fresh.
Print Assumptions c88_typed.
Print Assumptions c88_rel_refuted.
