(** The terms of beliefs and goals. *)
From Coq Require Import String ZArith Bool Lia List Relations Sorted.
From Verif Require Import Base F64_Model Term_Model Term_Spec Term_Proofs Unify_Model Unify_Spec Unify_Proofs Stamp_Model Tv_Model Tv_Spec Sentence_Model
  Mem_Model PMem_Model Goal_Model Goal_Spec Goal_Proofs Proc_Model Proc_Spec ProcA_Proofs ProcP_Proofs ProcV_Proofs ProcS_Model ProcX_Model Speak_Spec Speak_Proofs ProcX_Spec.
Import ListNotations.
Local Open Scope list_scope.

(** * Calls *)
Lemma op_inst : forall sg t, opTerm t -> opTerm (inst sg t).
Proof. intros sg t (args & name & N & ->). exists (map (inst sg) args), name. split; [now apply map_ne|reflexivity]. Qed.
Lemma eqTerm_no : forall a b, a <> b -> checkEqTerm a b = false.
Proof. intros a b N. destruct (checkEqTerm a b) eqn:E; auto. apply checkEqTerm_eq in E. contradiction. Qed.
Lemma op_intro : forall ops repl w t, callable ops t -> ~ callPart ops repl -> opTerm (introHelper repl w t).
Proof.
  intros ops repl w t (args & name & o & (N & ->) & Ho & <-) H. cbn [introHelper map].
  rewrite !eqTerm_no.
  - exists (map (introHelper repl w) args), (op_name o). split; [now apply map_ne|reflexivity].
  - intros <-. apply H. right. right. eauto.
  - intros <-. apply H. right. left. eauto.
  - intros <-. apply H. right. left. eauto.
  - intros <-. apply H. left. exists args, (op_name o). auto.
Qed.
