(** The limits set in the configuration stay as they are in the whole program. *)
From Coq Require Import String Ascii ZArith Bool Lia List Permutation Sorted.
From Verif Require Import Base F64_Model Term_Model Term_Spec Stamp_Model Tv_Model Sentence_Model Mem_Model PMem_Model Goal_Model Goal_Spec Cycle_Model Sched_Model Proc_Model Proc_Spec ProcC_Proofs
  ProcS_Model ProcX_Model Parser_Model Nar_Model Whole_Model Whole_Spec Whole_Proofs Whole2_Proofs Whole3_Proofs Hear_Spec Hear_Proofs Live_Spec Live_Proofs LiveW_Spec Live2_Proofs.
Import ListNotations.
Local Open Scope list_scope.
Local Open Scope Z_scope.

(** The number of operations per observation is never changed. *)
Definition limit (y : psys) : nat := c_nOpsMax (n_cfg (y_nar y)).
Lemma act_limit : forall us a y y', yact us y a = Ok (Some y') -> limit y' = limit y.
Proof.
  intros us a [n p c w] y' Y. unfold limit. destruct a as [e|s|t id u draws| |decl r|nB rs|draws]; cbn [yact] in Y.
  - destruct p; try discriminate. injection Y as <-. reflexivity.
  - destruct p; try discriminate. destruct (addEntry _ _ _ _ _); [|discriminate]. injection Y as <-. reflexivity.
  - destruct p; try discriminate. destruct (matchandintro_var1_sentence _ _); [|discriminate]. injection Y as <-. reflexivity.
  - destruct p; try discriminate. destruct (confirm n); [|discriminate]. injection Y as <-. reflexivity.
  - destruct p; try discriminate. destruct (narStep1 _ _ _) as [n'|] eqn:S; [|discriminate]. cbn [rbind] in Y. injection Y as <-. cbn [y_nar]. destruct (step1_spec _ _ _ _ S) as (_ & -> & _). reflexivity.
  - destruct p as [|[|a todo]|[|m ms]|now [|s todo]]; try discriminate.
    + destruct (traceStep n rs) as [[g ms]|]; [|discriminate]. injection Y as <-. reflexivity.
    + destruct (negConfirm _ _); [|discriminate]. injection Y as <-. reflexivity.
    + injection Y as <-. reflexivity.
    + destruct (Nat.ltb _ _); [|discriminate]. injection Y as <-. reflexivity.
    + injection Y as <-. reflexivity.
    + destruct (mem_add_evidence_internal _ _ _ _ _); [|discriminate]. injection Y as <-. reflexivity.
  - destruct w as [|s now [|a l] [|]|now [|s todo]]; destruct p; repeat match type of Y with
      | context [match ?x with [] => _ | _ :: _ => _ end] => destruct x as [|[? ?] ?]
      | context [rbind ?x _] => destruct x as [?|]; cbn [rbind] in Y
      | context [let '(_, _) := ?x in _] => destruct x
      end; try discriminate; injection Y as <-; reflexivity.
Qed.
Lemma proc_limit : forall w a w', procStep w a = Ok (Some w') -> limit (w_proc w') = limit (w_proc w).
Proof. intros w a w' P. apply proc_inv in P. destruct P as (p & Ep & ->). apply (act_limit _ _ _ _ Ep). Qed.
Lemma decl_limit : forall maxC w c w', declStep maxC w c = Ok (Some w') -> limit (w_proc w') = limit (w_proc w).
Proof. intros maxC w c w' H. destruct (decl_same _ _ _ _ H) as (-> & _). reflexivity. Qed.
Lemma job_limit : forall pf w j w', startJob pf w j = Ok (Some w') -> limit (w_proc w') = limit (w_proc w).
Proof.
  intros pf w j w' H. destruct j as [i draws| |r|t args|e sel| |o|b| | |]; cbn [startJob] in H.
  - destruct (parseNarsese pf i) as [r|] eqn:P; [|discriminate]. cbn [rbind] in H. destruct r as [[[[t v] p] ev]|]; [|injection H as <-; reflexivity].
    unfold putIn, takeId in H. set (id := stampCtr (y_sh (w_decl w))) in *. set (u := nextU (y_sh (w_decl w))) in H.
    set (d := setNextU (Datatypes.S u) (setStampCtr (id + 1) (y_sh (w_decl w)))) in H. set (w1 := wDecl w (withSh (w_decl w) d)) in H.
    cbn zeta in H. destruct (if w_verb w1 >=? 1 then _ else _); [|discriminate]. cbn [rbind] in H.
    change (limit (w_proc w)) with (limit (w_proc w1)).
    destruct ev; [|destruct (isTemporal t) eqn:Tm]; destruct p; first [injection H as <-; reflexivity | apply (decl_limit _ _ _ _ H) | apply (proc_limit _ _ _ H)].
  - apply (proc_limit _ _ _ H).
  - destruct (nlpOf _ r) as [cs|]; [|discriminate]. cbn [rbind] in H. destruct (procStep w (XStep1 true r)) as [[w1|]|] eqn:P; cbn [rbind] in H; try discriminate. injection H as <-.
    rewrite <- (proc_limit _ _ _ P). destruct w1. reflexivity.
  - destruct args as [|a0 [|rel [|? ?]]]; try (injection H as <-; reflexivity). destruct (rewriteRel rel); [|discriminate]. cbn [rbind] in H.
    destruct (convTermToStr rel); [|discriminate]. cbn [rbind] in H. destruct (convTermToStr _); [|discriminate]. cbn [rbind] in H. unfold takeId in H.
    rewrite (decl_limit _ _ _ _ H). reflexivity.
  - apply (decl_limit _ _ _ _ H).
  - apply (decl_limit _ _ _ _ H).
  - destruct (w_proc w) as [n m c k] eqn:Ep. injection H as <-. reflexivity.
  - destruct (w_proc w) as [n m c k] eqn:Ep. injection H as <-. reflexivity.
  - destruct (debugEvidence _); [|discriminate]. injection H as <-. reflexivity.
  - destruct (debugTasks _); [|discriminate]. injection H as <-. reflexivity.
  - injection H as <-. reflexivity.
Qed.
Lemma run_limit : forall pf acts w w', wrun pf acts w = Ok w' -> limit (w_proc w') = limit (w_proc w).
Proof.
  induction acts as [|a acts IH]; intros w w' H; cbn [wrun] in H; [injection H as <-; reflexivity|].
  destruct (wstep pf a w) as [[w1|]|] eqn:E; cbn [rbind] in H; [|auto|discriminate]. rewrite (IH _ _ H). clear H IH.
  destruct a as [line r|rs| |draws]; cbn [wstep] in E.
  - destruct (mainFree w); [|discriminate]. destruct (w_jobs w); [|discriminate E]. destruct (w_quit w); [discriminate E|].
    destruct (lineJobs line r); [|discriminate]. cbn [rbind] in E. injection E as <-. reflexivity.
  - destruct (y_main (w_proc w)); try (apply (proc_limit _ _ _ E)). destruct (y_clients (w_decl w)) as [|[| |] ?]; try (apply (decl_limit _ _ _ _ E)).
    destruct (w_jobs w) as [|j jl]; [discriminate E|]. rewrite (job_limit _ _ _ _ E). reflexivity.
  - apply (decl_limit _ _ _ _ E).
  - apply (proc_limit _ _ _ E).
Qed.
