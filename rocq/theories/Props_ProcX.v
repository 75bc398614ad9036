(** Property C85: no step of the procedural reasoner or of its storage worker
    panics. *)
From Coq Require Import String ZArith Bool Lia List Sorted Relations.
From Verif Require Import Base F64_Model Term_Model Term_Spec Stamp_Model Tv_Model Tv_Spec Sentence_Model Mem_Model PMem_Model
  Goal_Model Goal_Spec Proc_Model Proc_Spec ProcS_Model ProcX_Model Speak_Spec Speak_Proofs ProcX_Spec ProcX_Proofs ProcX2_Proofs ProcX3_Proofs ProcX4_Proofs ProcA_Proofs Term_Proofs.
Import ListNotations.
Local Open Scope string_scope.
Local Open Scope list_scope.
Local Open Scope Z_scope.

(** The steps that do not panic are the steps of the two threads. *)
Theorem c85_acts : forall us y y', ystep us y y' <-> exists a, yact us y a = Ok (Some y').
Proof. exact act_step. Qed.
(** As long as all remembered events can be learned from and all counters fit
    into 64 bits, nothing that can happen next panics, in either thread. *)
Theorem c85_never_panics : forall us y a, calmRun us y -> fairAct a -> yact us y a <> Panic.
Proof.
  intros us y a R F. destruct (run_yX us y R) as (Y & C). destruct (act_ok us y a C Y F) as (o & -> & _). discriminate.
Qed.
(** The same from the inputs: if every event that is typed in can be learned
    from and no operation injects events, no interleaving of the threads panics
    before the counters overflow. *)
Theorem c85_runs : forall us y M acts, fairStart y -> (forall a, 0 <= useCount (us a) < 2 ^ 63 /\ 0 <= lastUsed (us a)) -> 1 <= M ->
  (forall o, In o (n_ops (y_nar y)) -> op_kind o <> OpExecAndInject /\ op_evi o <= M) -> (Z.of_nat (length acts) + 1) * M < 2 ^ 63 ->
  (forall a, In a acts -> fairAct a /\ forall e, a = XEvent e -> safeEvent (n_ops (y_nar y)) e) -> yrun us acts y <> Panic.
Proof. intros us y M acts S U HM Ho B H E. destruct (runs_start us M acts y S U HM Ho B H) as (y' & E'). congruence. Qed.

(** ** a run *)
Definition cmd (n : string) : term := Stmt INH (SetExt [Prod [SetExt [Name "SELF"]]]) (Name n).
Definition has (s p : term) : term := Stmt INH s (SetInt [p]).
Definition left1 : list op := [mkOp "^left" true 5 OpPlain].
Definition begin1 : psys := ystart (narInit left1).
Definition fresh0 : nat -> usage := fun _ => mkUsage 0 0.
Definition pick0 : nat -> smp := fun i => mkSmp false (if Nat.eqb i 0 then [0%nat] else []) 0 false 0.
Definition draw0 (k : nat) : roundRnd := (0%nat, 0%nat, 0%nat).
Definition quiet : act := XStep1 true (mkIn 0 [] 1 (fun _ => f1) []).
Definition derive1 : act := XStep1 true (mkIn 0 [] 1 (fun _ => f1) [(f0, f0, draw0)]).
Definition want (t : term) : act := XGoal (newEternalSentenceByTv t GOAL (mkTv f1 (f_frac 98 100)) [98] 0).
Definition worker : list act := repeat (XWork (repeat 3%nat 24)) 12.
Definition learn (a b : term) : list act :=
  [XEvent a; quiet; XEvent (cmd "^left"); quiet; XEvent b; XStep0; XMain 100 pick0; XMain 100 pick0; XMain 100 pick0; XMain 100 pick0] ++ worker.

Definition cup (p : string) : term := has (Name "cup") (Name p).
(** The observation is stored, the goal is derived backwards, the operation is
    carried out once its condition holds again. *)
Definition cupRun : list act :=
  learn (cup "near") (cup "held") ++ worker ++ [want (cup "held"); derive1; XEvent (cup "near"); derive1].

Lemma begin1_fair : fairStart begin1.
Proof.
  exists defaultCfg, left1, defaultTable, 20, 8. split; [reflexivity|]. split; [cbn; lia|].
  split; [intros o [<-|[]]; change (1 <= 5 < 2 ^ 63); lia|]. split; [apply build_sorted|]. split; [vm_compute; discriminate|lia].
Qed.
Lemma unit1 : unit64 f1. Proof. split; [|split]; vm_compute; reflexivity. Qed.
Lemma quiet_fair : fairAct quiet. Proof. split; [reflexivity|]. intros z _. exact unit1. Qed.
Lemma derive1_fair : fairAct derive1. Proof. split; [reflexivity|]. intros z _. exact unit1. Qed.
Lemma worker_fair : forall a, In a worker -> fairAct a.
Proof.
  intros a H. apply repeat_spec in H. subst. intros d H. change (firstn 24 (repeat 3%nat 24)) with (repeat 3%nat 24) in H. apply repeat_spec in H. subst.
  vm_compute. discriminate.
Qed.
Lemma want_fair : forall t, fairAct (want t).
Proof. intros t. split; [reflexivity|]. exists (mkTv f1 (f_frac 98 100)). split; [reflexivity|]. split; (split; [|split]); vm_compute; reflexivity. Qed.
Lemma learn_fair : forall x z a, In a (learn x z) -> fairAct a.
Proof.
  intros x z a H. unfold learn in H. apply in_app_or in H. destruct H as [H|H]; [|now apply worker_fair].
  repeat (destruct H as [<-|H]; [first [exact I | exact quiet_fair]|]). destruct H.
Qed.
Ltac parts := repeat match goal with
  | H : occurs _ _ |- _ => apply occurs_inv in H; destruct H as [->|(? & ? & H)]; [now intros []|]
  | H : component _ _ |- _ => inversion H; clear H; subst
  | H : In _ (_ :: _) |- _ => destruct H as [<-|H]
  | H : In _ [] |- _ => destruct H
  end.
Lemma left_speakable : speakable (cmd "^left").
Proof. intros x O. unfold cmd in O. parts. Qed.
Lemma has_speakable : forall n p, speakable (has (Name n) (Name p)).
Proof. intros n p x O. unfold has in O. parts. Qed.
Lemma cup_safe : forall p, safeEvent left1 (cup p).
Proof.
  intros p. split; [apply has_speakable|]. intros x l [= <- <-] [(args & name & _ & E)|[(args & [E|E])|(o & [<-|[]] & E)]]; discriminate.
Qed.
Lemma cmd_safe : safeEvent left1 (cmd "^left").
Proof. split; [apply left_speakable|]. intros x l E. discriminate. Qed.

Lemma learn_event : forall x z e, In (XEvent e) (learn x z) -> e = x \/ e = cmd "^left" \/ e = z.
Proof.
  intros x z e H. unfold learn in H. apply in_app_or in H. destruct H as [H|H].
  - repeat (destruct H as [H|H]; [try discriminate; injection H as <-; auto|]). destruct H.
  - apply repeat_spec in H. discriminate.
Qed.
Lemma cup_run_fair : forall a, In a cupRun -> fairAct a /\ forall e, a = XEvent e -> safeEvent (n_ops (y_nar begin1)) e.
Proof.
  intros a H. unfold cupRun in H. apply in_app_or in H. change (n_ops (y_nar begin1)) with left1. destruct H as [H|H].
  - split; [eapply learn_fair; eauto|]. intros e ->. apply learn_event in H. destruct H as [->|[->| ->]]; auto using cup_safe, cmd_safe.
  - apply in_app_or in H. destruct H as [H|H].
    + split; [now apply worker_fair|]. intros e ->. apply repeat_spec in H. discriminate.
    + destruct H as [<-|[<-|[<-|[<-|[]]]]]; (split; [first [apply want_fair | apply derive1_fair | exact I]|]); intros e E; try discriminate. injection E as <-. apply cup_safe.
Qed.
Example c85_ex_safe : yrun fresh0 cupRun begin1 <> Panic.
Proof.
  apply (c85_runs fresh0 begin1 5).
  - exact begin1_fair.
  - intros a. cbn [fresh0 useCount lastUsed]. lia.
  - lia.
  - intros o [<-|[]]. split; [discriminate|]. cbn. lia.
  - change (length cupRun) with 38%nat. lia.
  - exact cup_run_fair.
Qed.
Example c85_ex_run : match yrun fresh0 cupRun begin1 with
  | Ok y => map ev_name (n_trace (y_nar y)) = [cup "near"; cmd "^left"; cup "held"; cup "near"; cmd "^left"] /\
            n_t (y_nar y) = 4 /\ map (fun e => s_term (e_sentence e)) (retEntries (n_goals (y_nar y))) = [cup "held"; Seq [cup "near"; cmd "^left"]; cup "near"] /\
            length (cells (n_mem (y_nar y))) = 28%nat
  | Panic => False
  end.
Proof. vm_compute. repeat split. Qed.

(** ** what the conditions are needed for *)
(** Finding: an event that gives the name of an operation a property is learned,
    generalised and used with another subject; then there is no operation to be
    carried out and the step panics. All inputs are fair. *)
Definition lostRun : list act :=
  learn (has (Name "^left") (Name "ready")) (Name "b") ++ worker ++ [want (Name "b"); derive1; XEvent (has (SetExt [Name "a"]) (Name "ready")); quiet].
Theorem c85_lost_op_refuted : exists us y acts, fairStart y /\ (forall a, In a acts -> fairAct a) /\
  (forall e, In (XEvent e) acts -> speakable e) /\ yrun us acts y = Panic.
Proof.
  exists fresh0, begin1, lostRun. split; [exact begin1_fair|]. split; [|split; [|vm_compute; reflexivity]].
  - intros a H. unfold lostRun in H. apply in_app_or in H. destruct H as [H|H]; [eapply learn_fair; eauto|].
    apply in_app_or in H. destruct H as [H|H]; [now apply worker_fair|].
    destruct H as [<-|[<-|[<-|[<-|[]]]]]; [apply want_fair|apply derive1_fair|exact I|apply quiet_fair].
  - intros e H. unfold lostRun in H. apply in_app_or in H. destruct H as [H|H].
    + apply learn_event in H. destruct H as [->|[->| ->]]; auto using has_speakable, left_speakable. intros x O. parts.
    + apply in_app_or in H. destruct H as [H|H]; [apply repeat_spec in H; discriminate|].
      destruct H as [H|[H|[H|[H|[]]]]]; try discriminate. injection H as <-. intros x O. unfold has in O. parts.
Qed.
(** Finding: after an event with an empty compound the step that carries out the
    learned operation panics when it prints the text. *)
Definition emptyRun : list act :=
  learn (has (Name "cup") (Prod [])) (cup "held") ++ worker ++ [want (cup "held"); derive1; XEvent (has (Name "cup") (Prod [])); quiet].
Theorem c85_empty_refuted : exists us y acts, fairStart y /\ (forall a, In a acts -> fairAct a) /\
  (forall e x l, In (XEvent e) acts -> e = Stmt INH x (SetInt l) -> ~ callPart (n_ops (y_nar y)) x) /\ yrun us acts y = Panic.
Proof.
  exists fresh0, begin1, emptyRun. split; [exact begin1_fair|]. split; [|split; [|vm_compute; reflexivity]].
  - intros a H. unfold emptyRun in H. apply in_app_or in H. destruct H as [H|H]; [eapply learn_fair; eauto|].
    apply in_app_or in H. destruct H as [H|H]; [now apply worker_fair|].
    destruct H as [<-|[<-|[<-|[<-|[]]]]]; [apply want_fair|apply derive1_fair|exact I|apply quiet_fair].
  - intros e x l H E. change (n_ops (y_nar begin1)) with left1. assert (N : x = Name "cup" \/ e = cmd "^left").
    { unfold emptyRun in H. apply in_app_or in H. destruct H as [H|H].
      - apply learn_event in H. destruct H as [H|[H|H]]; auto; rewrite H in E; left; now injection E.
      - apply in_app_or in H. destruct H as [H|H]; [apply repeat_spec in H; discriminate|].
        destruct H as [H|[H|[H|[H|[]]]]]; try discriminate. injection H as H. rewrite <- H in E. left. now injection E. }
    destruct N as [->|N]; [|rewrite N in E; discriminate].
    intros [(args & name & _ & E')|[(args & [E'|E'])|(o & [<-|[]] & E')]]; discriminate.
Qed.
(** Finding: a temporal belief that is typed in has no interval; the first
    observation of the same term stops the storing thread. *)
Definition typedRun : list act :=
  XBelief (Stmt PREDIMPL (Seq [cup "near"; cmd "^left"]) (cup "held")) 9 0 (repeat 3%nat 24) :: repeat (XMain 100 pick0) 3 ++ learn (cup "near") (cup "held").
Theorem c85_typed_refuted : exists us y b acts, fairStart y /\ (forall a, In a acts -> fairAct a /\ forall e, a = XEvent e -> safeEvent (n_ops (y_nar y)) e) /\
  (exists t id u draws, b = XBelief t id u draws /\ speakable t) /\ yrun us (b :: acts) y = Panic.
Proof.
  exists fresh0, begin1. eexists. exists (repeat (XMain 100 pick0) 3 ++ learn (cup "near") (cup "held")). split; [exact begin1_fair|]. split; [|split].
  - intros a H. change (n_ops (y_nar begin1)) with left1. apply in_app_or in H. destruct H as [H|H].
    + apply repeat_spec in H. subst. split; [exact I|discriminate].
    + split; [eapply learn_fair; eauto|]. intros e ->. apply learn_event in H. destruct H as [->|[->| ->]]; auto using cup_safe, cmd_safe.
  - exists (Stmt PREDIMPL (Seq [cup "near"; cmd "^left"]) (cup "held")), 9, 0%nat, (repeat 3%nat 24). split; [reflexivity|].
    intros x O. unfold cup, has, cmd in O. parts.
  - vm_compute. reflexivity.
Qed.
(** Finding: without the declarative reasoner the carried out operation panics. *)
Theorem c85_no_decl_refuted : exists us y acts r, fairStart y /\ (forall a, In a acts -> fairAct a /\ forall e, a = XEvent e -> safeEvent (n_ops (y_nar y)) e) /\
  (forall z, 0 <= z -> unit64 (i_decay r z)) /\ yrun us (acts ++ [XStep1 false r]) y = Panic /\ yrun us (acts ++ [XStep1 true r]) y <> Panic.
Proof.
  exists fresh0, begin1, (learn (cup "near") (cup "held") ++ worker ++ [want (cup "held"); derive1; XEvent (cup "near")]), (mkIn 0 [] 1 (fun _ => f1) []).
  split; [exact begin1_fair|]. split; [|split; [intros z _; exact unit1|split; vm_compute; [reflexivity|discriminate]]].
  intros a H. apply cup_run_fair. unfold cupRun. apply in_app_or in H. apply in_or_app. destruct H as [H|H]; [now left|right].
  apply in_app_or in H. apply in_or_app. destruct H as [H|H]; [now left|right]. destruct H as [<-|[<-|[<-|[]]]]; cbn; auto.
Qed.
(** Finding: one unlucky number for the name of a variable stops the storing
    thread (one of 16 is drawn, there are 15 characters). *)
Theorem c85_draw_refuted : exists us y acts draws, fairStart y /\ (forall a, In a acts -> fairAct a /\ forall e, a = XEvent e -> safeEvent (n_ops (y_nar y)) e) /\
  yrun us acts y <> Panic /\ yrun us (acts ++ [XWork draws]) y = Panic.
Proof.
  exists fresh0, begin1, (firstn 11 (learn (cup "near") (cup "held"))), [15%nat]. split; [exact begin1_fair|].
  split; [|split; vm_compute; [discriminate|reflexivity]].
  intros a H. apply cup_run_fair. unfold cupRun. apply in_or_app. left. rewrite <- (firstn_skipn 11). apply in_or_app. now left.
Qed.

Print Assumptions c85_acts.
Print Assumptions c85_never_panics.
Print Assumptions c85_runs.
Print Assumptions c85_lost_op_refuted.
Print Assumptions c85_empty_refuted.
Print Assumptions c85_typed_refuted.
Print Assumptions c85_no_decl_refuted.
Print Assumptions c85_draw_refuted.
