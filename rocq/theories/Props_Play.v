(** C108: the program "envPong3". *)
From Coq Require Import String ZArith Bool Lia List.
From Verif Require Import Base F64_Model Term_Model Tv_Model Tv_Spec Sentence_Model Mem_Model Cycle_Model PMem_Model Goal_Model Proc_Model Proc_Spec
  ProcS_Model ProcX_Model Parser_Model Nar_Model Env_Model Env_Spec Env_Proofs Play_Model Play_Spec Play_Proofs Play2_Proofs Play3_Proofs.
Import ListNotations.
Local Open Scope list_scope.
Local Open Scope Z_scope.

Lemma run_played : forall pf acts n q, played pf n q -> Forall fairMove acts -> (n + Z.of_nat (length acts)) * 3 < 2 ^ 63 ->
  (exists q' n', progRun pf acts q = Ok q' /\ played pf n' q' /\ n <= n' <= n + Z.of_nat (length acts)) \/
  (progRun pf acts q = Panic /\ exists l1 l2 a q' n', acts = l1 ++ a :: l2 /\ progRun pf l1 q = Ok q' /\ played pf n' q' /\ stuckEnd q' a).
Proof.
  intros pf acts. induction acts as [|a l IH]; intros n q P F L; cbn [progRun length] in *; [left; exists q, n; split; auto; split; auto; lia|].
  inversion F as [|? ? Fa Fl]; subst. rewrite Nat2Z.inj_succ in L. destruct (prog_ok pf n q a) as [(o & E & _)|(S & E)]; auto; [apply (played_inv pf); auto; lia|lia| |].
  - rewrite E. cbn [rbind]. destruct o as [q1|].
    + destruct (IH (n + 1) q1) as [(q' & n' & R & P' & B)|(R & l1 & l2 & b & q' & n' & -> & R1 & P' & S)]; auto; [eapply pl_step; eauto|lia| |].
      * left. exists q', n'. split; auto. split; auto. lia.
      * right. split; auto. exists (a :: l1), l2, b, q', n'. split; [reflexivity|]. split; [|auto]. cbn [progRun]. rewrite E. exact R1.
    + destruct (IH n q) as [(q' & n' & R & P' & B)|(R & l1 & l2 & b & q' & n' & -> & R1 & P' & S)]; auto; [lia| |].
      * left. exists q', n'. split; auto. split; auto. lia.
      * right. split; auto. exists (a :: l1), l2, b, q', n'. split; [reflexivity|]. split; [|auto]. cbn [progRun]. rewrite E. exact R1.
  - right. rewrite E. split; [reflexivity|]. exists [], l, a, q, n. split; [reflexivity|]. split; [reflexivity|auto].
Qed.
(** However the two threads take turns and whatever is drawn, nothing panics before the game
    is over, and then only the check for missing evidence. *)
Theorem c108_safe : forall pf acts, Forall fairMove acts -> Z.of_nat (length acts) * 3 < 2 ^ 63 -> progRun pf acts pongStart = Panic ->
  exists l1 l2 rs r d q, acts = l1 ++ AMain rs r d :: l2 /\ progRun pf l1 pongStart = Ok q /\ q_pc q = PShow /\ pcs (n_mem (y_nar (q_sys q))) = [].
Proof.
  intros pf acts F L E. destruct (run_played pf acts 0 pongStart (pl_start pf) F ltac:(lia)) as [(q & n & R & _)|(_ & l1 & l2 & a & q & n & -> & R & _ & S1 & S2 & rs & r & d & ->)]; [congruence|].
  exists l1, l2, rs, r, d, q. auto.
Qed.
(** what holds after any number of steps: the environment is one of the states of C45, the
    clocks of the program, the reasoner and the environment agree *)
Theorem c108_clock : forall pf n q, played pf n q -> n * 3 < 2 ^ 63 ->
  pongRun makePong (q_env q) /\ 0 <= q_t q <= 5000 /\
  n_t (y_nar (q_sys q)) = (match q_pc q with PSim | PShow | PDone _ => q_t q + 1 | _ => q_t q end) /\
  time (q_env q) = (match q_pc q with PShow | PDone _ => q_t q + 1 | _ => q_t q end).
Proof. intros pf n q P L. destruct (played_inv _ _ _ P L) as [_ _ _ _ _ I6 _ I8 _ I10 I11]. auto. Qed.
(** before it decides, the reasoner has just been told where the ball is now *)
Theorem c108_told : forall pf n q, played pf n q -> n * 3 < 2 ^ 63 -> q_pc q = PHalf1 ->
  exists pre, n_trace (y_nar (q_sys q)) = pre ++ [mkEvent (Name (percept (q_env q))) (q_t q) (q_t q)].
Proof. exact told_last. Qed.
(** what it decides: the bat moves exactly when the call of that operator is remembered *)
Theorem c108_does : forall pf n q rs r dr q', played pf n q -> n * 3 < 2 ^ 63 -> q_pc q = PHalf1 -> progStep pf (AMain rs r dr) q = Ok (Some q') ->
  (q_env q' = q_env q /\ n_trace (y_nar (q_sys q')) = lastEvents 20 (n_trace (y_nar (q_sys q)))) \/
  (exists o t args, opCall t args (match o with OpL => "^L" | OpR => "^R" end)%string /\ q_env q' = callPong o (q_env q) /\
    n_trace (y_nar (q_sys q')) = lastEvents 20 (n_trace (y_nar (q_sys q)) ++ [mkEvent t (q_t q) (q_t q)])).
Proof. exact does. Qed.
(** until the end one of the two threads can always go on *)
Theorem c108_go_on : forall pf n q rs r d ds, played pf n q -> (n + 1) * 3 < 2 ^ 63 -> fairMove (AMain rs r d) -> fairMove (AWork ds) ->
  (forall x, q_pc q <> PDone x) -> ~ (q_pc q = PShow /\ pcs (n_mem (y_nar (q_sys q))) = []) ->
  (exists q', progStep pf (AMain rs r d) q = Ok (Some q')) \/ (exists q', progStep pf (AWork ds) q = Ok (Some q')).
Proof. intros pf n q rs r d ds P L Fa Fb H1 H2. apply (goes_on pf n); eauto. Qed.
(** the first ball always lands within 34 steps *)
Theorem c108_lands : forall e, pongRun makePong e -> 34 <= time e -> 1 <= hits e + misses e.
Proof. intros e R T. apply (lands e R T). Qed.
(** The result is the share of balls hit in 5001 rounds; it is always a number from 0 to 1. *)
Theorem c108_score : forall pf n q x, played pf n q -> n * 3 < 2 ^ 63 -> q_pc q = PDone x ->
  time (q_env q) = 5001 /\ 1 <= hits (q_env q) + misses (q_env q) <= 500 /\ x = fdiv (f_of_Z (hits (q_env q))) (f_of_Z (misses (q_env q) + hits (q_env q))) /\ unit64 x.
Proof.
  intros pf n q x P L E. destruct (played_inv _ _ _ P L) as [_ _ _ _ _ I6 _ I8 I9 _ I11]. unfold simBy in I11. rewrite E in I11. assert (T : q_t q = 5000) by (apply I9; right; eauto).
  assert (T1 : time (q_env q) = 5001) by lia. assert (Pc := run_paced _ I6). destruct (lands _ I6 ltac:(lia)) as (H & M & S). assert (Ex := ends _ _ _ _ P L E).
  split; [exact T1|]. split; [lia|]. split; [exact Ex|]. rewrite Ex. apply ratio_ok; auto. apply Z.le_trans with 500; [lia|]. now vm_compute.
Qed.
(** The average of several runs is a number from 0 to 1. *)
Theorem c108_average : forall l, (1 <= length l <= 1000)%nat -> Forall unit64 l -> unit64 (peScore l).
Proof. exact average_ok. Qed.

(** a game in which the operator is tried out five times; the balls come down at column 7 *)
Definition noText : text -> option f64 := fun _ => None.
Definition pick0 : nat -> smp := fun i => mkSmp false (if Nat.eqb i 0 then [0%nat] else []) 0 false 0.
Definition noSmp : nat -> smp := fun _ => mkSmp false [] 0 false 0.
Definition mv (s : nat -> smp) (b : nat) : pact := AMain s (mkIn 0 [] b (fun _ => f1) []) (mkDraws 3 14 1).
Definition tryOut : list pact := repeat (mv pick0 1) 35 ++ concat (repeat [mv pick0 17; AWork (repeat 3%nat 24)] 30).
Definition seen (o : res prog) : option (ppc * Z * Z * nat) :=
  match o with Ok q => Some (q_pc q, hits (q_env q), misses (q_env q), length (pcs (n_mem (y_nar (q_sys q))))) | Panic => None end.
Lemma mv_fair : forall s b, fairMove (mv s b).
Proof. intros s b. cbn. split; [intros z _; split; [|split]; vm_compute; reflexivity|lia]. Qed.
Lemma work_fair : fairMove (AWork (repeat 3%nat 24)).
Proof. intros d Hd. apply firstn_In in Hd || idtac. revert d Hd. apply Forall_forall. vm_compute. repeat constructor; discriminate. Qed.
Example c108_ex : Forall fairMove (tryOut ++ repeat (mv noSmp 17) (Z.to_nat 35000)) /\
  seen (progRun noText (tryOut ++ repeat (mv noSmp 17) (Z.to_nat 35000)) pongStart) = Some (PDone (fdiv (f_of_Z 382) (f_of_Z 383)), 382, 1, 2%nat).
Proof.
  split.
  - apply Forall_app. split; [unfold tryOut; apply Forall_app; split|]; apply Forall_forall; intros a Ha.
    + apply repeat_spec in Ha. subst. apply mv_fair.
    + apply in_concat in Ha. destruct Ha as (l & Hl & Ha). apply repeat_spec in Hl. subst l. destruct Ha as [<-|[<-|[]]]; [apply mv_fair|apply work_fair].
    + apply repeat_spec in Ha. subst. apply mv_fair.
  - vm_cast_no_check (@eq_refl (option (ppc * Z * Z * nat)) (Some (PDone (fdiv (f_of_Z 382) (f_of_Z 383)), 382, 1, 2%nat))).
Qed.
(** Finding: if no operator happens to be tried out, nothing is learned and the program ends
    with the panic for "a fatal bug". *)
Theorem c108_no_evidence_refuted : exists pf acts, Forall fairMove acts /\ Z.of_nat (length acts) * 3 < 2 ^ 63 /\ progRun pf acts pongStart = Panic.
Proof.
  exists noText, (repeat (mv pick0 17) (Z.to_nat 35008)). split; [apply Forall_forall; intros a Ha; apply repeat_spec in Ha; subst; apply mv_fair|]. split; [rewrite repeat_length, Z2Nat.id; lia|].
  vm_cast_no_check (@eq_refl (res prog) Panic).
Qed.
Print Assumptions c108_safe.
Print Assumptions c108_clock.
Print Assumptions c108_told.
Print Assumptions c108_does.
Print Assumptions c108_go_on.
Print Assumptions c108_lands.
Print Assumptions c108_score.
Print Assumptions c108_average.
Print Assumptions c108_no_evidence_refuted.
