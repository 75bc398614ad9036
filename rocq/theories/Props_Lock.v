(** Property C95: no thread waits for a lock or for room in a queue for ever, unless "!dt"
    is typed. *)
From Coq Require Import String Ascii ZArith Arith Bool List Relations Lia.
From Verif Require Import Base Term_Model Sentence_Model Cycle_Model Sched_Model Parser_Model Nar_Model Proc_Model Whole_Model
  Lock_Model Lock_Spec Lock_Proofs Props_Whole.
Import ListNotations.
Local Open Scope string_scope.
Local Open Scope list_scope.
Local Open Scope nat_scope.

(** Waiting is waiting: such a thread cannot move. And nothing else stops a thread:
    one that cannot move rests or waits for another. *)
Theorem c95_waits : forall st i j, waitsFor st i j -> ~ canMove st i.
Proof. exact waits_stuck. Qed.
Theorem c95_reason : forall clients st i, reachL lineL clients st -> i < length (k_threads st) -> ~ canMove st i ->
  atRest st i \/ exists j, waitsFor st i j.
Proof.
  intros clients st i R L N. pose proof (reach_good _ _ _ lineL_fits R) as G.
  destruct (step_or_wait _ _ i G L) as [(t & t' & g & T & D & _) | X]; [| exact X].
  exfalso. apply N. exists 0. eexists. eapply did_lmove; eauto.
Qed.

(** Without "!dt", with any number of connections, in whatever order the threads
    move and whatever the data decides: no thread waits, through others, for itself. *)
Theorem c95_no_circle : forall clients st i, reachL lineL clients st -> ~ waitsChain st i i.
Proof. intros clients st i R. exact (no_circle _ _ _ (reach_good _ _ _ lineL_fits R)). Qed.

(** Behind every thread that does not rest there is one that can move. *)
Theorem c95_someone : forall clients st i, reachL lineL clients st -> i < length (k_threads st) -> ~ atRest st i ->
  exists j, clos_refl_trans nat (waitsFor st) i j /\ canMove st j.
Proof.
  intros clients st i R L N. pose proof (reach_good _ _ _ lineL_fits R) as G.
  destruct (someone_moves _ _ G 28 i (ltac:(lia)) L N) as (j & C & (t & t' & g & T & D & _)).
  exists j. split; [exact C |]. exists 0. eexists. eapply did_lmove; eauto.
Qed.

(** Whatever has happened, all threads can finish what they do: then all of them
    rest, every lock is given back and the queues are empty. *)
Theorem c95_finish : forall clients st, reachL lineL clients st ->
  exists st', runs st st' /\ (forall i, i < length (k_threads st') -> atRest st' i) /\
    (forall i t m l, threadAt st' i t -> ~ has t m l) /\ forall q, queued q st' = 0.
Proof.
  intros clients st R. destruct (finish _ _ (reach_good _ _ _ lineL_fits R)) as (st' & X & G & A).
  exists st'. split; [exact X | split; [exact A | split; [exact (rest_no_locks _ _ G A) | exact (rest_no_messages _ _ G A)]]].
Qed.

(** * Running the model *)
(** thread [i] moves until it stands before a choice and there is none left *)
Fixpoint play (fuel i : nat) (cs : list nat) (st : locks) : locks :=
  match fuel with
  | O => st
  | S fuel =>
      match nth_error (k_threads st) i with
      | Some (mkThread (Do (Or _ _) :: _) _) | Some (mkThread (Do (Many _) :: _) _) | Some (mkThread (Do (One _) :: _) _) =>
          match cs with
          | [] => st
          | n :: cs => match lmove st i n with Some st' => play fuel i cs st' | None => st end
          end
      | _ => match lmove st i 0 with Some st' => play fuel i cs st' | None => st end
      end
  end.
Lemma play_reach line clients fuel i cs st : reachL line clients st -> reachL line clients (play fuel i cs st).
Proof.
  revert cs st. induction fuel as [| fuel IH]; intros cs st R; [exact R |]. cbn [play].
  assert (S0 : forall n cs', reachL line clients (match lmove st i n with Some st' => play fuel i cs' st' | None => st end)).
  { intros n cs'. destruct (lmove st i n) eqn:E; [apply IH; econstructor; eauto | exact R]. }
  destruct (nth_error (k_threads st) i) as [[[| [[] | ] ?] ?] |]; try apply S0; destruct cs; auto.
Qed.
(** the main thread types a cycle and sends a message; then "!dt", and it stands before the next task *)
Definition cycleSends : list nat := [0; 0; 0; 1; 1; 0; 0; 0; 0; 0; 1; 0; 0; 0; 0; 0].
(** the deriver has a conclusion for which there is no task yet *)
Definition concludes : list nat := [0; 0; 0; 0; 0; 1; 1; 0; 0; 1; 0; 0].
Definition beforeDt : locks := play 400 1 concludes (play 400 0 cycleSends (startL lineDtL 0)).
Definition stuck : locks := play 400 0 [1; 0] (play 400 1 [1] (play 400 0 [1; 1; 0] beforeDt)).
(** Finding: "!dt" can stop the program for ever. The main thread holds the task table
    for reading and asks again to read it; between the two the deriver has asked to
    write it. Each waits for the other and no thread ever moves again. *)
Theorem c95_dt_refuted : exists st, reachL lineDtL 0 st /\ waitsFor st 0 1 /\ waitsFor st 1 0 /\ (forall i, ~ canMove st i) /\
  forall st', runs st st' -> st' = st.
Proof.
  exists stuck.
  assert (M : forall i, ~ canMove stuck i).
  { intros [| [| [| i]]] (n & st' & E).
    - assert (X : lmove stuck 0 n = None) by (vm_compute; reflexivity). congruence.
    - assert (X : lmove stuck 1 n = None) by (vm_compute; reflexivity). congruence.
    - assert (X : lmove stuck 2 n = None) by (vm_compute; reflexivity). congruence.
    - assert (X : nth_error (k_threads stuck) (S (S (S i))) = None) by (apply nth_error_None; vm_compute; lia).
      unfold lmove in E. rewrite X in E. discriminate E. }
  split; [do 5 apply play_reach; constructor |].
  destruct (nth_error (k_threads stuck) 0) as [t |] eqn:T; [| vm_compute in T; discriminate T].
  destruct (nth_error (k_threads stuck) 1) as [u |] eqn:U; [| vm_compute in U; discriminate U].
  assert (Ht : has t Rd LShared) by (apply in_heldF; revert T; vm_compute; intro T; inversion T; cbn; auto).
  assert (Wt : wants t Rd LShared) by (revert T; vm_compute; intro T; inversion T; do 2 eexists; reflexivity).
  assert (Wu : wants u Wr LShared /\ th_waits u = true) by (revert U; vm_compute; intro U; inversion U; split; [do 2 eexists; reflexivity | reflexivity]).
  split; [| split; [| split; [exact M |]]].
  - exact (wf_fair _ _ _ _ _ _ T U (ltac:(discriminate)) Wt (proj1 Wu) (proj2 Wu)).
  - refine (wf_held _ _ _ _ _ _ _ _ U T (proj1 Wu) (fun _ => proj2 Wu) Ht _). intros (X & _). discriminate X.
  - intros st' R. destruct R as [| st st1 st2 i n E _]; [reflexivity |]. exfalso. exact (M i (ex_intro _ n (ex_intro _ st1 E))).
Qed.

(** The data allows it: two statements, one cycle, "!dt"; the deriver has a conclusion
    and is about to put it into the task table when the main thread is about to list
    the tasks, of which there are some. *)
Definition askTasks : list wact := say "<a --> b>." 20 ++ say "<b --> c>." 20 ++ say "!s1" 20 ++ repeat ADerive 11 ++ say "!dt" 0.
Example c95_dt_ex : match wrun noNum askTasks (begin (narInit [])) with
  | Ok w => w_jobs w = [JTasks] /\ judg (y_sh (w_decl w)) <> [] /\
            exists m x s l a cs, y_worker (w_decl w) = WAdding m x (FPush s l a) cs
  | Panic => False
  end.
Proof. vm_compute. split; [reflexivity | split; [discriminate | do 6 eexists; reflexivity]]. Qed.

(** Without "!dt" a deriver that has asked to write the task table while the main
    thread reads it waits only until the main thread is through. *)
Definition readsTasks : locks := play 400 1 [1] (play 400 0 [0; 0; 1; 1]
  (play 400 1 concludes (play 400 0 (skipn 1 cycleSends) (startL lineL 2)))).
Example c95_ex : reachL lineL 2 readsTasks /\ waitsFor readsTasks 1 0 /\ ~ canMove readsTasks 1 /\ canMove readsTasks 0 /\
  canMove (play 400 0 [0; 0] readsTasks) 1.
Proof.
  split; [do 4 apply play_reach; constructor |].
  destruct (nth_error (k_threads readsTasks) 0) as [t |] eqn:T; [| vm_compute in T; discriminate T].
  destruct (nth_error (k_threads readsTasks) 1) as [u |] eqn:U; [| vm_compute in U; discriminate U].
  assert (Ht : has t Rd LShared) by (apply in_heldF; revert T; vm_compute; intro T; inversion T; cbn; auto).
  assert (Wu : wants u Wr LShared /\ th_waits u = true) by (revert U; vm_compute; intro U; inversion U; split; [do 2 eexists; reflexivity | reflexivity]).
  assert (W : waitsFor readsTasks 1 0).
  { refine (wf_held _ _ _ _ _ _ _ _ U T (proj1 Wu) (fun _ => proj2 Wu) Ht _). intros (X & _). discriminate X. }
  split; [exact W | split; [exact (c95_waits _ _ _ W) | split]].
  - exists 0. eexists. vm_compute. reflexivity.
  - exists 0. eexists. vm_compute. reflexivity.
Qed.

Print Assumptions c95_waits.
Print Assumptions c95_reason.
Print Assumptions c95_no_circle.
Print Assumptions c95_someone.
Print Assumptions c95_finish.
Print Assumptions c95_dt_refuted.
