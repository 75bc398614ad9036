(** What is claimed about interleavings. *)
From Coq Require Import ZArith List.
From Verif Require Import Base F64_Model Term_Model Term_Spec Unify_Spec Stamp_Model Sentence_Model Mem_Model Mem_Spec
  Cycle_Model Cycle_Spec Sched_Model.
Import ListNotations.

(** tasks keep their sentence and id, whatever happens to the credits *)
Definition creditsOnly (h h' : list task) : Prop :=
  length h' = length h /\ forall a, tk_s (hget h' a) = tk_s (hget h a) /\ tk_id (hget h' a) = tk_id (hget h a).

(** inputs satisfy [Inp], at most [nB] beliefs per table are asked for *)
Definition choiceOk (Inp : sentence -> Prop) (nB : nat) (c : choice) : Prop :=
  match c with
  | ChStart _ (OpAdd x) => Inp (ar_s x) /\ (1 <= ar_n x <= nB)%nat
  | _ => True
  end.

(** states reachable with [k] clients by some schedule whose choices satisfy [C] *)
Inductive reach (C : choice -> Prop) (maxC : Z) (wN k : nat) : sys -> Prop :=
| re_start : reach C maxC wN k (sysMake k)
| re_step : forall st c st', reach C maxC wN k st -> C c ->
    exec maxC wN c st = Ok (Some st') -> reach C maxC wN k st'
| re_env : forall st h us pm sc nu, reach C maxC wN k st -> creditsOnly (heap (y_sh st)) h ->
    reach C maxC wN k
      (mkSys (mkShared h (judg (y_sh st)) (byTerm (y_sh st)) (questions (y_sh st)) (memory (y_sh st)) pm sc
                (taskCtr (y_sh st)) (cycleCtr (y_sh st)) us nu)
             (y_queue st) (y_clients st) (y_worker st) (y_log st)).

(** only client [j] runs cycles and flushes *)
Definition oneCycler (j : nat) (c : choice) : Prop :=
  match c with
  | ChStart i (OpCycle _) | ChStart i OpFlush => i = j
  | _ => True
  end.

(** one step of one thread, whatever the others did before *)
Definition clientMoves (p p' : cpc) : Prop :=
  exists sh qu sh' qu' ans, cliStep p sh qu = Ok (Some (sh', qu', ans, p')).
Definition workerMoves (maxC : Z) (n : nat) (p p' : wphase) : Prop :=
  p <> WIdle /\ exists sh qu sh' qu' ans, workStep maxC n p sh qu = Ok (Some (sh', qu', ans, p')).

(** the tasks some thread has built but not yet put into the task table, and those
    in the table it has not yet indexed *)
Definition unpushed (f : phase) : list nat := match f with FPush _ _ a => [a] | _ => [] end.
Definition unindexed (f : phase) : list nat := match f with FIndex _ _ a => [a] | _ => [] end.
Definition cliOf (g : phase -> list nat) (p : cpc) : list nat := match p with CAdd _ f => g f | _ => [] end.
Definition workOf (g : phase -> list nat) (p : wphase) : list nat := match p with WAdding _ _ f _ => g f | _ => [] end.
Definition inFlight (g : phase -> list nat) (st : sys) : list nat :=
  flat_map (cliOf g) (y_clients st) ++ workOf g (y_worker st).

(** task tables at any moment of any schedule *)
Record tasksAny (maxC : Z) (st : sys) : Prop := mkTasksAny {
  ta_ids : forall a, (a < length (heap (y_sh st)))%nat -> tk_id (hget (heap (y_sh st)) a) = (1000 + Z.of_nat a)%Z;
  ta_ctr : taskCtr (y_sh st) = (1000 + Z.of_nat (length (heap (y_sh st))))%Z;
  ta_live : forall a, In a (judg (y_sh st)) -> (a < length (heap (y_sh st)))%nat;
  (* no task is in the table twice, and none that is still to be put there *)
  ta_nodup : NoDup (judg (y_sh st) ++ inFlight unpushed st);
  ta_keys : NoDup (map fst (byTerm (y_sh st)));
  ta_index : forall t a, indexed (y_sh st) t a -> (a < length (heap (y_sh st)))%nat /\ occurs t (taskTerm (y_sh st) a);
  (* tasks are found by each of their subterms, except while they are being indexed *)
  ta_listed : forall a t, In a (judg (y_sh st)) -> occurs t (taskTerm (y_sh st) a) ->
    indexed (y_sh st) t a \/ In a (inFlight unindexed st);
  ta_punct : forall a, (a < length (heap (y_sh st)))%nat -> s_punct (tk_s (hget (heap (y_sh st)) a)) = JUGEMENT;
  ta_size : forall a, (a < length (heap (y_sh st)))%nat -> (calcComplexity (taskTerm (y_sh st) a) <= maxC)%Z
}.

(** the belief tables of a concept at any moment *)
Record beliefsAny (G : sentence -> Prop) (maxC : Z) (n : nat) (c : concept) : Prop := mkBeliefsAny {
  ba_exp : (1 <= length (byExp c) <= n)%nat;
  ba_use : (1 <= length (byUsage c) <= n)%nat;
  ba_all : forall b, In b (byExp c) \/ In b (byUsage c) ->
    G b /\ s_punct b = JUGEMENT /\ occurs (c_name c) (s_term b) /\ (calcComplexity (s_term b) <= maxC)%Z
}.
Definition memAny (G : sentence -> Prop) (maxC : Z) (n : nat) (m : mem) : Prop :=
  mapOk m /\ forall t c, holds m t c -> beliefsAny G maxC n c.

(** waiting messages point to existing tasks *)
Definition queueAny (st : sys) : Prop :=
  (length (y_queue st) <= 4)%nat /\
  forall m, In m (y_queue st) -> forall a, a = primary m \/ In a (secondary m) -> (a < length (heap (y_sh st)))%nat.

(** answers that were reported *)
Definition answersAny (G : sentence -> Prop) (st : sys) : Prop :=
  forall q s, In (q, s) (y_log st) -> instanceOf (s_term s) q /\ s_punct s = JUGEMENT /\ (isTemporal q = false -> G s).
