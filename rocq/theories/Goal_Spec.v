(** Independent vocabulary for the goal system. *)
From Coq Require Import String ZArith Bool List Permutation.
From Verif Require Import Base F64_Model Term_Model Unify_Model Stamp_Model Tv_Model Sentence_Model Mem_Model Mem_Spec PMem_Model Goal_Model.
Import ListNotations.
Local Open Scope Z_scope.

Definition e_term (e : entry) : term := s_term (e_sentence e).
Definition e_stamp (e : entry) : stamp := s_stamp (e_sentence e).

(** <{(args)} --> name>, at least one argument *)
Definition opTerm (t : term) : Prop :=
  exists args name, args <> [] /\ t = Stmt INH (SetExt [Prod args]) (Name name).

(** [e] is held by the store; at level [i]; among the operator goals *)
Definition atLevel (g : gsys) (i : nat) (e : entry) : Prop :=
  exists b gr, nth_error (g_batches g) i = Some b /\ In gr b /\ In e (snd gr).
Definition stored (g : gsys) (e : entry) : Prop := (exists i, atLevel g i e) \/ In e (g_active g).

(** two goals that are the same goal from the same evidence *)
Definition sameGoal (a b : entry) : Prop := e_term a = e_term b /\ e_stamp a = e_stamp b.

(** two entries that agree in everything except the accumulated weight *)
Definition sameButAcc (a b : entry) : Prop := setAcc a f0 = setAcc b f0.

(** the usefulness of a goal at time [t], for a given decay with age *)
Definition utilOf (decay : Z -> f64) (t : Z) (e : entry) (u : f64) : Prop :=
  exists v, retTv (e_sentence e) = Some v /\ u = fmul (fmul (calcExp v) (fabs (e_des e))) (decay (t - e_create e)).
(** the same goal entry, up to the two bookkeeping numbers *)
Definition sameEntry (a b : entry) : Prop :=
  e_sentence a = e_sentence b /\ e_evi a = e_evi b /\ e_create a = e_create b /\ e_depth a = e_depth b /\ e_des a = e_des b.

(** everything that can happen to a goal store: goals from outside, goals
    derived by the sub working cycle, forgetting, events, executing (which
    removes an operator goal), and changes of the configuration *)
Inductive gReach : gsys -> Prop :=
| gr_make : forall n d, gReach (makeGoalSystem n d)
| gr_add : forall g t goal evi depth g', gReach g -> addEntry g t goal evi depth = Ok g' -> gReach g'
| gr_infer : forall g u t m r1 r2 rnd g', gReach g -> sampleAndInference u g t m r1 r2 rnd = Ok g' -> gReach g'
| gr_limit : forall g decay t g', gReach g -> limitGoals decay g t = Ok g' -> gReach g'
| gr_event : forall g ev, gReach g -> gReach (event_occurred g ev)
| gr_exec : forall g i, gReach g -> gReach (setActive g (remove_at i (g_active g)))
| gr_cfg : forall g n sat rounds, gReach g ->
    gReach (mkGsys (g_active g) (g_batches g) (g_byTerm g) n (g_maxDepth g) sat rounds).

(** the part of it that only adds goals and satisfies them *)
Inductive gGrow : gsys -> gsys -> Prop :=
| gg_refl : forall g, gGrow g g
| gg_add : forall g g1 t goal evi depth g2, gGrow g g1 -> addEntry g1 t goal evi depth = Ok g2 -> gGrow g g2
| gg_infer : forall g g1 u t m r1 r2 rnd g2, gGrow g g1 -> sampleAndInference u g1 t m r1 r2 rnd = Ok g2 -> gGrow g g2
| gg_event : forall g g1 ev, gGrow g g1 -> gGrow g (event_occurred g1 ev).

(** [c] is an eternal goal about [t] with desire [v] and evidence [st] *)
Definition isGoal (c : sentence) (t : term) (v : tv) (st : stamp) : Prop :=
  s_term c = t /\ s_punct c = GOAL /\ s_evi c = Some (TV v) /\ s_stamp c = st /\ s_t c = None.

(** one step of backward planning. [B a b]: the memory holds belief [b] at
    address [a]. A sequence is achieved by first achieving its first element;
    any other goal by making a predictive implication about it applicable. *)
Inductive goalStep (B : nat -> sentence -> Prop) : sentence -> option nat -> sentence -> Prop :=
| gs_detach : forall g x rest v c, s_term g = Seq (x :: rest) -> retTv g = Some v ->
    isGoal c x v (s_stamp g) -> goalStep B g None c
| gs_belief : forall g a b subj vg vb c, (forall x rest, s_term g <> Seq (x :: rest)) ->
    B a b -> s_term b = Stmt PREDIMPL subj (s_term g) -> ~ shareEvidence g b ->
    retTv g = Some vg -> retTv b = Some vb ->
    isGoal c subj (dedGoal vg vb) (merge (s_stamp g) (s_stamp b)) -> goalStep B g (Some a) c.

(** [n] steps (at least one); the evidence is that of the last step *)
Inductive goalChain (B : nat -> sentence -> Prop) : nat -> sentence -> option nat -> sentence -> Prop :=
| gc_one : forall g ev c, goalStep B g ev c -> goalChain B 1 g ev c
| gc_more : forall n g ev1 c1 ev c, goalChain B n g ev1 c1 -> goalStep B c1 ev c -> goalChain B (S n) g ev c.

(** a belief of the procedural memory, with its address *)
Definition believed (m : pmem) (a : nat) (b : sentence) : Prop :=
  b = rd (cells m) a /\ exists t c, In (t, c) (pcs m) /\ In a (pExp c ++ pUse c).

(** the goal [e] applies in situation [state]: all elements of the sequence
    but the last unify with it; [ut] is the instantiated sequence *)
Definition applies (state : term) (e : entry) (ut : term) : Prop :=
  exists pre opT asg, e_term e = Seq (pre ++ [opT]) /\
    unify (match pre with [x] => x | _ => Seq pre end) state = Some asg /\
    ut = unifySubst (e_term e) asg.

(** [e] is the first goal of its term at level [i] *)
Definition opens (g : gsys) (i : nat) (e : entry) : Prop :=
  exists b t es, nth_error (g_batches g) i = Some b /\ In (t, e :: es) b.
