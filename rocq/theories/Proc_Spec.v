(** Specification vocabulary for the procedural reasoner. *)
From Coq Require Import String ZArith Bool List Sorted Permutation.
From Verif Require Import Base F64_Model Term_Model Term_Spec Unify_Spec Stamp_Model Tv_Model Sentence_Model Mem_Model PMem_Model Goal_Model Goal_Spec Proc_Model.
Import ListNotations.
Local Open Scope list_scope.
Local Open Scope Z_scope.

(** [t] calls the operation [name] with [args] *)
Definition opCall (t : term) (args : list term) (name : string) : Prop :=
  args <> [] /\ t = Stmt INH (SetExt [Prod args]) (Name name).
(** [t] calls a registered operation *)
Definition callable (ops : list op) (t : term) : Prop :=
  exists args name o, opCall t args name /\ In o ops /\ op_name o = name.

(** the first registered operation called [name] *)
Definition firstNamed (ops : list op) (name : string) (o : op) : Prop :=
  exists pre post, ops = pre ++ o :: post /\ op_name o = name /\ forall x, In x pre -> op_name x <> name.

(** [r] is the last index of [tab] whose entry is at most [v] (0 if there is
    none) *)
Definition quantised (v : Z) (tab : list Z) (r : Z) : Prop :=
  0 <= r < Z.of_nat (length tab) /\
  (r = 0 \/ exists x, nth_error tab (Z.to_nat r) = Some x /\ x <= v) /\
  (forall j x, nth_error tab j = Some x -> x <= v -> Z.of_nat j <= r).

(** [s] is an observation in the trace [tr]: an event, then one or more
    operations, then another event, all in order; the condition and the effect
    are not operations and differ. *)
Definition observation (ops : list op) (tab : list Z) (tr : list event) (s : sentence) : Prop :=
  exists i js k e0 es ek lastOp o,
    StronglySorted lt (i :: js ++ [k]) /\
    nth_error tr i = Some e0 /\ Forall2 (fun j e => nth_error tr j = Some e) js es /\ nth_error tr k = Some ek /\
    (k = length tr - 1 \/ k = length tr - 2)%nat /\
    (exists op1 rest, es = op1 :: rest /\ exists args name, opCall (ev_name op1) args name /\ firstNamed ops name o) /\
    (forall e, In e es -> callable ops (ev_name e)) /\ (exists pre, es = pre ++ [lastOp]) /\
    ~ callable ops (ev_name e0) /\ ~ callable ops (ev_name ek) /\ ev_name e0 <> ev_name ek /\
    s_term s = Stmt PREDIMPL (Seq (ev_name e0 :: map ev_name es)) (ev_name ek) /\
    s_stamp s = ev_evi e0 :: map ev_evi es ++ [ev_evi ek] /\
    (exists d, s_expDt s = Some d /\ (StronglySorted Z.lt tab -> tab <> [] -> quantised (ev_occ ek - ev_occ lastOp) tab d)) /\
    s_evi s = Some (CNT (op_evi o) (op_evi o)) /\ s_punct s = JUGEMENT /\ s_t s = None.

(** the last [w] events *)
Definition lastEvents (w : nat) (tr : list event) : list event := skipn (length tr - w) tr.
(** the effect predicted by anticipation [a] is among the last events *)
Definition seen (n : pnar) (a : nat * Z) : Prop :=
  exists e q, In e (lastEvents (c_window (n_cfg n)) (n_trace n)) /\ s_term (rd (cells (n_mem n)) (fst a)) = Stmt PREDIMPL q (ev_name e).
(** belief [s] after [k] missed predictions *)
Definition addMiss (k : nat) (s : sentence) : sentence :=
  match s_evi s with
  | Some (CNT p c) => mkSentence (s_term s) (s_t s) (s_punct s) (s_stamp s) (s_expDt s) (Some (CNT p (c + Z.of_nat k))) (s_usage s)
  | _ => s
  end.

(** new evidence [s] is about the same implication as the stored belief [e],
    with an interval that is at most as long, and from other events *)
Definition supports (s e : sentence) : Prop :=
  s_term e = s_term s /\ (exists d1 d2, s_expDt e = Some d1 /\ s_expDt s = Some d2 /\ d2 <= d1) /\
  forall i, In i (s_stamp e) -> ~ In i (s_stamp s).
(** [e'] is [e] with the counts of [s] added once *)
Definition countedOnce (s e e' : sentence) : Prop :=
  exists p c pos cnt, s_evi s = Some (CNT p c) /\ s_evi e = Some (CNT pos cnt) /\
    e' = mkSentence (s_term e) (s_t e) (s_punct e) (merge (s_stamp e) (s_stamp s)) (s_expDt e) (Some (CNT (pos + p) (cnt + c))) (s_usage e).

(** evidence counts that make sense *)
Definition okCounts (s : sentence) : Prop := exists p c, s_evi s = Some (CNT p c) /\ 0 <= p <= c /\ 1 <= c.

(** forward plan from [ev]: each belief is applicable to the effect of the one
    before; [p] is the last effect *)
Inductive planChain (m : pmem) (ev : term) : list nat -> term -> Prop :=
| pl_start : planChain m ev [] ev
| pl_more : forall l p a rest p', planChain m ev l p -> In a (pBeliefs m [p]) ->
    s_term (rd (cells m) a) = Stmt PREDIMPL (Seq (p :: rest)) p' -> planChain m ev (l ++ [a]) p'.
(** desire [v] of the last effect carried back over the beliefs [l], the last
    one first *)
Inductive carriedBack (m : pmem) : tv -> list nat -> tv -> Prop :=
| cb_nil : forall v, carriedBack m v [] v
| cb_cons : forall v a vb l v', retTv (rd (cells m) a) = Some vb -> carriedBack m (dedGoal v vb) l v' -> carriedBack m v (a :: l) v'.

(** operation goal [e] may be executed: it is desired and its expectation
    [x] is above the threshold *)
Definition eligible (thresh : f64) (e : entry) (x : f64) : Prop :=
  is_desired e = true /\ (exists v, retTv (e_sentence e) = Some v /\ x = calcExp v) /\ fltb f0 x = true /\ fltb thresh x = true.

(** why [b] is a candidate decision: a stored goal applies to a recent event, or
    a forward plan from the last event reaches a stored goal *)
Inductive candidate (n : pnar) : best -> Prop :=
| cd_state : forall e en ut v, In e (lastEvents (c_window (n_cfg n)) (n_trace n)) -> stored (n_goals n) en ->
    applies (ev_name e) en ut -> retTv (e_sentence en) = Some v -> candidate n (mkBest ut (calcExp v) (e_evi en))
| cd_plan : forall tr e a l p hit v v' sq p0, n_trace n = tr ++ [e] -> planChain (n_mem n) (ev_name e) (a :: l) p ->
    stored (n_goals n) hit -> e_term hit = p -> retTv (e_sentence hit) = Some v ->
    carriedBack (n_mem n) v (List.rev (a :: l)) v' -> s_term (rd (cells (n_mem n)) a) = Stmt PREDIMPL sq p0 ->
    (length l <= 1)%nat ->
    candidate n (mkBest sq (calcExp v') (Some a)).
(** [b] is at least as good as what the stored goals offer for the recent events *)
Definition asGoodAsGoals (n : pnar) (b : option best) : Prop :=
  forall e en ut v, In e (lastEvents (c_window (n_cfg n)) (n_trace n)) -> stored (n_goals n) en ->
    applies (ev_name e) en ut -> retTv (e_sentence en) = Some v ->
    fltb (match b with Some x => b_exp x | None => f0 end) (calcExp v) = false.
(** the goal for the operation [opT] of a decision based on belief [a] *)
Definition decisionGoal (n : pnar) (a : nat) (opT : term) (g : entry) : Prop :=
  exists v, retTv (rd (cells (n_mem n)) a) = Some v /\ isGoal (e_sentence g) opT v (s_stamp (rd (cells (n_mem n)) a)) /\
    e_evi g = Some a /\ e_create g = n_t n /\ e_depth g = 0 /\ e_des g = f1.

(** what carrying out the operation [t] injects, and the arguments of the
    relations it tells, both in order; ^nal9_exeAndInject carries out its
    second argument one by one and then injects the third *)
Inductive performs (ops : list op) : term -> list term -> list (list term) -> Prop :=
| pf_nothing : forall t, (forall args name o, opCall t args name -> ~ firstNamed ops name o) -> performs ops t [] []
| pf_plain : forall t args name o, opCall t args name -> firstNamed ops name o -> op_kind o = OpPlain -> performs ops t [] []
| pf_rel : forall t args name o, opCall t args name -> firstNamed ops name o -> op_kind o = OpNlpRel -> performs ops t [] [args]
| pf_bad : forall t args name o, opCall t args name -> firstNamed ops name o -> op_kind o = OpExecAndInject ->
    (forall x sq inj, args <> [x; Seq sq; inj]) -> performs ops t [] []
| pf_exec : forall t x sq inj name o evs rels, opCall t [x; Seq sq; inj] name -> firstNamed ops name o -> op_kind o = OpExecAndInject ->
    performsAll ops sq evs rels -> performs ops t (evs ++ [inj]) rels
with performsAll (ops : list op) : list term -> list term -> list (list term) -> Prop :=
| pa_nil : performsAll ops [] [] []
| pa_cons : forall t l evs rels evs' rels', performs ops t evs rels -> performsAll ops l evs' rels' ->
    performsAll ops (t :: l) (evs ++ evs') (rels ++ rels').
(** carrying out the operation [t] adds the events [evs]: none if the operation
    is not registered, otherwise what it injects and then the call itself *)
Definition executed (n : pnar) (t : term) (evs : list event) : Prop :=
  exists args name, opCall t args name /\
    (((forall o, In o (n_ops n) -> op_name o <> name) /\ evs = []) \/
     exists o inj rels, firstNamed (n_ops n) name o /\ performs (n_ops n) t inj rels /\
       evs = map (fun e => mkEvent e (n_t n) (n_t n)) (inj ++ [t])).
(** operation goal [e] based on belief [a] was there already or comes from a
    decision above the threshold *)
Definition motivated (n : pnar) (e : entry) (a : nat) : Prop :=
  In e (g_active (n_goals n)) \/
  exists b pre e0, candidate n b /\ fltb (c_thresh (n_cfg n)) (b_exp b) = true /\ b_evi b = Some a /\
    b_seq b = Seq (pre ++ [e_term e]) /\ decisionGoal n a (e_term e) e0 /\ sameButAcc e e0.
(** what a second half step does: the new events and the new anticipations *)
Inductive outcome (n : pnar) : list event -> list (nat * Z) -> Prop :=
| oc_nothing : outcome n [] []
| oc_goal : forall e x a iv evs, motivated n e a -> eligible (c_thresh (n_cfg n)) e x -> e_evi e = Some a ->
    nth_error (n_table n) (Z.to_nat (match s_expDt (rd (cells (n_mem n)) a) with Some d => d | None => 0 end)) = Some iv ->
    executed n (e_term e) evs ->
    outcome n evs (if c_anticipate (n_cfg n) then [(a, n_t n + iv)] else [])
| oc_babble : forall o evs, c_babble (n_cfg n) = true -> In o (n_ops n) -> op_babble o = true ->
    executed n (Stmt INH (SetExt [Prod [SetExt [Name "SELF"%string]]]) (Name (op_name o))) evs -> outcome n evs [].

(** the replacement of variable [w] by [r] *)
Definition replVar (w r : term) : term -> term := inst (fun v => if checkEqTerm v w then r else v).

(** evidence of one belief only grows; the implication itself never changes *)
Definition grows (s s' : sentence) : Prop :=
  s_term s' = s_term s /\ s_expDt s' = s_expDt s /\ s_punct s' = s_punct s /\
  forall p c, s_evi s = Some (CNT p c) -> exists p' c', s_evi s' = Some (CNT p' c') /\ p <= p' /\ c <= c' /\ p' - p <= c' - c.

(** a history of the trace: [Some e] is an event, [None] the forgetting at the
    end of a step *)
Definition eventsOf (l : list (option event)) : list event := flat_map (fun o => match o with Some e => [e] | None => [] end) l.
