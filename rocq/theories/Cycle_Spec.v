(** Independent vocabulary for the declarative reasoner. *)
From Coq Require Import ZArith List Permutation Sorted Relations.
From Verif Require Import Base F64_Model Term_Model Term_Spec Unify_Spec Stamp_Model Tv_Model Sentence_Model Infer_Model Infer_Spec
  Mem_Model Mem_Spec Cycle_Model.
Import ListNotations.

(** * Revision *)
(** belief [b] can be revised with [s]: same statement, independent evidence *)
Definition revisable (s b : sentence) : Prop := s_term b = s_term s /\ ~ shareEvidence b s.

(** [nb] is the revision of [b] with [s] *)
Definition isRevision (s b nb : sentence) : Prop :=
  exists va vs, retTv b = Some va /\ retTv s = Some vs /\ s_evi nb = Some (TV (Tv_Model.rev va vs)) /\
  s_stamp nb = merge (s_stamp b) (s_stamp s) /\ s_term nb = s_term s /\
  s_t nb = s_t b /\ s_punct nb = s_punct b /\ s_expDt nb = s_expDt b.

(** the first revisable belief of the table is replaced by its revision, which
    goes to the end *)
Inductive replaced (s : sentence) : list sentence -> list sentence -> sentence -> Prop :=
| replaced_intro : forall l1 b l2 nb, (forall x, In x l1 -> ~ revisable s x) -> revisable s b -> isRevision s b nb ->
    replaced s (l1 ++ b :: l2) (l1 ++ l2 ++ [nb]) nb.

(** any number of such replacements *)
Definition revisedTable (s : sentence) : list sentence -> list sentence -> Prop :=
  clos_refl_trans _ (fun l l' => exists nb, replaced s l l' nb).

(** * Selection *)
(** position [i] holds the maximum, and no earlier position does *)
Definition firstMax (ks : list f64) (i : nat) : Prop :=
  exists k, nth_error ks i = Some k /\
    (forall j kj, nth_error ks j = Some kj -> fleb kj k = true) /\
    (forall j kj, (j < i)%nat -> nth_error ks j = Some kj -> fltb kj k = true).

(** * Questions *)
Definition better (a b : sentence) : Prop := exists ea eb, hasExp a ea /\ hasExp b eb /\ fltb ea eb = true.
Definition lastOf {A} (x : A) (l : list A) : Prop := exists pre, l = pre ++ [x].
(** what a question [q] becomes after the candidates [cs], and the reported answers *)
Record answersFor (q q' : task2) (cs : list sentence) (ans : list answer) : Prop := mkAnswersFor {
  (* every answer is a judgement among the candidates that is an instance of the question *)
  af_from : forall a, In a ans -> fst a = s_term (q_s q) /\ In (snd a) cs /\ s_punct (snd a) = JUGEMENT /\
              instanceOf (s_term (snd a)) (s_term (q_s q));
  (* each answer is strictly better than all earlier ones *)
  af_improve : StronglySorted (fun a b => better (snd a) (snd b)) ans;
  (* and than the best answer known before *)
  af_new : forall a, In a ans -> exists e, hasExp (snd a) e /\ fltb (bestAnswerExp q) e = true;
  (* the recorded expectation is that of the last answer *)
  af_best : (ans = [] /\ bestAnswerExp q' = bestAnswerExp q) \/
            exists a, lastOf a ans /\ hasExp (snd a) (bestAnswerExp q');
  (* no matching candidate is better than the recorded expectation *)
  af_complete : forall c e, In c cs -> s_punct c = JUGEMENT -> instanceOf (s_term c) (s_term (q_s q)) -> hasExp c e ->
              fltb (bestAnswerExp q') e = false
}.

(** * Tasks *)
Definition taskTerm (sh : shared) (a : nat) : term := s_term (tk_s (hget (heap sh) a)).
Definition indexed (sh : shared) (t : term) (a : nat) : Prop := exists l, In (t, l) (byTerm sh) /\ In a l.

(** structural invariant of the task tables; [maxC] is the configured maximal
    complexity *)
Record tasksOk (maxC : Z) (sh : shared) : Prop := mkTasksOk {
  ok_ids : forall a, (a < length (heap sh))%nat -> tk_id (hget (heap sh) a) = (1000 + Z.of_nat a)%Z;
  ok_ctr : taskCtr sh = (1000 + Z.of_nat (length (heap sh)))%Z;
  ok_judg : forall a, In a (judg sh) -> (a < length (heap sh))%nat;
  ok_nodup : NoDup (judg sh);
  ok_keys : NoDup (map fst (byTerm sh));
  ok_index : forall t a, indexed sh t a -> (a < length (heap sh))%nat /\ occurs t (taskTerm sh a);
  ok_listed : forall a t, In a (judg sh) -> occurs t (taskTerm sh a) -> indexed sh t a;
  ok_punct : forall a, (a < length (heap sh))%nat -> s_punct (tk_s (hget (heap sh) a)) = JUGEMENT;
  ok_size : forall a, (a < length (heap sh))%nat -> (calcComplexity (taskTerm sh a) <= maxC)%Z;
  ok_distinct : forall a b, In a (judg sh) -> In b (judg sh) -> taskTerm sh a = taskTerm sh b ->
    s_stamp (tk_s (hget (heap sh) a)) = s_stamp (tk_s (hget (heap sh) b)) -> a = b
}.

(** * Runs of the sequential reasoner *)
(** [run Inp maxC nB sh ps]: state [sh] with the messages [ps] waiting for the
    worker can be reached by adding sentences satisfying [Inp] (with at most
    [nB] beliefs per concept), asking questions, running cycles, letting the worker handle the oldest message,
    flushing the tasks, and changes of the parts owned by others (usage
    counters and cells, procedural memory, evidence counter). *)
Inductive run (Inp : sentence -> Prop) (maxC : Z) (nB : nat) : shared -> list workMsg -> Prop :=
| run_start : run Inp maxC nB sharedMake []
| run_add : forall sh ps s cc mul now k sh', run Inp maxC nB sh ps -> Inp s -> (1 <= k <= nB)%nat ->
    memAddTask sh s cc maxC k mul now = Ok sh' -> run Inp maxC nB sh' ps
| run_ask : forall sh ps q, run Inp maxC nB sh ps -> run Inp maxC nB (setQuestions (questions sh ++ [q]) sh) ps
| run_cycle : forall sh ps expf selVal now sh' now' ans msg, run Inp maxC nB sh ps ->
    reasonCycle expf selVal sh now = Ok (sh', now', ans, msg) ->
    run Inp maxC nB sh' (ps ++ match msg with Some m => [m] | None => [] end)
| run_worker : forall sh ps msg k sh' ans, run Inp maxC nB sh (msg :: ps) -> (1 <= k <= nB)%nat ->
    workerStep maxC k sh msg = Ok (sh', ans) -> run Inp maxC nB sh' ps
| run_flush : forall sh ps, run Inp maxC nB sh ps -> run Inp maxC nB (flushTasks sh) ps
| run_env : forall sh ps us pm sc nu, run Inp maxC nB sh ps ->
    run Inp maxC nB (mkShared (heap sh) (judg sh) (byTerm sh) (questions sh) (memory sh) pm sc (taskCtr sh) (cycleCtr sh) us nu) ps.

(** * Where sentences come from *)
(** equality of sentences up to the shared usage cell *)
Definition sameSentence (a b : sentence) : Prop :=
  s_term a = s_term b /\ s_t a = s_t b /\ s_punct a = s_punct b /\ s_stamp a = s_stamp b /\ s_expDt a = s_expDt b /\ s_evi a = s_evi b.

(** a property of sentences that every reasoning step preserves *)
Record closed (G : sentence -> Prop) : Prop := mkClosed {
  cl_single : forall p u cs, G p -> s_punct p = JUGEMENT -> infSinglePremise2 p u = Ok cs -> Forall (fun c => G (fst c)) cs;
  cl_binary : forall a b u cs ap, G a -> G b -> s_punct a = JUGEMENT -> s_punct b = JUGEMENT ->
    inference a b u = Ok (cs, ap) -> Forall (fun c => G (fst c)) cs;
  cl_revise : forall s b nb, G s -> G b -> s_punct s = JUGEMENT -> s_punct b = JUGEMENT ->
    revisable s b -> isRevision s b nb -> G nb
}.

(** * Beliefs of a concept *)
Record beliefsOk (G : sentence -> Prop) (maxC : Z) (n : nat) (c : concept) : Prop := mkBeliefsOk {
  bo_exp : (1 <= length (byExp c) <= n)%nat;
  bo_use : (1 <= length (byUsage c) <= n)%nat;
  bo_all : forall b, In b (byExp c) \/ In b (byUsage c) ->
    G b /\ s_punct b = JUGEMENT /\ occurs (c_name c) (s_term b) /\ (calcComplexity (s_term b) <= maxC)%Z;
  (* at most one belief per statement and table *)
  bo_oneE : NoDup (map s_term (byExp c));
  bo_oneU : NoDup (map s_term (byUsage c))
}.

(** * Derivability *)
(** judgements that follow from input judgements by the inference schemas and
    by revision *)
Inductive derivable (Inp : sentence -> Prop) : sentence -> Prop :=
| dv_input : forall s, Inp s -> s_punct s = JUGEMENT -> derivable Inp s
| dv_single : forall p c mir bias w, derivable Inp p ->
    struct JUGEMENT (s_term p) (s_term c) mir bias -> retTv p = Some w -> retTv c = Some (if mir then neg w else w) ->
    s_stamp c = s_stamp p -> s_punct c = JUGEMENT -> s_t c = None -> s_expDt c = None -> derivable Inp c
| dv_binary : forall a b c tr v, derivable Inp a -> derivable Inp b -> ~ shareEvidence a b ->
    schema JUGEMENT (s_term a) JUGEMENT (s_term b) (s_term c) tr \/ schema JUGEMENT (s_term b) JUGEMENT (s_term a) (s_term c) tr ->
    truthVal tr (retTv a) (retTv b) = Some v -> retTv c = Some v ->
    s_stamp c = merge (s_stamp a) (s_stamp b) -> s_punct c = JUGEMENT -> s_t c = None -> s_expDt c = None -> derivable Inp c
| dv_revise : forall s b nb, derivable Inp s -> derivable Inp b -> revisable s b -> isRevision s b nb -> derivable Inp nb.
