(** What the declarative reasoner needs so that no step of it panics. *)
From Coq Require Import ZArith List.
From Coq Require Import Floats.SpecFloat.
From Verif Require Import Base F64_Model Term_Model Term_Spec Speak_Spec Unify_Spec Stamp_Model Tv_Model Tv_Spec Sentence_Model Mem_Model Mem_Spec
  Cycle_Model Cycle_Spec Sched_Model Sched_Spec.
Import ListNotations.

(** * Terms *)
(** compounds have components, conjunctions and products at least two *)
Definition proper (t : term) : Prop :=
  match t with
  | Conj l | Prod l => (2 <= length l)%nat
  | Seq l | SetInt l | SetExt l | IntInt l | ExtInt l | Par l | Img _ _ l => l <> []
  | _ => True
  end.
Definition wf (t : term) : Prop := forall x, occurs x t -> proper x.

(** * Inputs *)
(** input sentences: proper terms, and judgements have a truth value *)
Definition fairInput (s : sentence) : Prop :=
  wf (s_term s) /\ (s_punct s = JUGEMENT -> exists v, retTv s = Some v /\ tvInRange v).
(** nothing that follows from the inputs reaches full confidence *)
Definition tempered (Inp : sentence -> Prop) : Prop :=
  forall s v, derivable Inp s -> retTv s = Some v -> uncertain v.
(** input judgements with one piece of evidence each, out of [ids], and a
    confidence of at most 0.999999 *)
Definition observed (ids : list Z) (s : sentence) : Prop :=
  wf (s_term s) /\ (s_punct s = JUGEMENT -> exists i v, s_stamp s = [i] /\ In i ids /\ retTv s = Some v /\
    tvInRange v /\ fleb (tvc v) (f_frac 999999 1000000) = true).

(** a question can be printed and has a priority between 0 and 1 *)
Definition goodQuestion (q : task2) : Prop :=
  speakable (s_term (q_s q)) /\ (s_punct (q_s q) = QUESTION \/ retTv (q_s q) <> None) /\ unit64 (prio q).

(** * Schedules *)
Definition i64 (z : Z) : Prop := (0 <= z < 2 ^ 63)%Z.
(** [exp] of a number that is not positive lies between 0 and 1 *)
Definition expLike (f : f64 -> f64) : Prop := forall x, fleb x f0 = true -> unit64 (f x).
(** inputs satisfy [Inp], at most [nB] beliefs per table are asked for, only client [j]
    runs cycles and flushes *)
Definition safeChoice (Inp : sentence -> Prop) (nB j : nat) (c : choice) : Prop :=
  match c with
  | ChStart _ (OpAdd x) => Inp (ar_s x) /\ (1 <= ar_n x <= nB)%nat /\ unit64 (ar_mul x) /\ i64 (ar_now x)
  | ChStart _ (OpAsk q) => goodQuestion q
  | ChStart i OpFlush => i = j
  | ChStart i (OpCycle y) => i = j /\ expLike (cy_exp y) /\ i64 (cy_now y)
  | _ => True
  end.

(** * States *)
(** a genuine double between 0 and 2^54 *)
Definition amount (x : f64) : Prop :=
  SpecFloat.valid_binary 53 1024 x = true /\ fleb f0 x = true /\ fleb x (f_of_Z (2 ^ 54)) = true.
Definition saneTask (now : Z) (t : task) : Prop :=
  amount (credit t) /\ amount (qaCredit t) /\ unit64 (mulCredit t) /\ (0 <= derivTime t <= now)%Z.
Definition saneCells (us : nat -> usage) : Prop := forall a, (0 <= lastUsed (us a))%Z /\ (0 <= useCount (us a))%Z.
(** judgements of a memory can be printed and compared *)
Definition readable (m : mem) : Prop := forall t c b, holds m t c -> In b (byExp c) \/ In b (byUsage c) ->
  s_punct b = JUGEMENT -> speakable (s_term b) /\ retTv b <> None.
(** the counters are 64 bit numbers *)
Definition inTime (st : sys) : Prop :=
  i64 (cycleCtr (y_sh st)) /\ forall a, (useCount (usages (y_sh st) a) < 2 ^ 63)%Z.

(** states reachable as in [reach], where others only write sane credits, usage
    counters and procedural beliefs *)
Inductive sreach (C : choice -> Prop) (maxC : Z) (wN k : nat) : sys -> Prop :=
| sr_start : sreach C maxC wN k (sysMake k)
| sr_step : forall st c st', sreach C maxC wN k st -> C c ->
    exec maxC wN c st = Ok (Some st') -> sreach C maxC wN k st'
| sr_env : forall st h us pm sc nu, sreach C maxC wN k st -> creditsOnly (heap (y_sh st)) h ->
    (forall a, (a < length h)%nat -> saneTask (cycleCtr (y_sh st)) (hget h a)) -> saneCells us -> readable pm ->
    sreach C maxC wN k
      (mkSys (mkShared h (judg (y_sh st)) (byTerm (y_sh st)) (questions (y_sh st)) (memory (y_sh st)) pm sc
                (taskCtr (y_sh st)) (cycleCtr (y_sh st)) us nu)
             (y_queue st) (y_clients st) (y_worker st) (y_log st)).
