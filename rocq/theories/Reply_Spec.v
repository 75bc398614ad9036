(** What it means that a question gets the answer that follows from two
    statements. *)
From Coq Require Import ZArith List.
From Verif Require Import Base F64_Model Term_Model Term_Spec Unify_Spec Stamp_Model Tv_Model Sentence_Model Infer_Spec
  Mem_Model Mem_Spec Cycle_Model Sched_Model Sched_Spec.
Import ListNotations.

(** * Runs *)
(** the operation begun by a choice *)
Definition begun (c : choice) : list (nat * op) := match c with ChStart i o => [(i, o)] | _ => [] end.
(** [spath ops st st']: some interleaving leads from [st] to [st'], in which the
    clients begin the operations [ops], in this order *)
Inductive spath (maxC : Z) (wN : nat) : list (nat * op) -> sys -> sys -> Prop :=
| sp_none : forall st, spath maxC wN [] st st
| sp_move : forall ops st st1 c st2, spath maxC wN ops st st1 -> exec maxC wN c st1 = Ok (Some st2) -> spath maxC wN (ops ++ begun c) st st2
| sp_env : forall ops st st1 h us pm sc nu, spath maxC wN ops st st1 -> creditsOnly (heap (y_sh st1)) h ->
    spath maxC wN ops st
      (mkSys (mkShared h (judg (y_sh st1)) (byTerm (y_sh st1)) (questions (y_sh st1)) (memory (y_sh st1)) pm sc
                (taskCtr (y_sh st1)) (cycleCtr (y_sh st1)) us nu)
             (y_queue st1) (y_clients st1) (y_worker st1) (y_log st1)).
(** Between 1 and [nB] beliefs per table are asked for, a new question has no
    answer yet, and only client [j] runs cycles and flushes. *)
Definition fair (nB j : nat) (x : nat * op) : Prop :=
  match snd x with
  | OpAdd a => (1 <= ar_n a <= nB)%nat
  | OpAsk q => bestAnswerExp q = f0
  | OpFlush | OpCycle _ => fst x = j
  end.
(** client [j] has nothing to do, the deriver waits and no message is on its way *)
Definition quiet (j : nat) (st : sys) : Prop := nth_error (y_clients st) j = Some CIdle /\ y_worker st = WIdle /\ y_queue st = [].

(** * Conclusions *)
(** [t] with truth value [v] follows from the two judgements by one rule *)
Definition follows (p b : sentence) (t : term) (v : tv) : Prop :=
  ~ shareEvidence p b /\ exists tr,
  (schema JUGEMENT (s_term p) JUGEMENT (s_term b) t tr \/ schema JUGEMENT (s_term b) JUGEMENT (s_term p) t tr) /\
  truthVal tr (retTv p) (retTv b) = Some v.
(** it follows from one judgement by a structural rule *)
Definition follows1 (p : sentence) (t : term) (v : tv) : Prop :=
  exists mir bias w, struct JUGEMENT (s_term p) t mir bias /\ retTv p = Some w /\ v = if mir then neg w else w.

(** * Answers *)
(** a judgement that is an instance of the question [q], with an expectation of
    at least [e], was reported as an answer to it *)
Definition told (st : sys) (q : term) (e : f64) : Prop :=
  exists c ec, In (q, c) (y_log st) /\ s_punct c = JUGEMENT /\ instanceOf (s_term c) q /\ hasExp c ec /\ fleb e ec = true.
(** [q] is among the questions *)
Definition open (st : sys) (q : term) : Prop := exists z, In z (questions (y_sh st)) /\ s_term (q_s z) = q.

(** * Additions *)
(** the number of occurrences of parts in a term *)
Fixpoint nodes (t : term) : nat :=
  let suml := fix suml (l : list term) : nat := match l with [] => 0%nat | x :: l' => (nodes x + suml l')%nat end in
  match t with
  | Stmt _ s p => (1 + nodes s + nodes p)%nat
  | Name _ | QVar _ | DepVar _ | IndepVar _ => 1%nat
  | Seq l | SetInt l | SetExt l | Conj l | Prod l | IntInt l | ExtInt l | Par l => (1 + suml l)%nat
  | Img r _ l => (1 + nodes r + suml l)%nat
  | Neg x => (1 + nodes x)%nat
  end.
(** the term is not too large *)
Definition accepted (maxC : Z) (x : addArgs) : Prop := (atoms (s_term (ar_s x)) + connectives (s_term (ar_s x)) <= maxC)%Z.
Definition statement (maxC : Z) (xs : list addArgs) (s : sentence) : Prop :=
  exists x, In x xs /\ ar_s x = s /\ s_punct s = JUGEMENT /\ accepted maxC x.
Definition question (maxC : Z) (xs : list addArgs) (s : sentence) : Prop :=
  exists x, In x xs /\ ar_s x = s /\ s_punct s = QUESTION /\ accepted maxC x.
(** no statement is added twice *)
Definition distinct (xs : list addArgs) : Prop :=
  NoDup (map (fun x => s_term (ar_s x)) (filter (fun x => match s_punct (ar_s x) with JUGEMENT => true | _ => false end) xs)).
Definition sharePart (s r : term) : Prop := exists u, occurs u s /\ occurs u r.
