(** Model of src/NarSentence.rs. *)
From Coq Require Import String Ascii ZArith Bool List.
From Verif Require Import Base F64_Model Term_Model Stamp_Model Tv_Model.
Import ListNotations.
Local Open Scope Z_scope.

(** NarSentence.rs 10-15 *)
Inductive punct := JUGEMENT | QUESTION | GOAL.
Definition punct_eqb (a b : punct) : bool :=
  match a, b with JUGEMENT, JUGEMENT | QUESTION, QUESTION | GOAL, GOAL => true | _, _ => false end.

(** NarSentence.rs 19-23; i64 counters are unbounded integers. *)
Inductive evidence := CNT (pos cnt : Z) | TV (t : tv).

(** NarSentence.rs 64-68 *)
Record usage := mkUsage { lastUsed : Z; useCount : Z }.

(** NarSentence.rs 25-37. The [usage] field is an [Arc<RwLock<Usage>>] shared
    between copies of a sentence: it is modelled as the address of the cell. *)
Record sentence := mkSentence {
  s_term : term;
  s_t : option Z;
  s_punct : punct;
  s_stamp : stamp;
  s_expDt : option Z;
  s_evi : option evidence;
  s_usage : nat
}.

(** NarSentence.rs 39-49: all fields are copied, the usage cell is shared. *)
Definition shallowCopySentence (s : sentence) : sentence :=
  mkSentence (s_term s) (s_t s) (s_punct s) (s_stamp s) (s_expDt s) (s_evi s) (s_usage s).

(** NarSentence.rs 71-74 *)
Definition usageUpdate (u : usage) (currentTime : Z) : usage := mkUsage currentTime (useCount u + 1).

(** NarSentence.rs 77-83 *)
Definition calcUsageUsefulness (u : usage) (currentTime : Z) : f64 :=
  let recency := f_of_Z (Z.max (currentTime - lastUsed u) 0) in
  let x := fdiv (f_of_Z (useCount u)) (fadd recency f1) in
  fdiv x (fadd x f1).

(** NarSentence.rs 86-96. [u] is the address of the freshly allocated usage
    cell (which starts as [mkUsage 0 0]). *)
Definition newEternalSentenceByTv (t : term) (p : punct) (v : tv) (st : stamp) (u : nat) : sentence :=
  mkSentence t None p st None (if negb (punct_eqb p QUESTION) then Some (TV v) else None) u.

(** NarSentence.rs 110-115 (the argument is always a CNT here) *)
Definition retFreq (pos cnt : Z) : f64 := fdiv (f_of_Z pos) (f_of_Z cnt).
(** NarSentence.rs 117-122 *)
Definition retConf (cnt : Z) : f64 := fdiv (f_of_Z cnt) (fadd (f_of_Z cnt) f1).

(** NarSentence.rs 98-107 *)
Definition evidenceTv (e : evidence) : tv :=
  match e with TV t => t | CNT p c => mkTv (retFreq p c) (retConf c) end.
Definition retTv (s : sentence) : option tv :=
  match s_evi s with None => None | Some e => Some (evidenceTv e) end.
