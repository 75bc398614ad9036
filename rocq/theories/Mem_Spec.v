(** Independent vocabulary for concept memory. *)
From Coq Require Import ZArith List Permutation Sorted.
From Verif Require Import Base F64_Model Term_Model Term_Spec Stamp_Model Tv_Model Sentence_Model Mem_Model.
Import ListNotations.

(** the expectation of a sentence with evidence *)
Definition hasExp (s : sentence) (e : f64) : Prop := exists v, retTv s = Some v /\ e = calcExp v.

(** the evidence ids of two sentences have an element in common *)
Definition shareEvidence (a b : sentence) : Prop := exists i, In i (s_stamp a) /\ In i (s_stamp b).

(** two beliefs about the same statement never share evidence *)
Definition noDoubleEvidence (l : list sentence) : Prop :=
  ForallOrdPairs (fun a b => s_term a = s_term b -> ~ shareEvidence a b) l.

(** [a] ranks at least as high as [b]: by expectation, by usefulness *)
Definition expGe (a b : sentence) : Prop := exists ea eb, hasExp a ea /\ hasExp b eb /\ fleb eb ea = true.
Definition useGe (us : nat -> usage) (now : Z) (a b : sentence) : Prop :=
  fleb (calcUsageUsefulness (us (s_usage b)) now) (calcUsageUsefulness (us (s_usage a)) now) = true.

(** expectations never increase along the table *)
Definition expSorted (l : list sentence) : Prop := StronglySorted expGe l.

(** [s] is in the table, or evidence of it is already there, or the table is
    full of beliefs that rank at least as high *)
Definition presentOrBeaten (ge : sentence -> sentence -> Prop) (n : nat) (s : sentence) (l : list sentence) : Prop :=
  In s l \/ (exists b, In b l /\ s_term b = s_term s /\ shareEvidence b s) \/
  (length l = n /\ forall b, In b l -> ge b s).

(** key [t] is bound to [c] in memory [m] (a finite map: one binding per key) *)
Definition holds (m : mem) (t : term) (c : concept) : Prop := In (t, c) m.
Definition mapOk (m : mem) : Prop := NoDup (map fst m) /\ forall t c, holds m t c -> c_name c = t.

(** everything that can happen to a memory through this file, with a belief
    limit [n]: store (any sentence, any list of concept names), limit the
    number of concepts, and re-order (the hash map has no order). *)
Inductive history (n : nat) : mem -> Prop :=
| h_make : history n memMake
| h_store : forall m us s now m', history n m -> storeInConcepts us m s n now = Ok m' -> history n m'
| h_store2 : forall m us s ts now m', history n m -> storeInConcepts2 us m s ts n now = Ok m' -> history n m'
| h_limit : forall m k m', history n m -> limitMemory m k = Ok m' -> history n m'
| h_perm : forall m m', history n m -> Permutation m m' -> history n m'.

(** histories in which only [storeInConcepts] stores, and only sentences with property [P] *)
Inductive historyOf (P : (nat -> usage) -> Z -> sentence -> Prop) (n : nat) : mem -> Prop :=
| ho_make : historyOf P n memMake
| ho_store : forall m us s now m', historyOf P n m -> P us now s -> storeInConcepts us m s n now = Ok m' -> historyOf P n m'
| ho_limit : forall m k m', historyOf P n m -> limitMemory m k = Ok m' -> historyOf P n m'
| ho_perm : forall m m', historyOf P n m -> Permutation m m' -> historyOf P n m'.

(** the rating of a concept: the largest expectation of its beliefs, at least 0 *)
Definition isRating (c : concept) (r : f64) : Prop :=
  (r = f0 \/ exists b, In b (byExp c) /\ hasExp b r) /\
  (fis_nan r = false) /\ fleb f0 r = true /\
  forall b e, In b (byExp c) -> hasExp b e -> fis_nan e = false -> fleb e r = true.

(** a sentence with a truth value whose expectation is a number *)
Definition storable (s : sentence) : Prop := exists e, hasExp s e /\ fis_nan e = false.
Definition allStorable (m : mem) : Prop := forall t c b, holds m t c -> In b (byExp c) -> storable b.
(** every usage cell gives a usefulness that is a number *)
Definition usableUs (us : nat -> usage) (now : Z) : Prop := forall a, fis_nan (calcUsageUsefulness (us a) now) = false.
