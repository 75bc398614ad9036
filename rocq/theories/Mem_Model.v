(** Model of src/NarMem.rs: concept memory.
    A HashMap<Term,_> is an association list; its order stands for the
    (arbitrary) iteration order. Stored sentences are values: each table entry
    owns its copy, only the usage cell is shared, and is read from the heap
    [us]. [Arc::get_mut] succeeds because concepts are never shared outside the
    map (its failure branch only prints). *)
From Coq Require Import ZArith Bool List.
From Verif Require Import Base F64_Model Term_Model Stamp_Model Tv_Model Sentence_Model.
Import ListNotations.

(** HashMap get / insert *)
Fixpoint mget {A} (t : term) (m : list (term * A)) : option A :=
  match m with
  | [] => None
  | (k, a) :: m' => if checkEqTerm k t then Some a else mget t m'
  end.
Fixpoint mset {A} (t : term) (a : A) (m : list (term * A)) : list (term * A) :=
  match m with
  | [] => [(t, a)]
  | (k, b) :: m' => if checkEqTerm k t then (k, a) :: m' else (k, b) :: mset t a m'
  end.

(** NarMem.rs 23-36: [Concept] with its [Payload]. *)
Record concept := mkConcept { c_name : term; byExp : list sentence; byUsage : list sentence }.

(** NarMem.rs 41-43 *)
Definition mem := list (term * concept).

(** NarMem.rs 45-47 *)
Definition memMake : mem := [].

(** NarMem.rs 65-72 and 93-100 *)
Definition beliefExists (s : sentence) (l : list sentence) : bool :=
  existsb (fun b => checkEqTerm (s_term b) (s_term s) && checkOverlap (s_stamp b) (s_stamp s)) l.

(** Key, sort, truncate: NarMem.rs 77-86 and 105-115. [key] computes the f64
    of an element (and may panic). *)
Definition rankTable (key : sentence -> res f64) (n : nat) (l : list sentence) : res (list sentence) :=
  do temp <- rmapM (fun iv => do k <- key iv; Ok (k, iv)) l;
  do srt <- fsort_desc fst temp;
  Ok (firstn (Nat.min (length srt) n) (map snd srt)).

(** NarMem.rs 79 *)
Definition expKey (s : sentence) : res f64 := do v <- unwrap (retTv s); Ok (calcExp v).
(** NarMem.rs 107-108 *)
Definition usageKey (us : nat -> usage) (now : Z) (s : sentence) : res f64 :=
  Ok (calcUsageUsefulness (us (s_usage s)) now).

Definition storeTable (key : sentence -> res f64) (n : nat) (s : sentence) (l : list sentence) : res (list sentence) :=
  if beliefExists s l then Ok l
  else rankTable key n (l ++ [shallowCopySentence s]).

(** NarMem.rs 58-134, body of the loop *)
Definition storeInConcept (us : nat -> usage) (s : sentence) (n : nat) (now : Z) (m : mem) (t : term) : res mem :=
  match mget (term_clone t) m with
  | Some c =>
      do e <- storeTable expKey n s (byExp c);
      do u <- storeTable (usageKey us now) n s (byUsage c);
      Ok (mset t (mkConcept (c_name c) e u) m)
  | None =>
      Ok (mset (term_clone t) (mkConcept (term_clone t) [shallowCopySentence s] [shallowCopySentence s]) m)
  end.

(** NarMem.rs 54-136 *)
Definition storeInConcepts2 (us : nat -> usage) (m : mem) (s : sentence) (subterms : list term) (n : nat) (now : Z) : res mem :=
  if negb (punct_eqb (s_punct s) JUGEMENT) then Ok m
  else rfold (storeInConcept us s n now) subterms m.

(** NarMem.rs 49-51 *)
Definition storeInConcepts (us : nat -> usage) (m : mem) (s : sentence) (n : nat) (now : Z) : res mem :=
  storeInConcepts2 us m s (retSubterms (s_term s)) n now.

(** NarMem.rs 166-172 *)
Definition conceptRating (c : concept) : res f64 :=
  rfold (fun r b => do e <- expKey b; Ok (fmax r e)) (byExp c) f0.

(** NarMem.rs 140-197; the debug counters of 141-159 are not modelled. [m] is
    given in iteration order. *)
Definition limitMemory (m : mem) (nConcepts : nat) : res mem :=
  if Nat.leb (length m) nConcepts then Ok m
  else
    do rated <- rmapM (fun kc => do r <- conceptRating (snd kc); Ok (snd kc, r)) m;
    do srt <- fsort_desc snd rated;
    let kept := firstn (Nat.min (length srt) nConcepts) srt in
    Ok (fold_left (fun acc cr => mset (c_name (fst cr)) (fst cr) acc) kept []).

(** NarMem.rs 202-213 *)
Definition ret_beliefs_of_concept (m : mem) (t : term) : option (list sentence) :=
  match mget t m with
  | Some c => Some (byExp c ++ byUsage c)
  | None => None
  end.

(** NarMem.rs 216-235 *)
Definition ret_beliefs_by_terms_nonunique (m : mem) (terms : list term) : list sentence :=
  flat_map (fun t => flat_map (fun st =>
    match ret_beliefs_of_concept m st with Some l => l | None => [] end) (retSubterms t)) terms.
