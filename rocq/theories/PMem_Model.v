(** Procedural evidence memory: src/NarMem.rs once more, this time with the
    identity of the stored sentences. Goals and anticipations keep an
    [Arc<RwLock<Sentence>>] to one stored belief and change it later, so a
    belief is a cell of a heap and concept tables hold addresses. [PMem_Proofs]
    shows that reading the cells gives back the value model [Mem_Model]. *)
From Coq Require Import ZArith Bool List.
From Verif Require Import Base F64_Model Term_Model Stamp_Model Tv_Model Sentence_Model Mem_Model.
Import ListNotations.

(** NarMem.rs 23-36 *)
Record pconcept := mkPC { pc_name : term; pExp : list nat; pUse : list nat }.
(** NarMem.rs 41-43 plus the cells reachable through [Arc]s. *)
Record pmem := mkPmem { cells : list sentence; pcs : list (term * pconcept) }.

(** NarMem.rs 45-47 *)
Definition pmemMake : pmem := mkPmem [] [].

(** content of an address that was never allocated (does not occur) *)
Definition noSentence : sentence := mkSentence (Seq []) None JUGEMENT [] None None 0.
(** [arc.read()] *)
Definition rd (h : list sentence) (a : nat) : sentence := nth a h noSentence.
(** [*arc.write() = s] *)
Definition wr (h : list sentence) (a : nat) (s : sentence) : list sentence := replace_at a s h.

(** NarMem.rs 65-72 and 93-100 *)
Definition pExists (h : list sentence) (s : sentence) (l : list nat) : bool :=
  beliefExists s (map (rd h) l).

(** NarMem.rs 77-86 and 105-115 *)
Definition pRank (h : list sentence) (key : sentence -> res f64) (n : nat) (l : list nat) : res (list nat) :=
  do temp <- rmapM (fun a => do k <- key (rd h a); Ok (k, a)) l;
  do srt <- fsort_desc fst temp;
  Ok (firstn (Nat.min (length srt) n) (map snd srt)).

(** NarMem.rs 62-88 and 90-117: a new cell is allocated for the copy. *)
Definition pStoreTable (key : sentence -> res f64) (n : nat) (s : sentence) (h : list sentence) (l : list nat) : res (list sentence * list nat) :=
  if pExists h s l then Ok (h, l)
  else
    let h' := h ++ [shallowCopySentence s] in
    do l' <- pRank h' key n (l ++ [length h]);
    Ok (h', l').

(** NarMem.rs 58-134, body of the loop *)
Definition pStoreIn (us : nat -> usage) (s : sentence) (n : nat) (now : Z) (m : pmem) (t : term) : res pmem :=
  match mget (term_clone t) (pcs m) with
  | Some c =>
      do '(h1, e) <- pStoreTable expKey n s (cells m) (pExp c);
      do '(h2, u) <- pStoreTable (usageKey us now) n s h1 (pUse c);
      Ok (mkPmem h2 (mset t (mkPC (pc_name c) e u) (pcs m)))
  | None =>
      let h := cells m in
      Ok (mkPmem (h ++ [shallowCopySentence s; shallowCopySentence s])
                 (mset (term_clone t) (mkPC (term_clone t) [length h] [S (length h)]) (pcs m)))
  end.

(** NarMem.rs 54-136 *)
Definition pStoreInConcepts2 (us : nat -> usage) (m : pmem) (s : sentence) (subterms : list term) (n : nat) (now : Z) : res pmem :=
  if negb (punct_eqb (s_punct s) JUGEMENT) then Ok m
  else rfold (pStoreIn us s n now) subterms m.

(** NarMem.rs 166-172 *)
Definition pRating (h : list sentence) (c : pconcept) : res f64 :=
  rfold (fun r a => do e <- expKey (rd h a); Ok (fmax r e)) (pExp c) f0.

(** NarMem.rs 140-197. Cells that are no longer in a table stay allocated:
    goals and anticipations may still hold them. *)
Definition pLimit (m : pmem) (nConcepts : nat) : res pmem :=
  if Nat.leb (length (pcs m)) nConcepts then Ok m
  else
    do rated <- rmapM (fun kc => do r <- pRating (cells m) (snd kc); Ok (snd kc, r)) (pcs m);
    do srt <- fsort_desc snd rated;
    let kept := firstn (Nat.min (length srt) nConcepts) srt in
    Ok (mkPmem (cells m) (fold_left (fun acc cr => mset (pc_name (fst cr)) (fst cr) acc) kept [])).

(** NarMem.rs 202-213 *)
Definition pBeliefsOf (m : pmem) (t : term) : list nat :=
  match mget t (pcs m) with Some c => pExp c ++ pUse c | None => [] end.

(** NarMem.rs 216-235 *)
Definition pBeliefs (m : pmem) (terms : list term) : list nat :=
  flat_map (fun t => flat_map (pBeliefsOf m) (retSubterms t)) terms.

(** NarGoalSystem.rs 594-616; [seq[0]] panics on an empty sequence. *)
Definition query_by_antecedent (queryTerm : term) (m : pmem) : res (list nat) :=
  rfold (fun acc a =>
    match s_term (rd (cells m) a) with
    | Stmt PREDIMPL (Seq sq) _ =>
        do c <- idx sq 0;
        Ok (if checkEqTerm queryTerm c then acc ++ [a] else acc)
    | _ => Ok acc
    end) (pBeliefs m [term_clone queryTerm]) [].

(** NarGoalSystem.rs 619-638 *)
Definition query_by_consequence (queryTerm : term) (m : pmem) : list nat :=
  filter (fun a =>
    match s_term (rd (cells m) a) with
    | Stmt PREDIMPL _ pred => checkEqTerm queryTerm pred
    | _ => false
    end) (pBeliefs m [term_clone queryTerm]).
