(** Model of src/NarGoalSystem.rs, src/BinSearch.rs and the goal rules of
    src/NarInfProcedural.rs.

    Goal entries ([Arc<RwLock<Entry>>]) are values: an entry is in exactly one
    group or in the active set, and [entriesByTerm] only ever looks at its
    (immutable) sentence, so that index holds sentences. [desirability] is f32
    in the source; only 1.0 and 0.0 are ever stored, both exact in f64.
    The queue of the procedural / Q&A bridge is left out: its only producer is
    commented out (NarGoalSystem.rs 222-237), so it is always empty.
    Printing and [cfg__dbg_enAddEntry] are left out. *)
From Coq Require Import String ZArith Bool List.
From Verif Require Import Base F64_Model Term_Model Unify_Model Stamp_Model Tv_Model Sentence_Model Mem_Model PMem_Model.
Import ListNotations.
Local Open Scope Z_scope.

(** NarGoalSystem.rs 83-101; [e_evi] is the address of the belief. *)
Record entry := mkEntry {
  e_sentence : sentence;
  e_evi : option nat;
  e_create : Z;
  e_depth : Z;
  e_des : f64;
  e_util : f64;
  e_acc : f64
}.

(** NarGoalSystem.rs 75-80: [EntryFoldedByTerm] *)
Definition group := (term * list entry)%type.

(** NarGoalSystem.rs 44-70 and 109-112; the [depth] of a batch is its index. *)
Record gsys := mkGsys {
  g_active : list entry;
  g_batches : list (list group);
  g_byTerm : list (term * list sentence);
  g_maxEntries : Z;
  g_maxDepth : Z;
  g_sat : bool;
  g_rounds : Z
}.

(** NarGoalSystem.rs 104-106 *)
Definition is_desired (e : entry) : bool := fgtb (e_des e) (f_frac 1 10000).

(** NarGoalSystem.rs 120-142 *)
Definition makeGoalSystem (nMaxEntries nMaxDepth : Z) : gsys :=
  mkGsys [] (repeat [] (Z.to_nat nMaxDepth)) [] nMaxEntries nMaxDepth true 15.

(** NarGoalSystem.rs 145-160 *)
Definition retEntries (g : gsys) : list entry :=
  flat_map (fun b => flat_map snd b) (g_batches g) ++ g_active g.

(** NarGoalSystem.rs 423-435 *)
Definition checkSetContains (set : list entry) (s : sentence) : bool :=
  existsb (fun iv => checkEqTerm (s_term (e_sentence iv)) (s_term s) && checkSame (s_stamp (e_sentence iv)) (s_stamp s)) set.

Definition setAcc (e : entry) (a : f64) : entry :=
  mkEntry (e_sentence e) (e_evi e) (e_create e) (e_depth e) (e_des e) (e_util e) a.
Definition setUtil (e : entry) (u : f64) : entry :=
  mkEntry (e_sentence e) (e_evi e) (e_create e) (e_depth e) (e_des e) u (e_acc e).
Definition setDes (e : entry) (d : f64) : entry :=
  mkEntry (e_sentence e) (e_evi e) (e_create e) (e_depth e) d (e_util e) (e_acc e).
Definition setActive (g : gsys) (a : list entry) : gsys :=
  mkGsys a (g_batches g) (g_byTerm g) (g_maxEntries g) (g_maxDepth g) (g_sat g) (g_rounds g).
Definition setBatches (g : gsys) (b : list (list group)) : gsys :=
  mkGsys (g_active g) b (g_byTerm g) (g_maxEntries g) (g_maxDepth g) (g_sat g) (g_rounds g).
Definition setByTerm (g : gsys) (i : list (term * list sentence)) : gsys :=
  mkGsys (g_active g) (g_batches g) i (g_maxEntries g) (g_maxDepth g) (g_sat g) (g_rounds g).

(** [entries[entries.len()-1]] *)
Definition lastEntry (l : list entry) : res entry := unwrap (nth_error l (length l - 1)).

(** NarGoalSystem.rs 269-279: the first group of the same term takes the
    entry; [None] if there is no such group. *)
Fixpoint addToGroups (e : entry) (gs : list group) : res (option (list group)) :=
  match gs with
  | [] => Ok None
  | (t, es) :: gs' =>
      if checkEqTerm t (s_term (e_sentence e)) then
        do l <- lastEntry es;
        Ok (Some ((t, es ++ [setAcc e (fadd (e_acc l) (fmax (e_des l) f0))]) :: gs'))
      else
        do r <- addToGroups e gs';
        Ok (match r with Some gs'' => Some ((t, es) :: gs'') | None => None end)
  end.

(** NarGoalSystem.rs 288-311 *)
Definition indexEntry (s : sentence) (i : list (term * list sentence)) : list (term * list sentence) :=
  match mget (s_term s) i with
  | Some arr =>
      if existsb (fun it => checkEqTerm (s_term it) (s_term s) && checkOverlap (s_stamp it) (s_stamp s)) arr
      then i
      else mset (s_term s) (arr ++ [s]) i
  | None => mset (term_clone (s_term s)) [s] i
  end.

(** [x as usize] used as an index: a negative number becomes huge. *)
Definition idxZ {A} (l : list A) (z : Z) : res A := if z <? 0 then Panic else idx l (Z.to_nat z).

(** NarGoalSystem.rs 209-314. The translation of lines 211-241 has no effect. *)
Definition addEntry2 (g : gsys) (e : entry) : res gsys :=
  match decodeOp (s_term (e_sentence e)) with
  | Some _ =>
      if checkSetContains (g_active g) (e_sentence e) then Ok g
      else Ok (setActive g (g_active g ++ [e]))
  | None =>
      let i := Z.min (e_depth e) (g_maxDepth g - 1) in
      do batch <- idxZ (g_batches g) i;
      do r <- addToGroups e batch;
      match r with
      | Some batch' => Ok (setBatches g (replace_at (Z.to_nat i) batch' (g_batches g)))
      | None =>
          let batch' := batch ++ [(term_clone (s_term (e_sentence e)), [e])] in
          let g' := setBatches g (replace_at (Z.to_nat i) batch' (g_batches g)) in
          Ok (setByTerm g' (indexEntry (e_sentence e) (g_byTerm g)))
      end
  end.

(** NarGoalSystem.rs 173-201: is the goal already there? *)
Definition goalKnown (g : gsys) (s : sentence) : bool :=
  match mget (s_term s) (g_byTerm g) with
  | Some arr => existsb (fun iv => checkEqTerm (s_term iv) (s_term s) && checkSame (s_stamp iv) (s_stamp s)) arr
  | None => false
  end.

(** NarGoalSystem.rs 163-205 *)
Definition addEntry (g : gsys) (t : Z) (goal : sentence) (evi : option nat) (depth : Z) : res gsys :=
  if negb (punct_eqb (s_punct goal) GOAL) then Panic
  else if goalKnown g goal then Ok g
  else addEntry2 g (mkEntry goal evi t depth f1 f1 f0).

(** NarGoalSystem.rs 450-459. [decay age] stands for [((age as f64)*-0.01).exp()]. *)
Definition refreshUtil (decay : Z -> f64) (t : Z) (e : entry) : res entry :=
  do v <- unwrap (retTv (e_sentence e));
  Ok (setUtil e (fmul (fmul (calcExp v) (fabs (e_des e))) (decay (t - e_create e)))).

(** NarGoalSystem.rs 439-483. The active set is in [retEntries] already and is
    appended a second time (442-444). A negative limit makes [remove] panic. *)
Definition limitGoals (decay : Z -> f64) (g : gsys) (t : Z) : res gsys :=
  do arr <- rmapM (refreshUtil decay t) (retEntries g ++ g_active g);
  do srt <- fsort_desc e_util arr;
  if g_maxEntries g <? 0 then Panic
  else
    let kept := firstn (Z.to_nat (g_maxEntries g)) srt in
    let g0 := mkGsys [] (repeat [] (Z.to_nat (g_maxDepth g))) [] (g_maxEntries g) (g_maxDepth g) (g_sat g) (g_rounds g) in
    rfold addEntry2 kept g0.

(** BinSearch.rs 7-14; [n] bounds the recursion (the length is enough). *)
Fixpoint binSearch (n : nat) (arr : list entry) (val : f64) : res entry :=
  match arr with
  | [x] => Ok x
  | _ =>
      match n with
      | O => Panic
      | S n' =>
          let idxMid := Nat.div (length arr) 2 in
          do m <- idx arr idxMid;
          binSearch n' (if fgtb (e_acc m) val then firstn idxMid arr else skipn idxMid arr) val
      end
  end.

(** NarGoalSystem.rs 511-521: [break] is modelled by not changing the state
    any more (the test stays true, because only the loop body adds to [sum]). *)
Definition selBatchStep (selPriority : f64) (st : f64 * list group) (iv : list group) : f64 * list group :=
  let '(sum, sel) := st in
  if fgeb sum selPriority then (sum, sel)
  else match iv with [] => (sum, sel) | _ => (fadd sum f1, iv) end.

(** NarGoalSystem.rs 540-544 and 554-555 *)
Definition groupWeight (gr : group) : res f64 :=
  do l <- lastEntry (snd gr); Ok (fadd (e_acc l) (e_des l)).

(** NarGoalSystem.rs 548-580 *)
Fixpoint selInBatch (sumPriorities selPriority sum : f64) (gs : list group) : res (option (sentence * Z)) :=
  match gs with
  | [] => Ok None
  | iv :: gs' =>
      if negb (fleb sum sumPriorities) then Panic
      else
        do des2 <- groupWeight iv;
        if fgtb (fadd des2 sum) selPriority then
          do e <- binSearch (length (snd iv)) (snd iv) selPriority;
          Ok (Some (e_sentence e, e_depth e))
        else selInBatch sumPriorities selPriority (fadd sum des2) gs'
  end.

(** NarGoalSystem.rs 487-583. [r1], [r2]: the two random numbers of [0,1). *)
Definition sample (g : gsys) (r1 r2 : f64) : res (option (sentence * Z)) :=
  let sumB := fsum (map (fun b : list group => match b with [] => f0 | _ => f1 end) (g_batches g)) in
  let selP := fmul r1 sumB in
  do dflt <- idx (g_batches g) 0;
  let selBatch := snd (fold_left (selBatchStep selP) (g_batches g) (f0, dflt)) in
  match selBatch with
  | [] => Ok None
  | _ =>
      do ws <- rmapM groupWeight selBatch;
      let sumPriorities := fsum ws in
      selInBatch sumPriorities (fmul r2 sumPriorities) f0 selBatch
  end.

(** NarGoalSystem.rs 642-649 *)
Definition retSubSeqAsSeqOrTerm (sub : list term) : term :=
  match sub with [x] => x | _ => Seq sub end.

(** NarGoalSystem.rs 653-679 *)
Definition selStep (state : term) (res0 : f64 * option (entry * term)) (iv : entry) : res (f64 * option (entry * term)) :=
  match s_term (e_sentence iv) with
  | Seq sq =>
      if Nat.leb 1 (length sq) then
        match unify (retSubSeqAsSeqOrTerm (firstn (length sq - 1) sq)) state with
        | Some asg =>
            do v <- unwrap (retTv (e_sentence iv));
            let exp := calcExp v in
            Ok (if fgtb exp (fst res0) then (exp, Some (iv, unifySubst (s_term (e_sentence iv)) asg)) else res0)
        | None => Ok res0
        end
      else Ok res0
  | _ => Ok res0
  end.
Definition selHighestExpGoalByState (g : gsys) (state : term) : res (f64 * option (entry * term)) :=
  rfold (selStep state) (retEntries g) (f0, None).

(** NarInfProcedural.rs 24-61; [u] is the address of the new usage cell. *)
Definition infGoalBelief (goal belief : sentence) (u : nat) : res (option sentence) :=
  match s_term belief with
  | Stmt PREDIMPL subj pred =>
      if negb (checkEqTerm (s_term goal) pred) then Ok None
      else if checkOverlap (s_stamp goal) (s_stamp belief) then Ok None
      else
        do tvCompound <- unwrap (retTv belief);
        do tvComponent <- unwrap (retTv goal);
        Ok (Some (newEternalSentenceByTv subj GOAL (dedGoal tvComponent tvCompound)
                    (merge (s_stamp goal) (s_stamp belief)) u))
  | _ => Ok None
  end.

(** NarInfProcedural.rs 232-244 *)
Definition infGoalDetach (premise : sentence) (u : nat) : res (option sentence) :=
  match s_term premise with
  | Seq (x :: _) =>
      do v <- unwrap (retTv premise);
      Ok (Some (newEternalSentenceByTv x GOAL v (s_stamp premise) u))
  | _ => Ok None
  end.

(** NarGoalSystem.rs 683-687 *)
Record hgoal := mkH { h_goal : sentence; h_evi : option nat; h_depth : Z }.

(** NarGoalSystem.rs 690-696; the two random indices are given. *)
Inductive strategy := ALL_BELIEFS | SAMPLE_2 (i j : nat).

(** NarGoalSystem.rs 718-721 and 728-731. Every conclusion gets the same usage
    address [u]: the cells of goals are never read. *)
Definition tryBelief (u : nat) (m : pmem) (g : sentence) (depth : Z) (concls : list hgoal) (a : nat) : res (list hgoal) :=
  do c <- infGoalBelief g (rd (cells m) a) u;
  Ok (match c with Some s => concls ++ [mkH s (Some a) (depth + 1)] | None => concls end).

(** NarGoalSystem.rs 700-741. [gen_range(0..len)] is [i mod len]. *)
Definition deriveGoalsHelper (u : nat) (g : sentence) (depth : Z) (st : strategy) (m : pmem) : res (list hgoal) :=
  do d <- infGoalDetach g u;
  match d with
  | Some concl => Ok [mkH concl None (depth + 1)]
  | None =>
      let cand := query_by_consequence (s_term g) m in
      match st with
      | ALL_BELIEFS => rfold (tryBelief u m g depth) cand []
      | SAMPLE_2 i j =>
          rfold (fun acc k =>
            match cand with
            | [] => Ok acc
            | _ => do a <- idx cand (Nat.modulo k (length cand)); tryBelief u m g depth acc a
            end) [i; j] []
      end
  end.

(** random numbers of one round of the sub working cycle: position in the
    working set and the two belief indices *)
Definition roundRnd := (nat * nat * nat)%type.

(** NarGoalSystem.rs 780-797: one round. State: working set (goal, depth) and
    conclusions. *)
Definition subRound (u : nat) (m : pmem) (st : list (sentence * Z) * list hgoal) (r : roundRnd) : res (list (sentence * Z) * list hgoal) :=
  let '(ws, concls) := st in
  match ws with
  | [] => Ok st
  | _ =>
      let '(k, i, j) := r in
      let sel := Nat.modulo k (length ws) in
      do w <- idx ws sel;
      do hs <- deriveGoalsHelper u (fst w) (snd w) (SAMPLE_2 i j) m;
      Ok (swap_remove sel ws ++ map (fun h => (h_goal h, h_depth h)) hs, concls ++ hs)
  end.

(** NarGoalSystem.rs 745-823. [rnd k] are the random numbers of round [k]. *)
Definition sampleAndInference (u : nat) (g : gsys) (t : Z) (m : pmem) (r1 r2 : f64) (rnd : nat -> roundRnd) : res gsys :=
  do s <- sample g r1 r2;
  match s with
  | None => Ok g
  | Some (goal, depth) =>
      do '(_, concls) <- rfold (subRound u m) (map rnd (seq 0 (Z.to_nat (g_rounds g)))) ([(goal, depth)], []);
      do hs <- deriveGoalsHelper u goal depth ALL_BELIEFS m;
      rfold (fun g h => addEntry g t (h_goal h) (h_evi h) (h_depth h)) (concls ++ hs) g
  end.

(** NarGoalSystem.rs 829-833 and 838-842 *)
Definition satisfy (sat : bool) (ev : term) (e : entry) : entry :=
  if sat && checkEqTerm (s_term (e_sentence e)) ev then setDes e f0 else e.

(** NarGoalSystem.rs 826-844. The active set is visited twice. *)
Definition event_occurred (g : gsys) (ev : term) : gsys :=
  let f := satisfy (g_sat g) ev in
  mkGsys (map f (map f (g_active g))) (map (map (fun gr => (fst gr, map f (snd gr)))) (g_batches g))
         (g_byTerm g) (g_maxEntries g) (g_maxDepth g) (g_sat g) (g_rounds g).

(** NarGoalSystem.rs 847-865 *)
Definition query (g : gsys) (ev : term) : option entry :=
  find (fun e => checkEqTerm (s_term (e_sentence e)) ev) (retEntries g ++ g_active g).

(** NarGoalSystem.rs 341-420 *)
Fixpoint convProcTermToQaTerm (t : term) : term :=
  match t with
  | QVar n => QVar (String.append "Q_"%string n)
  | DepVar n => QVar (String.append "D_"%string n)
  | IndepVar n => QVar (String.append "I_"%string n)
  | Stmt c x y => Stmt c (convProcTermToQaTerm x) (convProcTermToQaTerm y)
  | Name n => Name n
  | Seq l => Seq (map convProcTermToQaTerm l)
  | SetInt l => SetInt (map convProcTermToQaTerm l)
  | SetExt l => SetExt (map convProcTermToQaTerm l)
  | Conj l => Conj (map convProcTermToQaTerm l)
  | Prod l => Prod (map convProcTermToQaTerm l)
  | Img r i l => Img (convProcTermToQaTerm r) i (map convProcTermToQaTerm l)
  | IntInt l => IntInt (map convProcTermToQaTerm l)
  | ExtInt l => ExtInt (map convProcTermToQaTerm l)
  | Par l => Par (map convProcTermToQaTerm l)
  | Neg x => Neg (convProcTermToQaTerm x)
  end.
