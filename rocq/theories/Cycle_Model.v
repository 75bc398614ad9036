(** Model of the declarative reasoner: src/NarWorkingCycle.rs 976-1977.
    - Tasks ([Arc<RwLock<Task>>]) live in a heap; an Arc is an address (index
      into the heap), [Arc::ptr_eq] is equality of addresses.
    - Usage cells live in a heap [usages : nat -> usage]; [nextU] is the next
      free address.
    - [f64::exp] is the argument [expf]; the random numbers are arguments.
    - Calls of the question handlers are returned as a list of answers
      (question term, answering sentence): one entry stands for one call of the
      task's own handler (if any) and of every global handler.
    - Locks: every function here is one sequential execution; interleavings of
      threads are in Sched_Model.v. *)
From Coq Require Import String ZArith Bool SpecFloat List.
From Verif Require Import Base F64_Model Term_Model Unify_Model Stamp_Model Tv_Model Sentence_Model Infer_Model Mem_Model.
Import ListNotations.
Local Open Scope Z_scope.

(** NarWorkingCycle.rs 976-990 *)
Record task := mkTask {
  tk_s : sentence; credit : f64; qaCredit : f64; mulCredit : f64; tk_id : Z; derivTime : Z }.

(** NarWorkingCycle.rs 1004-1012; [q_handler]: is a handler set? *)
Record task2 := mkTask2 { q_s : sentence; q_handler : bool; bestAnswerExp : f64; prio : f64 }.

(** NarWorkingCycle.rs 1016-1020 *)
Record workMsg := mkMsg { primary : nat; secondary : list nat; m_cycle : Z }.

(** NarWorkingCycle.rs 1031-1048, plus the two heaps. *)
Record shared := mkShared {
  heap : list task;
  judg : list nat;
  byTerm : list (term * list nat);
  questions : list task2;
  memory : mem;
  procMem : mem;
  stampCtr : Z;
  taskCtr : Z;
  cycleCtr : Z;
  usages : nat -> usage;
  nextU : nat }.

(** NarWorkingCycle.rs 1064-1096 *)
Definition sharedMake : shared :=
  mkShared [] [] [] [] memMake memMake 0 1000 0 (fun _ => mkUsage 0 0) 0.

Definition task0 : task :=
  mkTask (mkSentence (Name ""%string) None JUGEMENT [] None None 0) f0 f0 f0 0 0.
Definition hget (h : list task) (a : nat) : task := nth a h task0.
Definition hupd (h : list task) (a : nat) (f : task -> task) : list task := replace_at a (f (hget h a)) h.

(** Record updates *)
Definition setHeap (h : list task) (sh : shared) : shared :=
  mkShared h (judg sh) (byTerm sh) (questions sh) (memory sh) (procMem sh) (stampCtr sh) (taskCtr sh) (cycleCtr sh) (usages sh) (nextU sh).
Definition setJudg (j : list nat) (sh : shared) : shared :=
  mkShared (heap sh) j (byTerm sh) (questions sh) (memory sh) (procMem sh) (stampCtr sh) (taskCtr sh) (cycleCtr sh) (usages sh) (nextU sh).
Definition setByTerm (b : list (term * list nat)) (sh : shared) : shared :=
  mkShared (heap sh) (judg sh) b (questions sh) (memory sh) (procMem sh) (stampCtr sh) (taskCtr sh) (cycleCtr sh) (usages sh) (nextU sh).
Definition setQuestions (q : list task2) (sh : shared) : shared :=
  mkShared (heap sh) (judg sh) (byTerm sh) q (memory sh) (procMem sh) (stampCtr sh) (taskCtr sh) (cycleCtr sh) (usages sh) (nextU sh).
Definition setMemory (m : mem) (sh : shared) : shared :=
  mkShared (heap sh) (judg sh) (byTerm sh) (questions sh) m (procMem sh) (stampCtr sh) (taskCtr sh) (cycleCtr sh) (usages sh) (nextU sh).
Definition setStampCtr (c : Z) (sh : shared) : shared :=
  mkShared (heap sh) (judg sh) (byTerm sh) (questions sh) (memory sh) (procMem sh) c (taskCtr sh) (cycleCtr sh) (usages sh) (nextU sh).
Definition setTaskCtr (c : Z) (sh : shared) : shared :=
  mkShared (heap sh) (judg sh) (byTerm sh) (questions sh) (memory sh) (procMem sh) (stampCtr sh) c (cycleCtr sh) (usages sh) (nextU sh).
Definition setCycleCtr (c : Z) (sh : shared) : shared :=
  mkShared (heap sh) (judg sh) (byTerm sh) (questions sh) (memory sh) (procMem sh) (stampCtr sh) (taskCtr sh) c (usages sh) (nextU sh).
Definition setUsages (u : nat -> usage) (sh : shared) : shared :=
  mkShared (heap sh) (judg sh) (byTerm sh) (questions sh) (memory sh) (procMem sh) (stampCtr sh) (taskCtr sh) (cycleCtr sh) u (nextU sh).
Definition setNextU (n : nat) (sh : shared) : shared :=
  mkShared (heap sh) (judg sh) (byTerm sh) (questions sh) (memory sh) (procMem sh) (stampCtr sh) (taskCtr sh) (cycleCtr sh) (usages sh) n.

Definition fopp (x : f64) : f64 := SpecFloat.SFopp x.
#[global] Arguments fopp : simpl never.
(** NarWorkingCycle.rs 993-1001 *)
Definition taskCalcCredit (expf : f64 -> f64) (t : task) (cycleCounter : Z) : f64 :=
  let decayFactor := f_frac 1 1000 in
  let dt := cycleCounter - derivTime t in
  let decayFactor := expf (fmul (fopp decayFactor) (f_of_Z dt)) in
  let qa := fmul (qaCredit t) (f_frac 2 10) in
  fmul (fmul (fadd qa (credit t)) decayFactor) (mulCredit t).

(** NarWorkingCycle.rs 1615-1618 *)
Definition divCreditByComplexity (t : task) : task :=
  let c := f_of_Z (calcComplexity (s_term (tk_s t))) in
  mkTask (tk_s t) (fdiv (credit t) c) (fdiv (qaCredit t) c) (mulCredit t) (tk_id t) (derivTime t).

(** * Selection, NarWorkingCycle.rs 1310-1395 (over the list of weights) *)
Fixpoint selRandomFrom (thr : f64) (acc : f64) (i : nat) (ws : list f64) : option nat :=
  match ws with
  | [] => None
  | w :: ws' => let acc' := fadd acc w in if fgeb acc' thr then Some i else selRandomFrom thr acc' (S i) ws'
  end.
(** [arr.len()-1] underflows (panics) on an empty array *)
Definition selRandom (selVal : f64) (ws : list f64) : res nat :=
  match selRandomFrom (fmul selVal (fsum ws)) f0 0 ws with
  | Some i => Ok i
  | None => match ws with [] => Panic | _ => Ok (length ws - 1)%nat end
  end.
(** 1310-1323 *)
Definition taskSelByCreditRandom expf (selVal : f64) (arr : list task) (cycleCounter : Z) : res nat :=
  selRandom selVal (map (fun t => taskCalcCredit expf t cycleCounter) arr).
(** 1341-1354 *)
Definition task2SelByCreditRandom (selVal : f64) (arr : list task2) : res nat := selRandom selVal (map prio arr).
(** 1358-1378 *)
Definition conceptSelByAvRandom (selVal : f64) (arr : list sentence) : res nat :=
  do ws <- rmapM (fun s => if punct_eqb (s_punct s) QUESTION then Panic else do v <- unwrap (retTv s); Ok (tvc v)) arr;
  selRandom selVal ws.
(** 1326-1339 *)
Definition taskSelByCreditTop expf (arr : list task) (cycleCounter : Z) : nat :=
  fst (snd (fold_left (fun st t =>
      let '(i, best) := st in
      let c := taskCalcCredit expf t cycleCounter in
      (S i, if fgtb c (snd best) then (i, c) else best)) arr (O, (O, f_of_Z (-5000))))).
(** 1381-1395 *)
Definition tasksSelHighestCreditIdx expf (arr : list task) (cycleCounter : Z) : option nat :=
  match arr with
  | [] => None
  | t0 :: rest =>
      Some (fst (snd (fold_left (fun st t =>
        let '(i, best) := st in
        (S i, if fgtb (taskCalcCredit expf t cycleCounter) (taskCalcCredit expf (snd best) cycleCounter) then (i, t) else best))
        rest (1%nat, (O, t0)))))
  end.

(** * Term index, NarWorkingCycle.rs 1401-1414 *)
Definition populateTaskByTermLookup (bt : list (term * list nat)) (t : term) (a : nat) : list (term * list nat) :=
  fold_left (fun bt st =>
    match mget st bt with
    | Some v => mset (term_clone st) (v ++ [a]) bt
    | None => mset (term_clone st) [a] bt
    end) (retSubterms t) bt.

(** * Revision, NarWorkingCycle.rs 1419-1528 *)
Fixpoint findRevisable (s : sentence) (i : nat) (l : list sentence) : option (nat * sentence) :=
  match l with
  | [] => None
  | b :: l' => if checkEqTerm (s_term b) (s_term s) && negb (checkOverlap (s_stamp b) (s_stamp s))
               then Some (i, b) else findRevisable s (S i) l'
  end.
(** one table: 1437-1474 resp. 1476-1513; [u] is the fresh usage cell *)
Definition reviseTable (s : sentence) (l : list sentence) (u : nat) : res (list sentence * option sentence) :=
  match findRevisable s 0 l with
  | None => Ok (l, None)
  | Some (i, b) =>
      do tvA <- unwrap (retTv b);
      do tvB <- unwrap (retTv s);
      let nb := mkSentence (s_term b) (s_t b) (s_punct b) (merge (s_stamp b) (s_stamp s)) (s_expDt b)
                  (Some (TV (Tv_Model.rev tvA tvB))) u in
      Ok (remove_at i l ++ [shallowCopySentence nb], Some (shallowCopySentence nb))
  end.
Definition used {A} (o : option A) (u : nat) : nat := match o with Some _ => S u | None => u end.
Definition orElse {A} (o d : option A) : option A := match o with Some _ => o | None => d end.
(** body of the loop 1432-1523; state = memory, result so far, next usage cell *)
Definition reviseConcept (s : sentence) (st : mem * option sentence * nat) (t : term) : res (mem * option sentence * nat) :=
  let '(m, r, u) := st in
  match mget (term_clone t) m with
  | None => Ok (m, r, u)
  | Some c =>
      do e <- reviseTable s (byExp c) u;
      let u1 := used (snd e) u in
      do x <- reviseTable s (byUsage c) u1;
      let u2 := used (snd x) u1 in
      Ok (mset t (mkConcept (c_name c) (fst e) (fst x)) m, orElse (snd x) (orElse (snd e) r), u2)
  end.
Definition memReviseBelief (m : mem) (s : sentence) (u : nat) : res (mem * option sentence * nat) :=
  match s_punct s with
  | JUGEMENT => rfold (reviseConcept s) (retSubterms (s_term s)) (m, None, u)
  | _ => Ok (m, None, u)
  end.

(** * Adding tasks, NarWorkingCycle.rs 1531-1612 *)
Definition taskExists (sh : shared) (s : sentence) : bool :=
  existsb (fun a => let s2 := tk_s (hget (heap sh) a) in
     checkEqTerm (s_term s) (s_term s2) && checkSame (s_stamp s) (s_stamp s2)) (judg sh).
(** 1568-1582 *)
Definition newTask (sh : shared) (s : sentence) (calcCredit : bool) (mul : f64) : task :=
  let t := mkTask (shallowCopySentence s) f1 f0 mul (taskCtr sh) (cycleCtr sh) in
  if calcCredit then divCreditByComplexity t else t.
(** one iteration of 1554-1611; [None] is the early [return] of 1563 *)
Definition addOne (calcCredit : bool) (mul : f64) (sh : shared) (s : sentence) : option shared :=
  match s_punct s with
  | JUGEMENT =>
      if taskExists sh s then None
      else
        let t := newTask sh s calcCredit mul in
        let a := length (heap sh) in
        let sh1 := setTaskCtr (taskCtr sh + 1) (setHeap (heap sh ++ [t]) sh) in
        let sh2 := setJudg (judg sh1 ++ [a]) sh1 in
        Some (setByTerm (populateTaskByTermLookup (byTerm sh2) (s_term s) a) sh2)
  | QUESTION => Some (setQuestions (questions sh ++ [mkTask2 (shallowCopySentence s) false f0 f1]) sh)
  | GOAL => Some sh
  end.
Fixpoint addAll (calcCredit : bool) (mul : f64) (sh : shared) (l : list sentence) : shared :=
  match l with
  | [] => sh
  | s :: l' => match addOne calcCredit mul sh s with None => sh | Some sh' => addAll calcCredit mul sh' l' end
  end.
Definition memAddTask (sh : shared) (s : sentence) (calcCredit : bool) (maxComplexity : Z) (nConceptBeliefs : nat)
    (mul : f64) (currentTime : Z) : res shared :=
  if calcComplexity (s_term s) >? maxComplexity then Ok sh
  else
    do r <- memReviseBelief (memory sh) s (nextU sh);
    let '(m, rev, u) := r in
    let sh1 := setNextU u (setMemory m sh) in
    do sh2 <- match rev with
              | Some _ => Ok sh1
              | None => do m' <- storeInConcepts (usages sh1) (memory sh1) s nConceptBeliefs currentTime; Ok (setMemory m' sh1)
              end;
    Ok (addAll calcCredit mul sh2 (s :: match rev with Some x => [x] | None => [] end)).

(** * Questions, NarWorkingCycle.rs 1625-1655 *)
Definition answer := (term * sentence)%type.
(** the printing of 1651: NarSentence.rs 125-136 (only whether it panics) *)
Definition printSentence (s : sentence) : res unit :=
  do _ <- convTermToStr (s_term s);
  if punct_eqb (s_punct s) QUESTION then Ok tt else do _ <- unwrap (retTv s); Ok tt.
Definition qaTryAnswer (q : task2) (c : sentence) : res (task2 * list answer) :=
  if negb (punct_eqb (s_punct c) JUGEMENT) then Ok (q, [])
  else
    do v <- unwrap (retTv c);
    if fgtb (calcExp v) (bestAnswerExp q) then
      match unify (s_term (q_s q)) (s_term c) with
      | None => Ok (q, [])
      | Some _ =>
          let q' := mkTask2 (q_s q) (q_handler q) (calcExp v) (prio q) in
          do _ <- printSentence (q_s q);
          do _ <- printSentence c;
          Ok (q', [(s_term (q_s q), c)])
      end
    else Ok (q, []).
(** all candidates for one question *)
Definition qaTryAll (q : task2) (cs : list sentence) : res (task2 * list answer) :=
  rfold (fun st c => do r <- qaTryAnswer (fst st) c; Ok (fst r, snd st ++ snd r)) cs (q, []).
(** all questions for one candidate (the loop 1284-1286) *)
Definition qaTryQuestions (qs : list task2) (c : sentence) : res (list task2 * list answer) :=
  rfold (fun st q => do r <- qaTryAnswer q c; Ok (fst st ++ [fst r], snd st ++ snd r)) qs ([], []).

(** * The deriver worker, NarWorkingCycle.rs 1118-1300 *)
(** inference of [p] with every sentence of a list, allocating usage cells *)
Definition inferAll (p : sentence) (l : list sentence) (st : list (sentence * f64) * nat) : res (list (sentence * f64) * nat) :=
  rfold (fun st s =>
    do r <- inference p s (snd st);
    Ok (fst st ++ fst r, (snd st + length (fst r))%nat)) l st.
(** 1123-1268 *)
Definition derive (sh : shared) (msg : workMsg) : res (list (sentence * f64) * nat) :=
  let p := tk_s (hget (heap sh) (primary msg)) in
  let sent a := tk_s (hget (heap sh) a) in
  do single <- infSinglePremise2 p (nextU sh);
  let st0 := (single, (nextU sh + length single)%nat) in
  (* part A: first half, without the primary task itself (1191-1198) *)
  let partA := filter (fun a => negb (Nat.eqb (primary msg) a))
                 (firstn (Nat.div (length (secondary msg)) 2) (secondary msg)) in
  do st1 <- inferAll p (map sent partA) st0;
  (* part B: all secondary tasks (1165-1188; the comment says second half) *)
  do st2 <- inferAll p (map sent (secondary msg)) st1;
  match mget (s_term p) (memory sh) with
  | None => Ok st2
  | Some c => do st3 <- inferAll p (byExp c) st2; inferAll p (byUsage c) st3
  end.
(** 1282-1289 *)
Definition answerAll (qs : list task2) (cs : list sentence) : res (list task2 * list answer) :=
  rfold (fun st c =>
    if punct_eqb (s_punct c) JUGEMENT then
      do r <- qaTryQuestions (fst st) c; Ok (fst r, snd st ++ snd r)
    else Ok st) cs (qs, []).
(** 1115-1300: one message *)
Definition workerStep (maxComplexity : Z) (nConceptBeliefs : nat) (sh : shared) (msg : workMsg) : res (shared * list answer) :=
  do d <- derive sh msg;
  do qa <- answerAll (questions sh) (map fst (fst d));
  let sh1 := setQuestions (fst qa) (setNextU (snd d) sh) in
  let mulP := mulCredit (hget (heap sh) (primary msg)) in
  do sh2 <- rfold (fun sh c => memAddTask sh (fst c) true maxComplexity nConceptBeliefs
                     (fmul (fmul f1 mulP) (snd c)) (m_cycle msg)) (fst d) sh1;
  Ok (sh2, snd qa).

(** * The reasoning cycle, NarWorkingCycle.rs 1660-1971 *)
(** 1675-1690 *)
Definition addQa (p : f64) (t : task) : task :=
  mkTask (tk_s t) (credit t) (fadd (qaCredit t) p) (mulCredit t) (tk_id t) (derivTime t).
Definition transferCredits (sh : shared) : shared :=
  setHeap (fold_left (fun h q =>
    fold_left (fun h st =>
      match mget st (byTerm sh) with
      | Some l => fold_left (fun h a => hupd h a (addQa (prio q))) l h
      | None => h
      end) (retSubterms (s_term (q_s q))) h) (questions sh) (heap sh)) sh.
(** 1700-1707 *)
Definition addBase (t : task) : task :=
  mkTask (tk_s t) (fadd (credit t) f05) (qaCredit t) (mulCredit t) (tk_id t) (derivTime t).
Definition baseCredits (sh : shared) : shared :=
  let h1 := fold_left (fun h a => hupd h a addBase) (judg sh) (heap sh) in
  setHeap (fold_left (fun h a => hupd h a divCreditByComplexity) (judg sh) h1) sh.
(** 1711-1755 *)
Definition isTemporal (t : term) : bool := match t with Stmt PREDIMPL _ _ => true | _ => false end.
Definition sampleQuestion (selVal : f64) (sh : shared) : res (shared * list answer) :=
  match questions sh with
  | [] => Ok (sh, [])
  | _ =>
      do i <- task2SelByCreditRandom selVal (questions sh);
      do q <- idx (questions sh) i;
      let m := if isTemporal (s_term (q_s q)) then procMem sh else memory sh in
      let cands := flat_map (fun st => match ret_beliefs_of_concept m st with Some l => l | None => [] end)
                     (retUniqueSubterms (s_term (q_s q))) in
      do r <- qaTryAll q cands;
      Ok (setQuestions (replace_at i (fst r) (questions sh)) sh, snd r)
  end.
(** 1802-1834: collecting the secondary tasks *)
Definition collectSecondary (h : list task) (acc l : list nat) : list nat :=
  fold_left (fun acc a =>
    if existsb (fun b => tk_id (hget h b) =? tk_id (hget h a)) acc then acc else acc ++ [a]) (firstn 51 l) acc.
(** 1840-1862; the cast of the complexity to f64 and back is the identity below 2^53 *)
Definition limitSecondary (h : list task) (l : list nat) : list nat :=
  firstn 300 (sort_by (fun a b => calcComplexity (s_term (tk_s (hget h a))) <? calcComplexity (s_term (tk_s (hget h b)))) l).
Definition secondaryFor (sh : shared) (t : term) : list nat :=
  limitSecondary (heap sh)
    (fold_left (fun acc st => match mget st (byTerm sh) with Some l => collectSecondary (heap sh) acc l | None => acc end)
       (retUniqueSubterms t) []).
(** 1757-1886 *)
Definition selectWork expf (sh : shared) : res (shared * option workMsg) :=
  match judg sh with
  | [] => Ok (sh, None)
  | _ =>
      let i := taskSelByCreditTop expf (map (hget (heap sh)) (judg sh)) (cycleCtr sh) in
      do a <- idx (judg sh) i;
      let sh1 := setJudg (swap_remove i (judg sh)) sh in
      let sec := secondaryFor sh1 (s_term (tk_s (hget (heap sh1) a))) in
      Ok (sh1, Some (mkMsg a sec (cycleCtr sh)))
  end.
(** 1888-1900 *)
Definition touch (h : list task) (now : Z) (us : nat -> usage) (a : nat) : nat -> usage :=
  let u := s_usage (tk_s (hget h a)) in
  fun x => if Nat.eqb x u then usageUpdate (us x) now else us x.
Definition touchAll (msg : option workMsg) (now : Z) (sh : shared) : shared :=
  match msg with
  | None => sh
  | Some m => setUsages (fold_left (touch (heap sh) now) (primary m :: secondary m) (usages sh)) sh
  end.
(** 1907-1933 *)
Definition limitTasks expf (sh : shared) : res shared :=
  let key a := taskCalcCredit expf (hget (heap sh) a) (cycleCtr sh) in
  do srt <- fsort_desc key (judg sh);
  Ok (setJudg (filter (fun a => fgtb (key a) (f_frac 1 1000)) (firstn (Nat.min 30 (length srt)) srt)) sh).
(** 1936-1958 *)
Definition rebuildIndex (sh : shared) : shared :=
  setByTerm (fold_left (fun bt a => populateTaskByTermLookup bt (s_term (tk_s (hget (heap sh) a))) a) (judg sh) []) sh.
(** Rust's [%] on the counter *)
Definition maintainTasks expf (sh : shared) : res shared :=
  if Z.rem (cycleCtr sh) 111 =? 0 then
    do sh1 <- limitTasks expf sh; Ok (rebuildIndex sh1)
  else Ok sh.
(** 1961-1970 *)
Definition maintainConcepts (sh : shared) : res shared :=
  if Z.rem (cycleCtr sh) 173 =? 0 then
    do m <- limitMemory (memory sh) 3000; Ok (setMemory m sh)
  else Ok sh.
(** 1660-1971; result: state, new time, answers, message for the worker *)
Definition reasonCycle expf (selVal : f64) (sh : shared) (now : Z) : res (shared * Z * list answer * option workMsg) :=
  let sh := setCycleCtr (cycleCtr sh + 1) sh in
  let now := now + 1 in
  let sh := baseCredits (transferCredits sh) in
  do qa <- sampleQuestion selVal sh;
  do w <- selectWork expf (fst qa);
  let sh := touchAll (snd w) now (fst w) in
  do sh <- maintainTasks expf sh;
  do sh <- maintainConcepts sh;
  Ok (sh, now, snd qa, snd w).

(** 1973-1977 *)
Definition flushTasks (sh : shared) : shared := setByTerm [] (setJudg [] sh).
