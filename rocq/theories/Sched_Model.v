(** Interleavings of the declarative reasoner: client threads that add sentences,
    ask questions and run reasoning cycles, and the deriver worker
    (src/NarWorkingCycle.rs 1064-1305, 1419-1612, 1660-1977).
    - One transition is one critical section: the code between taking and
      releasing the locks that protect the data it uses.  Cycle_Model.v gives
      what each section computes.
    - The locks themselves are not modelled, only that a section is not
      interrupted by a conflicting one.
    - [Arc::get_mut] on a concept (1435, NarMem.rs 59) always succeeds: the only
      other clones live inside limitMemory, which holds the memory's write lock.
    - The sections of transferCredits, baseCredits and touchAll consist of many
      small ones that change only credits and usage counters; the environment
      step (Sched_Spec.v) covers every finer interleaving of those.
    - The channel has room for four messages, a send to a full one waits. *)
From Coq Require Import ZArith Bool List.
From Verif Require Import Base F64_Model Term_Model Sentence_Model Mem_Model Cycle_Model.
Import ListNotations.
Local Open Scope Z_scope.

(** * memAddTask, 1531-1612 *)
(** the arguments of one call *)
Record addArgs := mkAddArgs { ar_s : sentence; ar_cc : bool; ar_mul : f64; ar_n : nat; ar_now : Z }.
Inductive phase :=
| FRevise (ts : list term) (r : option sentence)      (* 1432: subterms still to revise, result so far *)
| FStore                                              (* 1552 *)
| FCheck (l : list sentence)                          (* 1555-1584: sentences still to add as tasks *)
| FPush (s : sentence) (l : list sentence) (a : nat)  (* 1590: task [a] for [s] is built *)
| FIndex (s : sentence) (l : list sentence) (a : nat) (* 1596-1597: task [a] is in the task table *).
(** 1532-1534; a question or goal revises nothing (1430-1526) *)
Definition startAdd (maxC : Z) (x : addArgs) : option phase :=
  if calcComplexity (s_term (ar_s x)) >? maxC then None
  else Some (FRevise (match s_punct (ar_s x) with JUGEMENT => retSubterms (s_term (ar_s x)) | _ => [] end) None).
(** one section; [None]: the call has returned *)
Definition addStep (x : addArgs) (f : phase) (sh : shared) : res (shared * option phase) :=
  match f with
  | FRevise (t :: ts) r =>
      do y <- reviseConcept (ar_s x) (memory sh, r, nextU sh) t;
      let '(m, r', u) := y in
      Ok (setNextU u (setMemory m sh), Some (FRevise ts r'))
  | FRevise [] None => Ok (sh, Some FStore)
  | FRevise [] (Some nb) => Ok (sh, Some (FCheck [ar_s x; nb]))
  | FStore =>
      do m <- storeInConcepts (usages sh) (memory sh) (ar_s x) (ar_n x) (ar_now x);
      Ok (setMemory m sh, Some (FCheck [ar_s x]))
  | FCheck [] => Ok (sh, None)
  | FCheck (s :: l) =>
      match s_punct s with
      | JUGEMENT =>
          if taskExists sh s then Ok (sh, None)
          else Ok (setTaskCtr (taskCtr sh + 1) (setHeap (heap sh ++ [newTask sh s (ar_cc x) (ar_mul x)]) sh),
                   Some (FPush s l (length (heap sh))))
      | QUESTION => Ok (setQuestions (questions sh ++ [mkTask2 (shallowCopySentence s) false f0 f1]) sh, Some (FCheck l))
      | GOAL => Ok (sh, Some (FCheck l))
      end
  | FPush s l a => Ok (setJudg (judg sh ++ [a]) sh, Some (FIndex s l a))
  | FIndex s l a => Ok (setByTerm (populateTaskByTermLookup (byTerm sh) (s_term s) a) sh, Some (FCheck l))
  end.

(** * reasonCycle, 1660-1971 *)
Record cycArgs := mkCycArgs { cy_exp : f64 -> f64; cy_sel : f64; cy_now : Z }.
Inductive cphase :=
| YTransfer                                           (* 1670-1692 *)
| YBase                                               (* 1694-1708 *)
| YSample                                             (* 1712-1724 *)
| YAsk (i : nat) (ts : list term)                     (* 1733-1753: question [i], subterms still to look up *)
| YAny                                                (* 1761-1764 *)
| YSelect                                             (* 1779-1784 *)
| YCollect (a : nat) (ts : list term) (acc : list nat)(* 1802-1882 *)
| YTouch (m : workMsg)                                (* 1892-1898 *)
| YSend (m : workMsg)                                 (* 1901-1902 *)
| YTasks                                              (* 1912, condition *)
| YLimit                                              (* 1914-1930 *)
| YIndex                                              (* 1937, condition *)
| YRebuild                                            (* 1938-1956 *)
| YConcepts                                           (* 1963-1970 *).
(** [None]: waiting for room in the channel *)
Definition cycStep (y : cycArgs) (p : cphase) (sh : shared) (qu : list workMsg)
  : res (option (shared * list workMsg * list answer * option cphase)) :=
  let go sh p' := Ok (Some (sh, qu, [], Some p')) in
  match p with
  | YTransfer => go (transferCredits sh) YBase
  | YBase => go (baseCredits sh) YSample
  | YSample =>
      match questions sh with
      | [] => go sh YAny
      | _ =>
          do i <- task2SelByCreditRandom (cy_sel y) (questions sh);
          do q <- idx (questions sh) i;
          go sh (YAsk i (retUniqueSubterms (s_term (q_s q))))
      end
  | YAsk i [] => go sh YAny
  | YAsk i (t :: ts) =>
      do q <- idx (questions sh) i;
      let m := if isTemporal (s_term (q_s q)) then procMem sh else memory sh in
      do r <- qaTryAll q (match ret_beliefs_of_concept m t with Some l => l | None => [] end);
      Ok (Some (setQuestions (replace_at i (fst r) (questions sh)) sh, qu, snd r, Some (YAsk i ts)))
  | YAny => go sh (match judg sh with [] => YTasks | _ => YSelect end)
  | YSelect =>
      let i := taskSelByCreditTop (cy_exp y) (map (hget (heap sh)) (judg sh)) (cycleCtr sh) in
      do a <- idx (judg sh) i;
      go (setJudg (swap_remove i (judg sh)) sh) (YCollect a (retUniqueSubterms (s_term (tk_s (hget (heap sh) a)))) [])
  | YCollect a (t :: ts) acc =>
      go sh (YCollect a ts (match mget t (byTerm sh) with Some l => collectSecondary (heap sh) acc l | None => acc end))
  | YCollect a [] acc => go sh (YTouch (mkMsg a (limitSecondary (heap sh) acc) (cycleCtr sh)))
  | YTouch m => go (touchAll (Some m) (cy_now y) sh) (YSend m)
  | YSend m => if (length qu <? 4)%nat then Ok (Some (sh, qu ++ [m], [], Some YTasks)) else Ok None
  | YTasks => go sh (if Z.rem (cycleCtr sh) 111 =? 0 then YLimit else YIndex)
  | YLimit => do sh' <- limitTasks (cy_exp y) sh; go sh' YIndex
  | YIndex => go sh (if Z.rem (cycleCtr sh) 111 =? 0 then YRebuild else YConcepts)
  | YRebuild => go (rebuildIndex sh) YConcepts
  | YConcepts => do sh' <- maintainConcepts sh; Ok (Some (sh', qu, [], None))
  end.

(** * The deriver worker, 1106-1301 *)
Inductive wphase :=
| WIdle                                                            (* 1111 *)
| WDerive (m : workMsg)                                            (* 1123-1268 *)
| WAnswer (m : workMsg) (cs : list (sentence * f64)) (todo : list sentence) (* 1282-1289 *)
| WAdd (m : workMsg) (cs : list (sentence * f64))                  (* 1292-1300 *)
| WAdding (m : workMsg) (x : addArgs) (f : phase) (cs : list (sentence * f64)).
(** [None]: waiting for a message.  The sentences of tasks never change, so the
    whole derivation is placed at the moment the concept is locked (1220). *)
Definition workStep (maxC : Z) (n : nat) (p : wphase) (sh : shared) (qu : list workMsg)
  : res (option (shared * list workMsg * list answer * wphase)) :=
  match p with
  | WIdle => match qu with [] => Ok None | m :: qu' => Ok (Some (sh, qu', [], WDerive m)) end
  | WDerive m =>
      do d <- derive sh m;
      Ok (Some (setNextU (snd d) sh, qu, [], WAnswer m (fst d) (map fst (fst d))))
  | WAnswer m cs [] => Ok (Some (sh, qu, [], WAdd m cs))
  | WAnswer m cs (c :: todo) =>
      if punct_eqb (s_punct c) JUGEMENT then
        do r <- qaTryQuestions (questions sh) c;
        Ok (Some (setQuestions (fst r) sh, qu, snd r, WAnswer m cs todo))
      else Ok (Some (sh, qu, [], WAnswer m cs todo))
  | WAdd m [] => Ok (Some (sh, qu, [], WIdle))
  | WAdd m (c :: cs) =>
      let x := mkAddArgs (fst c) true (fmul (fmul f1 (mulCredit (hget (heap sh) (primary m)))) (snd c)) n (m_cycle m) in
      Ok (Some (sh, qu, [], match startAdd maxC x with None => WAdd m cs | Some f => WAdding m x f cs end))
  | WAdding m x f cs =>
      do r <- addStep x f sh;
      Ok (Some (fst r, qu, [], match snd r with Some f' => WAdding m x f' cs | None => WAdd m cs end))
  end.

(** * Clients *)
Inductive cpc := CIdle | CAdd (x : addArgs) (f : phase) | CCycle (y : cycArgs) (p : cphase).
Inductive op :=
| OpAdd (x : addArgs)
| OpAsk (q : task2)        (* the question of a client with its own handler *)
| OpFlush                  (* 1973-1977 *)
| OpCycle (y : cycArgs).
(** the first section of an operation; 1663: the counter *)
Definition opStart (maxC : Z) (o : op) (sh : shared) : shared * cpc :=
  match o with
  | OpAdd x => (sh, match startAdd maxC x with None => CIdle | Some f => CAdd x f end)
  | OpAsk q => (setQuestions (questions sh ++ [q]) sh, CIdle)
  | OpFlush => (flushTasks sh, CIdle)
  | OpCycle y => (setCycleCtr (cycleCtr sh + 1) sh, CCycle y YTransfer)
  end.
Definition cliStep (p : cpc) (sh : shared) (qu : list workMsg)
  : res (option (shared * list workMsg * list answer * cpc)) :=
  match p with
  | CIdle => Ok None
  | CAdd x f =>
      do r <- addStep x f sh;
      Ok (Some (fst r, qu, [], match snd r with Some f' => CAdd x f' | None => CIdle end))
  | CCycle y p =>
      do o <- cycStep y p sh qu;
      Ok (match o with
          | None => None
          | Some (sh', qu', ans, o') => Some (sh', qu', ans, match o' with Some p' => CCycle y p' | None => CIdle end)
          end)
  end.

(** * The whole system *)
Record sys := mkSys {
  y_sh : shared; y_queue : list workMsg; y_clients : list cpc; y_worker : wphase; y_log : list answer }.
Definition sysMake (k : nat) : sys := mkSys sharedMake [] (repeat CIdle k) WIdle [].
Inductive choice := ChStart (i : nat) (o : op) | ChClient (i : nat) | ChWorker.
(** who moves; [Ok None]: that thread cannot move *)
Definition exec (maxC : Z) (n : nat) (c : choice) (st : sys) : res (option sys) :=
  match c with
  | ChStart i o =>
      match nth_error (y_clients st) i with
      | Some CIdle =>
          let '(sh, p) := opStart maxC o (y_sh st) in
          Ok (Some (mkSys sh (y_queue st) (replace_at i p (y_clients st)) (y_worker st) (y_log st)))
      | _ => Ok None
      end
  | ChClient i =>
      match nth_error (y_clients st) i with
      | None => Ok None
      | Some p =>
          do o <- cliStep p (y_sh st) (y_queue st);
          Ok (match o with
              | None => None
              | Some (sh, qu, ans, p') => Some (mkSys sh qu (replace_at i p' (y_clients st)) (y_worker st) (y_log st ++ ans))
              end)
      end
  | ChWorker =>
      do o <- workStep maxC n (y_worker st) (y_sh st) (y_queue st);
      Ok (match o with
          | None => None
          | Some (sh, qu, ans, w) => Some (mkSys sh qu (y_clients st) w (y_log st ++ ans))
          end)
  end.
Fixpoint execAll (maxC : Z) (n : nat) (cs : list choice) (st : sys) : res (option sys) :=
  match cs with
  | [] => Ok (Some st)
  | c :: cs' => do o <- exec maxC n c st; match o with Some st' => execAll maxC n cs' st' | None => Ok None end
  end.
