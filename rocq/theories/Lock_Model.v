(** The locks and channels of the program, without the data behind them.
    - For every function that takes locks: which locks it takes, in which mode, what is
      done while they are held, and in which order. The data decides which branch is
      taken, how often a loop runs and which of several locks of a kind is meant; here
      all of that is left open, so there are more runs than the program has.
    - A guard lives as long as Rust 2018 keeps it: a named guard until the end of its
      block, a temporary until the end of its statement; the temporaries of the head of
      a [match] or [for] live until its end, those of the condition of an [if] or
      [while] only for the condition.
    - The locks are those of parking_lot 0.12: a reader also waits for a thread that
      waits to write. std::sync::Mutex is a lock that is only written.
    - Locks that are made at start and used by one function only (the generator inside
      a thread) are left out. The helper thread of the deriver (NarWorkingCycle.rs
      1176-1188, 1203) takes no lock. A panic does not occur (C84, C85, C87). *)
From Coq Require Import Arith Bool List.
From Verif Require Import Base.
Import ListNotations.
Local Open Scope list_scope.
Local Open Scope nat_scope.

(** NarWorkingCycle.rs 1026-1061, NarSentence.rs 36, NarServer.rs 95-98, NarProc.rs 71-107, 139-144, NarGoalSystem.rs 36-90 *)
Inductive lock :=
| LMem2                (* Nar.rs 28 *)
| LRandom              (* NarWorkingCycle.rs 1056 *)
| LShared              (* 1052 *)
| LQuestions           (* 1035 *)
| LByTerm (n : nat)    (* 1033; a new one after 1941 *)
| LConcepts            (* 1037 *)
| LBelief (n : nat)    (* NarMem.rs 31-33, declarative *)
| LTask (n : nat)      (* 1032 *)
| LUsage (n : nat)     (* NarSentence.rs 36 *)
| LHandlers            (* 1055 *)
| LHandler (n : nat)   (* 1055 *)
| LGlobal              (* NarServer.rs 103, Eval.rs 13 *)
| LProcMem             (* NarProc.rs 75 *)
| LProcBelief (n : nat)(* NarMem.rs 31-33, procedural *)
| LGoals               (* NarProc.rs 96 *)
| LEntry (n : nat)     (* NarGoalSystem.rs 39, 79 *)
| LBatch (n : nat)     (* NarGoalSystem.rs 51 *)
| LSameTerm (n : nat)  (* NarGoalSystem.rs 58 *)
| LTrace               (* NarProc.rs 141 *)
| LTraceRandom.        (* NarProc.rs 143 *)
Inductive mode := Rd | Wr.
(** NarWorkingCycle.rs 1099, NarProc.rs 377 *)
Inductive chan := CDerive | CStore.
Definition chanRoom : nat := 4.

(** What a thread does. [Guard m l c]: takes the lock, does [c], gives it back.
    [One f]: some [f n]. [Many c]: any number of times. [Listen c]: for ever [c] (the
    next line). [Serve k c]: for ever takes a message and does [c]. *)
Inductive code :=
| Nop
| Guard (m : mode) (l : lock) (c : code)
| Then (c d : code)
| One (f : nat -> code)
| Or (c d : code)
| Many (c : code)
| Send (k : chan)
| Listen (c : code)
| Serve (k : chan) (c : code).
Declare Scope code_scope.
Delimit Scope code_scope with code.
Bind Scope code_scope with code.
Infix ";;" := Then (at level 61, right associativity) : code_scope.
Local Open Scope code_scope.
Definition use (m : mode) (l : lock) : code := Guard m l Nop.
Definition may (c : code) : code := Or Nop c.

(** * Declarative part *)
(** NarMem.rs 51-135; the beliefs are [b n] *)
Definition storeL (b : nat -> lock) : code :=
  Many (Many (One (fun n => use Rd (b n))) ;;
        Many (One (fun n => Guard Rd (b n) (may (One (fun u => use Rd (LUsage u))))))).
(** NarMem.rs 139-198 *)
Definition limitMemoryL (b : nat -> lock) : code := Many (One (fun n => use Rd (b n))).
(** NarWorkingCycle.rs 1419-1529 *)
Definition reviseL : code := Many (Guard Wr LConcepts (Many (One (fun n => use Rd (LBelief n))))).
(** 1402 *)
Definition populateL : code := One (fun n => use Wr (LByTerm n)).
(** 1532-1612; leaving the function early is [may] around the rest *)
Definition memAddTaskL : code :=
  may (Guard Rd LShared reviseL ;;
       may (Guard Rd LShared (Guard Wr LConcepts (storeL LBelief))) ;;
       Many (Or (Guard Rd LShared (Many (One (fun t => use Rd (LTask t)))) ;;
                 may (use Wr LShared ;; Guard Rd LShared populateL))
                (may (Guard Rd LShared (use Wr LQuestions))))).
(** 1625-1655 with the handlers of NarServer.rs 148-158 and Eval.rs 45-53; no question has a handler of its own *)
Definition tryAnswerL : code := Many (One (fun h => Guard Wr (LHandler h) (use Wr LGlobal))).
(** 1660-1972, in the order of the blocks *)
Definition reasonCycleL : code :=
  Guard Rd LMem2 (use Rd LShared) ;;                                                                  (* 1663 *)
  Guard Rd LMem2 (Guard Rd LShared (Guard Rd LQuestions
    (Many (One (fun n => Guard Rd (LByTerm n) (Many (One (fun t => use Wr (LTask t))))))))) ;;        (* 1669-1691 *)
  Guard Rd LMem2 (Guard Rd LShared (Many (One (fun t => use Wr (LTask t))))) ;;                       (* 1694-1708 *)
  Guard Rd LMem2 (Guard Rd LShared (use Rd LQuestions ;;
    may (Guard Rd LMem2 (use Wr LRandom) ;; use Rd LQuestions ;;
         Guard Wr LQuestions
           (Many (Or (Guard Rd LConcepts (Many (One (fun b => Guard Rd (LBelief b) (Guard Rd LHandlers tryAnswerL)))))
                     (Guard Rd LProcMem (Many (One (fun b => Guard Rd (LProcBelief b) (Guard Rd LHandlers tryAnswerL)))))))))) ;; (* 1711-1755 *)
  Guard Rd LMem2 (use Rd LShared ;;
    may (Guard Wr LShared (Many (One (fun t => use Rd (LTask t))))) ;;
    Guard Rd LShared (may (One (fun t => use Rd (LTask t)) ;;
      Many (One (fun n => use Rd (LByTerm n)) ;; may (One (fun n => use Rd (LByTerm n)) ;; Many (One (fun t => use Rd (LTask t))))) ;;
      Many (One (fun t => use Rd (LTask t)))))) ;;                                                    (* 1758-1889 *)
  may (Many (One (fun t => Guard Rd (LTask t) (One (fun u => use Wr (LUsage u))))) ;;
       Guard Rd LMem2 (Send CDerive)) ;;                                                              (* 1891-1905 *)
  Guard Rd LMem2 (use Rd LShared ;;
    may (Guard Wr LShared (Many (One (fun b => Guard Rd (LTask b) (One (fun a => use Rd (LTask a))))) ;;
                           Many (One (fun t => use Rd (LTask t)))))) ;;                               (* 1911-1933 *)
  Guard Rd LMem2 (use Rd LShared ;;
    may (Guard Wr LShared (Many (One (fun t => use Rd (LTask t))) ;; Many populateL))) ;;             (* 1936-1958 *)
  Guard Rd LMem2 (Guard Rd LShared (may (Guard Wr LConcepts (limitMemoryL LBelief)))).                (* 1964-1971 *)
(** 1973-1977, called in NarInputFacade.rs 59 *)
Definition flushTasksL : code := Guard Rd LMem2 (Guard Wr LShared populateL).
(** 1978-1999, called in NarInputFacade.rs 206 *)
Definition debugTasksL : code :=
  Guard Rd LMem2 (Guard Rd LShared (Many (One (fun t =>
    use Rd (LTask t) ;; use Rd (LTask t) ;; Guard Rd (LTask t) (use Rd LShared))))).
(** NarInputFacade.rs 210 *)
Definition debugMemL : code := Guard Rd LMem2 (Guard Rd LShared (use Rd LConcepts)).
(** one message of the deriver, 1106-1301; [p]: the primary task *)
Definition deriveL : code := One (fun p =>
  use Rd (LTask p) ;;                                                                                 (* 1126 *)
  Many (One (fun s => use Rd (LTask s))) ;;                                                           (* 1165-1168 *)
  use Rd (LTask p) ;;                                                                                 (* 1172 *)
  Guard Rd (LTask p) (Many (One (fun s => if Nat.eqb s p then Nop else use Rd (LTask s)))) ;;         (* 1190-1203 *)
  use Rd (LTask p) ;;                                                                                 (* 1212 *)
  Guard Rd LShared (Guard Rd LConcepts (Many (One (fun b => Guard Rd (LBelief b) (use Rd (LTask p)))))) ;; (* 1213-1268 *)
  Many (Guard Rd LShared (Guard Wr LQuestions (Many (Guard Rd LHandlers tryAnswerL)))) ;;             (* 1280-1289 *)
  Many (use Rd (LTask p) ;; memAddTaskL)).                                                            (* 1291-1300 *)

(** * Procedural part *)
(** NarProc.rs 468-491 *)
Definition addEvidenceL : code := Many (Guard Wr LProcMem (storeL LProcBelief)).
(** one message of the storage worker, 385-440 *)
Definition storeEvidenceL : code :=
  Guard Rd LProcMem (Many (One (fun b => use Wr (LProcBelief b)))) ;;
  may addEvidenceL.
(** NarGoalSystem.rs 145-160 *)
Definition retEntriesL : code := Many (One (fun b => use Rd (LBatch b))).
(** NarGoalSystem.rs 209-314 *)
Definition addEntry2L (e : nat) : code :=
  Guard Rd (LEntry e) (may (Guard Rd LShared (use Wr LQuestions))) ;;                                 (* 212-241 *)
  use Rd (LEntry e) ;;                                                                                (* 245 *)
  Or (Guard Rd LGoals (Guard Rd (LEntry e) (Many (One (fun i => Guard Rd (LEntry i) (use Rd (LEntry i)))))) ;;
      may (use Wr LGoals))                                                                            (* 247-251 *)
     (Guard Rd (LEntry e) (use Rd LGoals) ;; use Rd LGoals ;;                                         (* 257-260 *)
      One (fun b => Guard Wr (LBatch b)
        (Many (use Rd (LEntry e)) ;;                                                                  (* 271 *)
         Or (One (fun i => Guard Rd (LEntry i) (use Rd (LEntry i))) ;; use Wr (LEntry e))             (* 272-273 *)
            (use Rd (LEntry e) ;;                                                                     (* 283 *)
             Guard Wr LGoals (Guard Rd (LEntry e) (may (One (fun a =>
               Guard Rd (LSameTerm a) (Many (One (fun i => Guard Rd (LEntry i) (Guard Rd (LEntry e) (use Rd (LEntry e)))))) ;;
               may (use Wr (LSameTerm a)))))) ;;                                                      (* 288-307 *)
             may (Guard Wr LGoals (use Rd (LEntry e))))))).                                           (* 311 *)
(** NarGoalSystem.rs 163-205 *)
Definition addEntryL : code :=
  use Rd LGoals ;;
  Guard Wr LGoals (may (One (fun a => Guard Rd (LSameTerm a)
    (Many (One (fun i => Guard Rd (LEntry i) (use Rd (LEntry i)))))))) ;;
  may (One addEntry2L).
(** NarGoalSystem.rs 439-483 *)
Definition limitGoalsL : code :=
  Guard Rd LGoals retEntriesL ;; use Rd LGoals ;;
  Many (One (fun e => use Wr (LEntry e))) ;;
  Many (One (fun b => Guard Rd (LEntry b) (One (fun a => use Rd (LEntry a))))) ;;
  Many (use Rd LGoals ;; may (use Rd LGoals)) ;;
  use Wr LGoals ;; use Rd LGoals ;; Many (use Wr LGoals) ;; use Wr LGoals ;; use Wr LGoals ;;
  Many (One addEntry2L).
(** NarGoalSystem.rs 487-583, BinSearch.rs 7-14 *)
Definition sampleL : code :=
  Many (One (fun b => use Rd (LBatch b))) ;;
  One (fun b => Guard Rd (LBatch b)
    (Many (One (fun e => use Rd (LEntry e))) ;;
     Many (One (fun e => Guard Rd (LEntry e)
       (may (Many (One (fun i => use Rd (LEntry i))) ;; One (fun i => use Rd (LEntry i)))))))).
(** NarGoalSystem.rs 594-645, 699-742; the memory is locked by the caller *)
Definition beliefsL : code := Many (One (fun b => use Rd (LProcBelief b))).
(** NarGoalSystem.rs 745-823 *)
Definition sampleAndInferenceL : code :=
  Guard Wr LGoals sampleL ;;
  may (Guard Rd LGoals (Many beliefsL) ;; beliefsL ;; Many addEntryL).
(** NarGoalSystem.rs 826-844 *)
Definition eventOccurredL : code := retEntriesL ;; Many (One (fun e => use Wr (LEntry e))).
(** NarProc.rs 152-288 *)
Definition traceStepL : code :=
  Guard Wr LTrace (may (Guard Wr LGoals eventOccurredL)) ;;
  Guard Rd LTrace (Many (Many (use Wr LTraceRandom) ;; may (use Wr LTraceRandom ;; Send CStore))).
(** NarProc.rs 537-595 *)
Definition narStep0L : code :=
  use Rd LTrace ;;
  beliefsL ;;
  Many (One (fun b => use Wr (LProcBelief b))) ;;
  traceStepL.
(** OpLib.rs 34-160, nested calls one after the other *)
Definition callL : code :=
  Many (Or (use Wr LTrace) (Guard Rd LMem2 (use Rd LShared) ;; Guard Wr LMem2 memAddTaskL)).
(** NarGoalSystem.rs 653-680, 847-865 *)
Definition lookGoalsL : code := Guard Rd LGoals (retEntriesL ;; Many (One (fun e => Guard Rd (LEntry e) (Many (use Rd (LEntry e)))))).
(** NarProc.rs 600-1031 *)
Definition narStep1L : code :=
  use Rd LTrace ;;                                                                                    (* 622 *)
  Many (lookGoalsL ;; may (One (fun e => use Rd (LEntry e)))) ;;                                      (* 623-661 *)
  Guard Wr LGoals (Many (One (fun e => use Rd (LEntry e) ;; may (use Rd (LEntry e))))) ;;             (* 665-691 *)
  use Rd LTrace ;;                                                                                    (* 699 *)
  Many (may (lookGoalsL ;; may (One (fun e => use Rd (LEntry e)) ;; beliefsL)) ;;
        Guard Rd LProcMem beliefsL ;; may (One (fun b => use Rd (LProcBelief b)))) ;;                 (* 718-820 *)
  may (beliefsL ;; Guard Rd LMem2 addEntryL) ;;                                                       (* 826-865 *)
  Guard Rd LGoals (Many (One (fun e => use Rd (LEntry e)))) ;;                                        (* 874-884 *)
  may (One (fun e => use Rd (LEntry e) ;;
    may (Guard Wr (LEntry e) (may (use Wr LGoals ;; beliefsL))))) ;;                                  (* 887-941 *)
  may (callL ;; use Wr LTrace) ;;                                                                     (* 969-988 *)
  use Wr LTrace ;;                                                                                    (* 990 *)
  may (Guard Wr LProcMem (limitMemoryL LProcBelief)) ;;                                               (* 993-995 *)
  may (Guard Rd LMem2 limitGoalsL) ;;                                                                 (* 997-999 *)
  Many (Guard Rd LMem2 (Guard Rd LProcMem sampleAndInferenceL)).                                      (* 1002-1027 *)
(** NarProc.rs 1189-1206, 494-511 *)
Definition debugEvidenceL : code := use Rd LProcMem ;; beliefsL.

(** * Threads *)
(** Nar.rs 66-124 *)
Definition inputL : code :=
  Guard Rd LMem2 (use Rd LShared) ;;
  Or (Or (Guard Rd LMem2 addEntryL) (Guard Rd LMem2 memAddTaskL))
     (Or (use Wr LTrace) (may addEvidenceL)).
(** one line without "!dt": NarInputFacade.rs 18-221; a handler is registered (NarServer.rs 110, Eval.rs 15); answers are broadcast (NarServer.rs 117, Eval.rs 23) *)
Definition lineL : code :=
  Or (Or (Or (Many inputL) (Many reasonCycleL)) (Or (narStep0L ;; narStep1L) flushTasksL))
     (Or (Or debugEvidenceL debugMemL) (Or (Guard Rd LMem2 (use Wr LHandlers)) (Many (use Wr LGlobal)))).
(** with "!dt", NarInputFacade.rs 205-207 *)
Definition lineDtL : code := Or lineL debugTasksL.
(** a connection of the server, NarServer.rs 45-66 *)
Definition clientL : code := use Wr LGlobal.

(** what is left to do: code, and locks to give back *)
Inductive frame := Do (c : code) | Drop (m : mode) (l : lock).
(** [th_waits]: it has asked to write and waits *)
Record thread := mkThread { th_todo : list frame; th_waits : bool }.
(** thread 0 reads lines, 1 derives, 2 stores evidence, the others are connections *)
Record locks := mkLocks { k_threads : list thread; k_derive : nat; k_store : nat }.
Definition queued (k : chan) (st : locks) : nat := match k with CDerive => k_derive st | CStore => k_store st end.
(** NarWorkingCycle.rs 1064-1305, NarProc.rs 376-440, NarServer.rs 25-36 *)
Definition startL (line : code) (clients : nat) : locks :=
  mkLocks (mkThread [Do (Listen line)] false :: mkThread [Do (Serve CDerive deriveL)] false ::
           mkThread [Do (Serve CStore storeEvidenceL)] false :: repeat (mkThread [Do (Listen clientL)] false) clients) 0 0.

(** parking_lot: identity of locks *)
Definition lock_eqb (a b : lock) : bool :=
  match a, b with
  | LMem2, LMem2 | LRandom, LRandom | LShared, LShared | LQuestions, LQuestions | LConcepts, LConcepts | LHandlers, LHandlers
  | LGlobal, LGlobal | LProcMem, LProcMem | LGoals, LGoals | LTrace, LTrace | LTraceRandom, LTraceRandom => true
  | LByTerm x, LByTerm y | LBelief x, LBelief y | LTask x, LTask y | LUsage x, LUsage y | LHandler x, LHandler y
  | LProcBelief x, LProcBelief y | LEntry x, LEntry y | LBatch x, LBatch y | LSameTerm x, LSameTerm y => Nat.eqb x y
  | _, _ => false
  end.
Definition isWr (m : mode) : bool := match m with Wr => true | Rd => false end.
Definition heldF (l : list frame) : list (mode * lock) := flat_map (fun f => match f with Drop m l => [(m, l)] | Do _ => [] end) l.
Definition held (t : thread) : list (mode * lock) := heldF (th_todo t).
Definition holds (l : lock) (t : thread) : bool := existsb (fun x => lock_eqb (snd x) l) (held t).
Definition writes (l : lock) (t : thread) : bool := existsb (fun x => isWr (fst x) && lock_eqb (snd x) l) (held t).
(** it has asked to write [l] *)
Definition asks (l : lock) (t : thread) : bool :=
  th_waits t && match th_todo t with Do (Guard Wr l' _) :: _ => lock_eqb l' l | _ => false end.
Definition canRead (st : locks) (i : nat) (l : lock) : bool :=
  forallb (fun j => match nth_error (k_threads st) j with
                    | Some t => negb (writes l t) && (Nat.eqb j i || negb (asks l t))
                    | None => true
                    end) (seq 0 (length (k_threads st))).
Definition canWrite (st : locks) (l : lock) : bool := forallb (fun t => negb (holds l t)) (k_threads st).
Definition putT (st : locks) (i : nat) (t : thread) : locks := mkLocks (replace_at i t (k_threads st)) (k_derive st) (k_store st).
Definition putQ (st : locks) (k : chan) (n : nat) : locks :=
  match k with CDerive => mkLocks (k_threads st) n (k_store st) | CStore => mkLocks (k_threads st) (k_derive st) n end.

(** One step of thread [i]; [n] is what the data decides. [None]: it cannot move.
    Asking to write and getting the lock are two steps. parking_lot 0.12 [RwLock]; std::sync::mpsc::sync_channel *)
Definition lmove (st : locks) (i n : nat) : option locks :=
  match nth_error (k_threads st) i with
  | None => None
  | Some t =>
      let go k := Some (putT st i (mkThread k false)) in
      match th_todo t with
      | [] => None
      | Drop _ _ :: k => go k
      | Do c :: k =>
          match c with
          | Nop => go k
          | Guard Rd l c => if canRead st i l then go (Do c :: Drop Rd l :: k) else None
          | Guard Wr l c =>
              if th_waits t then (if canWrite st l then go (Do c :: Drop Wr l :: k) else None)
              else Some (putT st i (mkThread (th_todo t) true))
          | Then c d => go (Do c :: Do d :: k)
          | One f => go (Do (f n) :: k)
          | Or c d => go (Do (if Nat.eqb n 0 then c else d) :: k)
          | Many c => if Nat.eqb n 0 then go k else go (Do c :: Do (Many c) :: k)
          | Send q =>
              if Nat.ltb (queued q st) chanRoom then Some (putQ (putT st i (mkThread k false)) q (S (queued q st))) else None
          | Listen c => go (Do c :: Do (Listen c) :: k)
          | Serve q c =>
              match queued q st with
              | O => None
              | S m => Some (putQ (putT st i (mkThread (Do c :: Do (Serve q c) :: k) false)) q m)
              end
          end
      end
  end.
(** who moves, and how it is decided *)
Fixpoint lrun (l : list (nat * nat)) (st : locks) : locks :=
  match l with
  | [] => st
  | (i, n) :: l' => lrun l' (match lmove st i n with Some st' => st' | None => st end)
  end.
