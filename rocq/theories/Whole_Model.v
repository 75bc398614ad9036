(** The whole program with its threads: the main thread, which reads lines and does
    what they ask for (src/Nar.rs, src/NarInputFacade.rs, src/NarModuleNlp3.rs), the
    deriver worker (Sched_Model.v) and the storage worker (ProcX_Model.v).
    - The main thread is client 0 of Sched_Model.v and the main thread of
      ProcX_Model.v. A line gives a list of jobs that are begun one after the other.
    - One step of a thread is one critical section, as in these two models.
    - Reading a text, taking its evidence id and beginning to add it is one section.
    - The calls of ^nlpRel0 come after the second half step, with its clock, instead
      of in the middle of it.
    - The dumps of evidence (!pse) and of tasks (!dt) are one section each, modelled as
      far as they can panic. *)
From Coq Require Import String Ascii ZArith Bool List.
From Verif Require Import Base F64_Model Term_Model Stamp_Model Tv_Model Sentence_Model Mem_Model Cycle_Model Sched_Model
  PMem_Model Goal_Model Proc_Model ProcS_Model ProcX_Model Parser_Model Nar_Model.
Import ListNotations.
Local Open Scope list_scope.
Local Open Scope Z_scope.

(** what the main thread still has to do *)
Inductive job :=
| JText (i : text) (draws : list nat)      (* Nar.rs 129-141 *)
| JStep0                                   (* NarProc.rs 537-595 *)
| JStep1 (r : step1In)                     (* NarProc.rs 600-1031 *)
| JRel (t : Z) (args : list term)          (* OpLib.rs 92-160 *)
| JCycle (expf : f64 -> f64) (sel : f64)   (* Nar.rs 148-150 *)
| JFlush                                   (* NarInputFacade.rs 58-60 *)
| JOp (o : op)                             (* NarInputFacade.rs 61-87 *)
| JBabble (b : bool)                       (* NarInputFacade.rs 91-96 *)
| JEvidence                                (* NarInputFacade.rs 88-90 *)
| JTasks                                   (* NarInputFacade.rs 205-207 *)
| JQuit.                                   (* NarInputFacade.rs 212-214 *)
(** Nar.rs 22-41 and the threads it starts; [w_wired] as in Nar_Model.v *)
Record whole := mkWhole {
  w_decl : sys;
  w_proc : psys;
  w_time : Z;
  w_verb : Z;
  w_nB : nat;
  w_maxC : Z;
  w_wired : bool;
  w_jobs : list job;
  w_quit : bool
}.
Definition wDecl (w : whole) (d : sys) : whole := mkWhole d (w_proc w) (w_time w) (w_verb w) (w_nB w) (w_maxC w) (w_wired w) (w_jobs w) (w_quit w).
Definition wProc (w : whole) (p : psys) : whole := mkWhole (w_decl w) p (w_time w) (w_verb w) (w_nB w) (w_maxC w) (w_wired w) (w_jobs w) (w_quit w).
Definition wTime (w : whole) (t : Z) : whole := mkWhole (w_decl w) (w_proc w) t (w_verb w) (w_nB w) (w_maxC w) (w_wired w) (w_jobs w) (w_quit w).
Definition wJobs (w : whole) (l : list job) : whole := mkWhole (w_decl w) (w_proc w) (w_time w) (w_verb w) (w_nB w) (w_maxC w) (w_wired w) l (w_quit w).
Definition wQuit (w : whole) : whole := mkWhole (w_decl w) (w_proc w) (w_time w) (w_verb w) (w_nB w) (w_maxC w) (w_wired w) (w_jobs w) true.
(** Nar.rs 45-57; the operators of [p] are registered *)
Definition wholeMake (p : pnar) (verb : Z) (nB : nat) (maxC : Z) (wired : bool) : whole :=
  mkWhole (sysMake 1) (ystart p) 0 verb nB maxC wired [] false.

(** the shared data of the declarative part, replaced *)
Definition withSh (st : sys) (sh : shared) : sys := mkSys sh (y_queue st) (y_clients st) (y_worker st) (y_log st).
(** main.rs 19: it reads the procedural memory as it is now *)
Definition seen (w : whole) : sys :=
  if w_wired w then withSh (w_decl w) (setProcMem (viewMem (n_mem (y_nar (w_proc w)))) (y_sh (w_decl w))) else w_decl w.
Definition wUsages (w : whole) : nat -> usage := usages (y_sh (w_decl w)).
(** a step of the declarative part, NarWorkingCycle.rs 1064-1977 *)
Definition declStep (maxC : Z) (w : whole) (c : choice) : res (option whole) :=
  do o <- exec maxC (w_nB w) c (seen w); Ok (match o with Some d => Some (wDecl w d) | None => None end).
(** a step of the procedural part, NarProc.rs 376-440, 468-1031 *)
Definition procStep (w : whole) (a : act) : res (option whole) :=
  do o <- yact (wUsages w) (w_proc w) a; Ok (match o with Some p => Some (wProc w p) | None => None end).

(** the jobs of one line: NarInputFacade.rs 18-221; the branches for "!spA" and "!spB"
    (42-47) are never reached *)
Definition lineJobs (line : text) (r : lineRnd) : res (list job) :=
  let i := trimNewline line in
  do b <- beginsWith (tx "//") i;
  if b then Ok [] else
  do b <- beginsWith (tx "!sp") i;
  if b then Ok [JStep0; JStep1 (ln_step r)] else
  do b <- beginsWith (tx "!s") i;
  if b then
    do k <- (if Nat.ltb 2 (length i) then unwrap (parseI64 (skipn 2 i)) else Ok 1);
    Ok (map (fun k => JCycle (ln_exp r) (ln_sel r k)) (List.rev (seq 0 (Z.to_nat k))))
  else
  if text_eqb i (tx "!dtf") then Ok [JFlush] else
  do b <- beginsWith (tx "!por ") i;
  if b then Ok (match registered (words (skipn 5 i)) with Some o => [JOp o] | None => [] end) else
  if text_eqb i (tx "!pse") then Ok [JEvidence] else
  if text_eqb i (tx "!peb 0") then Ok [JBabble false] else
  if text_eqb i (tx "!peb 1") then Ok [JBabble true] else
  do b <- (if Nat.ltb 6 (length i) then beginsWith (tx "!.nlp ") i else Ok false);
  if b then do l <- ln_net r (skipn 6 i); Ok (map (fun x => JText (snd x) (ln_draws r (fst x))) (combine (seq 0 (length l)) l)) else
  if text_eqb i (tx "!dt") then Ok [JTasks] else
  if text_eqb i (tx "!dmd") then Ok [] else
  if text_eqb i (tx "!QQ") then Ok [JQuit] else
  if text_eqb i [] then Ok [] else
  Ok [JText i (ln_draws r O)].

(** Nar.rs 66-124: a sentence that was read begins to be added *)
Definition putIn (w : whole) (t : term) (p : punct) (v : tv) (isEvent : bool) (draws : list nat) : res (option whole) :=
  let '(id, u, d) := takeId (y_sh (w_decl w)) in
  let w := wDecl w (withSh (w_decl w) d) in
  let s := newEternalSentenceByTv t p v (newStamp [id]) u in
  do _ <- (if w_verb w >=? 1 then printSentence s else Ok tt);
  let addTask := declStep (w_maxC w) w (ChStart 0 (OpAdd (mkAddArgs s true f1 (w_nB w) (n_t (y_nar (w_proc w)))))) in
  if isEvent then
    match p with
    | GOAL => procStep w (XGoal s)
    | QUESTION => addTask
    | JUGEMENT => procStep w (XEvent t)
    end
  else if isTemporal t then
    match p with JUGEMENT => procStep w (XBelief t id u draws) | _ => Ok (Some w) end
  else
    match p with JUGEMENT => addTask | _ => Ok (Some w) end.

(** a job is begun; the lines are given at [job] *)
Definition startJob (pf : text -> option f64) (w : whole) (j : job) : res (option whole) :=
  match j with
  | JText i draws =>
      do r <- parseNarsese pf i;
      match r with
      | Some (t, v, p, ev) => putIn w t p v ev draws
      | None => Ok (Some w)
      end
  | JStep0 => procStep w XStep0
  | JStep1 r =>
      do calls <- nlpOf (y_nar (w_proc w)) r;
      do o <- procStep w (XStep1 true r);
      Ok (match o with Some w' => Some (wJobs w' (map (JRel (n_t (y_nar (w_proc w)))) calls ++ w_jobs w')) | None => None end)
  | JRel t args =>
      match args with
      | [_; rel] =>
          do rel' <- rewriteRel rel;
          do _ <- convTermToStr rel;
          do _ <- convTermToStr rel';
          let '(id, u, d) := takeId (y_sh (w_decl w)) in
          declStep 64 (wDecl w (withSh (w_decl w) d))
            (ChStart 0 (OpAdd (mkAddArgs (newEternalSentenceByTv rel' JUGEMENT (mkTv f1 (f_frac 9 10)) (newStamp [id]) u) true f1 60 t)))
      | _ => Ok (Some w)
      end
  | JCycle expf sel =>
      declStep (w_maxC w) (wTime w (w_time w + 1)) (ChStart 0 (OpCycle (mkCycArgs expf sel (w_time w + 1))))
  | JFlush => declStep (w_maxC w) w (ChStart 0 OpFlush)
  | JOp o =>
      let '(mkPsys n p c k) := w_proc w in Ok (Some (wProc w (mkPsys (setOps n (n_ops n ++ [o])) p c k)))
  | JBabble b =>
      let '(mkPsys n p c k) := w_proc w in Ok (Some (wProc w (mkPsys (setBabble n b) p c k)))
  | JEvidence => do _ <- debugEvidence (n_mem (y_nar (w_proc w))); Ok (Some w)
  | JTasks => do _ <- debugTasks (y_sh (w_decl w)); Ok (Some w)
  | JQuit => Ok (Some (wQuit w))
  end.

(** Who moves: the main thread reads a line when it has nothing else to do
    (NarInteractive.rs 8-44) or goes on, [rs] the random numbers for sampling events;
    the deriver goes on; the storage worker goes on. *)
Inductive wact := ARead (line : text) (r : lineRnd) | AMain (rs : nat -> smp) | ADerive | AStore (draws : list nat).
Definition mainFree (w : whole) : bool :=
  match y_main (w_proc w), y_clients (w_decl w) with MFree, CIdle :: _ => true | _, _ => false end.
(** [Ok None]: that thread cannot move. NarInteractive.rs 8-44, Nar.rs 66-150, NarInputFacade.rs 18-221, and the lines given in the two models *)
Definition wstep (pf : text -> option f64) (a : wact) (w : whole) : res (option whole) :=
  match a with
  | ARead line r =>
      if mainFree w then
        match w_jobs w, w_quit w with
        | [], false => do l <- lineJobs line r; Ok (Some (wJobs w l))
        | _, _ => Ok None
        end
      else Ok None
  | AMain rs =>
      match y_main (w_proc w), y_clients (w_decl w) with
      | MFree, CIdle :: _ =>
          match w_jobs w with
          | j :: l => startJob pf (wJobs w l) j
          | [] => Ok None
          end
      | MFree, _ => declStep (w_maxC w) w (ChClient 0)
      | _, _ => procStep w (XMain (w_nB w) rs)
      end
  | ADerive => declStep (w_maxC w) w ChWorker
  | AStore draws => procStep w (XWork draws)
  end.
(** one step after the other; a thread that cannot move is left out *)
Fixpoint wrun (pf : text -> option f64) (l : list wact) (w : whole) : res whole :=
  match l with
  | [] => Ok w
  | a :: l' => do o <- wstep pf a w; wrun pf l' (match o with Some w' => w' | None => w end)
  end.
