(** The two threads of ProcS_Model.v once more, as a function: what the next
    step of a thread gives, or whether it panics. [Props_ProcX] shows that the
    steps that do not panic are the steps of ProcS_Model.v. *)
From Coq Require Import String ZArith Bool List.
From Verif Require Import Base F64_Model Term_Model Stamp_Model Tv_Model Sentence_Model Mem_Model PMem_Model Goal_Model Proc_Model ProcS_Model.
Import ListNotations.
Local Open Scope Z_scope.

(** What happens next: an event, a goal or a temporal belief is typed in
    (Nar.rs 66-124); a half step is started (NarProc.rs 537-560, 600-1031); the
    main thread goes on inside a call (468-478, 503-594); the worker goes on
    (376-440). Random numbers are part of it; [nB] is the number of beliefs per
    concept. *)
Inductive act :=
| XEvent (e : term) | XGoal (s : sentence) | XBelief (t : term) (id : Z) (u : nat) (draws : list nat)
| XStep0 | XStep1 (decl : bool) (r : step1In) | XMain (nB : nat) (rs : nat -> smp) | XWork (draws : list nat).

(** [Ok None]: the thread cannot do this now. NarProc.rs 376-440, 468-478, 503-1031, Nar.rs 66-124 *)
Definition yact (us : nat -> usage) (y : psys) (a : act) : res (option psys) :=
  let '(mkPsys n p c w) := y in
  match a, p with
  | XEvent e, MFree => Ok (Some (mkPsys (setTrace n (event_happened (n_trace n) (mkEvent e (n_t n) (n_t n)))) MFree c w))
  | XGoal s, MFree => do g <- addEntry (n_goals n) (n_t n) s None 0; Ok (Some (mkPsys (setGoals n g) MFree c w))
  | XBelief t id u draws, MFree =>
      do vs <- matchandintro_var1_sentence (userBelief t id u) draws;
      Ok (Some (mkPsys n (MAdd (n_t n) (userBelief t id u :: vs)) c w))
  | XStep0, MFree =>
      do ant <- confirm n;
      Ok (Some (mkPsys (setAnt n (filter (fun a => snd a >? n_t n) ant)) (MNeg (filter (fun a => snd a <=? n_t n) ant)) c w))
  | XStep1 decl r, MFree => do n' <- narStep1 n decl r; Ok (Some (mkPsys n' MFree c w))
  | XMain nB _, MAdd now (s :: todo) =>
      do m <- mem_add_evidence_internal us (n_mem n) s nB now; Ok (Some (mkPsys (setMem n m) (MAdd now todo) c w))
  | XMain _ _, MAdd now [] => Ok (Some (mkPsys n MFree c w))
  | XMain _ _, MNeg (a :: todo) => do h <- negConfirm (cells (n_mem n)) a; Ok (Some (mkPsys (setCells n h) (MNeg todo) c w))
  | XMain _ rs, MNeg [] => do '(g, ms) <- traceStep n rs; Ok (Some (mkPsys (setGoals n g) (MSend ms) c w))
  | XMain _ _, MSend (m :: ms) => Ok (if Nat.ltb (length c) chanCap then Some (mkPsys n (MSend ms) (c ++ [m]) w) else None)
  | XMain _ _, MSend [] => Ok (Some (mkPsys n MFree c w))
  | XWork draws, _ =>
      match w with
      | WIdle =>
          match c with
          | (s, now) :: c' => do l <- mergeTargets (n_mem n) s; Ok (Some (mkPsys n p c' (WMerge s now l false)))
          | [] => Ok None
          end
      | WMerge s now (a :: l) rv =>
          do '(h, b) <- mergeInto s (cells (n_mem n)) a; Ok (Some (mkPsys (setCells n h) p c (WMerge s now l (rv || b))))
      | WMerge s now [] true => Ok (Some (mkPsys n p c WIdle))
      | WMerge s now [] false => do vs <- matchandintro_var1_sentence s draws; Ok (Some (mkPsys n p c (WAdd now (s :: vs))))
      | WAdd now (s :: todo) =>
          do m <- mem_add_evidence_internal us (n_mem n) s (c_nBeliefs (n_cfg n)) now; Ok (Some (mkPsys (setMem n m) p c (WAdd now todo)))
      | WAdd now [] => Ok (Some (mkPsys n p c WIdle))
      end
  | _, _ => Ok None
  end.
(** one step after the other; what a thread cannot do now is left out. Loops of NarProc.rs 376-440 and of the callers *)
Fixpoint yrun (us : nat -> usage) (l : list act) (y : psys) : res psys :=
  match l with
  | [] => Ok y
  | a :: l' => do o <- yact us y a; yrun us l' (match o with Some y' => y' | None => y end)
  end.
