(** The benchmark (src/Eval.rs), the programs of src/bin/main.rs and
    src/ProcChaosEntry.rs, and the truncation in src/AeraishPerceptionComp.rs.
    - The evaluation runs as client 0 of the system of Sched_Model.v: the deriver
      worker moves whenever it can.  Its handler is called for every answer
      reported after it was registered.
    - Files that were read and the interactive lines are arguments; console text
      and the wall clock are left out. *)
From Coq Require Import String ZArith Bool List.
From Verif Require Import Base F64_Model Term_Model Tv_Model Sentence_Model Mem_Model Cycle_Model Sched_Model PMem_Model Goal_Model Proc_Model Parser_Model Nar_Model.
Import ListNotations.
Local Open Scope list_scope.

(** * Eval.rs *)
(** 16: number of cycles *)
Definition maxCycles : nat := 180.
(** before cycle i; in cycle i; returned *)
Inductive evalPc := ELoop (i : nat) | EIn (i : nat) | EDone (r : option nat).
(** [es_from]: answers reported before the handler was registered *)
Record esys := mkEsys { es_sys : sys; es_from : nat; es_pc : evalPc }.
(** 12-15 *)
Definition evalStart (st : sys) : esys := mkEsys st (length (y_log st)) (ELoop 0).
(** 46-53: set by every call of the handler *)
Definition foundAnswer (st : sys) (from : nat) : bool := Nat.ltb from (length (y_log st)).
Inductive estep (maxC : Z) (n : nat) : esys -> esys -> Prop :=
(** 17-18 *)
| es_cycle : forall st from i y st', i < maxCycles -> exec maxC n (ChStart 0 (OpCycle y)) st = Ok (Some st') ->
    estep maxC n (mkEsys st from (ELoop i)) (mkEsys st' from (EIn i))
| es_run : forall st from i st', exec maxC n (ChClient 0) st = Ok (Some st') ->
    estep maxC n (mkEsys st from (EIn i)) (mkEsys st' from (EIn i))
(** 21-27 *)
| es_found : forall st from i, nth_error (y_clients st) 0 = Some CIdle -> foundAnswer st from = true ->
    estep maxC n (mkEsys st from (EIn i)) (mkEsys st from (EDone (Some i)))
| es_next : forall st from i, nth_error (y_clients st) 0 = Some CIdle -> foundAnswer st from = false ->
    estep maxC n (mkEsys st from (EIn i)) (mkEsys st from (ELoop (S i)))
(** 29 *)
| es_end : forall st from i, maxCycles <= i -> estep maxC n (mkEsys st from (ELoop i)) (mkEsys st from (EDone None))
(** the deriver worker *)
| es_worker : forall st from p st', exec maxC n ChWorker st = Ok (Some st') ->
    estep maxC n (mkEsys st from p) (mkEsys st' from p).
Inductive esteps (maxC : Z) (n : nat) : esys -> esys -> Prop :=
| et_refl : forall e, esteps maxC n e e
| et_more : forall e e1 e2, esteps maxC n e e1 -> estep maxC n e1 e2 -> esteps maxC n e e2.

(** * bin/main.rs *)
(** 89-123 (bQA2): one result per run and file; [c002], [cneg1]: 0.002 and -1.0 *)
Section Score.
  Context {F : Type} (A : arith F) (expf : F -> F) (ofZ : Z -> F) (c002 cneg1 : F).
  Definition credit (acc : F) (r : option Z) : F :=
    match r with
    | Some cycles => Aadd A acc (expf (Amul A (Amul A (ofZ cycles) c002) cneg1))
    | None => acc
    end.
  Definition scoreOf (runs : list (list (option Z))) : F :=
    Adiv A (fold_left (fun acc files => fold_left credit files acc) runs (A0 A)) (ofZ (Z.of_nat (length runs))).
  Definition unansweredOf (runs : list (list (option Z))) : F :=
    Adiv A (ofZ (Z.of_nat (length (filter (fun r => match r with None => true | Some _ => false end) (concat runs)))))
           (ofZ (Z.of_nat (length (concat runs)))).
End Score.
(** 18-32 ("it"): the files in order, then the lines of the user; the flag tells
    whether the interactive part was entered *)
Fixpoint readFiles (pf : text -> option f64) (files : list (list (text * lineRnd))) (n : nar) : res (nar * bool) :=
  match files with
  | [] => Ok (n, false)
  | f :: rest =>
      do '(n', quit) <- readFile pf f n;
      if quit then Ok (n', true) else readFiles pf rest n'
  end.
(** NarInteractive.rs 8-44: rounds of the loop until one quits *)
Fixpoint runInteractive (pf : text -> option f64) (n : nar) (last : text) (lines : list (text * lineRnd)) : res (nar * bool) :=
  match lines with
  | [] => Ok (n, false)
  | (line, r) :: rest =>
      do '(n', last', quit) <- interactive pf n last line r;
      if quit then Ok (n', true) else runInteractive pf n' last' rest
  end.
Definition mainIt (pf : text -> option f64) (files : list (list (text * lineRnd))) (lines : list (text * lineRnd)) : res (nar * bool) :=
  do '(n, quit) <- readFiles pf files createNar;
  if quit then Ok (n, true) else runInteractive pf n [] lines.

(** * ProcChaosEntry.rs *)
(** randomness of one round *)
Record chaosRnd := mkChaosRnd { ch_draws : list nat; ch_smp : nat -> smp; ch_step : step1In }.
(** 27-34: configuration and operators *)
Definition chaosNar : nar :=
  let n := createNar in
  withProc n (setOps (nr_proc n) [mkOp "^L" true 3 OpPlain; mkOp "^R" true 3 OpPlain]).
(** 36-58, round [t]; [worker] is whatever the storage worker does to the
    evidence memory meanwhile, [nameOf] prints a number *)
Definition chaosRound (pf : text -> option f64) (nameOf : Z -> string) (worker : pmem -> pmem) (t : Z) (r : chaosRnd) (n : nar) : res nar :=
  do n0 <- (if Z.rem t 10 =? 0 then do '(n', _) <- inputN pf n (tx "0-1-xc! :|:") (ch_draws r); Ok n' else Ok n)%Z;
  do n1 <- procStep0 n0 (ch_smp r);
  let p := nr_proc n1 in
  let p1 := setTrace p (event_happened (n_trace p) (mkEvent (Name (nameOf t)) (n_t p) (n_t p))) in
  do p2 <- narStep1 (setMem p1 (worker (n_mem p1))) false (ch_step r);
  Ok (withProc n1 p2).
(** 25-65: [maxT] = 1100 *)
Fixpoint chaosLoop (pf : text -> option f64) (nameOf : Z -> string) (worker : Z -> pmem -> pmem) (rs : Z -> chaosRnd) (fuel : nat) (t : Z) (n : nar) : res nar :=
  match fuel with
  | O => Ok n
  | S k =>
      do n' <- chaosRound pf nameOf (worker t) t (rs t) n;
      if (t >=? 1100)%Z then Ok n' else chaosLoop pf nameOf worker rs k (t + 1)%Z n'
  end.
Definition chaos (pf : text -> option f64) (nameOf : Z -> string) (worker : Z -> pmem -> pmem) (rs : Z -> chaosRnd) : res nar :=
  chaosLoop pf nameOf worker rs 1101 0%Z chaosNar.

(** * AeraishPerceptionComp.rs *)
(** 3-9 *)
Record perceptItem (T : Type) := mkPercept { pi_dat : T; pi_salience : f64; pi_novelity : f64 }.
Arguments mkPercept {T} _ _ _. Arguments pi_dat {T} _. Arguments pi_salience {T} _. Arguments pi_novelity {T} _.
(** 11-19 *)
Definition limitPercepts {T} (arr : list (perceptItem T)) (maxLen : nat) : list (perceptItem T) :=
  if Nat.ltb maxLen (length arr) then firstn maxLen arr else arr.
