(** The sequential reading of the program (Nar_Model.v) as states of the program with threads (Whole_Model.v). *)
From Coq Require Import String Ascii ZArith Bool List.
From Verif Require Import Base F64_Model Term_Model Sentence_Model Mem_Model Cycle_Model Sched_Model PMem_Model Goal_Model Proc_Model ProcS_Model ProcX_Model Parser_Model Nar_Model Whole_Model.
Import ListNotations.
Local Open Scope list_scope.
Local Open Scope Z_scope.

(** The main thread of [w] waits for a line and everything is as in [n]. What the
    declarative part last saw of the procedural memory may differ if it looks again
    anyway. *)
Record standsAs (w : whole) (n : nar) : Prop := mkStands {
  sa_clients : y_clients (w_decl w) = [CIdle];
  sa_main : y_main (w_proc w) = MFree;
  sa_jobs : w_jobs w = [];
  sa_proc : y_nar (w_proc w) = nr_proc n;
  sa_decl : exists pm, y_sh (w_decl w) = setProcMem pm (nr_decl n);
  sa_unwired : nr_wired n = false -> y_sh (w_decl w) = nr_decl n;
  sa_dq : y_queue (w_decl w) = nr_dq n;
  sa_pq : y_chan (w_proc w) = nr_pq n;
  sa_time : w_time w = nr_time n;
  sa_verb : w_verb w = nr_verb n;
  sa_nB : w_nB w = nr_nB n;
  sa_maxC : w_maxC w = nr_maxC n;
  sa_wired : w_wired w = nr_wired n
}.
(** the channels have room for what a line sends: NarWorkingCycle.rs 1880-1890 (one message a cycle), NarProc.rs 590-594 *)
Definition room (n : nar) (line : text) (r : lineRnd) : Prop :=
  (forall l, lineJobs line r = Ok l -> (length (nr_dq n) + length (filter (fun j => match j with JCycle _ _ => true | _ => false end) l) <= 4)%nat) /\
  (forall p ms, narStep0 (nr_proc n) (ln_smp r) = Ok (p, ms) -> (length (nr_pq n) + length ms <= 4)%nat).

(** Sessions where nothing happens at the same time: a line is processed, the deriver
    handles a message, or the storage worker does. *)
Inductive turn := TLine (line : text) (r : lineRnd) | TDerive | TStore (draws : list nat).
Definition takeTurn (pf : text -> option f64) (t : turn) (n : nar) : res (nar * bool) :=
  match t with
  | TLine line r => do x <- facade pf n line r; Ok (fst (fst x), snd (fst x))
  | TDerive => do n' <- declWork n; Ok (n', false)
  | TStore draws => do n' <- procWork n draws; Ok (n', false)
  end.
(** until one of them quits *)
Fixpoint takeTurns (pf : text -> option f64) (l : list turn) (n : nar) : res (nar * bool) :=
  match l with
  | [] => Ok (n, false)
  | t :: l' => do x <- takeTurn pf t n; if snd x then Ok x else takeTurns pf l' (fst x)
  end.
Fixpoint rooms (pf : text -> option f64) (l : list turn) (n : nar) : Prop :=
  match l with
  | [] => True
  | t :: l' => (match t with TLine line r => room n line r | _ => True end) /\
               match takeTurn pf t n with Ok (n', false) => rooms pf l' n' | _ => True end
  end.
(** only the thread whose turn it is moves *)
Inductive oneByOne : list turn -> list wact -> Prop :=
| ob_end : oneByOne [] []
| ob_line : forall line r k ts l, oneByOne ts l -> oneByOne (TLine line r :: ts) (ARead line r :: repeat (AMain (ln_smp r)) k ++ l)
| ob_derive : forall k ts l, oneByOne ts l -> oneByOne (TDerive :: ts) (repeat ADerive k ++ l)
| ob_store : forall draws k ts l, oneByOne ts l -> oneByOne (TStore draws :: ts) (repeat (AStore draws) k ++ l).
