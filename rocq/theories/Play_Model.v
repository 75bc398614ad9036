(** The program "envPong3": src/Reasoner1Entry.rs 19-115 with src/bin/main.rs
    34-37, over the two threads of ProcX_Model.v.

    - The main thread types the goal, takes the two half steps and moves the
      environment of Env_Model.v; the storage worker moves at any time.
    - The operators are those of Env_Model.v; which one a half step calls is
      [called].
    - The thread of the declarative part gets no messages and is left out.
    - Random numbers are arguments; console text only where building it can
      panic. *)
From Coq Require Import String Ascii ZArith Bool List.
From Verif Require Import Base F64_Model Term_Model Stamp_Model Tv_Model Sentence_Model Mem_Model Cycle_Model PMem_Model Goal_Model Proc_Model
  ProcS_Model ProcX_Model Parser_Model Nar_Model Env_Model.
Import ListNotations.
Local Open Scope string_scope.
Local Open Scope list_scope.
Local Open Scope Z_scope.

(** where the main thread is: 45; 50; inside narStep0; 54-72 and 75; 77-85; 93-115; returned *)
Inductive ppc := PTop | PHalf0 | PIn0 | PHalf1 | PSim | PShow | PDone (ratio : f64).
Record prog := mkProg { q_sys : psys; q_decl : shared; q_env : pong; q_t : Z; q_pc : ppc }.
(** 31-41 and 137-139: the operators *)
Definition pongOps : list op := [mkOp "^L" true 3 OpPlain; mkOp "^R" true 3 OpPlain].
(** 22-29 *)
Definition pongStart : prog := mkProg (ystart (narInit pongOps)) sharedMake makePong 0 PTop.
(** the state of the reasoner for Nar.rs 129-141 *)
Definition asNar (y : psys) (d : shared) : nar := mkNar (y_nar y) d 0 0 20 64 [] [] false.
Definition withNar (y : psys) (n : pnar) : psys := mkPsys n (y_main y) (y_chan y) (y_work y).
(** NarProc.rs 969-984: the name of the operator that the second half step calls *)
Definition called (n : pnar) (r : step1In) : option string :=
  match chosen n r with
  | Ok (n2, Some t) =>
      match decodeOp t with
      | Some (_, name) => option_map op_name (ret_op_by_name (n_ops n2) name)
      | None => None
      end
  | _ => None
  end.
(** Reasoner1Entry.rs 31-41, 134-136 *)
Definition moveBat (c : option string) (e : pong) : pong :=
  match c with
  | Some name => if String.eqb name "^L" then callPong OpL e else if String.eqb name "^R" then callPong OpR e else e
  | None => e
  end.
(** NarGoalSystem.rs 870-879: only whether it panics *)
Definition goalsText (g : gsys) : res unit := rfold (fun _ e => sentenceText (e_sentence e)) (retEntries g) tt.
(** 117 *)
Definition ratioOf (e : pong) : f64 := fdiv (f_of_Z (hits e)) (f_of_Z (misses e + hits e)).
(** what happens next: the main thread, with the numbers it draws, or the worker *)
Inductive pact := AMain (rs : nat -> smp) (r : step1In) (d : draws) | AWork (draws : list nat).
(** one step of a thread. [Ok None]: it has to wait or has ended. *)
Definition progStep (pf : text -> option f64) (a : pact) (q : prog) : res (option prog) :=
  let '(mkProg y d e t pc) := q in
  match a with
  | AWork ds => do o <- yact (usages d) y (XWork ds); Ok (option_map (fun y' => mkProg y' d e t pc) o)
  | AMain rs r dr =>
      match pc with
      (** 46-48 *)
      | PTop =>
          if Z.rem t 10 =? 0 then
            do '(n', _) <- inputN pf (asNar y d) (tx "0-1-xc! :|:") [];
            Ok (Some (mkProg (withNar y (nr_proc n')) (nr_decl n') e t PHalf0))
          else Ok (Some (mkProg y d e t PHalf0))
      (** 51 *)
      | PHalf0 => do o <- yact (usages d) y XStep0; Ok (option_map (fun y' => mkProg y' d e t PIn0) o)
      | PIn0 =>
          match y_main y with
          (** 53-66 *)
          | MFree => do o <- yact (usages d) y (XEvent (Name (percept e))); Ok (option_map (fun y' => mkProg y' d e t PHalf1) o)
          | _ => do o <- yact (usages d) y (XMain 20 rs); Ok (option_map (fun y' => mkProg y' d e t PIn0) o)
          end
      (** 68-75 *)
      | PHalf1 =>
          do o <- yact (usages d) y (XStep1 true r);
          Ok (option_map (fun y' => mkProg y' d (moveBat (called (y_nar y) r) e) t PSim) o)
      (** 77-89 *)
      | PSim => do e' <- simStep e dr; Ok (Some (if t >=? 5000 then mkProg y d e' t PShow else mkProg y d e' (t + 1) PTop))
      (** 95-117 *)
      | PShow =>
          do _ <- debugEvidence (n_mem (y_nar y));
          do _ <- (match pcs (n_mem (y_nar y)) with [] => Panic | _ => Ok tt end);
          do _ <- goalsText (n_goals (y_nar y));
          Ok (Some (mkProg y d e t (PDone (ratioOf e))))
      | PDone _ => Ok None
      end
  end.
(** one step after the other; what a thread cannot do now is left out *)
Fixpoint progRun (pf : text -> option f64) (l : list pact) (q : prog) : res prog :=
  match l with
  | [] => Ok q
  | a :: l' => do o <- progStep pf a q; progRun pf l' (match o with Some q' => q' | None => q end)
  end.
(** bin/main.rs 51-66 ("pe"): the average of ten runs *)
Definition peScore (ratios : list f64) : f64 := fdiv (fold_left fadd ratios f0) (f_of_Z (Z.of_nat (length ratios))).
