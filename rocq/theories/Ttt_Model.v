(** The program "envTTT2": src/ProcTicTacToe.rs 27-400 with src/bin/main.rs 37-42,
    over the two threads of ProcX_Model.v.

    - The main thread asks the reasoner for moves, lets the opponent draw his,
      takes the half steps and plays the games of Env_Model.v; the storage
      worker moves at any time.
    - The player is the reasoner (32); the branches for the human and the random
      player are left out.
    - Random numbers are arguments; printing is left out. The thread of the
      declarative part is left out; the messages for it are kept in [u_dq]. *)
From Coq Require Import String Ascii ZArith Bool List.
From Verif Require Import Base F64_Model Term_Model Stamp_Model Tv_Model Sentence_Model Mem_Model Cycle_Model PMem_Model Goal_Model Proc_Model
  ProcS_Model ProcX_Model Parser_Model Nar_Model Env_Model Play_Model.
Import ListNotations.
Local Open Scope string_scope.
Local Open Scope list_scope.
Local Open Scope Z_scope.

(** which of its steps the reasoner takes: 200 (how many are left), 333-335, 292-295 and 338-341
    (after a win? how many are left) *)
Inductive why := Think (k : nat) | See | Rest (won : bool) (k : nat).
(** where the main thread is: 73; 109; 113; a half step; inside narStep0; between the half steps;
    222; 249; 343; returned *)
Inductive tpc := TEpoch | TTurn | TPick | THalf0 (w : why) | TIn0 (w : why) | THalf1 (w : why) | TMove (m : Z) | TCheck | TCycle | TDone.
Record ttt := mkTtt {
  u_sys : psys; u_decl : shared; u_time : Z; u_dq : list workMsg;
  u_game : gamestate; u_move : option Z; u_games : Z; u_wins : Z; u_losses : Z; u_pc : tpc
}.
(** 62-69, 398-399 *)
Definition moveNames : list string := ["^0"; "^1"; "^2"; "^3"; "^4"; "^5"; "^6"; "^7"; "^8"].
Definition tttOps : list op := map (fun s => mkOp s true 10000 OpPlain) moveNames.
(** 40-55 *)
Definition tttCfg : pcfg := mkPcfg 2 (f_frac 58 100) 1 4 false false 500 100.
Definition tttGoals : gsys :=
  let g := makeGoalSystem 20 8 in mkGsys (g_active g) (g_batches g) (g_byTerm g) 1000 (g_maxDepth g) false (g_rounds g).
Definition tttStart : ttt :=
  mkTtt (ystart (mkPnar tttCfg tttOps defaultTable 0 [] [] pmemMake tttGoals)) sharedMake 0 [] newGame None (-1) 0 0 TEpoch.
(** 393-397: the number of the move that the second half step stores *)
Fixpoint indexOf (name : string) (l : list string) (i : Z) : option Z :=
  match l with
  | [] => None
  | s :: l' => if String.eqb s name then Some i else indexOf name l' (i + 1)
  end.
Definition moveOf (c : option string) (before : option Z) : option Z :=
  match c with
  | Some name => match indexOf name moveNames 0 with Some i => Some i | None => before end
  | None => before
  end.
(** 80-86 *)
Definition knowsGoal (g : gsys) : bool := existsb (fun e => checkEqTerm (s_term (e_sentence e)) (Name "w")) (retEntries g).
(** NarProc.rs 303-305 *)
Definition flushTrace (n : pnar) : pnar := setTrace n [].
(** what the reasoner is told about the board: 192, 330 *)
Definition boardName (g : gamestate) : string := string_of_list_ascii (retFieldAsString (g_field g)).
Definition tellBoard (g : gamestate) (n : pnar) : pnar := setTrace n (event_happened (n_trace n) (mkEvent (Name (boardName g)) (n_t n) (n_t n))).

(** what happens next: the main thread, with the numbers it draws, or the worker *)
Inductive tact := BMain (rs : nat -> smp) (r : step1In) (opponent : Z) (expf : f64 -> f64) (sel : f64) | BWork (draws : list nat).
(** one step of a thread. [Ok None]: it has to wait or has ended. *)
Definition tttStep (pf : text -> option f64) (maxEpochs : Z) (a : tact) (q : ttt) : res (option ttt) :=
  let '(mkTtt y d tm dq g mv games wins losses pc) := q in
  match a with
  | BWork ds => do o <- yact (usages d) y (XWork ds); Ok (option_map (fun y' => mkTtt y' d tm dq g mv games wins losses pc) o)
  | BMain rs r opp expf sel =>
      let n := y_nar y in
      match pc with
      (** 74-102 *)
      | TEpoch =>
          if games >=? maxEpochs then Ok (Some (mkTtt y d tm dq g mv games wins losses TDone))
          else
            do '(n1, d1) <- (if knowsGoal (n_goals n) then Ok (n, d) else
                               do '(x, _) <- inputN pf (asNar y d) (tx "w! :|:") []; Ok (nr_proc x, nr_decl x));
            Ok (Some (mkTtt (withNar y (flushTrace n1)) d1 tm dq newGame mv (games + 1) wins losses TTurn))
      (** 109-110 *)
      | TTurn => Ok (Some (mkTtt (withNar y (setAnt n [])) d tm dq g mv games wins losses TPick))
      (** 115: 183-198 or 235-239 *)
      | TPick =>
          if g_player g then
            Ok (Some (mkTtt (withNar y (tellBoard g (setBabble (setAnt (flushTrace n) []) true))) d tm dq g mv games wins losses (THalf0 (Think 4))))
          else
            do m <- range 9 opp;
            do '(g1, valid) <- tryMove g m;
            Ok (Some (mkTtt y d tm dq g1 mv games wins losses (if valid : bool then TCheck else TPick)))
      (** NarProc::narStep0 *)
      | THalf0 w => do o <- yact (usages d) y XStep0; Ok (option_map (fun y' => mkTtt y' d tm dq g mv games wins losses (TIn0 w)) o)
      | TIn0 w =>
          match y_main y with
          | MFree => Ok (Some (mkTtt (match w with See => withNar y (tellBoard g n) | _ => y end) d tm dq g mv games wins losses (THalf1 w)))
          | _ => do o <- yact (usages d) y (XMain 20 rs); Ok (option_map (fun y' => mkTtt y' d tm dq g mv games wins losses (TIn0 w)) o)
          end
      (** NarProc::narStep1 and what follows it *)
      | THalf1 w =>
          do o <- yact (usages d) y (XStep1 true r);
          let mv1 := moveOf (called n r) mv in
          let '(mv2, pc') :=
            match w with
            (** 204-218 *)
            | Think k => match mv1 with
                         | Some m => (None, TMove m)
                         | None => (None, match k with S (S k') => THalf0 (Think (S k')) | _ => TPick end)
                         end
            | See => (mv1, THalf0 (Rest false 50))
            | Rest won k => (mv1, match k with S (S k') => THalf0 (Rest won (S k')) | _ => if won then TEpoch else TCycle end)
            end in
          Ok (option_map (fun y' => mkTtt y' d tm dq g mv2 games wins losses pc') o)
      (** 222-230 *)
      | TMove m =>
          do '(g1, valid) <- tryMove g m;
          Ok (Some (mkTtt y d tm dq g1 mv games wins losses (if valid : bool then TCheck else TPick)))
      (** 249-336 *)
      | TCheck =>
          do w <- winner (g_field g);
          let y1 := withNar y (setBabble n false) in
          match w with
          | Some c =>
              if Ascii.eqb c "a" then
                do '(x, _) <- inputN pf (asNar y1 d) (tx "w. :|:") [];
                Ok (Some (mkTtt (withNar y1 (nr_proc x)) (nr_decl x) tm dq g mv games (wins + 1) losses (THalf0 (Rest true 50))))
              else Ok (Some (mkTtt y1 d tm dq g mv games wins (if Ascii.eqb c "b" then losses + 1 else losses) TEpoch))
          | None =>
              if isDraw (g_field g) then Ok (Some (mkTtt y1 d tm dq g mv games wins losses TEpoch))
              else Ok (Some (mkTtt y1 d tm dq g mv games wins losses (THalf0 (if g_player g then Rest false 50 else See))))
          end
      (** 343-349 *)
      | TCycle =>
          do '(d1, tm1, _, m) <- reasonCycle expf sel d tm;
          Ok (Some (mkTtt y d1 tm1 (dq ++ match m with Some m => [m] | None => [] end) (mkGame (g_field g) (negb (g_player g))) mv games wins losses TTurn))
      | TDone => Ok None
      end
  end.
(** one step after the other; what a thread cannot do now is left out *)
Fixpoint tttRun (pf : text -> option f64) (maxEpochs : Z) (l : list tact) (q : ttt) : res ttt :=
  match l with
  | [] => Ok q
  | a :: l' => do o <- tttStep pf maxEpochs a q; tttRun pf maxEpochs l' (match o with Some q' => q' | None => q end)
  end.
