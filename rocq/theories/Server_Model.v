(** Model of src/NarServer.rs: the broadcast buffer, the tasks of the clients
    and the thread of the reasoner.

    - A transition is one section under the mutex or one channel operation, so
      tasks interleave at these points.
    - The line a client sends is given by the environment; what is written to
      its socket is [cl_out]. Errors of the socket end a task and are not
      modelled.
    - The text of the returned information is [render].
    - Messages of the Q&A handler (144-158) come at any time and with any text:
      the handler is called from the thread of the reasoner and from the worker. *)
From Coq Require Import String ZArith Bool List.
From Verif Require Import Base F64_Model Sentence_Model Cycle_Model Parser_Model Nar_Model.
Import ListNotations.
Local Open Scope list_scope.
Local Open Scope Z_scope.

(** NarServer.rs 96-99 *)
Record global := mkGlobal { g_arr : list (Z * text); g_id : Z }.
(** 151-156 *)
Definition pushAnswer (g : global) (msg : text) : global := mkGlobal (g_arr g ++ [(g_id g, msg)]) (g_id g + 1).
(** 118-127 *)
Definition pushLine (g : global) (msg : text) : global :=
  let g := mkGlobal (g_arr g ++ [(g_id g, msg)]) (g_id g + 1) in
  let dataMaxLength := 50%nat in
  if Nat.ltb dataMaxLength (length (g_arr g)) then mkGlobal (skipn (length (g_arr g) - dataMaxLength) (g_arr g)) (g_id g) else g.
(** 57-67: the counter of the client and the messages to send *)
Fixpoint scan (my : Z) (arr : list (Z * text)) : Z * list text :=
  match arr with
  | [] => (my, [])
  | (id, m) :: arr' =>
      if my <=? id then let '(my', l) := scan id arr' in (my', m :: l)
      else scan my arr'
  end.

(** 39-94: a connection; [cl_busy]: its line is sent, the buffer not yet read;
    [cl_dead]: the task panicked *)
Record client := mkClient { cl_my : Z; cl_busy : bool; cl_dead : bool; cl_out : list text }.
(** 44-48 *)
Definition connect (g : global) : client := mkClient (g_id g) false false [].
(** 55-74 *)
Definition readBuffer (g : global) (c : client) : client :=
  let '(my, l) := scan (cl_my c) (g_arr g) in mkClient my false (cl_dead c) (cl_out c ++ l).

(** 101-141: the reasoner ([None]: its thread panicked), its channel, the
    lines it still has to put into the buffer *)
Record server := mkServer { sv_g : global; sv_nar : option nar; sv_chan : list text; sv_todo : list text; sv_cl : list client }.
(** 102-103, 111 *)
Definition start : server := mkServer (mkGlobal [] 0) (Some createNar) [] [] [].
Definition replace {A} (k : nat) (x : A) (l : list A) : list A := firstn k l ++ x :: skipn (S k) l.

(** what the tasks can do next *)
Inductive act :=
| AConnect
| ALine (k : nat) (line : text)
| ARead (k : nat)
| ATake (r : lineRnd)
| APut
| AAnswer (msg : text)
| ADecl
| AProc (draws : list nat).

Section Server.
Variables (pf : text -> option f64) (render : nar -> info -> list text).
Definition setNar (s : server) (n : option nar) : server := mkServer (sv_g s) n (sv_chan s) (sv_todo s) (sv_cl s).
Definition act1 (s : server) (a : act) : option server :=
  match a with
  | AConnect => Some (mkServer (sv_g s) (sv_nar s) (sv_chan s) (sv_todo s) (sv_cl s ++ [connect (sv_g s)]))
  | ALine k line =>
      (* 50-53; [send] fails when the receiver is gone *)
      match nth_error (sv_cl s) k with
      | Some c =>
          if cl_busy c || cl_dead c then None
          else match sv_nar s with
               | Some _ => Some (mkServer (sv_g s) (sv_nar s) (sv_chan s ++ [line]) (sv_todo s) (replace k (mkClient (cl_my c) true false (cl_out c)) (sv_cl s)))
               | None => Some (mkServer (sv_g s) (sv_nar s) (sv_chan s) (sv_todo s) (replace k (mkClient (cl_my c) false true (cl_out c)) (sv_cl s)))
               end
      | None => None
      end
  | ARead k =>
      match nth_error (sv_cl s) k with
      | Some c => if cl_busy c then Some (mkServer (sv_g s) (sv_nar s) (sv_chan s) (sv_todo s) (replace k (readBuffer (sv_g s) c) (sv_cl s))) else None
      | None => None
      end
  | ATake r =>
      (* 114-116; the quit flag is not looked at *)
      match sv_nar s, sv_todo s, sv_chan s with
      | Some n, [], line :: ch =>
          match facade pf n line r with
          | Ok (n', _, x) => Some (mkServer (sv_g s) (Some n') ch (render n x) (sv_cl s))
          | Panic => Some (mkServer (sv_g s) None ch [] (sv_cl s))
          end
      | _, _, _ => None
      end
  | APut =>
      match sv_todo s with
      | m :: todo => Some (mkServer (pushLine (sv_g s) m) (sv_nar s) (sv_chan s) todo (sv_cl s))
      | [] => None
      end
  | AAnswer msg => Some (mkServer (pushAnswer (sv_g s) msg) (sv_nar s) (sv_chan s) (sv_todo s) (sv_cl s))
  | ADecl => match sv_nar s with
             | Some n => match declWork n with Ok n' => Some (setNar s (Some n')) | Panic => None end
             | None => None
             end
  | AProc draws => match sv_nar s with
             | Some n => match procWork n draws with Ok n' => Some (setNar s (Some n')) | Panic => None end
             | None => None
             end
  end.
Fixpoint acts (l : list act) (s : server) : option server :=
  match l with [] => Some s | a :: l' => match act1 s a with Some s' => acts l' s' | None => None end end.
End Server.
