(** Independent vocabulary for the server: what was broadcast, and what a
    client was sent, by the numbers of the messages. *)
From Coq Require Import String ZArith Bool List.
From Verif Require Import Base F64_Model Sentence_Model Cycle_Model Parser_Model Nar_Model Server_Model.
Import ListNotations.
Local Open Scope list_scope.

(** the messages put into the buffer along a run, in order *)
Definition said (s : server) (a : act) : list text :=
  match a with AAnswer m => [m] | APut => firstn 1 (sv_todo s) | _ => [] end.
(** [runs hist lines starts s]: [s] is reached, [hist] was broadcast, [lines]
    was sent to the reasoner, client number [k] connected when [nth k starts]
    messages had been broadcast *)
Inductive runs (pf : text -> option f64) (render : nar -> info -> list text) : list text -> list text -> list nat -> server -> Prop :=
| runs_start : runs pf render [] [] [] start
| runs_act : forall hist lines starts s a s', runs pf render hist lines starts s -> act1 pf render s a = Some s' ->
    runs pf render (hist ++ said s a)
      (lines ++ match a, sv_nar s with ALine _ line, Some _ => [line] | _, _ => [] end)
      (starts ++ match a with AConnect => [length hist] | _ => [] end) s'.

(** numbers never go back *)
Inductive ordered : list nat -> Prop :=
| ord_nil : ordered []
| ord_one : forall i, ordered [i]
| ord_next : forall i j l, i <= j -> ordered (j :: l) -> ordered (i :: j :: l).
(** the client got the messages with the numbers [ids] *)
Definition got (hist : list text) (c : client) (ids : list nat) : Prop := map (@Some text) (cl_out c) = map (nth_error hist) ids.
(** runs in which no answer is broadcast *)
Inductive quiet (pf : text -> option f64) (render : nar -> info -> list text) : server -> Prop :=
| quiet_start : quiet pf render start
| quiet_act : forall s a s', quiet pf render s -> act1 pf render s a = Some s' -> (forall m, a <> AAnswer m) -> quiet pf render s'.
