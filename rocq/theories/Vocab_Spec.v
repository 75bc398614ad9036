(** What can be learned, wanted and done where only named things are perceived. *)
From Coq Require Import String Ascii ZArith List.
From Verif Require Import Base Term_Model Sentence_Model PMem_Model Goal_Model Proc_Model ProcS_Model ProcX_Model Play_Spec Env_Model Env_Spec Ttt_Model Ttt_Spec.
Import ListNotations.
Local Open Scope list_scope.

(** something perceived: a name with the property [F] *)
Definition fact (F : string -> Prop) (t : term) : Prop := exists s, t = Name s /\ F s.
(** the call of one of the operators, with no arguments but oneself *)
Definition deed (names : list string) (t : term) : Prop := exists s, In s names /\ t = plainCall s.
(** in the situation [a], after [d], there will be another situation [b] *)
Definition law (F : string -> Prop) (names : list string) (t : term) : Prop :=
  exists a d b, fact F a /\ fact F b /\ a <> b /\ deed names d /\ t = Stmt PREDIMPL (Seq [a; d]) b.
(** a situation, a deed, or to be in a situation and then do something *)
Definition aim (F : string -> Prop) (names : list string) (t : term) : Prop :=
  fact F t \/ deed names t \/ exists a d, fact F a /\ deed names d /\ t = Seq [a; d].
(** a reasoner of two threads that tries one operator at a time and is told and asked for
    nothing but such names *)
Inductive confined (ops : list op) (F : string -> Prop) : psys -> Prop :=
| cf_start : forall cfg tab t nMax depth, c_nOpsMax cfg = 1%nat -> confined ops F (ystart (mkPnar cfg ops tab t [] [] pmemMake (makeGoalSystem nMax depth)))
| cf_step : forall us y a y', confined ops F y ->
    match a with XEvent e => fact F e | XGoal s => fact F (s_term s) | XBelief _ _ _ _ => False | _ => True end ->
    yact us y a = Ok (Some y') -> confined ops F y'.
(** the two vocabularies: where the ball is; the boards of games that go on, and winning *)
Definition ballAt (s : string) : Prop := s = "0-1-xc"%string \/ s = "0-1-xl"%string \/ s = "0-1-xr"%string.
Definition unfinished (f : list ascii) : Prop := exists p, legal (mkGame f p) /\ (forall q, ~ wins q f) /\ ~ full f.
Definition boardOrWin (s : string) : Prop := s = "w"%string \/ exists f, unfinished f /\ readsAs f s.
(** player [p] takes the empty cell [i] *)
Definition placed (p : ascii) (i : nat) (f f' : list ascii) : Prop :=
  nth_error f i = Some " "%char /\ length f' = length f /\ nth_error f' i = Some p /\ forall j, j <> i -> nth_error f' j = nth_error f j.
(** what a law about tic-tac-toe must not get wrong: an operator that wins is a move that
    wins on this board; the next board is this board after a move of each player *)
Definition sound (s o s' : string) : Prop :=
  exists f i f1, unfinished f /\ readsAs f s /\ placed "a" i f f1 /\
    ((s' = "w"%string /\ nth_error moveNames i = Some o /\ wins "a" f1) \/ (exists j f2, placed "b" j f1 f2 /\ unfinished f2 /\ readsAs f2 s')).
