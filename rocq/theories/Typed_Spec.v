(** Typing statements and questions and letting the program run. *)
From Coq Require Import String Ascii ZArith List.
From Verif Require Import Base F64_Model Term_Model Term_Spec Unify_Spec Tv_Model Sentence_Model Infer_Spec Cycle_Model Sched_Model Parser_Model Nar_Model Whole_Model Whole_Spec Reply_Spec.
Import ListNotations.
Local Open Scope list_scope.

(** * Runs *)
(** [talk pf lines w w']: some interleaving of the three threads leads from [w] to
    [w'], and the main thread reads [lines], in this order *)
Inductive talk (pf : text -> option f64) : list text -> whole -> whole -> Prop :=
| tk_none : forall w, talk pf [] w w
| tk_read : forall lines w w1 line r w2, talk pf lines w w1 -> wstep pf (ARead line r) w1 = Ok (Some w2) -> talk pf (lines ++ [line]) w w2
| tk_move : forall lines w w1 a w2, talk pf lines w w1 -> (forall line r, a <> ARead line r) -> wstep pf a w1 = Ok (Some w2) -> talk pf lines w w2.
(** the main thread has nothing to do, the deriver waits, no message is on its way *)
Definition atEase (w : whole) : Prop :=
  mainFree w = true /\ w_jobs w = [] /\ y_worker (w_decl w) = WIdle /\ y_queue (w_decl w) = [].

(** * Lines *)
(** a line that is neither empty nor a comment nor a command *)
Definition plainText (line : text) : Prop :=
  let i := trimNewline line in asciiOnly i /\ starts (tx "//") i = false /\ starts (tx "!") i = false /\ i <> [].
(** "!s" or "!s" with a number: so many cycles *)
Definition cycleLine (line : text) (k : nat) : Prop :=
  let i := trimNewline line in
  (i = tx "!s" /\ k = 1%nat) \/ exists d, i = tx "!s" ++ d /\ asciiOnly i /\ starts (tx "p") d = false /\ d <> [] /\ exists z, parseI64 d = Some z /\ k = Z.to_nat z.
Definition easyLine (line : text) : Prop := plainText line \/ exists k, cycleLine line k.
(** What a text gives the declarative reasoner: statements about no time that are not
    events, and questions that are events (other questions are refused). *)
Definition heard (pf : text -> option f64) (i : text) : list (term * tv * punct) :=
  match parseNarsese pf i with
  | Ok (Some (t, v, JUGEMENT, false)) => match t with Stmt PREDIMPL _ _ => [] | _ => [(t, v, JUGEMENT)] end
  | Ok (Some (t, v, QUESTION, true)) => [(t, v, QUESTION)]
  | _ => []
  end.
Definition heardAll (pf : text -> option f64) (lines : list text) : list (term * tv * punct) := flat_map (fun l => heard pf (trimNewline l)) lines.
Definition entryTerm (h : term * tv * punct) : term := fst (fst h).
(** not too large *)
Definition small (maxC : Z) (t : term) : Prop := (atoms t + connectives t <= maxC)%Z.
Definition statedThat (maxC : Z) (hs : list (term * tv * punct)) (t : term) (v : tv) : Prop := In (t, v, JUGEMENT) hs /\ small maxC t.
Definition askedFor (maxC : Z) (hs : list (term * tv * punct)) (q : term) : Prop := exists v, In (q, v, QUESTION) hs /\ small maxC q.
Definition noneTwice (hs : list (term * tv * punct)) : Prop :=
  NoDup (map entryTerm (filter (fun h => match snd h with JUGEMENT => true | _ => false end) hs)).

(** * Conclusions *)
(** [t] with [v] follows by one rule from two statements with truth values *)
Definition fromTwo (t0 : term) (v0 : tv) (t1 : term) (v1 : tv) (t : term) (v : tv) : Prop :=
  exists tr, (schema JUGEMENT t0 JUGEMENT t1 t tr \/ schema JUGEMENT t1 JUGEMENT t0 t tr) /\ truthVal tr (Some v0) (Some v1) = Some v.
Definition fromOne (t0 : term) (v0 : tv) (t : term) (v : tv) : Prop :=
  exists mir bias, struct JUGEMENT t0 t mir bias /\ v = if mir then neg v0 else v0.
