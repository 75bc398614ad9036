(** What was typed, as evidence. *)
From Coq Require Import String Ascii ZArith Bool List.
From Verif Require Import Base F64_Model Term_Model Stamp_Model Tv_Model Sentence_Model Cycle_Model Sched_Model Goal_Model Proc_Model ProcS_Model ProcX_Model
  Parser_Model Nar_Model Whole_Model Whole_Spec.
Import ListNotations.
Local Open Scope list_scope.

(** the sentences among some texts, in order *)
Definition readings (pf : text -> option f64) (texts : list text) : list (term * tv * punct * bool) :=
  flat_map (fun i => match parseNarsese pf i with Ok (Some x) => [x] | _ => [] end) texts.
(** [s] is the statement at place [k], its evidence is this place *)
Definition statedAt (pf : text -> option f64) (texts : list text) (k : nat) (s : sentence) : Prop :=
  exists v, nth_error (readings pf texts) k = Some (s_term s, v, JUGEMENT, false) /\ isTemporal (s_term s) = false /\
    s_punct s = JUGEMENT /\ retTv s = Some v /\ s_stamp s = [Z.of_nat k] /\ s_t s = None /\ s_expDt s = None.
Definition stated (pf : text -> option f64) (texts : list text) (s : sentence) : Prop := exists k, statedAt pf texts k s.
(** the texts of the lines that were read in a run *)
Fixpoint textsRead (pf : text -> option f64) (acts : list wact) (w : whole) : list text :=
  match acts with
  | [] => []
  | a :: l => match wstep pf a w with
              | Ok (Some w') => typed a ++ textsRead pf l w'
              | Ok None => textsRead pf l w
              | Panic => []
              end
  end.
(** ^nlpRel0 puts in statements of its own; it is not registered *)
Definition plainLine (a : wact) : Prop :=
  match a with
  | ARead line _ => starts (tx "!por ") (trimNewline line) = true -> forall o, registered (words (skipn 5 (trimNewline line))) = Some o -> op_kind o <> OpNlpRel
  | _ => True
  end.
