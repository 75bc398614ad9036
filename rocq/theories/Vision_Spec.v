(** What a prototype classifier should do. *)
From Coq Require Import List ZArith QArith Bool Lia.
From Verif Require Import Base F64_Model Tv_Model Tv_Spec Map_Model Map_Spec Vision_Model.
Import ListNotations.

Section Best.
  Context {F : Type} (A : arith F).
  (** [s], at [i], is a greatest element and the first of its size; elements
      that cannot be compared (NaN) do not count *)
  Definition best (l : list F) (i : nat) (s : F) : Prop :=
    nth_error l i = Some s /\
    forall j t, nth_error l j = Some t -> Altb A s t = false /\ (j < i -> Aleb A s t = false)%nat.
  Definition noMatch (l : list F) : Prop := forall t, In t l -> Aleb A (Ahalf A) t = false.
End Best.

(** [cls'] is [cls] with [p'] in place of entry [i] *)
Definition replaced {P} (cls cls' : list P) (i : nat) (p' : P) : Prop :=
  length cls' = length cls /\ nth_error cls' i = Some p' /\ forall j, j <> i -> nth_error cls' j = nth_error cls j.

(** the outcome of one classification, given the similarities *)
Definition outcome {F P St} (A : arith F) (revised : P -> St -> Z -> P -> Prop) (fresh : St -> Z -> P)
  (cls : list P) (sims : list F) (stim : St) (now : Z) (add : bool) (r : option nat) (cls' : list P) : Prop :=
  match r with
  | Some i =>
      (exists s p, best A sims i s /\ Aleb A (Ahalf A) s = true /\ nth_error cls i = Some p /\
        if add then exists p', revised p stim now p' /\ replaced cls cls' i p' else cls' = cls) \/
      (noMatch A sims /\ add = true /\ i = length cls /\ cls' = cls ++ [fresh stim now])
  | None => noMatch A sims /\ add = false /\ cls' = cls
  end.

(** B: each channel is revised entry by entry with that of the stimulus *)
Definition revisedB {F} (A : arith F) (p : protoB F) (stim : list (list (gtv F))) (now : Z) (p' : protoB F) : Prop :=
  pb_used p' = now /\ length (pb_ch p') = length (pb_ch p) /\
  forall i c, nth_error (pb_ch p) i = Some c -> exists s, nth_error stim i = Some s /\
    exists c', nth_error (pb_ch p') i = Some c' /\ length c' = Nat.min (length c) (length s) /\
      forall k a b, nth_error c k = Some a -> nth_error s k = Some b -> nth_error c' k = Some (g_rev A a b).
(** D: each channel is added, cell by cell *)
Definition revisedD (p : protoD) (stim : list (map2d f64)) (now : Z) (p' : protoD) : Prop :=
  pd_used p' = now /\ pd_count p' = (pd_count p + 1)%Z /\ length (pd_ch p') = length (pd_ch p) /\
  forall i c, nth_error (pd_ch p) i = Some c -> exists s, nth_error stim i = Some s /\
    exists c', nth_error (pd_ch p') i = Some c' /\ sameSize c c' /\
      forall y x, within c y x -> val f0 c' y x = fadd (val f0 c y x) (val f0 s y x).

(** a history of classifications: stimulus, time, add *)
Definition history {P St} (classify : list P -> St -> Z -> bool -> res (option nat * list P)) (steps : list (St * Z * bool)) (cls : list P) : res (list P) :=
  rfold (fun c '(stim, now, add) => do '(_, c') <- classify c stim now add; Ok c') steps cls.

(** truth values of a quantised image: frequency 0 or 1 *)
Definition oneHot (v : list qtv) : Prop := Forall (fun t => (tvf t == 0 \/ tvf t == 1)%Q /\ unitQ (tvc t)) v.
(** squared distance of an image from the mean of a prototype, row by row; what the prototype does not cover counts as 0 *)
Definition distOf (s c : map2d f64) (n : f64) : f64 :=
  fold_left (fun acc '(y, x) => let d := fsub (val f0 s y x) (if inb c y x then fdiv (val f0 c y x) n else f0) in fadd acc (fmul d d)) (grid 0 (m_h s) 0 (m_w s)) f0.

(** evidence of a list of truth values: total weight and weight of the positive part *)
Definition weightQ (t : qtv) : Q := tvc t / (1 - tvc t).
Definition totalW (l : list qtv) : Q := fold_right (fun t s => weightQ t + s)%Q 0%Q l.
Definition positiveW (l : list qtv) : Q := fold_right (fun t s => weightQ t * tvf t + s)%Q 0%Q l.
(** all comparisons of a stimulus with a prototype, entry by entry *)
Definition comparisons (stim proto : list (list qtv)) : list qtv :=
  flat_map (fun '(s, p) => map (fun '(a, b) => g_comp Q_arith a b) (combine s p)) (combine stim proto).
