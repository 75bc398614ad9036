(** Common vocabulary of the model: panics, stable sorting, list helpers.
    Nothing here is specific to one source file; every model file cites the
    Rust lines it follows. *)
From Coq Require Import List ZArith Bool Lia.
Import ListNotations.

(** Result of a Rust call that may panic (index out of bounds, [unwrap] of
    [None], explicit [panic!]). Ordinary [Option]/[Result] values of the source
    are kept as data and never encoded with [Panic]. *)
Inductive res (A : Type) : Type :=
| Ok (a : A)
| Panic.
Arguments Ok {A} _.
Arguments Panic {A}.

Definition rbind {A B} (x : res A) (f : A -> res B) : res B :=
  match x with Ok a => f a | Panic => Panic end.

Definition rmap {A B} (f : A -> B) (x : res A) : res B :=
  rbind x (fun a => Ok (f a)).

Declare Scope res_scope.
Notation "'do' x <- e ; f" := (rbind e (fun x => f))
  (at level 200, x name, e at level 100, f at level 200) : res_scope.
Notation "'do' ' p <- e ; f" := (rbind e (fun p => f))
  (at level 200, p strict pattern, e at level 100, f at level 200) : res_scope.
Open Scope res_scope.

(** [Option::unwrap]. *)
Definition unwrap {A} (o : option A) : res A :=
  match o with Some a => Ok a | None => Panic end.

(** Slice indexing [v[i]]. *)
Definition idx {A} (l : list A) (i : nat) : res A := unwrap (nth_error l i).

(** Sequential application of a panicking step to a list (a [for] loop). *)
Fixpoint rfold {A S} (f : S -> A -> res S) (l : list A) (s : S) : res S :=
  match l with
  | [] => Ok s
  | a :: l' => do s' <- f s a; rfold f l' s'
  end.

Fixpoint rmapM {A B} (f : A -> res B) (l : list A) : res (list B) :=
  match l with
  | [] => Ok []
  | a :: l' => do b <- f a; do bs <- rmapM f l'; Ok (b :: bs)
  end.

(** Element-wise test of two lists of the same length (a Rust index loop with
    early [return false]). *)
Definition forallb2 {A B} (f : A -> B -> bool) : list A -> list B -> bool :=
  fix go l1 l2 :=
    match l1, l2 with
    | [], [] => true
    | x :: l1', y :: l2' => f x y && go l1' l2'
    | _, _ => false
    end.

(** Rust's [slice::sort_by] is a stable sort. [lt a b] is "the comparator
    returned Less for (a,b)". The model is stable insertion sort, which returns
    the same list as any other stable sort when [lt] is a strict weak order. *)
Section Sort.
  Context {A : Type}.
  Variable lt : A -> A -> bool.
  Fixpoint insert_by (x : A) (l : list A) : list A :=
    match l with
    | [] => [x]
    | y :: l' => if lt y x then y :: insert_by x l' else x :: y :: l'
    end.
  Fixpoint sort_by (l : list A) : list A :=
    match l with
    | [] => []
    | x :: l' => insert_by x (sort_by l')
    end.
End Sort.

(** [Vec::remove] and [Vec::swap_remove]. *)
Fixpoint remove_at {A} (i : nat) (l : list A) : list A :=
  match l, i with
  | [], _ => []
  | _ :: l', O => l'
  | x :: l', S i' => x :: remove_at i' l'
  end.

Fixpoint replace_at {A} (i : nat) (v : A) (l : list A) : list A :=
  match l, i with
  | [], _ => []
  | _ :: l', O => v :: l'
  | x :: l', S i' => x :: replace_at i' v l'
  end.

(** [v.swap_remove(i)]: the last element takes the place of element [i]. *)
Definition swap_remove {A} (i : nat) (l : list A) : list A :=
  match rev l with
  | [] => []
  | last :: _ => firstn (length l - 1) (replace_at i last l)
  end.

(** Last [n] elements of a list ([v[len-n..]], or everything if shorter). *)
Definition lastn {A} (n : nat) (l : list A) : list A :=
  skipn (length l - n) l.

(** Keep integer arithmetic folded under [simpl]. *)
#[global] Arguments Z.add : simpl never.
#[global] Arguments Z.sub : simpl never.
#[global] Arguments Z.mul : simpl never.
#[global] Arguments Z.leb : simpl never.
#[global] Arguments Z.ltb : simpl never.
