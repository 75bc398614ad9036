(** Model of src/NarUnify.rs. *)
From Coq Require Import String ZArith Bool List.
From Verif Require Import Base Term_Model.
Import ListNotations.

(** NarUnify.rs 8-11: an assignment (var, val). *)
Definition asgn : Type := (term * term)%type.

(** NarUnify.rs 221-223 *)
Definition checkAssigned (var : term) (u : list asgn) : bool :=
  existsb (fun p => checkEqTerm (fst p) var) u.

(** NarUnify.rs 225-232: the first assignment of [var] decides. *)
Fixpoint checkSameVal (var val : term) (u : list asgn) : bool :=
  match u with
  | [] => false
  | (v, w) :: u' => if checkEqTerm v var then checkEqTerm w val else checkSameVal var val u'
  end.

(** Loop over two element vectors of equal length (NarUnify.rs 83-86 and its
    copies). *)
Definition unifyList (f : term -> term -> list asgn -> option (list asgn)) :
  list term -> list term -> list asgn -> option (list asgn) :=
  fix go l1 l2 u :=
    match l1, l2 with
    | [], [] => Some u
    | x :: l1', y :: l2' => match f x y u with Some u' => go l1' l2' u' | None => None end
    | _, _ => None
    end.

(** NarUnify.rs 16-30 and its copies for the other variable kinds. *)
Definition unifyVar (a b : term) (u : list asgn) : option (list asgn) :=
  match b with
  | QVar _ | DepVar _ | IndepVar _ => None
  | _ => if checkAssigned a u
         then (if checkSameVal a b u then Some u else None)
         else Some (u ++ [(a, b)])
  end.

(** NarUnify.rs 14-218. The boolean result and the mutated assignment vector
    are combined in an option: [None] is "returned false" (the caller [unify]
    then drops the vector). *)
Fixpoint unify2 (a b : term) (u : list asgn) : option (list asgn) :=
  let ul := fun l1 l2 u =>
    if Nat.eqb (length l1) (length l2) then unifyList unify2 l1 l2 u else None in
  match a with
  | QVar _ | DepVar _ | IndepVar _ => unifyVar a b u
  | Stmt ca sa pa =>
      match b with
      | Stmt cb sb pb =>
          if copula_eqb ca cb then
            match unify2 sa sb u with Some u' => unify2 pa pb u' | None => None end
          else None
      | _ => None
      end
  | Name x => match b with Name y => if String.eqb x y then Some u else None | _ => None end
  | Seq l1 => match b with Seq l2 => ul l1 l2 u | _ => None end
  | SetInt l1 => match b with SetInt l2 => ul l1 l2 u | _ => None end
  | SetExt l1 => match b with SetExt l2 => ul l1 l2 u | _ => None end
  | Conj l1 => match b with Conj l2 => ul l1 l2 u | _ => None end
  | Prod l1 => match b with Prod l2 => ul l1 l2 u | _ => None end
  | Img r1 i1 l1 =>
      match b with
      | Img r2 i2 l2 =>
          if Nat.eqb i1 i2 then
            match unify2 r1 r2 u with Some u' => ul l1 l2 u' | None => None end
          else None
      | _ => None
      end
  | IntInt l1 => match b with IntInt l2 => ul l1 l2 u | _ => None end
  | ExtInt l1 => match b with ExtInt l2 => ul l1 l2 u | _ => None end
  | Par l1 => match b with Par l2 => ul l1 l2 u | _ => None end
  | Neg x => match b with Neg y => unify2 x y u | _ => None end
  end.

(** NarUnify.rs 236-242 *)
Definition unify (a b : term) : option (list asgn) := unify2 a b [].

(** NarUnify.rs 248-256: first matching assignment, else the variable itself. *)
Fixpoint lookupVar (t : term) (s : list asgn) : term :=
  match s with
  | [] => t
  | (v, w) :: s' => if checkEqTerm t v then w else lookupVar t s'
  end.

(** NarUnify.rs 246-347. Substituted values are not substituted again. *)
Fixpoint unifySubst (t : term) (s : list asgn) : term :=
  match t with
  | QVar _ | DepVar _ | IndepVar _ => lookupVar t s
  | Stmt c x y => Stmt c (unifySubst x s) (unifySubst y s)
  | Name n => Name n
  | Seq l => Seq (map (fun x => unifySubst x s) l)
  | SetInt l => SetInt (map (fun x => unifySubst x s) l)
  | SetExt l => SetExt (map (fun x => unifySubst x s) l)
  | Conj l => Conj (map (fun x => unifySubst x s) l)
  | Prod l => Prod (map (fun x => unifySubst x s) l)
  | Img r i l => Img (unifySubst r s) i (map (fun x => unifySubst x s) l)
  | IntInt l => IntInt (map (fun x => unifySubst x s) l)
  | ExtInt l => ExtInt (map (fun x => unifySubst x s) l)
  | Par l => Par (map (fun x => unifySubst x s) l)
  | Neg x => Neg (unifySubst x s)
  end.
