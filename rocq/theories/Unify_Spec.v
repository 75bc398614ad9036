(** Independent specification of matching: simultaneous replacement of the
    variables of a term by a function. *)
From Coq Require Import List.
From Verif Require Import Term_Model Term_Spec.
Import ListNotations.

Fixpoint inst (sg : term -> term) (t : term) : term :=
  match t with
  | QVar _ | DepVar _ | IndepVar _ => sg t
  | Name n => Name n
  | Stmt c x y => Stmt c (inst sg x) (inst sg y)
  | Seq l => Seq (map (inst sg) l)
  | SetInt l => SetInt (map (inst sg) l)
  | SetExt l => SetExt (map (inst sg) l)
  | Conj l => Conj (map (inst sg) l)
  | Prod l => Prod (map (inst sg) l)
  | Img r i l => Img (inst sg r) i (map (inst sg) l)
  | IntInt l => IntInt (map (inst sg) l)
  | ExtInt l => ExtInt (map (inst sg) l)
  | Par l => Par (map (inst sg) l)
  | Neg x => Neg (inst sg x)
  end.

(** b is an instance of the pattern a: the variables of a are replaced
    consistently, each by a term that is not itself a variable. *)
Definition instanceOf (b a : term) : Prop :=
  exists sg, (forall v, isVar v -> occurs v a -> ~ isVar (sg v)) /\ inst sg a = b.

(** the value a list of bindings gives to a variable: the earliest binding *)
Definition binds (u : list (term * term)) (v w : term) : Prop :=
  exists u1 u2, u = u1 ++ (v, w) :: u2 /\ ~ In v (map fst u1).
