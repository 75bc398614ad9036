(** Independent specification vocabulary for terms. *)
From Coq Require Import String ZArith List Relations.
From Verif Require Import Term_Model.
Import ListNotations.

(** [component x t]: x is an immediate part of t. *)
Inductive component : term -> term -> Prop :=
| comp_subj : forall c s p, component s (Stmt c s p)
| comp_pred : forall c s p, component p (Stmt c s p)
| comp_seq : forall x l, In x l -> component x (Seq l)
| comp_setint : forall x l, In x l -> component x (SetInt l)
| comp_setext : forall x l, In x l -> component x (SetExt l)
| comp_conj : forall x l, In x l -> component x (Conj l)
| comp_prod : forall x l, In x l -> component x (Prod l)
| comp_img : forall x r i l, In x l -> component x (Img r i l)
| comp_imgrel : forall r i l, component r (Img r i l)
| comp_intint : forall x l, In x l -> component x (IntInt l)
| comp_extint : forall x l, In x l -> component x (ExtInt l)
| comp_par : forall x l, In x l -> component x (Par l)
| comp_neg : forall x, component x (Neg x).

(** x occurs in t at some depth (possibly x = t). *)
Definition occurs (x t : term) : Prop := clos_refl_trans term component x t.

(** a term is a variable *)
Definition isVar (t : term) : Prop :=
  match t with QVar _ | DepVar _ | IndepVar _ => True | _ => False end.

(** a term is an atom (a name or a variable) *)
Definition isAtom (t : term) : Prop :=
  match t with QVar _ | DepVar _ | IndepVar _ | Name _ => True | _ => False end.

(** no empty compound occurs anywhere *)
Definition emptyCompound (t : term) : Prop :=
  match t with
  | Seq [] | SetInt [] | SetExt [] | Conj [] | Prod []
  | IntInt [] | ExtInt [] | Par [] => True
  | _ => False
  end.
Definition wellFormed (t : term) : Prop := forall x, occurs x t -> ~ emptyCompound x.

(** variable-free term *)
Definition ground (t : term) : Prop := forall x, occurs x t -> ~ isVar x.

(** number of atom occurrences *)
Fixpoint atoms (t : term) : Z :=
  let suml := fix suml (l : list term) : Z :=
     match l with [] => 0%Z | x :: l' => (atoms x + suml l')%Z end in
  match t with
  | Stmt _ s p => (atoms s + atoms p)%Z
  | Name _ | QVar _ | DepVar _ | IndepVar _ => 1%Z
  | Seq l | SetInt l | SetExt l | Conj l | Prod l
  | IntInt l | ExtInt l | Par l => suml l
  | Img r _ l => (atoms r + suml l)%Z
  | Neg x => atoms x
  end.

(** number of statements and negations *)
Fixpoint connectives (t : term) : Z :=
  let suml := fix suml (l : list term) : Z :=
     match l with [] => 0%Z | x :: l' => (connectives x + suml l')%Z end in
  match t with
  | Stmt _ s p => (1 + connectives s + connectives p)%Z
  | Name _ | QVar _ | DepVar _ | IndepVar _ => 0%Z
  | Seq l | SetInt l | SetExt l | Conj l | Prod l
  | IntInt l | ExtInt l | Par l => suml l
  | Img r _ l => (connectives r + suml l)%Z
  | Neg x => (1 + connectives x)%Z
  end.

(** x is an immediate part of t other than the relation of an image *)
Definition vcomponent (x t : term) : Prop := component x t /\ forall r i l, t = Img r i l -> In x l.
Definition voccurs (x t : term) : Prop := clos_refl_trans term vcomponent x t.
