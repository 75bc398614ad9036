(** Independent statement of the inference rules as schemas. A schema relates
    two premises (punctuation and term) to a conclusion term and says how its
    truth value is obtained; nothing here refers to the rule functions. *)
From Coq Require Import ZArith List.
From Verif Require Import F64_Model Term_Model Term_Spec Unify_Spec Tv_Model Sentence_Model.
Import ListNotations.

(** [sg] instantiates exactly the variables of [pat], by non-variables, and
    turns [pat] into [t]. *)
Definition matchBy (sg : term -> term) (pat t : term) : Prop :=
  (forall v, isVar v -> occurs v pat -> ~ isVar (sg v)) /\
  (forall v, isVar v -> ~ occurs v pat -> sg v = v) /\
  inst sg pat = t.

Inductive truth :=
| TBoth (f : tv -> tv -> tv) (* computed from both truth values, in order *)
| TSecond.                   (* that of the second premise *)

Definition truthVal (tr : truth) (x y : option tv) : option tv :=
  match tr with
  | TBoth f => match x, y with Some x, Some y => Some (f x y) | _, _ => None end
  | TSecond => y
  end.

Definition inhOrSim (c : copula) : Prop := c = INH \/ c = SIM.

(** Binary schemas, premises in this order. *)
Inductive schema : punct -> term -> punct -> term -> term -> truth -> Prop :=
| sc_union : forall s l1 l2, (* S-->[a] , S-->[b] |- S-->[a b] *)
    schema JUGEMENT (Stmt INH s (SetInt l1)) JUGEMENT (Stmt INH s (SetInt l2))
           (Stmt INH s (SetInt (l1 ++ l2))) (TBoth int)
| sc_conj1 : forall l1 c l2 p sg b x, (* (c && x) ==> p , c' |- x' ==> p' *)
    length l1 <= 3 -> matchBy sg c b -> l1 ++ l2 = [x] ->
    schema JUGEMENT (Stmt IMPL (Conj (l1 ++ c :: l2)) p) JUGEMENT b
           (Stmt IMPL (inst sg x) (inst sg p)) (TBoth ded)
| sc_conjn : forall l1 c l2 p sg b, (* one of the first four conjuncts is detached *)
    length l1 <= 3 -> matchBy sg c b -> length (l1 ++ l2) <> 1 ->
    schema JUGEMENT (Stmt IMPL (Conj (l1 ++ c :: l2)) p) JUGEMENT b
           (Stmt IMPL (Conj (map (inst sg) (l1 ++ l2))) (inst sg p)) (TBoth ded)
| sc_detach : forall s p sg b, (* s ==> p , s' |- p' *)
    matchBy sg s b ->
    schema JUGEMENT (Stmt IMPL s p) JUGEMENT b (inst sg p) (TBoth ded)
| sc_question : forall s p sg b, (* s ==> p ? , p' |- s' ==> p' *)
    matchBy sg p b ->
    schema QUESTION (Stmt IMPL s p) JUGEMENT b (Stmt IMPL (inst sg s) (inst sg p)) TSecond
| sc_extint : forall s p q, p <> q -> (* s-->p , s-->q |- s-->(p & q) *)
    schema JUGEMENT (Stmt INH s p) JUGEMENT (Stmt INH s q) (Stmt INH s (ExtInt [p; q])) (TBoth int)
| sc_cmpPred : forall c1 c2 s p q, inhOrSim c1 -> inhOrSim c2 -> p <> q ->
    schema JUGEMENT (Stmt c1 s p) JUGEMENT (Stmt c2 s q) (Stmt SIM p q) (TBoth comp)
| sc_cmpSubj : forall c1 c2 s r p, inhOrSim c1 -> inhOrSim c2 -> s <> r ->
    schema JUGEMENT (Stmt c1 s p) JUGEMENT (Stmt c2 r p) (Stmt SIM s r) (TBoth comp)
| sc_trans : forall c a b d, c = PREDIMPL \/ c = IMPL \/ c = INH -> a <> d ->
    schema JUGEMENT (Stmt c a b) JUGEMENT (Stmt c b d) (Stmt c a d) (TBoth ded)
| sc_abd : forall a b m, a <> b -> (* a-->m , b-->m |- a-->b *)
    schema JUGEMENT (Stmt INH a m) JUGEMENT (Stmt INH b m) (Stmt INH a b) (TBoth abd)
| sc_ind : forall a b m, a <> b -> (* m-->a , m-->b |- a-->b *)
    schema JUGEMENT (Stmt INH m a) JUGEMENT (Stmt INH m b) (Stmt INH a b) (TBoth ind).

(** Structural schemas: punctuation and premise, conclusion, whether the truth
    value is mirrored, attention bias in tenths. *)
Inductive struct : punct -> term -> term -> bool -> positive -> Prop :=
| st_neg : forall x, struct JUGEMENT (Neg x) x true 5
| st_subj : forall l1 x l2 p, length l1 <= 2 ->
    struct JUGEMENT (Stmt INH (IntInt (l1 ++ x :: l2)) p) (Stmt INH x p) false 9
| st_pred : forall l1 x l2 s, length l1 <= 2 ->
    struct JUGEMENT (Stmt INH s (IntInt (l1 ++ x :: l2))) (Stmt INH s x) false 10
| st_prod0 : forall x y l r,
    struct JUGEMENT (Stmt INH (Prod (x :: y :: l)) r) (Stmt INH x (Img r 0 [y])) false 8
| st_prod1 : forall x y r,
    struct JUGEMENT (Stmt INH (Prod [x; y]) r) (Stmt INH y (Img r 1 [x])) false 8
| st_img0 : forall p x y r, p = JUGEMENT \/ p = QUESTION ->
    struct p (Stmt INH x (Img r 0 [y])) (Stmt INH (Prod [x; y]) r) false 9
| st_img1 : forall p x y r, p = JUGEMENT \/ p = QUESTION ->
    struct p (Stmt INH y (Img r 1 [x])) (Stmt INH (Prod [x; y]) r) false 9
| st_setInt : forall x y, struct JUGEMENT (Stmt SIM (SetInt [x]) (SetInt [y])) (Stmt SIM x y) false 10
| st_setExt : forall x y, struct JUGEMENT (Stmt SIM (SetExt [x]) (SetExt [y])) (Stmt SIM x y) false 10
| st_par : forall s l x, In x l -> struct JUGEMENT (Stmt PREDIMPL s (Par l)) (Stmt PREDIMPL s x) false 9.

(** A product statement too short for the product rule. *)
Definition shortProd (p : punct) (a : term) : Prop :=
  p = JUGEMENT /\ exists l r, a = Stmt INH (Prod l) r /\ length l < 2.
