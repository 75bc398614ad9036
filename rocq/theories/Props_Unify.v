(** Final statements for unification: C04 - C07. *)
From Coq Require Import String ZArith Bool List.
From Verif Require Import Base Term_Model Term_Spec Unify_Model Unify_Spec Unify_Proofs.
Import ListNotations.

(** C04. *)
Theorem c04_unify_sound : forall a b u, unify a b = Some u -> unifySubst a u = b.
Proof. exact unify_sound. Qed.

Definition ex_pat : term := Stmt INH (Prod [QVar "x"; IndepVar "y"]) (Img (QVar "x") 1 [Name "k"]).
Definition ex_ins : term := Stmt INH (Prod [Name "a"; Stmt SIM (Name "b") (QVar "x")]) (Img (Name "a") 1 [Name "k"]).
Example c04_ex : unify ex_pat ex_ins = Some [(QVar "x", Name "a"); (IndepVar "y", Stmt SIM (Name "b") (QVar "x"))].
Proof. reflexivity. Qed.

(** C05. *)
Theorem c05_unify_complete : forall a b, (exists u, unify a b = Some u) <-> instanceOf b a.
Proof. exact unify_iff. Qed.

Example c05_ex_no : unify (Prod [QVar "x"; QVar "x"]) (Prod [Name "a"; Name "b"]) = None.
Proof. reflexivity. Qed.
Example c05_ex_yes : instanceOf ex_ins ex_pat.
Proof. apply c05_unify_complete. eexists. reflexivity. Qed.

(** C06. *)
Theorem c06_unifier_domain : forall a b u, unify a b = Some u ->
  NoDup (map fst u) /\
  (forall v, In v (map fst u) <-> isVar v /\ occurs v a) /\
  (forall v w, In (v, w) u -> ~ isVar w).
Proof. exact unify_dom. Qed.

Theorem c06_ground : forall a b, ground a ->
  (a = b -> unify a b = Some []) /\ (a <> b -> unify a b = None).
Proof.
  intros a b Hg. rewrite (ground_unify a b Hg). split; intros E.
  - subst. now rewrite Term_Proofs.checkEqTerm_refl.
  - apply Term_Proofs.checkEqTerm_neq in E. now rewrite E.
Qed.

Example c06_ex : ground (Prod [Name "a"; Name "b"]).
Proof.
  intros x Hx. apply Term_Proofs.retSubterms_iff in Hx. simpl in Hx.
  repeat (destruct Hx as [<-|Hx]; [simpl; tauto|]). destruct Hx.
Qed.

(** C07. Substitution is instantiation: every variable is replaced by the
    value of its earliest binding and everything else is kept. *)
Theorem c07_subst_is_inst : forall s t,
  exists sg, unifySubst t s = inst sg t /\
    (forall v w, binds s v w -> sg v = w) /\ (forall v, ~ In v (map fst s) -> sg v = v).
Proof.
  intros s t. exists (fun v => lookupVar v s). split; [apply subst_inst|]. split.
  - intros v w. apply binds_lookup.
  - intros v Hn. destruct (lookup_binds s v) as [(w & (u1 & u2 & -> & _) & _)|[_ H]]; auto.
    exfalso. apply Hn. rewrite map_app, in_app_iff. simpl. auto.
Qed.

Theorem c07_subst_ground : forall t s, ground t -> unifySubst t s = t.
Proof. intros t s H. rewrite subst_inst. now apply ground_inst. Qed.

Theorem c07_subst_empty : forall t, unifySubst t [] = t.
Proof.
  intros t. rewrite subst_inst. induction t using Term_Proofs.term_ind2; simpl; try reflexivity; try congruence;
  f_equal; auto; transitivity (map (fun x : term => x) l); try apply map_id; now apply map_ext_Forall.
Qed.

Theorem c07_subst_removes_bound : forall t s, (forall v w, In (v, w) s -> ground w) ->
  forall x, isVar x -> occurs x (unifySubst t s) -> occurs x t /\ ~ In x (map fst s).
Proof. exact subst_removes. Qed.

(** the earliest binding wins and values are not rewritten again *)
Example c07_ex : unifySubst ex_pat [(QVar "x", Prod [QVar "x"]); (QVar "x", Name "z")]
  = Stmt INH (Prod [Prod [QVar "x"]; IndepVar "y"]) (Img (Prod [QVar "x"]) 1 [Name "k"]).
Proof. reflexivity. Qed.

Print Assumptions c04_unify_sound.
Print Assumptions c05_unify_complete.
Print Assumptions c06_unifier_domain.
Print Assumptions c06_ground.
Print Assumptions c07_subst_is_inst.
Print Assumptions c07_subst_ground.
Print Assumptions c07_subst_empty.
Print Assumptions c07_subst_removes_bound.
