(** Final statements for terms: C01, C02, C03, C08, C50. *)
From Coq Require Import String ZArith Bool List Relations Lia.
From Verif Require Import Base Term_Model Term_Spec Term_Proofs.
Import ListNotations.
Local Open Scope Z_scope.

(** C01. checkEqTerm decides identity of terms. *)
Theorem c01_term_equality : forall a b : term, checkEqTerm a b = true <-> a = b.
Proof. exact checkEqTerm_eq. Qed.

Definition ex_rel : term := Stmt INH (Prod [Name "a"; Name "b"]) (Name "r").
Definition ex_img : term := Stmt INH (Name "a") (Img (Name "r") 0 [Name "b"]).
Example c01_ex_same : checkEqTerm ex_rel (Stmt INH (Prod [Name "a"; Name "b"]) (Name "r")) = true.
Proof. reflexivity. Qed.
Example c01_ex_diff : checkEqTerm ex_img (Stmt INH (Name "a") (Img (Name "r") 1 [Name "b"])) = false.
Proof. reflexivity. Qed.

(** C02. The subterm listings contain exactly the terms that occur in t. *)
Theorem c02_subterms_exact : forall t x, In x (retSubterms t) <-> occurs x t.
Proof. exact retSubterms_iff. Qed.

Theorem c02_subterms_first : forall t, exists rest, retSubterms t = t :: rest.
Proof. exact retSubterms_head. Qed.

Theorem c02_unique_exact : forall t x, In x (retUniqueSubterms t) <-> occurs x t.
Proof. exact retUniqueSubterms_in. Qed.

Theorem c02_unique_nodup : forall t, NoDup (retUniqueSubterms t).
Proof. exact retUniqueSubterms_nodup. Qed.

Example c02_ex : occurs (Name "r") ex_img /\
  retUniqueSubterms (Stmt INH (Name "a") (Name "a")) = [Stmt INH (Name "a") (Name "a"); Name "a"].
Proof. split; [apply c02_subterms_exact; simpl; auto 10|reflexivity]. Qed.

(** C03. Complexity: exact value, monotone, positive on well-formed terms. *)
Theorem c03_complexity_exact : forall t, calcComplexity t = atoms t + connectives t.
Proof. exact complexity_split. Qed.

Theorem c03_complexity_monotone : forall x t, occurs x t -> calcComplexity x <= calcComplexity t.
Proof. exact occurs_complexity. Qed.

Theorem c03_complexity_positive : forall t, wellFormed t -> 1 <= calcComplexity t.
Proof. exact complexity_pos. Qed.

(** Without well-formedness the claim is false: a compound can be free. *)
Theorem c03_complexity_positive_all_refuted : exists t, calcComplexity t = 0.
Proof. exists (Seq []). reflexivity. Qed.

Example c03_ex : wellFormed ex_img /\ calcComplexity ex_img = 4.
Proof.
  split; [|reflexivity]. intros x Hx. apply c02_subterms_exact in Hx.
  simpl in Hx. repeat (destruct Hx as [<-|Hx]; [simpl; tauto|]). destruct Hx.
Qed.

(** C08. Operator terms round trip, and only operator terms decode. *)
Theorem c08_decode_encode : forall args name, args <> [] -> decodeOp (encodeOp args name) = Some (args, name).
Proof. exact decode_encode. Qed.

Theorem c08_decode_only_ops : forall t args name,
  decodeOp t = Some (args, name) ->
  t = Stmt INH (SetExt [Prod args]) (Name name) /\ args <> [].
Proof.
  intros t args name H. apply decode_inv in H. destruct H as [-> H].
  split; [|assumption]. unfold encodeOp. now rewrite map_clone_id.
Qed.

Example c08_ex : decodeOp (encodeOp [SetExt [Name "SELF"]; Name "x"] "^go") = Some ([SetExt [Name "SELF"]; Name "x"], "^go"%string).
Proof. reflexivity. Qed.

(** C50. The hand written Clone is the identity. *)
Theorem c50_clone_identity : forall t, term_clone t = t.
Proof. exact term_clone_id. Qed.
Example c50_ex : term_clone ex_img = ex_img.
Proof. reflexivity. Qed.

(** C53. Counting occurrences. *)
Theorem c53_count_positive : forall s t, (0 < count_occurence_subterms t s)%Z <-> voccurs s t.
Proof. exact count_pos_iff. Qed.
Theorem c53_count_nonneg : forall s t, (0 <= count_occurence_subterms t s)%Z.
Proof. exact count_nonneg. Qed.
Theorem c53_count_self : forall t, count_occurence_subterms t t = 1%Z.
Proof. exact count_self. Qed.
Theorem c53_count_stmt : forall c s p x, Stmt c s p <> x ->
  count_occurence_subterms (Stmt c s p) x = (count_occurence_subterms s x + count_occurence_subterms p x)%Z.
Proof. intros c s p x H. apply checkEqTerm_neq in H. simpl. unfold checkEqTerm in *. now rewrite H. Qed.
Theorem c53_count_two : forall s l1 x l2 y l3, Prod (l1 ++ x :: l2 ++ y :: l3) <> s -> voccurs s x -> voccurs s y ->
  (2 <= count_occurence_subterms (Prod (l1 ++ x :: l2 ++ y :: l3)) s)%Z.
Proof. intros s l1 x l2 y l3 N. exact (count_two s _ l1 x l2 y l3 N eq_refl). Qed.
Example c53_ex : count_occurence_subterms (Stmt INH (Prod [Name "a"; Img (Name "a") 0 [Name "a"]]) (Name "a")) (Name "a") = 3%Z.
Proof. reflexivity. Qed.

Print Assumptions c01_term_equality.
Print Assumptions c02_subterms_exact.
Print Assumptions c02_subterms_first.
Print Assumptions c02_unique_exact.
Print Assumptions c02_unique_nodup.
Print Assumptions c03_complexity_exact.
Print Assumptions c03_complexity_monotone.
Print Assumptions c03_complexity_positive.
Print Assumptions c03_complexity_positive_all_refuted.
Print Assumptions c08_decode_encode.
Print Assumptions c08_decode_only_ops.
Print Assumptions c50_clone_identity.
Print Assumptions c53_count_positive.
Print Assumptions c53_count_two.
