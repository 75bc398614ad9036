(** Properties C15-C19: the inference rules. *)
From Coq Require Import String ZArith Bool Lia List Permutation.
From Verif Require Import Base F64_Model Term_Model Term_Spec Term_Proofs Unify_Model Unify_Spec Unify_Proofs
  Stamp_Model Stamp_Proofs Tv_Model Tv_Spec Tv_Proofs Sentence_Model Sentence_Proofs Infer_Model Infer_Spec Infer_Proofs Infer2_Proofs.
Import ListNotations.
Local Open Scope string_scope.

(** Concrete data for the examples. *)
Definition nm (s : string) : term := Name s.
Definition inh (x y : string) : term := Stmt INH (nm x) (nm y).
Definition t9 : tv := mkTv (f_frac 9 10) (f_frac 9 10).
Definition t5 : tv := mkTv (f_frac 1 2) (f_frac 7 10).
Definition jdg (t : term) (st : stamp) (v : tv) (u : nat) : sentence := newEternalSentenceByTv t JUGEMENT v st u.

(** C15. No conclusion from overlapping evidence; shape of the others. *)
Theorem c15_no_overlap : forall pa pb u cs ap, inference pa pb u = Ok (cs, ap) ->
  (exists e, In e (s_stamp pa) /\ In e (s_stamp pb)) -> cs = [].
Proof. exact inference_overlap. Qed.
Theorem c15_shape : forall pa pb u cs ap, inference pa pb u = Ok (cs, ap) ->
  ~ (exists e, In e (s_stamp pa) /\ In e (s_stamp pb)) ->
  exists l, infBinary (s_term pa) (s_punct pa) (retTv pa) (s_term pb) (s_punct pb) (retTv pb) = Ok (l, ap) /\
  map (fun c => (s_term (fst c), retTv (fst c))) cs = map (fun c => (fst (fst c), Some (snd (fst c)))) l /\
  Forall (fun c => s_punct (fst c) = JUGEMENT /\ s_t (fst c) = None /\ s_expDt (fst c) = None /\
     s_stamp (fst c) = merge (s_stamp pa) (s_stamp pb) /\ snd c = f1 /\ (u <= s_usage (fst c) < u + length cs)%nat) cs /\
  NoDup (map (fun c => s_usage (fst c)) cs).
Proof. exact inference_shape. Qed.
Theorem c15_range : forall a pA ta b pB tb l g, infBinary a pA ta b pB tb = Ok (l, g) ->
  inRangeOpt ta -> inRangeOpt tb -> forall t v p, In (t, v, p) l -> tvInRange v.
Proof. exact binary_range. Qed.
Example c15_ex1 : exists cs, inference (jdg (inh "a" "b") [1%Z] t9 0) (jdg (inh "b" "c") [2%Z] t9 1) 2 = Ok (cs, true) /\
  map (fun c => (s_term (fst c), s_stamp (fst c))) cs = [(inh "a" "c", [1%Z; 2%Z])].
Proof. eexists. split; vm_compute; reflexivity. Qed.
Example c15_ex2 : inference (jdg (inh "a" "b") [1%Z] t9 0) (jdg (inh "b" "c") [2%Z; 1%Z] t9 1) 2 = Ok ([], true).
Proof. vm_compute. reflexivity. Qed.

(** C16. The conclusions are exactly those of the schemas, in one of the two
    premise orders; the flag says whether a rule fired. (The truth function is
    applied to the truth values in the original order: see C17.) *)
Theorem c16_binary_iff : forall a pA ta b pB tb l g, infBinary a pA ta b pB tb = Ok (l, g) ->
  (forall t v p, In (t, v, p) l <-> p = JUGEMENT /\ exists tr,
     (schema pA a pB b t tr \/ schema pB b pA a t tr) /\ truthVal tr ta tb = Some v) /\
  (g = true <-> l <> []).
Proof. exact binary_iff. Qed.
(** The schemas detach one of the first four conjuncts only: a fifth one is
    never detached. *)
Definition conj5 : term := Stmt IMPL (Conj [inh "a" "k"; inh "b" "k"; inh "c" "k"; inh "d" "k"; inh "e" "k"]) (inh "x" "y").
Theorem c16_fifth_conjunct_refuted : exists a b x y arr p,
  a = Stmt IMPL (Conj arr) p /\ In b arr /\
  infBinary a JUGEMENT (Some x) b JUGEMENT (Some y) = Ok ([], false).
Proof. exists conj5, (inh "e" "k"), t9, t9. eexists _, _. split; [reflexivity|]. split; [simpl; tauto|]. vm_compute. reflexivity. Qed.
Example c16_ex1 : exists l, infBinary conj5 JUGEMENT (Some t9) (inh "d" "k") JUGEMENT (Some t9) = Ok (l, true) /\
  map termOf l = [Stmt IMPL (Conj [inh "a" "k"; inh "b" "k"; inh "c" "k"; inh "e" "k"]) (inh "x" "y")].
Proof. eexists. split; vm_compute; reflexivity. Qed.
Example c16_ex2 : schema JUGEMENT (Stmt IMPL (Stmt INH (IndepVar "1") (nm "bird")) (Stmt INH (IndepVar "1") (nm "animal")))
    JUGEMENT (inh "robin" "bird") (inh "robin" "animal") (TBoth ded).
Proof.
  set (sg := fun t : term => if checkEqTerm t (IndepVar "1") then nm "robin" else t).
  change (inh "robin" "animal") with (inst sg (Stmt INH (IndepVar "1") (nm "animal"))). apply sc_detach.
  split; [|split; [|reflexivity]].
  - intros v Hv Ho. apply retSubterms_iff in Ho. cbn in Ho. destruct Ho as [<-|[<-|[<-|[]]]]; cbn in *; tauto.
  - intros v Hv Hn. unfold sg. destruct (checkEqTerm v (IndepVar "1")) eqn:E; [|reflexivity].
    apply checkEqTerm_eq in E. subst v. destruct Hn. apply retSubterms_iff. cbn. auto.
Qed.

(** C17. Premise order: the derived statements never depend on it; the truth
    values do not either unless both premises are inheritance/similarity
    statements, where they do. *)
Theorem c17_order_terms : forall a pA ta b pB tb l g l' g',
  infBinary a pA ta b pB tb = Ok (l, g) -> infBinary b pB tb a pA ta = Ok (l', g') ->
  Permutation (map termOf l) (map termOf l').
Proof. exact order_terms. Qed.
Theorem c17_order_truth : forall a b (x y : tv) l g l' g', ~ (lowOrder a /\ lowOrder b) ->
  infBinary a JUGEMENT (Some x) b JUGEMENT (Some y) = Ok (l, g) ->
  infBinary b JUGEMENT (Some y) a JUGEMENT (Some x) = Ok (l', g') -> Permutation l l'.
Proof. exact order_higher. Qed.
(** In general the terms and their truth functions are the same, and each function gets the
    truth values in the order of the call. *)
Theorem c17_swap : forall a b, exists L L', Permutation L L' /\
  (forall t f, In (t, f) L -> schema JUGEMENT a JUGEMENT b t (TBoth f) \/ schema JUGEMENT b JUGEMENT a t (TBoth f)) /\
  forall x y, exists g g',
    infBinary a JUGEMENT (Some x) b JUGEMENT (Some y) = Ok (map (fun c => (fst c, snd c x y, JUGEMENT)) L, g) /\
    infBinary b JUGEMENT (Some y) a JUGEMENT (Some x) = Ok (map (fun c => (fst c, snd c y x, JUGEMENT)) L', g').
Proof.
  intros a b. destruct (order_values a b) as (L & L' & P & S & H). exists L, L'. split; [exact P|]. split; [exact S|].
  intros x y. destruct (H x y) as (g & _ & E & _). destruct (H y x) as (_ & g' & _ & E'). exists g, g'. split; assumption.
Qed.
Theorem c17_order_refuted : exists a b (x y : tv) l g l' g' c,
  infBinary a JUGEMENT (Some x) b JUGEMENT (Some y) = Ok (l, g) /\
  infBinary b JUGEMENT (Some y) a JUGEMENT (Some x) = Ok (l', g') /\ In c l /\ ~ In c l'.
Proof.
  exists (inh "a" "m"), (inh "b" "m"), t9, t5. do 4 eexists. exists (inh "a" "b", abd t9 t5, JUGEMENT).
  split; [vm_compute; reflexivity|]. split; [vm_compute; reflexivity|]. split.
  - vm_compute. tauto.
  - vm_compute. intuition discriminate.
Qed.
(** The value derived in the swapped order is not the one the rule prescribes:
    b-->a from a-->m (x), b-->m (y) should get [abd y x]. *)
Theorem c17_swapped_truth_refuted : exists a b (x y : tv) l g t,
  infBinary a JUGEMENT (Some x) b JUGEMENT (Some y) = Ok (l, g) /\
  schema JUGEMENT b JUGEMENT a t (TBoth abd) /\
  In (t, abd x y, JUGEMENT) l /\ ~ In (t, abd y x, JUGEMENT) l.
Proof.
  exists (inh "a" "m"), (inh "b" "m"), t9, t5. do 2 eexists. exists (inh "b" "a").
  split; [vm_compute; reflexivity|]. split; [constructor; discriminate|]. split.
  - vm_compute. tauto.
  - vm_compute. intuition discriminate.
Qed.
Example c17_ex : ~ (lowOrder (Stmt IMPL (inh "a" "b") (inh "c" "d")) /\ lowOrder (inh "a" "b")) /\
  exists l, infBinary (Stmt IMPL (inh "a" "b") (inh "c" "d")) JUGEMENT (Some t9) (inh "a" "b") JUGEMENT (Some t5) = Ok (l, true).
Proof. split; [intros [(c & s & p & [= <- _ _] & [K|K]) _]; discriminate|]. eexists. vm_compute. reflexivity. Qed.

(** C18. Structural rules. *)
Theorem c18_struct_iff : forall a p ta l, infSinglePremise a p ta = Ok l ->
  forall t v q b, In (t, v, q, b) l <-> q = JUGEMENT /\ exists mir bias w,
    struct p a t mir bias /\ ta = Some w /\ v = stTruth mir w /\ b = f_frac bias 10.
Proof. exact single_iff. Qed.
Theorem c18_sentences : forall pa u cs, infSinglePremise2 pa u = Ok cs ->
  exists l, infSinglePremise (s_term pa) (s_punct pa) (retTv pa) = Ok l /\
  map (fun c => (s_term (fst c), retTv (fst c), snd c)) cs = map (fun c => (fst (fst (fst c)), Some (snd (fst (fst c))), snd c)) l /\
  Forall (fun c => s_punct (fst c) = JUGEMENT /\ s_t (fst c) = None /\ s_expDt (fst c) = None /\ s_stamp (fst c) = s_stamp pa) cs.
Proof. exact single2_shape. Qed.
(** Product/image transformation is undone by the opposite transformation. *)
Theorem c18_product_image : forall x y r v l, infSinglePremise (Stmt INH (Prod [x; y]) r) JUGEMENT (Some v) = Ok l ->
  exists i0 i1 b, In (i0, v, JUGEMENT, b) l /\ In (i1, v, JUGEMENT, b) l /\ i0 <> i1 /\
  (forall l', infSinglePremise i0 JUGEMENT (Some v) = Ok l' -> In (Stmt INH (Prod [x; y]) r, v, JUGEMENT, f_frac 9 10) l') /\
  (forall l', infSinglePremise i1 JUGEMENT (Some v) = Ok l' -> In (Stmt INH (Prod [x; y]) r, v, JUGEMENT, f_frac 9 10) l').
Proof.
  intros x y r v l H. exists (Stmt INH x (Img r 0 [y])), (Stmt INH y (Img r 1 [x])), (f_frac 8 10).
  split; [|split; [|split; [|split]]].
  - apply (single_iff _ _ _ _ H). split; auto. exists false, 8%positive, v. repeat split; auto. constructor.
  - apply (single_iff _ _ _ _ H). split; auto. exists false, 8%positive, v. repeat split; auto. constructor.
  - discriminate.
  - intros l' H'. apply (single_iff _ _ _ _ H'). split; auto. exists false, 9%positive, v. repeat split; auto. constructor. auto.
  - intros l' H'. apply (single_iff _ _ _ _ H'). split; auto. exists false, 9%positive, v. repeat split; auto. constructor. auto.
Qed.
Theorem c18_image_product : forall x y r i v l, i < 2 ->
  infSinglePremise (Stmt INH x (Img r i [y])) JUGEMENT (Some v) = Ok l ->
  exists t b, In (t, v, JUGEMENT, b) l /\
  forall l', infSinglePremise t JUGEMENT (Some v) = Ok l' -> In (Stmt INH x (Img r i [y]), v, JUGEMENT, f_frac 8 10) l'.
Proof.
  intros x y r i v l Hi H. destruct i as [|[|i]]; [| |lia].
  - exists (Stmt INH (Prod [x; y]) r), (f_frac 9 10). split.
    + apply (single_iff _ _ _ _ H). split; auto. exists false, 9%positive, v. repeat split; auto. constructor. auto.
    + intros l' H'. apply (single_iff _ _ _ _ H'). split; auto. exists false, 8%positive, v. repeat split; auto. constructor.
  - exists (Stmt INH (Prod [y; x]) r), (f_frac 9 10). split.
    + apply (single_iff _ _ _ _ H). split; auto. exists false, 9%positive, v. repeat split; auto. constructor. auto.
    + intros l' H'. apply (single_iff _ _ _ _ H'). split; auto. exists false, 8%positive, v. repeat split; auto. constructor.
Qed.
Theorem c18_range : forall a p ta l, infSinglePremise a p ta = Ok l -> inRangeOpt ta ->
  forall t v q b, In (t, v, q, b) l -> tvInRange v.
Proof. exact single_range. Qed.
(** The product rule drops the third component: a ternary relation yields the
    binary one. *)
Theorem c18_ternary_refuted : exists x y z r v l l' b b' t, infSinglePremise (Stmt INH (Prod [x; y; z]) r) JUGEMENT (Some v) = Ok l /\
  In (t, v, JUGEMENT, b) l /\ infSinglePremise t JUGEMENT (Some v) = Ok l' /\ In (Stmt INH (Prod [x; y]) r, v, JUGEMENT, b') l'.
Proof.
  exists (nm "x"), (nm "y"), (nm "z"), (nm "r"), t9. do 4 eexists. exists (Stmt INH (nm "x") (Img (nm "r") 0 [nm "y"])).
  split; [vm_compute; reflexivity|]. split; [left; reflexivity|]. split; [vm_compute; reflexivity|]. left. reflexivity.
Qed.
Example c18_ex1 : exists l, infSinglePremise (Stmt INH (Prod [nm "a"; nm "b"]) (nm "r")) JUGEMENT (Some t9) = Ok l /\ length l = 2.
Proof. eexists. split; vm_compute; reflexivity. Qed.
Example c18_ex2 : infSinglePremise (Neg (inh "a" "b")) JUGEMENT (Some t9) = Ok [(inh "a" "b", neg t9, JUGEMENT, f05)].
Proof. vm_compute. reflexivity. Qed.

(** C19. Panics. *)
Theorem c19_binary_total : forall a b pA pB (x y : tv), exists l g, infBinary a pA (Some x) b pB (Some y) = Ok (l, g).
Proof. exact binary_total. Qed.
Theorem c19_binary_panic_iff : forall a pA ta b pB tb, infBinary a pA ta b pB tb = Panic <->
  exists t tr, (schema pA a pB b t tr \/ schema pB b pA a t tr) /\ truthVal tr ta tb = None.
Proof. exact binary_panic. Qed.
Theorem c19_single_panic_iff : forall a p ta, infSinglePremise a p ta = Panic <->
  shortProd p a \/ (ta = None /\ exists t mir bias, struct p a t mir bias).
Proof. exact single_panic. Qed.
(** A judgement followed by a matching question crashes; the opposite order works. *)
Theorem c19_judgement_question_refuted : exists a b x,
  infBinary a JUGEMENT (Some x) b QUESTION None = Panic /\
  exists l, infBinary b QUESTION None a JUGEMENT (Some x) = Ok (l, true).
Proof.
  exists (inh "c" "d"), (Stmt IMPL (inh "a" "b") (inh "c" "d")), t9.
  split; [vm_compute; reflexivity|]. eexists. vm_compute. reflexivity.
Qed.
(** A question about an image crashes the structural rules. *)
Theorem c19_image_question_refuted : exists a, infSinglePremise a QUESTION None = Panic.
Proof. exists (Stmt INH (nm "x") (Img (nm "r") 0 [nm "y"])). vm_compute. reflexivity. Qed.
(** A judgement about a one-component product crashes them. *)
Theorem c19_short_product_refuted : exists a v, tvInRange v /\ infSinglePremise a JUGEMENT (Some v) = Panic.
Proof.
  exists (Stmt INH (Prod [nm "x"]) (nm "r")), (mkTv f1 f05). split; [|vm_compute; reflexivity].
  repeat split; vm_compute; reflexivity.
Qed.
Example c19_ex : exists l, infSinglePremise (Stmt INH (nm "x") (Img (nm "r") 1 [nm "y"])) JUGEMENT (Some t9) = Ok l /\ l <> [].
Proof. eexists. split; [vm_compute; reflexivity|discriminate]. Qed.

Print Assumptions c15_no_overlap. Print Assumptions c15_shape. Print Assumptions c15_range.
Print Assumptions c16_binary_iff. Print Assumptions c16_fifth_conjunct_refuted.
Print Assumptions c17_order_terms. Print Assumptions c17_order_truth. Print Assumptions c17_order_refuted. Print Assumptions c17_swap.
Print Assumptions c17_swapped_truth_refuted.
Print Assumptions c18_struct_iff. Print Assumptions c18_sentences. Print Assumptions c18_product_image.
Print Assumptions c18_image_product. Print Assumptions c18_range. Print Assumptions c18_ternary_refuted.
Print Assumptions c19_binary_total. Print Assumptions c19_binary_panic_iff. Print Assumptions c19_single_panic_iff.
Print Assumptions c19_judgement_question_refuted. Print Assumptions c19_image_question_refuted.
Print Assumptions c19_short_product_refuted.
