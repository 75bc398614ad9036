(** Properties C20-C23: concept memory. *)
From Coq Require Import String ZArith Bool Lia List Permutation Sorted.
From Verif Require Import Base F64_Model Sort_Proofs Term_Model Term_Spec Term_Proofs Stamp_Model Stamp_Proofs Tv_Model Tv_Spec
  Tv_Proofs Sentence_Model Sentence_Proofs Mem_Model Mem_Spec Mem_Proofs.
Import ListNotations.
Local Open Scope string_scope.

Definition mStmt (x y : string) : term := Stmt INH (Name x) (Name y).
Definition mT (n d : positive) : tv := mkTv f1 (f_frac n d).
Definition mJ (t : term) (st : stamp) (v : tv) (u : nat) : sentence := newEternalSentenceByTv t JUGEMENT v st u.
Definition us0 : nat -> usage := fun _ => mkUsage 0 0.
Definition mS1 := mJ (mStmt "a" "b") [1%Z] (mT 1 2) 0.
Definition mS2 := mJ (mStmt "a" "b") [2%Z] (mT 9 10) 1.
Definition mS3 := mJ (mStmt "a" "c") [3%Z] (mT 7 10) 2.
Definition mStoreAll n l := rfold (fun m s => storeInConcepts us0 m s n 5%Z) l memMake.

(** C20 *)
Theorem c20_bounded : forall n m, (1 <= n)%nat -> history n m -> forall t c, holds m t c ->
  (1 <= length (byExp c) <= n /\ 1 <= length (byUsage c) <= n)%nat.
Proof. exact hist_bounded. Qed.
Theorem c20_sorted : forall n m, history n m -> forall t c, holds m t c -> expSorted (byExp c).
Proof. exact hist_sorted. Qed.
(** Whenever a store changes a usage table, the table is sorted by the
    usefulness at that time. *)
Theorem c20_usage_sorted : forall us m s n now m', mapOk m -> storeInConcepts us m s n now = Ok m' ->
  forall t c', holds m' t c' ->
  (exists c, holds m t c /\ byUsage c' = byUsage c) \/ StronglySorted (useGe us now) (byUsage c').
Proof. exact store_usage. Qed.
(** A table never drops a belief in favour of a worse one. *)
Theorem c20_keeps_best : forall n s l l' b, storeTable expKey n s l = Ok l' -> In b l ->
  In b l' \/ (length l' = n /\ Forall (fun x => expGe x b) l').
Proof.
  intros n s l l' b H Hb. destruct (storeTable_kept _ _ _ _ _ _ H Hb) as [K|[K F]]; [auto|right]. split; auto.
  eapply Forall_impl; [|exact F]. intros x. apply keyLe_exp.
Qed.
(** With a limit of 0 the bound does not hold: a new concept gets a belief. *)
Theorem c20_limit_zero_refuted : exists m t c, history 0 m /\ holds m t c /\ length (byExp c) = 1%nat.
Proof.
  exists [(Name "a", mkConcept (Name "a") [mJ (Name "a") [1%Z] (mT 1 2) 0] [mJ (Name "a") [1%Z] (mT 1 2) 0])].
  eexists _, _. split; [|split; [left; reflexivity|reflexivity]].
  apply (h_store 0 memMake us0 (mJ (Name "a") [1%Z] (mT 1 2) 0) 0); [constructor|]. vm_compute. reflexivity.
Qed.
Example c20_ex : exists m c, mStoreAll 2 [mS1; mS3; mS2] = Ok m /\ mget (Name "a") m = Some c /\
  byExp c = [mS2; mS3] /\ length (byUsage c) = 2%nat.
Proof. eexists _, _. split; [vm_compute; reflexivity|]. split; [vm_compute; reflexivity|]. split; vm_compute; reflexivity. Qed.

(** C21 *)
Theorem c21_judgements_only : forall n m, history n m -> forall t c b, holds m t c ->
  In b (byExp c) \/ In b (byUsage c) -> s_punct b = JUGEMENT.
Proof. exact hist_judgements. Qed.
Theorem c21_no_double_evidence : forall n m, history n m -> forall t c, holds m t c ->
  noDoubleEvidence (byExp c) /\ noDoubleEvidence (byUsage c).
Proof. exact hist_noDouble. Qed.
(** Beliefs are only filed under terms they mention, and are stored unchanged. *)
Theorem c21_about : forall P n m, historyOf P n m -> forall t c b, holds m t c ->
  In b (byExp c) \/ In b (byUsage c) -> occurs t (s_term b).
Proof. exact hist_about. Qed.
Theorem c21_unchanged : forall (Q : sentence -> Prop) n m, historyOf (fun _ _ s => Q s) n m -> forall t c b, holds m t c ->
  In b (byExp c) \/ In b (byUsage c) -> Q b.
Proof. exact hist_from. Qed.
Example c21_ex : exists m c, mStoreAll 5 [mS1; mJ (mStmt "a" "b") [4%Z; 1%Z] (mT 9 10) 3; mS2;
    newEternalSentenceByTv (mStmt "a" "d") GOAL (mT 9 10) [9%Z] 4] = Ok m /\
  mget (Name "a") m = Some c /\ byExp c = [mS2; mS1].
Proof. eexists _, _. split; [vm_compute; reflexivity|]. split; vm_compute; reflexivity. Qed.

(** C22 *)
Theorem c22_reachable : forall us m s n now m', mapOk m -> s_punct s = JUGEMENT ->
  storeInConcepts us m s n now = Ok m' -> forall t, occurs t (s_term s) ->
  exists c, holds m' t c /\ presentOrBeaten expGe n s (byExp c) /\ presentOrBeaten (useGe us now) n s (byUsage c).
Proof. exact store_reachable. Qed.
Theorem c22_new_concept : forall us m s n now m', mapOk m -> s_punct s = JUGEMENT -> s_stamp s <> [] ->
  storeInConcepts us m s n now = Ok m' -> forall t, occurs t (s_term s) -> (forall c, ~ holds m t c) ->
  holds m' t (mkConcept t [s] [s]).
Proof. exact store_new. Qed.
Theorem c22_frame : forall us m s n now m', mapOk m -> storeInConcepts us m s n now = Ok m' ->
  (forall t c, ~ occurs t (s_term s) -> holds m' t c <-> holds m t c) /\
  (forall t c, holds m t c -> exists c', holds m' t c').
Proof. exact store_frame. Qed.
Theorem c22_retrieve_one : forall m t l, mapOk m ->
  (ret_beliefs_of_concept m t = Some l <-> exists c, holds m t c /\ l = (byExp c ++ byUsage c)%list) /\
  (ret_beliefs_of_concept m t = None <-> forall c, ~ holds m t c).
Proof. exact retrieve_one. Qed.
Theorem c22_retrieve_many : forall m ts b, mapOk m ->
  (In b (ret_beliefs_by_terms_nonunique m ts) <->
   exists t st c, In t ts /\ occurs st t /\ holds m st c /\ (In b (byExp c) \/ In b (byUsage c))).
Proof. exact retrieve_many. Qed.
Theorem c22_map : forall n m, history n m -> mapOk m.
Proof. exact hist_mapOk. Qed.
(** No panic: storing and limiting succeed on every memory built from
    judgements whose expectation is a number. *)
Theorem c22_no_panic : forall n m, historyOf (fun _ _ s => storable s) n m ->
  (forall us s now, usableUs us now -> (s_punct s = JUGEMENT -> storable s) -> exists m', storeInConcepts us m s n now = Ok m') /\
  (forall k, exists m', limitMemory m k = Ok m').
Proof.
  intros n m H. destruct (history_total _ _ H) as [A B]. split; intros.
  - apply store_total; auto.
  - apply limit_total; auto.
Qed.
Theorem c22_storable_in_range : forall s v, retTv s = Some v -> tvInRange v -> storable s.
Proof.
  intros s v H R. exists (calcExp v). split; [exists v; auto|]. apply calcExp_range in R. destruct (calcExp v); auto. exfalso. revert R. vm_compute. intuition discriminate.
Qed.
Theorem c22_usable_in_range : forall us now, (forall a, 0 <= useCount (us a) < 2 ^ 63 /\ now - lastUsed (us a) < 2 ^ 63)%Z -> usableUs us now.
Proof.
  intros us now H a. destruct (H a) as [H1 H2]. assert (R := useful_range _ _ H1 H2).
  destruct (calcUsageUsefulness (us a) now); auto. exfalso. revert R. vm_compute. intuition discriminate.
Qed.
Definition nanTv : tv := Eval vm_compute in rev (mkTv f1 f1) (mkTv f1 f1).
Definition nanMem : mem := Eval vm_compute in
  match storeInConcepts us0 memMake (mJ (mStmt "a" "b") [1%Z] nanTv 0) 20 0 with Ok m => m | Panic => [] end.
(** The NaN that revision of two certain judgements produces makes the next
    store of the same subterm panic. *)
Theorem c22_nan_panic_refuted : exists v m s, v = rev (mkTv f1 f1) (mkTv f1 f1) /\ tvInRange (mkTv f1 f1) /\
  storeInConcepts us0 memMake (mJ (mStmt "a" "b") [1%Z] v 0) 20 0 = Ok m /\ storeInConcepts us0 m s 20 0 = Panic.
Proof.
  exists nanTv, nanMem, mS2. split; [vm_compute; reflexivity|]. split; [split; repeat split; vm_compute; reflexivity|].
  split; vm_compute; reflexivity.
Qed.
Example c22_ex : exists m, mStoreAll 2 [mS1; mS3] = Ok m /\ map fst m = [mStmt "a" "b"; Name "a"; Name "b"; mStmt "a" "c"; Name "c"] /\
  mget (Name "c") m = Some (mkConcept (Name "c") [mS3] [mS3]) /\
  length (ret_beliefs_by_terms_nonunique m [mStmt "x" "a"]) = 4%nat.
Proof. eexists. split; [vm_compute; reflexivity|]. repeat split; vm_compute; reflexivity. Qed.

(** C23 *)
Theorem c23_limit : forall m mi k m', mapOk m -> Permutation m mi -> limitMemory mi k = Ok m' ->
  length m' = Nat.min (length m) k /\ mapOk m' /\
  (forall t c, holds m' t c -> holds m t c) /\
  ((length m <= k)%nat -> m' = mi) /\
  (forall t c t' c', holds m' t c -> holds m t' c' -> ~ holds m' t' c' ->
     exists r r', isRating c r /\ isRating c' r' /\ fleb r' r = true).
Proof.
  intros m mi k m' OK P H. destruct (limit_spec mi k m' (mapOk_perm _ _ P OK) H) as (A & B & C & D & E).
  rewrite (Permutation_length P). split; [exact A|]. split; [exact B|]. split; [|split; [exact D|]].
  - intros t c K. apply (Permutation_in _ (Permutation_sym P)). now apply C.
  - intros t c t' c' K1 K2 K3. apply (E t c t' c'); auto. apply (Permutation_in _ P). exact K2.
Qed.
Example c23_ex : exists m m', mStoreAll 2 [mS1; mS3; mJ (mStmt "d" "e") [7%Z] (mT 1 10) 5] = Ok m /\ length m = 8%nat /\
  limitMemory m 5 = Ok m' /\ map fst m' = [Name "a"; mStmt "a" "c"; Name "c"; mStmt "a" "b"; Name "b"].
Proof. eexists _, _. split; [vm_compute; reflexivity|]. split; [reflexivity|]. split; vm_compute; reflexivity. Qed.

Print Assumptions c20_bounded.
Print Assumptions c20_sorted.
Print Assumptions c22_no_panic.
Print Assumptions c22_storable_in_range.
Print Assumptions c23_limit.
