(** Properties C24-C28, C55, C56: the declarative reasoner. *)
From Coq Require Import String ZArith Bool Lia List Permutation Sorted Relations SpecFloat.
From Verif Require Import Base F64_Model F64_Proofs Sort_Proofs Term_Model Term_Spec Term_Proofs Unify_Model Unify_Spec Stamp_Model Tv_Model
  Sentence_Model Infer_Model Infer_Spec Mem_Model Mem_Spec Mem_Proofs Props_Mem Cycle_Model Cycle_Spec Cycle_Proofs Select_Proofs Task_Proofs Run_Proofs.
Import ListNotations.
Local Open Scope string_scope.
Local Open Scope list_scope.

(** C24. One table: the first belief about the same statement with independent
    evidence is replaced by its revision; otherwise nothing changes. *)
Theorem c24_table : forall s l u l' o, reviseTable s l u = Ok (l', o) ->
  match o with
  | None => l' = l /\ forall b, In b l -> ~ revisable s b
  | Some nb => replaced s l l' nb /\ s_usage nb = u
  end.
Proof. exact reviseTable_spec. Qed.
(** The whole memory: tables only change by such replacements, table sizes and
    concepts stay, concepts that are not subterms stay, and a result is
    reported exactly if a revision was possible. *)
Theorem c24_memory : forall m s u m' r u', mapOk m -> memReviseBelief m s u = Ok (m', r, u') ->
  mapOk m' /\ map fst m' = map fst m /\ (u <= u')%nat /\
  (forall t c', holds m' t c' -> exists c, holds m t c /\
     (~ occurs t (s_term s) -> c' = c) /\
     revisedTable s (byExp c) (byExp c') /\ revisedTable s (byUsage c) (byUsage c') /\
     length (byExp c') = length (byExp c) /\ length (byUsage c') = length (byUsage c)) /\
  match r with
  | None => m' = m /\ u' = u /\ (s_punct s = JUGEMENT -> forall t c, holds m t c -> occurs t (s_term s) -> ~ hasRevisable s c)
  | Some nb => s_punct s = JUGEMENT /\ (exists b, revisable s b /\ isRevision s b nb /\ (u <= s_usage nb < u')%nat) /\
      exists t c, holds m' t c /\ occurs t (s_term s) /\ (In nb (byExp c) \/ In nb (byUsage c))
  end.
Proof. exact revise_spec. Qed.
Theorem c24_no_panic : forall m s u, mapOk m -> (s_punct s = JUGEMENT -> retTv s <> None) ->
  (forall t c b, holds m t c -> In b (byExp c) \/ In b (byUsage c) -> retTv b <> None) ->
  exists x, memReviseBelief m s u = Ok x.
Proof. exact revise_total. Qed.
Theorem c24_panic_iff : forall s l u, reviseTable s l u = Panic <->
  exists l1 b l2, l = l1 ++ b :: l2 /\ (forall x, In x l1 -> ~ revisable s x) /\ revisable s b /\ (retTv b = None \/ retTv s = None).
Proof. exact reviseTable_panic. Qed.

Definition ab1 := mJ (mStmt "a" "b") [1%Z] (mT 1 2) 0.
Definition ab2 := mJ (mStmt "a" "b") [2%Z] (mT 9 10) 1.
Definition ab3 := mJ (mStmt "a" "b") [3%Z] (mkTv f0 (f_frac 9 10)) 2.
Definition ac4 := mJ (mStmt "a" "c") [4%Z] (mT 1 2) 3.
Definition getOk {A} (d : A) (r : res A) : A := match r with Ok x => x | Panic => d end.
Definition m0 := Eval vm_compute in getOk memMake (mStoreAll 10 [ab1; ac4]).
Example c24_ex : match memReviseBelief m0 ab2 9 with
  | Ok (m', Some nb, u) => s_stamp nb = [1%Z; 2%Z] /\
      s_term nb = mStmt "a" "b" /\ map (fun kc => length (byExp (snd kc))) m' = map (fun kc => length (byExp (snd kc))) m0
  | _ => False end.
Proof. vm_compute. repeat split; reflexivity. Qed.
Example c24_ex_overlap : memReviseBelief m0 (mJ (mStmt "a" "b") [5%Z; 1%Z] (mT 1 2) 7) 9 = Ok (m0, None, 9%nat).
Proof. vm_compute. reflexivity. Qed.
(** Revision does not restore the order of the table by expectation. *)
Definition ac5 := mJ (mStmt "a" "c") [5%Z] (mT 9 10) 4.
Definition ab6 := mJ (mStmt "a" "b") [6%Z] (mT 99 100) 8.
Definition mA := Eval vm_compute in getOk memMake (mStoreAll 10 [ab1]).
Definition mB := Eval vm_compute in getOk memMake (mStoreAll 10 [ab1; ac5]).
Definition mC := Eval vm_compute in getOk (memMake, None, 0%nat) (memReviseBelief mB ab6 9).
Definition mA2 := Eval vm_compute in getOk memMake (limitMemory mA 2).
Lemma hist_mA : history 10 mA.
Proof. apply (h_store 10 memMake us0 ab1 5%Z mA); [constructor|]. vm_compute. reflexivity. Qed.
Lemma hist_mB : history 10 mB.
Proof. apply (h_store 10 mA us0 ac5 5%Z mB hist_mA). vm_compute. reflexivity. Qed.
Lemma hist_mA2 : history 10 mA2.
Proof. apply (h_limit 10 mA 2 mA2 hist_mA). vm_compute. reflexivity. Qed.
(** a: [a-->c (0.95); a-->b (0.75)]; after the revision a-->b has the higher
    expectation but still comes second. *)
Theorem c24_order_refuted : exists m s m' nb u t c, history 10 m /\ memReviseBelief m s 9 = Ok (m', Some nb, u) /\
  holds m' t c /\ ~ expSorted (byExp c).
Proof.
  assert (E : memReviseBelief mB ab6 9 = Ok mC) by (vm_compute; reflexivity).
  destruct mC as [[m' [nb|]] u] eqn:M; [|discriminate]. exists mB, ab6, m', nb, u, (Name "a").
  assert (X : match mget (Name "a") (fst (fst mC)) with Some c => match byExp c with
        | [x; y] => match retTv x, retTv y with Some vx, Some vy => fleb (calcExp vy) (calcExp vx) = false | _, _ => False end | _ => False end | None => False end)
    by (vm_compute; reflexivity).
  rewrite M in X. cbn [fst] in X. destruct (mget (Name "a") m') as [c|] eqn:G; [|contradiction].
  exists c. split; [exact hist_mB|]. split; [exact E|]. split; [now apply mget_in|]. intros S. unfold expSorted in S.
  destruct (byExp c) as [|x [|y [|z l]]]; try contradiction. inversion S as [|? ? _ F]; subst. inversion F as [|? ? K _]; subst.
  destruct K as (ea & eb & (va & Ta & ->) & (vb & Tb & ->) & L). rewrite Ta, Tb in X. congruence.
Qed.
(** A judgement that revises a belief anywhere is not filed under the other
    subterms, even if their concepts have been forgotten. *)
Definition shC := Eval vm_compute in getOk sharedMake (memAddTask (setMemory mA2 sharedMake) ab2 true 20 10 f1 5%Z).
Theorem c24_refile_refuted : exists sh s sh' t, history 10 (memory sh) /\
  memAddTask sh s true 20 10 f1 5%Z = Ok sh' /\ occurs t (s_term s) /\ s_punct s = JUGEMENT /\ (forall c, ~ holds (memory sh') t c).
Proof.
  exists (setMemory mA2 sharedMake), ab2, shC, (Name "b"). split; [exact hist_mA2|]. split; [vm_compute; reflexivity|].
  split; [apply retSubterms_iff; vm_compute; auto 10|].
  split; [reflexivity|]. intros c Hc. assert (N : ~ In (Name "b") (map fst (memory shC))).
  { vm_compute. intros [K|[K|[]]]; discriminate. }
  apply N. apply (in_map fst) in Hc. exact Hc.
Qed.

(** C25 *)
Theorem c25_too_complex : forall sh s cc maxC nB mul now, (calcComplexity (s_term s) > maxC)%Z ->
  memAddTask sh s cc maxC nB mul now = Ok sh.
Proof. exact add_rejects. Qed.
Theorem c25_duplicate : forall sh s cc maxC nB mul now sh', s_punct s = JUGEMENT ->
  (exists a, In a (judg sh) /\ taskTerm sh a = s_term s /\ s_stamp (tk_s (hget (heap sh) a)) = s_stamp s) ->
  memAddTask sh s cc maxC nB mul now = Ok sh' ->
  heap sh' = heap sh /\ judg sh' = judg sh /\ byTerm sh' = byTerm sh /\ taskCtr sh' = taskCtr sh.
Proof. exact add_duplicate. Qed.
Theorem c25_admitted : forall sh s cc maxC nB mul now sh', tasksOk maxC sh -> s_punct s = JUGEMENT ->
  (calcComplexity (s_term s) <= maxC)%Z ->
  ~ (exists a, In a (judg sh) /\ taskTerm sh a = s_term s /\ s_stamp (tk_s (hget (heap sh) a)) = s_stamp s) ->
  memAddTask sh s cc maxC nB mul now = Ok sh' -> mapOk (memory sh) ->
  exists a, In a (judg sh') /\ ~ In a (judg sh) /\ tk_s (hget (heap sh') a) = s /\
    (forall t, occurs t (s_term s) -> indexed sh' t a) /\
    (forall b, (b < length (heap sh))%nat -> tk_id (hget (heap sh') a) <> tk_id (hget (heap sh) b)).
Proof. exact add_admits. Qed.
(** Along every run the task tables are consistent (see [tasksOk]): ids are
    distinct, no duplicates are queued, nothing too complex is queued, and every
    queued task is found under each of its subterms. *)
Theorem c25_tables : forall (Inp : sentence -> Prop) maxC n, (forall s, Inp s -> s_punct s = JUGEMENT -> s_stamp s <> []) -> (1 <= n)%nat ->
  forall sh ps, run Inp maxC n sh ps -> tasksOk maxC sh.
Proof.
  intros Inp maxC n HI Hn sh ps R. apply (run_inv Inp maxC n HI Hn (fun s => s_stamp s <> []) closed_nonempty HI sh ps R).
Qed.
Theorem c25_ids : forall (Inp : sentence -> Prop) maxC n, (forall s, Inp s -> s_punct s = JUGEMENT -> s_stamp s <> []) -> (1 <= n)%nat ->
  forall sh ps, run Inp maxC n sh ps -> forall a b, (a < length (heap sh))%nat -> (b < length (heap sh))%nat ->
  tk_id (hget (heap sh) a) = tk_id (hget (heap sh) b) -> a = b.
Proof. intros Inp maxC n HI Hn sh ps R. apply (tasks_ids maxC). apply (c25_tables Inp maxC n HI Hn sh ps R). Qed.
Definition addL (l : list sentence) : shared :=
  fold_left (fun sh s => getOk sharedMake (memAddTask sh s true 20 10 f1 5%Z)) l sharedMake.
Example c25_ex : judg (addL [ab1; ac4; ab1; mJ (mStmt "a" "d") [1%Z] (mT 1 2) 4]) = [0; 1; 2]%nat /\
  map tk_id (heap (addL [ab1; ac4])) = [1000; 1001]%Z /\ mget (Name "a") (byTerm (addL [ab1; ac4])) = Some [0; 1]%nat /\
  judg (addL [ab1; ab2]) = [0; 1; 2]%nat /\ map (fun t => s_stamp (tk_s t)) (heap (addL [ab1; ab2])) = [[1]; [2]; [1; 2]]%Z.
Proof. repeat split; vm_compute; reflexivity. Qed.

(** C26 *)
Theorem c26_limit : forall expf sh sh', limitTasks expf sh = Ok sh' ->
  exists kept, sh' = setJudg kept sh /\ (length kept <= 30)%nat /\
  (NoDup (judg sh) -> NoDup kept) /\ (forall a, In a kept -> In a (judg sh)) /\
  let key a := taskCalcCredit expf (hget (heap sh) a) (cycleCtr sh) in
  (forall a, In a kept -> fltb (f_frac 1 1000) (key a) = true) /\
  (forall a b, In a kept -> In b (judg sh) -> ~ In b kept -> fleb (key b) (key a) = true) /\
  (forall b, In b (judg sh) -> ~ In b kept -> fltb (f_frac 1 1000) (key b) = true -> length kept = 30%nat).
Proof. exact limitTasks_ok. Qed.
Theorem c26_index : forall sh t a, indexed (rebuildIndex sh) t a <-> In a (judg sh) /\ occurs t (taskTerm sh a).
Proof. exact rebuild_idx. Qed.
(** After every maintenance cycle. *)
Theorem c26_cycle : forall expf sv maxC sh now sh' now' ans msg, tasksOk maxC sh ->
  reasonCycle expf sv sh now = Ok (sh', now', ans, msg) -> Z.rem (cycleCtr sh') 111 = 0%Z ->
  (length (judg sh') <= 30)%nat /\ forall t a, indexed sh' t a <-> In a (judg sh') /\ occurs t (taskTerm sh' a).
Proof. intros expf sv maxC sh now sh' now' ans msg OK H. apply (reasonCycle_ok _ _ _ _ _ _ _ _ _ OK H). Qed.
Theorem c26_message : forall expf maxC sh sh' msg, tasksOk maxC sh -> selectWork expf sh = Ok (sh', msg) ->
  match msg with
  | Some m => In (primary m) (judg sh) /\ ~ In (primary m) (judg sh') /\ forall a, In a (secondary m) -> (a < length (heap sh'))%nat
  | None => judg sh = []
  end.
Proof.
  intros expf maxC sh sh' msg OK H. destruct (selectWork_ok _ _ _ _ _ OK H) as (_ & _ & _ & _ & W).
  destruct msg as [m|]; auto. destruct W as ([_ W1] & W2 & W3). auto.
Qed.
Definition expOne : f64 -> f64 := fun _ => f1.
Definition many35 := Eval vm_compute in
  let sh := addL (map (fun i => mJ (Stmt INH (Name "a") (Prod (repeat (Name "b") i))) [Z.of_nat i] (mT 1 2) i) (seq 1 15)) in
  setJudg (judg sh ++ judg sh ++ judg sh) sh.
Example c26_ex : match limitTasks expOne many35 with
  | Ok sh' => length (judg many35) = 45%nat /\ length (judg sh') = 30%nat | Panic => False end.
Proof. vm_compute. split; reflexivity. Qed.
(** A task about an empty compound has credit 0/0, which is not a number, and
    the next maintenance cycle panics while sorting. *)
Definition idle (k : nat) : shared * Z :=
  Nat.iter k (fun st => match reasonCycle expOne f0 (fst st) (snd st) with Ok (sh, now, _, _) => (sh, now) | Panic => st end) (sharedMake, 0%Z).
Lemma idle_run : forall k Inp maxC n, exists ps, run Inp maxC n (fst (idle k)) ps.
Proof.
  induction k as [|k IH]; intros Inp maxC n; [exists []; constructor|]. destruct (IH Inp maxC n) as [ps R].
  unfold idle. simpl Nat.iter. fold (idle k). destruct (reasonCycle expOne f0 (fst (idle k)) (snd (idle k))) as [[[[sh now] ans] msg]|] eqn:E.
  - eexists. eapply run_cycle; eauto.
  - exists ps. exact R.
Qed.
Definition emptyJ := mJ (Conj []) [9%Z] (mT 1 2) 0.
Definition addTo (l : list sentence) (sh : shared) : shared :=
  fold_left (fun sh s => getOk sh (memAddTask sh s true 20 10 f1 5%Z)) l sh.
Lemma addTo_run : forall l (Inp : sentence -> Prop) sh ps, (forall s, In s l -> Inp s) -> run Inp 20 10 sh ps -> run Inp 20 10 (addTo l sh) ps.
Proof.
  induction l as [|s l IH]; intros Inp sh ps HI R; simpl; auto. apply IH; [intros; apply HI; now right|].
  destruct (memAddTask sh s true 20 10 f1 5%Z) as [sh'|] eqn:E; simpl; auto.
  eapply run_add; [exact R|apply HI; now left| |exact E]. lia.
Qed.
Definition nanL := [emptyJ; ab1; ac4; ac5].
Definition idle110 : shared := Eval vm_compute in fst (idle 110).
Lemma idle110_eq : fst (idle 110) = idle110.
Proof. vm_compute. reflexivity. Qed.
Definition nanSh : shared := Eval vm_compute in addTo nanL idle110.
Lemma nanSh_eq : addTo nanL idle110 = nanSh.
Proof. vm_compute. reflexivity. Qed.
Theorem c26_nan_panic_refuted : exists (Inp : sentence -> Prop) sh ps sv now, run Inp 20 10 sh ps /\
  (forall s, Inp s -> s_stamp s <> [] /\ retTv s <> None) /\ reasonCycle expOne sv sh now = Panic.
Proof.
  destruct (idle_run 110 (fun s => In s nanL) 20%Z 10%nat) as [ps R]. rewrite idle110_eq in R.
  pose proof (addTo_run nanL (fun s => In s nanL) idle110 ps (fun s H => H) R) as R2. clear R. rewrite nanSh_eq in R2.
  exists (fun s => In s nanL), nanSh, ps, f0, 0%Z. split; [exact R2|]. split.
  - intros s [<-|[<-|[<-|[<-|[]]]]]; split; discriminate.
  - vm_compute. reflexivity.
Qed.

(** C27 *)
Theorem c27_top_max : forall expf arr cyc, let ks := map (fun t => taskCalcCredit expf t cyc) arr in
  (forall k, In k ks -> fis_nan k = false) -> (exists k, In k ks /\ fltb (f_of_Z (-5000)) k = true) ->
  firstMax ks (taskSelByCreditTop expf arr cyc).
Proof. exact top_spec. Qed.
Theorem c27_top_valid : forall expf arr cyc, arr <> [] -> (taskSelByCreditTop expf arr cyc < length arr)%nat.
Proof. exact top_valid. Qed.
Theorem c27_highest : forall expf arr cyc, let ks := map (fun t => taskCalcCredit expf t cyc) arr in
  (forall k, In k ks -> fis_nan k = false) ->
  match tasksSelHighestCreditIdx expf arr cyc with None => arr = [] | Some i => firstMax ks i end.
Proof. exact highest_spec. Qed.
Theorem c27_random_exact : forall sv ws i, selRandom sv ws = Ok i ->
  (i < length ws)%nat /\
  (forall k, (k < i)%nat -> fleb (fmul sv (fsum ws)) (fsum (firstn (S k) ws)) = false) /\
  (fleb (fmul sv (fsum ws)) (fsum (firstn (S i) ws)) = true \/ S i = length ws).
Proof. exact roulette_spec. Qed.
Theorem c27_random_panic_iff : forall sv ws, selRandom sv ws = Panic <-> ws = [].
Proof. exact roulette_panic. Qed.
Theorem c27_random_monotone : forall v1 v2 ws i1 i2, in01 v1 -> in01 v2 -> ffin (fsum ws) -> fleb f0 (fsum ws) = true ->
  fleb v1 v2 = true -> selRandom v1 ws = Ok i1 -> selRandom v2 ws = Ok i2 -> (i1 <= i2)%nat.
Proof. exact roulette_mono. Qed.
Theorem c27_random_nonzero : forall v ws i w, in01 v -> ffin (fsum ws) -> fltb f0 (fmul v (fsum ws)) = true ->
  fleb f0 (fsum ws) = true -> selRandom v ws = Ok i -> nth_error ws i = Some w ->
  fleb (fmul v (fsum ws)) (fsum (firstn (S i) ws)) = true /\ (forall z, w <> S754_zero z).
Proof. exact roulette_nonzero. Qed.
(** With random value 0 a task without any credit is selected. *)
Theorem c27_zero_refuted : exists sv ws i, in01 sv /\ fltb f0 (fsum ws) = true /\ selRandom sv ws = Ok i /\ nth_error ws i = Some f0.
Proof. exists f0, [f0; f1], 0%nat. split; [repeat split; vm_compute; reflexivity|]. repeat split; vm_compute; reflexivity. Qed.
Example c27_ex : selRandom f05 [f1; f0; f1; f1] = Ok 2%nat /\ selRandom (f_frac 1 10) [f0; f0; f1] = Ok 2%nat /\
  selRandom f1 [f1; f1] = Ok 1%nat /\
  taskSelByCreditTop expOne (heap (addL [ab1; emptyJ; ac4])) 0 = 0%nat.
Proof. repeat split; vm_compute; reflexivity. Qed.
Definition tkC (c : f64) : task := mkTask ab1 c f0 f1 0 0.
Example c27_ex_top : taskSelByCreditTop expOne [tkC f05; tkC f1; tkC f0; tkC f1] 3 = 1%nat /\
  tasksSelHighestCreditIdx expOne [tkC f05; tkC f1; tkC f0; tkC f1] 3 = Some 1%nat.
Proof. split; vm_compute; reflexivity. Qed.

(** C28 *)
Theorem c28_answers : forall cs q q' ans, qaTryAll q cs = Ok (q', ans) -> fis_nan (bestAnswerExp q) = false ->
  q_s q' = q_s q /\ answersFor q q' cs ans.
Proof. exact qaTryAll_spec. Qed.
Theorem c28_one : forall q c q' ans, qaTryAnswer q c = Ok (q', ans) ->
  q_s q' = q_s q /\ q_handler q' = q_handler q /\ prio q' = prio q /\
  ((ans = [] /\ q' = q /\ (s_punct c = JUGEMENT -> instanceOf (s_term c) (s_term (q_s q)) -> exists e, hasExp c e /\ fltb (bestAnswerExp q) e = false)) \/
   (ans = [(s_term (q_s q), c)] /\ s_punct c = JUGEMENT /\ instanceOf (s_term c) (s_term (q_s q)) /\
    hasExp c (bestAnswerExp q') /\ fltb (bestAnswerExp q) (bestAnswerExp q') = true)).
Proof. exact qaTryAnswer_spec. Qed.
Definition qAny := mkTask2 (mkSentence (Stmt INH (QVar "x") (Name "b")) None QUESTION [] None None 0) true f0 f1.
Example c28_ex : match qaTryAll qAny [mJ (mStmt "a" "b") [1%Z] (mT 1 2) 0; ac5; mJ (mStmt "c" "b") [2%Z] (mT 1 4) 0;
    mJ (mStmt "d" "b") [3%Z] (mT 9 10) 0] with
  | Ok (q', ans) => ans = [(s_term (q_s qAny), mJ (mStmt "a" "b") [1%Z] (mT 1 2) 0); (s_term (q_s qAny), mJ (mStmt "d" "b") [3%Z] (mT 9 10) 0)]
  | Panic => False end.
Proof. vm_compute. reflexivity. Qed.

(** C55. Every task and every belief of every run follows from the input. *)
Theorem c55_tasks : forall (Inp : sentence -> Prop) maxC n, (forall s, Inp s -> s_punct s = JUGEMENT -> s_stamp s <> []) -> (1 <= n)%nat ->
  forall sh ps, run Inp maxC n sh ps -> forall a, (a < length (heap sh))%nat -> derivable Inp (tk_s (hget (heap sh) a)).
Proof.
  intros Inp maxC n HI Hn sh ps R.
  apply (run_inv Inp maxC n HI Hn (derivable Inp) (closed_derivable Inp) (fun s A B => dv_input Inp s A B) sh ps R).
Qed.
Theorem c55_beliefs : forall (Inp : sentence -> Prop) maxC n, (forall s, Inp s -> s_punct s = JUGEMENT -> s_stamp s <> []) -> (1 <= n)%nat ->
  forall sh ps, run Inp maxC n sh ps -> forall t c b, holds (memory sh) t c -> In b (byExp c) \/ In b (byUsage c) -> derivable Inp b.
Proof.
  intros Inp maxC n HI Hn sh ps R t c b Hc Hb.
  destruct (run_inv Inp maxC n HI Hn (derivable Inp) (closed_derivable Inp) (fun s A B => dv_input Inp s A B) sh ps R) as (_ & _ & _ & B & _).
  apply (bo_all _ _ _ _ (B _ _ Hc) b Hb).
Qed.
Theorem c55_evidence : forall (Inp : sentence -> Prop) s, derivable Inp s -> forall i, In i (s_stamp s) -> exists x, Inp x /\ In i (s_stamp x).
Proof. exact derivable_ids. Qed.
(** No evidence is counted twice in a stamp. *)
Theorem c55_stamps_distinct : forall (Inp : sentence -> Prop) maxC n, (forall s, Inp s -> s_punct s = JUGEMENT -> s_stamp s <> [] /\ NoDup (s_stamp s)) -> (1 <= n)%nat ->
  forall sh ps, run Inp maxC n sh ps ->
  (forall a, (a < length (heap sh))%nat -> NoDup (s_stamp (tk_s (hget (heap sh) a)))) /\
  (forall t c b, holds (memory sh) t c -> In b (byExp c) \/ In b (byUsage c) -> NoDup (s_stamp b)).
Proof.
  intros Inp maxC n HI Hn sh ps R.
  destruct (run_inv Inp maxC n (fun s A B => proj1 (HI s A B)) Hn (fun s => NoDup (s_stamp s)) closed_nodup (fun s A B => proj2 (HI s A B)) sh ps R) as (_ & H & _ & B & _).
  split; auto. intros t c b Hc Hb. apply (bo_all _ _ _ _ (B _ _ Hc) b Hb).
Qed.
Definition run2 := addL [mJ (mStmt "a" "b") [1%Z] (mT 9 10) 0; mJ (mStmt "b" "c") [2%Z] (mT 9 10) 1].
Definition afterWorker := getOk (sharedMake, []) (workerStep 20 10 run2 (mkMsg 0 [0; 1]%nat 1)).
Example c55_ex : map (fun t => (s_term (tk_s t), s_stamp (tk_s t))) (skipn 2 (heap (fst afterWorker))) = [(mStmt "a" "c", [1%Z; 2%Z])].
Proof. vm_compute. reflexivity. Qed.

(** C56. At most one belief per statement in each table, and the tables stay
    within their bound and about their concept. *)
Theorem c56_tables : forall (Inp : sentence -> Prop) maxC n, (forall s, Inp s -> s_punct s = JUGEMENT -> s_stamp s <> []) -> (1 <= n)%nat ->
  forall sh ps, run Inp maxC n sh ps -> mapOk (memory sh) /\ forall t c, holds (memory sh) t c ->
  (1 <= length (byExp c) <= n)%nat /\ (1 <= length (byUsage c) <= n)%nat /\
  NoDup (map s_term (byExp c)) /\ NoDup (map s_term (byUsage c)) /\
  forall b, In b (byExp c) \/ In b (byUsage c) -> s_punct b = JUGEMENT /\ occurs t (s_term b) /\ (calcComplexity (s_term b) <= maxC)%Z.
Proof.
  intros Inp maxC n HI Hn sh ps R.
  destruct (run_inv Inp maxC n HI Hn (fun s => s_stamp s <> []) closed_nonempty HI sh ps R) as (_ & _ & MO & B & _).
  split; auto. intros t c Hc. destruct (B _ _ Hc) as [B1 B2 B3 B4 B5]. split; [auto|]. split; [auto|]. split; [auto|]. split; [auto|].
  intros b Hb. destruct (B3 b Hb) as (_ & Q1 & Q2 & Q3). rewrite (proj2 MO _ _ Hc) in Q2. auto.
Qed.
(** Every stored belief has a truth value, so revision cannot panic. *)
Theorem c56_truth : forall (Inp : sentence -> Prop) maxC n, (forall s, Inp s -> s_punct s = JUGEMENT -> s_stamp s <> [] /\ retTv s <> None) -> (1 <= n)%nat ->
  forall sh ps, run Inp maxC n sh ps -> forall s u, (s_punct s = JUGEMENT -> retTv s <> None) ->
  exists x, memReviseBelief (memory sh) s u = Ok x.
Proof.
  intros Inp maxC n HI Hn sh ps R s u Hs.
  destruct (run_inv Inp maxC n (fun s A B => proj1 (HI s A B)) Hn (fun s => retTv s <> None) closed_tv (fun s A B => proj2 (HI s A B)) sh ps R) as (_ & _ & MO & B & _).
  apply revise_total; auto. intros t c b Hc Hb. apply (bo_all _ _ _ _ (B _ _ Hc) b Hb).
Qed.
Example c56_ex : map (fun kc => map s_stamp (byExp (snd kc))) (memory (addL [ab1; ab2; ab3])) =
  [[[1; 3; 2]]; [[1; 3; 2]]; [[1; 3; 2]]]%Z.
Proof. vm_compute. reflexivity. Qed.

Print Assumptions c24_memory.
Print Assumptions c24_no_panic.
Print Assumptions c25_admitted.
Print Assumptions c25_tables.
Print Assumptions c26_limit.
Print Assumptions c26_cycle.
Print Assumptions c26_nan_panic_refuted.
Print Assumptions c27_top_max.
Print Assumptions c27_random_monotone.
Print Assumptions c27_random_nonzero.
Print Assumptions c28_answers.
Print Assumptions c55_tasks.
Print Assumptions c55_beliefs.
Print Assumptions c56_tables.
Print Assumptions c56_truth.
