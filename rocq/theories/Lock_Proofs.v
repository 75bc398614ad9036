(** Proofs about locks. Which thread uses which lock, an order of the locks, and why
    nobody waits in a circle. *)
From Coq Require Import Arith Bool List Relations Lia Wf_nat.
From Verif Require Import Base Lock_Model Lock_Spec.
Import ListNotations.
Local Open Scope list_scope.
Local Open Scope nat_scope.

(** * Who uses which lock, and the order *)
Definition base (l : lock) : nat :=
  match l with
  | LMem2 | LRandom | LGoals | LEntry _ | LBatch _ | LSameTerm _ | LTrace | LTraceRandom => 0
  | LShared => 3 | LQuestions => 4 | LByTerm _ => 5 | LConcepts => 6 | LProcMem => 6 | LBelief _ => 7 | LProcBelief _ => 7
  | LTask _ => 8 | LUsage _ => 10 | LHandlers => 11 | LHandler _ => 12 | LGlobal => 13
  end.
Definition uses (i : nat) (m : mode) (l : lock) : bool :=
  match i with
  | 0 => match l with LBelief _ => negb (isWr m) | _ => true end
  | 1 => match l with
         | LShared | LConcepts => true
         | LQuestions | LByTerm _ | LHandler _ | LGlobal => true
         | LBelief _ | LTask _ | LUsage _ | LHandlers => negb (isWr m)
         | _ => false
         end
  | 2 => match l with LProcMem | LProcBelief _ => true | LUsage _ => negb (isWr m) | _ => false end
  | _ => match l with LGlobal => true | _ => false end
  end.
(** nobody else is in the way *)
Definition alone (i : nat) (m : mode) (l : lock) : bool :=
  match i with
  | 0 => Nat.eqb (base l) 0 || (negb (isWr m) && match l with LTask _ => true | _ => false end)
  | _ => false
  end.
Definition after (i : nat) (l l' : lock) : bool :=
  Nat.ltb (base l') (base l)
  || (Nat.eqb i 0 && lock_eqb l' LProcMem && negb (lock_eqb l LProcMem) && Nat.ltb 2 (base l))
  || (Nat.eqb i 1 && match l, l' with LTask a, LTask b => negb (Nat.eqb a b) | _, _ => false end).
Definition clash (m m' : mode) : bool := isWr m || isWr m'.
Definition request (i : nat) (H : list (mode * lock)) (m : mode) (l : lock) : bool :=
  uses i m l
  && forallb (fun x => negb (clash m (fst x)) || negb (lock_eqb (snd x) l)) H
  && (alone i m l || forallb (fun x => after i l (snd x)) H).
Fixpoint fits (i : nat) (H : list (mode * lock)) (c : code) : Prop :=
  match c with
  | Nop => True
  | Guard m l c => request i H m l = true /\ fits i ((m, l) :: H) c
  | Then c d | Or c d => fits i H c /\ fits i H d
  | One f => forall n, fits i H (f n)
  | Many c => fits i H c
  | Send k => i = 0 /\ forallb (fun x => Nat.eqb (base (snd x)) 0) H = true
  | Listen c => H = [] /\ (i = 0 \/ 2 < i) /\ fits i [] c
  | Serve k c => H = [] /\ i = taker k /\ c = match k with CDerive => deriveL | CStore => storeEvidenceL end /\ fits i [] c
  end.

(** * The functions keep to it *)
Ltac fit :=
  repeat (cbn [fits use may];
          match goal with
          | |- True => exact I
          | |- _ /\ _ => split
          | |- forall _, _ => intro
          | |- request _ _ _ _ = true => reflexivity
          | |- forallb _ _ = true => reflexivity
          | |- _ = _ => reflexivity
          | |- fits _ _ (use _ _) => unfold use
          | |- fits _ _ (may _) => unfold may
          end).
Lemma storeL_main : fits 0 [(Wr, LProcMem)] (storeL LProcBelief).
Proof. unfold storeL; fit. Qed.
Lemma memAddTaskL_main H : H = [(Rd, LMem2)] \/ H = [(Wr, LMem2)] -> fits 0 H memAddTaskL.
Proof. intros [-> | ->]; unfold memAddTaskL, reviseL, storeL, populateL; fit. Qed.
Lemma memAddTaskL_deriver : fits 1 [] memAddTaskL.
Proof. unfold memAddTaskL, reviseL, storeL, populateL; fit. Qed.
Lemma reasonCycleL_fits : fits 0 [] reasonCycleL.
Proof. unfold reasonCycleL, tryAnswerL, limitMemoryL, populateL; fit. Qed.
Lemma deriveL_fits : fits 1 [] deriveL.
Proof.
  unfold deriveL, tryAnswerL. cbn [fits]. intro p.
  repeat (apply conj); fit; try (apply memAddTaskL_deriver).
  destruct (Nat.eqb n p) eqn:E; fit.
  unfold request, after. cbn. rewrite E. reflexivity.
Qed.
Lemma storeEvidenceL_fits : fits 2 [] storeEvidenceL.
Proof. unfold storeEvidenceL, addEvidenceL, storeL; fit. Qed.
Lemma addEntryL_main H : H = [(Rd, LMem2)] \/ H = [(Rd, LProcMem); (Rd, LMem2)] -> fits 0 H addEntryL.
Proof. intros [-> | ->]; unfold addEntryL, addEntry2L; fit. Qed.
Lemma limitGoalsL_main : fits 0 [(Rd, LMem2)] limitGoalsL.
Proof. unfold limitGoalsL, addEntry2L, retEntriesL; fit. Qed.
Lemma sampleAndInferenceL_main : fits 0 [(Rd, LProcMem); (Rd, LMem2)] sampleAndInferenceL.
Proof.
  unfold sampleAndInferenceL, sampleL, beliefsL; fit. apply addEntryL_main. auto.
Qed.
Lemma narStep0L_fits : fits 0 [] narStep0L.
Proof. unfold narStep0L, traceStepL, eventOccurredL, retEntriesL, beliefsL; fit. Qed.
Lemma narStep1L_fits : fits 0 [] narStep1L.
Proof.
  unfold narStep1L, lookGoalsL, callL, beliefsL, retEntriesL, limitMemoryL; fit;
    first [apply addEntryL_main; now auto | apply memAddTaskL_main; now auto | apply limitGoalsL_main | apply sampleAndInferenceL_main].
Qed.
Lemma lineL_fits : fits 0 [] lineL.
Proof.
  unfold lineL, inputL, addEvidenceL, flushTasksL, populateL, debugEvidenceL, debugMemL, beliefsL; fit;
    first [apply addEntryL_main; now auto | apply memAddTaskL_main; now auto | apply storeL_main | apply reasonCycleL_fits
          | apply narStep0L_fits | apply narStep1L_fits].
Qed.
Lemma clientL_fits i : 2 < i -> fits i [] clientL.
Proof. intro L. unfold clientL. destruct i as [| [| [|i]]]; try lia. fit. Qed.

(** * States *)
Lemma lock_eqb_eq a b : lock_eqb a b = true <-> a = b.
Proof.
  destruct a, b; cbn; try rewrite Nat.eqb_eq; split; intro E; try reflexivity; try discriminate E;
    try (now subst); try (now inversion E).
Qed.
Lemma lock_eqb_refl a : lock_eqb a a = true.
Proof. now apply lock_eqb_eq. Qed.
Lemma lock_eqb_neq a b : lock_eqb a b = false <-> a <> b.
Proof. rewrite <- lock_eqb_eq. destruct (lock_eqb a b); split; intro; congruence. Qed.
Lemma in_heldF m l k : In (m, l) (heldF k) <-> In (Drop m l) k.
Proof.
  unfold heldF. rewrite in_flat_map. split.
  - intros ([c | m' l'] & J & E); cbn in E; [contradiction | destruct E as [E | []]; now inversion E; subst].
  - intro J. exists (Drop m l). split; [exact J | now left].
Qed.

(** every frame keeps to it, holding what is given back later *)
Fixpoint okStack (i : nat) (k : list frame) : Prop :=
  match k with
  | [] => True
  | Do c :: k => fits i (heldF k) c /\ okStack i k
  | Drop m l :: k => request i (heldF k) m l = true /\ okStack i k
  end.
Fixpoint bottom (k : list frame) : option frame := match k with [] => None | [f] => Some f | _ :: k => bottom k end.
Definition okBottom (line : code) (i : nat) (k : list frame) : Prop :=
  bottom k = Some (Do match i with 0 => Listen line | 1 => Serve CDerive deriveL | 2 => Serve CStore storeEvidenceL | _ => Listen clientL end).
Definition goodT (line : code) (i : nat) (t : thread) : Prop :=
  okStack i (th_todo t) /\ okBottom line i (th_todo t) /\
  (th_waits t = true -> exists l, wants t Wr l).
Definition good (line : code) (st : locks) : Prop :=
  3 <= length (k_threads st) /\ (forall i t, threadAt st i t -> goodT line i t).

Lemma replace_at_length {A} i (v : A) l : length (replace_at i v l) = length l.
Proof. revert i; induction l as [| x l IH]; intros [|i]; cbn; auto. Qed.
Lemma replace_at_same {A} i (v : A) l : i < length l -> nth_error (replace_at i v l) i = Some v.
Proof. revert i; induction l as [| x l IH]; intros [|i] L; cbn in *; try lia; auto. apply IH; lia. Qed.
Lemma replace_at_other {A} i j (v : A) l : i <> j -> nth_error (replace_at i v l) j = nth_error l j.
Proof. revert i j; induction l as [| x l IH]; intros [|i] [|j] N; cbn; auto; try congruence. Qed.
Lemma putT_at st i t j u : threadAt st i t -> forall t', threadAt (putT st i t') j u -> (j = i /\ u = t') \/ (j <> i /\ threadAt st j u).
Proof.
  intros T t' U. unfold threadAt, putT in *. cbn in U. destruct (Nat.eq_dec j i) as [-> | N].
  - rewrite replace_at_same in U by (apply nth_error_Some; congruence). left. split; congruence.
  - rewrite replace_at_other in U by congruence. auto.
Qed.
Lemma putQ_threads st q n : k_threads (putQ st q n) = k_threads st.
Proof. now destruct q. Qed.

(** what a move does to the thread that moves *)
Inductive did (st : locks) (i n : nat) (t : thread) : thread -> (locks -> locks) -> Prop :=
| did_drop m l k : th_todo t = Drop m l :: k -> did st i n t (mkThread k false) (fun s => s)
| did_nop k : th_todo t = Do Nop :: k -> did st i n t (mkThread k false) (fun s => s)
| did_read l c k : th_todo t = Do (Guard Rd l c) :: k -> canRead st i l = true -> did st i n t (mkThread (Do c :: Drop Rd l :: k) false) (fun s => s)
| did_ask l c k : th_todo t = Do (Guard Wr l c) :: k -> th_waits t = false -> did st i n t (mkThread (th_todo t) true) (fun s => s)
| did_write l c k : th_todo t = Do (Guard Wr l c) :: k -> th_waits t = true -> canWrite st l = true -> did st i n t (mkThread (Do c :: Drop Wr l :: k) false) (fun s => s)
| did_then c d k : th_todo t = Do (Then c d) :: k -> did st i n t (mkThread (Do c :: Do d :: k) false) (fun s => s)
| did_one f k : th_todo t = Do (One f) :: k -> did st i n t (mkThread (Do (f n) :: k) false) (fun s => s)
| did_or c d k : th_todo t = Do (Or c d) :: k -> did st i n t (mkThread (Do (if Nat.eqb n 0 then c else d) :: k) false) (fun s => s)
| did_stop c k : th_todo t = Do (Many c) :: k -> n = 0 -> did st i n t (mkThread k false) (fun s => s)
| did_again c k : th_todo t = Do (Many c) :: k -> n <> 0 -> did st i n t (mkThread (Do c :: Do (Many c) :: k) false) (fun s => s)
| did_send q k : th_todo t = Do (Send q) :: k -> queued q st < chanRoom -> did st i n t (mkThread k false) (fun s => putQ s q (S (queued q st)))
| did_listen c k : th_todo t = Do (Listen c) :: k -> did st i n t (mkThread (Do c :: Do (Listen c) :: k) false) (fun s => s)
| did_serve q c k m : th_todo t = Do (Serve q c) :: k -> queued q st = S m -> did st i n t (mkThread (Do c :: Do (Serve q c) :: k) false) (fun s => putQ s q m).
Lemma lmove_did st i n st' : lmove st i n = Some st' -> exists t t' g, threadAt st i t /\ did st i n t t' g /\ st' = g (putT st i t').
Proof.
  unfold lmove, threadAt. destruct (nth_error (k_threads st) i) as [t |] eqn:T; [| discriminate].
  destruct (th_todo t) as [| [c | m l] k] eqn:K; [discriminate | |].
  2: { intro E; inversion E; subst. eexists t, _, (fun s => s). split; [reflexivity | split; [econstructor; eassumption | reflexivity]]. }
  destruct c as [| [|] l c | c d | f | c d | c | q | c | q c].
  - intro E; inversion E; subst. eexists t, _, (fun s => s). split; [reflexivity | split; [eapply did_nop; eassumption | reflexivity]].
  - destruct (canRead st i l) eqn:R; [| discriminate]. intro E; inversion E; subst.
    eexists t, _, (fun s => s). split; [reflexivity | split; [eapply did_read; eassumption | reflexivity]].
  - destruct (th_waits t) eqn:W.
    + destruct (canWrite st l) eqn:R; [| discriminate]. intro E; inversion E; subst.
      eexists t, _, (fun s => s). split; [reflexivity | split; [eapply did_write; eassumption | reflexivity]].
    + intro E; inversion E; subst. exists t, (mkThread (th_todo t) true), (fun s => s).
      split; [reflexivity | split; [eapply did_ask; eassumption | now rewrite K]].
  - intro E; inversion E; subst. eexists t, _, (fun s => s). split; [reflexivity | split; [eapply did_then; eassumption | reflexivity]].
  - intro E; inversion E; subst. eexists t, _, (fun s => s). split; [reflexivity | split; [eapply did_one; eassumption | reflexivity]].
  - intro E; inversion E; subst. eexists t, _, (fun s => s). split; [reflexivity | split; [eapply did_or; eassumption | reflexivity]].
  - destruct (Nat.eqb n 0) eqn:N; intro E; inversion E; subst; eexists t, _, (fun s => s); (split; [reflexivity | split; [| reflexivity]]).
    + eapply did_stop; [eassumption |]. now apply Nat.eqb_eq.
    + eapply did_again; [eassumption |]. now apply Nat.eqb_neq.
  - destruct (Nat.ltb (queued q st) chanRoom) eqn:N; [| discriminate]. intro E; inversion E; subst.
    eexists t, _, _. split; [reflexivity | split; [eapply did_send; [eassumption | now apply Nat.ltb_lt] | reflexivity]].
  - intro E; inversion E; subst. eexists t, _, (fun s => s). split; [reflexivity | split; [eapply did_listen; eassumption | reflexivity]].
  - destruct (queued q st) as [| m] eqn:Q; [discriminate |]. intro E; inversion E; subst.
    eexists t, _, _. split; [reflexivity | split; [eapply did_serve; eassumption | reflexivity]].
Qed.
Lemma did_lmove st i n t t' g : threadAt st i t -> did st i n t t' g -> lmove st i n = Some (g (putT st i t')).
Proof.
  unfold lmove, threadAt. intros T D. rewrite T. inversion D; subst;
    match goal with H : th_todo t = _ |- _ => rewrite H end; try reflexivity.
  - now rewrite H0.
  - now rewrite H0.
  - now rewrite H0, H1.
  - destruct (Nat.eqb n 0) eqn:N; [apply Nat.eqb_eq in N; congruence | reflexivity].
  - replace (Nat.ltb (queued q st) chanRoom) with true; [reflexivity | symmetry; now apply Nat.ltb_lt].
  - now rewrite H0.
Qed.

Lemma bottom_cons f k : k <> [] -> bottom (f :: k) = bottom k.
Proof. destruct k; [congruence | reflexivity]. Qed.
Lemma bottom_some k f : bottom k = Some f -> k <> [].
Proof. intros E ->. discriminate E. Qed.
Lemma bottom_tail f k c : bottom (f :: k) = Some (Do c) -> f <> Do c -> bottom k = Some (Do c).
Proof. intros B N. destruct k; [cbn in B; congruence | exact B]. Qed.
Lemma did_good line st i n t t' g : threadAt st i t -> goodT line i t -> did st i n t t' g -> goodT line i t'.
Proof.
  intros T (O & B & W) D. unfold goodT, okBottom in *.
  assert (KT : forall f k, th_todo t = f :: k -> (forall c, f <> Do (Listen c)) -> (forall q c, f <> Do (Serve q c)) ->
    bottom k = Some (Do match i with 0 => Listen line | 1 => Serve CDerive deriveL | 2 => Serve CStore storeEvidenceL | _ => Listen clientL end)).
  { intros f k K N1 N2. rewrite K in B. apply bottom_tail with (1 := B). destruct i as [| [| [|]]]; auto. }
  inversion D; subst; rename H into K; cbn [th_todo th_waits]; rewrite K in O; cbn [okStack fits] in O;
    (split; [| split; [| try (intro X; discriminate X)]]).
  (* drop *)
  - tauto.
  - eapply KT; [exact K | discriminate | discriminate].
  - tauto.
  - eapply KT; [exact K | discriminate | discriminate].
  - cbn [okStack fits]. change (heldF (Drop Rd l :: k)) with ((Rd, l) :: heldF k). tauto.
  - change (bottom (Do c :: Drop Rd l :: k)) with (bottom (Drop Rd l :: k)).
    rewrite bottom_cons by (eapply bottom_some, KT; [exact K | discriminate | discriminate]).
    eapply KT; [exact K | discriminate | discriminate].
  - rewrite K. cbn [okStack fits]. tauto.
  - rewrite K. rewrite K in B. exact B.
  - intros _. exists l, c, k. exact K.
  - cbn [okStack fits]. change (heldF (Drop Wr l :: k)) with ((Wr, l) :: heldF k). tauto.
  - change (bottom (Do c :: Drop Wr l :: k)) with (bottom (Drop Wr l :: k)).
    rewrite bottom_cons by (eapply bottom_some, KT; [exact K | discriminate | discriminate]).
    eapply KT; [exact K | discriminate | discriminate].
  - cbn [okStack fits]. change (heldF (Do d :: k)) with (heldF k). tauto.
  - change (bottom (Do c :: Do d :: k)) with (bottom (Do d :: k)).
    rewrite bottom_cons by (eapply bottom_some, KT; [exact K | discriminate | discriminate]).
    eapply KT; [exact K | discriminate | discriminate].
  - cbn [okStack]. split; [apply O | apply O].
  - rewrite bottom_cons by (eapply bottom_some, KT; [exact K | discriminate | discriminate]).
    eapply KT; [exact K | discriminate | discriminate].
  - cbn [okStack]. destruct (Nat.eqb n 0); tauto.
  - rewrite bottom_cons by (eapply bottom_some, KT; [exact K | discriminate | discriminate]).
    eapply KT; [exact K | discriminate | discriminate].
  - tauto.
  - eapply KT; [exact K | discriminate | discriminate].
  - cbn [okStack fits]. change (heldF (Do (Many c) :: k)) with (heldF k). tauto.
  - change (bottom (Do c :: Do (Many c) :: k)) with (bottom (Do (Many c) :: k)).
    rewrite bottom_cons by (eapply bottom_some, KT; [exact K | discriminate | discriminate]).
    eapply KT; [exact K | discriminate | discriminate].
  - tauto.
  - eapply KT; [exact K | discriminate | discriminate].
  - cbn [okStack fits]. change (heldF (Do (Listen c) :: k)) with (heldF k). destruct O as ((E & N & F) & O). rewrite E. tauto.
  - rewrite K in B. exact B.
  - cbn [okStack fits]. change (heldF (Do (Serve q c) :: k)) with (heldF k). destruct O as ((E & N & E2 & F) & O). rewrite E. tauto.
  - rewrite K in B. exact B.
Qed.
Lemma good_start line clients : fits 0 [] line -> good line (startL line clients).
Proof.
  intro F. split; [cbn; lia |]. intros i t T. unfold threadAt, startL in T. cbn [k_threads] in T.
  destruct i as [| [| [| i]]]; cbn [nth_error] in T.
  - inversion T; subst. split; [| split; [reflexivity | intro X; discriminate X]]. cbn [okStack th_todo heldF flat_map fits]. auto.
  - inversion T; subst. split; [| split; [reflexivity | intro X; discriminate X]]. cbn [okStack th_todo heldF flat_map fits].
    split; [| exact I]. split; [reflexivity | split; [reflexivity | split; [reflexivity | apply deriveL_fits]]].
  - inversion T; subst. split; [| split; [reflexivity | intro X; discriminate X]]. cbn [okStack th_todo heldF flat_map fits].
    split; [| exact I]. split; [reflexivity | split; [reflexivity | split; [reflexivity | apply storeEvidenceL_fits]]].
  - apply nth_error_In, repeat_spec in T. subst t. split; [| split; [reflexivity | intro X; discriminate X]]. cbn [okStack th_todo heldF flat_map fits].
    split; [| exact I]. split; [reflexivity | split; [right; lia | apply clientL_fits; lia]].
Qed.
Lemma good_move line st i n st' : good line st -> lmove st i n = Some st' -> good line st'.
Proof.
  intros (L & G) M. destruct (lmove_did _ _ _ _ M) as (t & t' & g & T & D & ->).
  assert (Gt : goodT line i t') by (eapply did_good; eauto).
  assert (K : k_threads (g (putT st i t')) = k_threads (putT st i t')) by (inversion D; subst; cbn [k_threads]; now rewrite ?putQ_threads).
  split.
  - rewrite K. cbn. now rewrite replace_at_length.
  - intros j u U. unfold threadAt in U. rewrite K in U. destruct (putT_at _ _ _ _ _ T _ U) as [(-> & ->) | (N & U')]; [exact Gt | now apply G].
Qed.
Lemma reach_good line clients st : fits 0 [] line -> reachL line clients st -> good line st.
Proof. intros F R. induction R; [now apply good_start | eapply good_move; eauto]. Qed.

(** * Nobody waits in a circle *)
Definition mainHolds (st : locks) (l : lock) : bool := match nth_error (k_threads st) 0 with Some t => holds l t | None => false end.
Definition deriverAt (st : locks) (l : lock) : bool :=
  match nth_error (k_threads st) 1 with
  | Some t => match th_todo t with Do (Guard _ l' _) :: _ => lock_eqb l' l | _ => false end
  | None => false
  end.
Definition rank (st : locks) (l : lock) : nat :=
  match l with
  | LProcMem => if mainHolds st LProcMem then 1 else 6
  | LTask _ => if deriverAt st l then 9 else 8
  | _ => base l
  end.
(** how far a waiting thread is *)
Definition aim (st : locks) (i : nat) : nat :=
  match nth_error (k_threads st) i with
  | Some t => match th_todo t with
              | Do (Guard m l _) :: _ => 2 * rank st l + (if isWr m then 1 else 0)
              | _ => 4
              end
  | None => 0
  end.
Lemma holds_in l t : holds l t = true <-> exists m, has t m l.
Proof.
  unfold holds, has, held. rewrite existsb_exists. split.
  - intros ([m l'] & J & E). apply lock_eqb_eq in E. cbn in E. subst. exists m. now apply in_heldF.
  - intros (m & J). exists (m, l). split; [now apply in_heldF | apply lock_eqb_refl].
Qed.
Lemma writes_in l t : writes l t = true <-> has t Wr l.
Proof.
  unfold writes, has, held. rewrite existsb_exists. split.
  - intros ([m l'] & J & E). apply andb_true_iff in E. destruct E as (E1 & E). apply lock_eqb_eq in E. cbn in E, E1. subst.
    destruct m; [discriminate E1 | now apply in_heldF].
  - intros J. exists (Wr, l). split; [now apply in_heldF | cbn; apply lock_eqb_refl].
Qed.
Lemma okStack_has i k m l : okStack i k -> In (Drop m l) k -> uses i m l = true.
Proof.
  induction k as [| [c | m' l'] k IH]; intros O J; [contradiction | |]; cbn in O; destruct O as (O1 & O2).
  - destruct J as [J | J]; [discriminate J | auto].
  - destruct J as [J | J]; [| auto]. inversion J; subst. unfold request in O1. apply andb_true_iff in O1. destruct O1 as (O1 & _).
    apply andb_true_iff in O1. tauto.
Qed.
Lemma wants_request line st i t m l : good line st -> threadAt st i t -> wants t m l ->
  uses i m l = true /\ (forall m' l', has t m' l' -> clash m m' = true -> l' <> l) /\
  (alone i m l = true \/ forall m' l', has t m' l' -> after i l l' = true).
Proof.
  intros (_ & G) T (c & k & K). destruct (G _ _ T) as (O & _ & _). rewrite K in O. cbn [okStack fits] in O. destruct O as ((R & _) & _).
  unfold request in R. apply andb_true_iff in R. destruct R as (R1 & R2). apply andb_true_iff in R1. destruct R1 as (R0 & R1).
  rewrite forallb_forall in R1. unfold has. rewrite K. split; [exact R0 |]. split.
  - intros m' l' [J | J] C E; [discriminate J |]. subst. apply in_heldF in J. specialize (R1 _ J). cbn [fst snd] in R1.
    rewrite C, lock_eqb_refl in R1. discriminate R1.
  - apply orb_true_iff in R2. destruct R2 as [R2 | R2]; [now left | right]. rewrite forallb_forall in R2.
    intros m' l' [J | J]; [discriminate J |]. apply in_heldF in J. exact (R2 _ J).
Qed.
Lemma send_owned line st i t q k : good line st -> threadAt st i t -> th_todo t = Do (Send q) :: k ->
  i = 0 /\ forall m l, has t m l -> base l = 0.
Proof.
  intros (_ & G) T K. destruct (G _ _ T) as (O & _ & _). rewrite K in O. cbn [okStack fits] in O. destruct O as ((R & F) & _).
  split; [exact R |]. rewrite forallb_forall in F. unfold has. rewrite K. intros m l [J | J]; [discriminate J |].
  apply in_heldF in J. specialize (F _ J). now apply Nat.eqb_eq in F.
Qed.
Lemma has_uses line st i t m l : good line st -> threadAt st i t -> has t m l -> uses i m l = true.
Proof. intros (_ & G) T J. destruct (G _ _ T) as (O & _ & _). eapply okStack_has; eauto. Qed.
(** a lock that is in nobody's way *)
Lemma alone_uses i m l : alone i m l = true -> forall j m', j <> i -> uses j m' l = true -> clash m m' = false.
Proof.
  unfold alone, clash. destruct i as [| i]; [| discriminate]. intros A j m' N U.
  apply orb_true_iff in A. destruct A as [A | A].
  - destruct j as [| [| [| j]]]; [congruence | | |]; destruct l; try discriminate A; discriminate U.
  - apply andb_true_iff in A. destruct A as (A1 & A2). apply negb_true_iff in A1. rewrite A1. cbn.
    destruct l; try discriminate A2. destruct j as [| [| [| j]]]; [congruence | | |]; cbn in U; try discriminate U. now apply negb_true_iff in U.
Qed.
Lemma clash_compatible m m' : ~ compatible m m' <-> clash m m' = true.
Proof. unfold compatible, clash. destruct m, m'; cbn; split; intro; try reflexivity; try discriminate; try tauto; intros (? & ?); discriminate. Qed.
Lemma wants_unique t m l m' l' : wants t m l -> wants t m' l' -> m = m' /\ l = l'.
Proof. intros (c & k & K) (c' & k' & K'). rewrite K in K'. inversion K'; auto. Qed.
Lemma alone_never_waits line st i t m l j : good line st -> threadAt st i t -> wants t m l -> alone i m l = true -> ~ waitsFor st i j.
Proof.
  intros G T Wt A W. destruct W as [t' u m1 m2 l' T' U Wt' Aw J C | t' u l' T' U N Wt' Wu Ww | t' k r T' K _ _];
    assert (t' = t) by (unfold threadAt in *; congruence); subst t'.
  - destruct (wants_unique _ _ _ _ _ Wt Wt') as (-> & ->). apply clash_compatible in C.
    destruct (Nat.eq_dec j i) as [-> | N].
    + assert (u = t) by (unfold threadAt in *; congruence); subst u.
      destruct (wants_request _ _ _ _ _ _ G T Wt) as (_ & S & _). exact (S _ _ J C eq_refl).
    + pose proof (alone_uses _ _ _ A j m2 N (has_uses _ _ _ _ _ _ G U J)). congruence.
  - destruct (wants_unique _ _ _ _ _ Wt Wt') as (-> & ->).
    destruct (wants_request _ _ _ _ _ _ G U Wu) as (Us & _). pose proof (alone_uses _ _ _ A j Wr (not_eq_sym N) Us). discriminate.
  - destruct Wt as (c & k' & K'). rewrite K in K'. discriminate K'.
Qed.
Lemma rank_base st l : base l <= rank st l \/ l = LProcMem.
Proof. destruct l; cbn; auto; try (left; lia). left. destruct (deriverAt st (LTask n)); lia. Qed.
Lemma rank_up line st i t m l m' l' : good line st -> threadAt st i t -> wants t m l -> has t m' l' -> after i l l' = true -> rank st l' < rank st l.
Proof.
  intros G T W J A. pose proof (has_uses _ _ _ _ _ _ G T J) as U'.
  destruct (wants_request _ _ _ _ _ _ G T W) as (U & S & _).
  unfold after in A. apply orb_true_iff in A. destruct A as [A | A]; [apply orb_true_iff in A; destruct A as [A | A] |].
  - apply Nat.ltb_lt in A.
    assert (P : l = LProcMem -> mainHolds st LProcMem = false \/ exists z, base l' = z /\ z = 0).
    { intros ->. destruct i as [| [| [| i]]]; try discriminate U.
      - destruct (mainHolds st LProcMem) eqn:H; [| now left]. exfalso. unfold mainHolds, threadAt in *. rewrite T in H. apply holds_in in H.
        destruct H as (m2 & H).
        destruct (wants_request _ _ _ _ _ _ G T W) as (_ & _ & [Al | Af]); [destruct m; discriminate Al |].
        specialize (Af _ _ H). discriminate Af.
      - exfalso. destruct l'; cbn in A, U'; try discriminate U'; lia. }
    destruct l; try (destruct l'; cbn [rank base] in *; repeat match goal with |- context [if ?b then _ else _] => destruct b end; lia).
    destruct (P eq_refl) as [E | (z & Z1 & Z2)].
    + cbn [rank]. rewrite E. destruct l'; cbn [rank base] in *; repeat match goal with |- context [if ?b then _ else _] => destruct b end; lia.
    + destruct l'; cbn [rank base] in *; try lia; repeat match goal with |- context [if ?b then _ else _] => destruct b end; lia.
  - apply andb_true_iff in A. destruct A as (A & A4). apply andb_true_iff in A. destruct A as (A & A3).
    apply andb_true_iff in A. destruct A as (A1 & A2).
    apply Nat.eqb_eq in A1. apply lock_eqb_eq in A2. apply Nat.ltb_lt in A4. apply negb_true_iff, lock_eqb_neq in A3. subst.
    assert (H : mainHolds st LProcMem = true).
    { unfold mainHolds, threadAt in *. rewrite T. apply holds_in. eauto. }
    cbn [rank]. rewrite H. destruct (rank_base st l); [lia | congruence].
  - apply andb_true_iff in A. destruct A as (A1 & A2). apply Nat.eqb_eq in A1. subst.
    destruct l, l'; try discriminate A2. apply negb_true_iff, Nat.eqb_neq in A2. destruct W as (c & k & K). cbn [rank].
    unfold deriverAt, threadAt in *. rewrite T, K. cbn [lock_eqb]. rewrite Nat.eqb_refl.
    destruct (Nat.eqb n n0) eqn:E; [apply Nat.eqb_eq in E; congruence | lia].
Qed.
Lemma aim_wants st i t m l : threadAt st i t -> wants t m l -> aim st i = 2 * rank st l + (if isWr m then 1 else 0).
Proof. unfold aim, threadAt. intros -> (c & k & ->). reflexivity. Qed.
Lemma aim_send st i t q k : threadAt st i t -> th_todo t = Do (Send q) :: k -> aim st i = 4.
Proof. unfold aim, threadAt. now intros -> ->. Qed.

(** a waiting thread waits for one that is free or further *)
Lemma waits_up line st i j k : good line st -> waitsFor st i j -> waitsFor st j k -> aim st i < aim st j.
Proof.
  intros G W1 W2.
  (* what j waits with *)
  assert (Hj : exists u, threadAt st j u /\ ((exists m l, wants u m l /\ alone j m l = false /\ forall m' l', has u m' l' -> rank st l' < rank st l)
                 \/ exists q r, th_todo u = Do (Send q) :: r)).
  { destruct W2 as [u v m1 m2 l U V Wu Aw J C | u v l U V N Wu Wv Ww | u q r U K _ _]; exists u; split; auto.
    - left. exists m1, l. split; [exact Wu |]. destruct (alone j m1 l) eqn:A.
      + exfalso. exact (alone_never_waits _ _ _ _ _ _ k G U Wu A (wf_held _ _ _ _ _ _ _ _ U V Wu Aw J C)).
      + split; [reflexivity |]. intros m' l' H. destruct (wants_request _ _ _ _ _ _ G U Wu) as (_ & _ & [X | X]); [congruence |].
        exact (rank_up _ _ _ _ _ _ _ _ G U Wu H (X _ _ H)).
    - left. exists Rd, l. split; [exact Wu |]. destruct (alone j Rd l) eqn:A.
      + exfalso. exact (alone_never_waits _ _ _ _ _ _ k G U Wu A (wf_fair _ _ _ _ _ _ U V N Wu Wv Ww)).
      + split; [reflexivity |]. intros m' l' H. destruct (wants_request _ _ _ _ _ _ G U Wu) as (_ & _ & [X | X]); [congruence |].
        exact (rank_up _ _ _ _ _ _ _ _ G U Wu H (X _ _ H)).
    - right. eauto. }
  destruct Hj as (u & U & Hj). destruct W1 as [t v m1 m2 l T V Wt Aw J C | t v l T V N Wt Wv Ww | t q r T K F E].
  - assert (v = u) by (unfold threadAt in *; congruence); subst v. rewrite (aim_wants _ _ _ _ _ T Wt).
    destruct Hj as [(m & l2 & Wu & _ & R) | (q & r & K)].
    + rewrite (aim_wants _ _ _ _ _ U Wu). specialize (R _ _ J). destruct (isWr m1), (isWr m); lia.
    + exfalso. destruct (send_owned _ _ _ _ _ _ G U K) as (-> & O). specialize (O _ _ J).
      destruct (wants_request _ _ _ _ _ _ G T Wt) as (Us & S & _). destruct (Nat.eq_dec i 0) as [-> | N].
      * assert (u = t) by (unfold threadAt in *; congruence); subst u. destruct Wt as (c & k' & K'). rewrite K in K'. discriminate K'.
      * destruct i as [| [| [| i]]]; [congruence | | |]; destruct l; cbn in Us, O; discriminate.
  - assert (v = u) by (unfold threadAt in *; congruence); subst v. rewrite (aim_wants _ _ _ _ _ T Wt), (aim_wants _ _ _ _ _ V Wv).
    cbn [isWr]. lia.
  - rewrite (aim_send _ _ _ _ _ T K). destruct (send_owned _ _ _ _ _ _ G T K) as (-> & O). subst j.
    destruct Hj as [(m & l2 & Wu & A & R) | (q' & r' & K')].
    + rewrite (aim_wants _ _ _ _ _ U Wu). destruct (wants_request _ _ _ _ _ _ G U Wu) as (Us & _).
      assert (M : mainHolds st LProcMem = false).
      { unfold mainHolds. unfold threadAt in T. rewrite T. destruct (holds LProcMem t) eqn:H; [| reflexivity].
        apply holds_in in H. destruct H as (m2 & H). specialize (O _ _ H). discriminate O. }
      assert (3 <= rank st l2).
      { destruct q; cbn in Us; destruct l2; cbn in *; try discriminate Us; try lia; try (rewrite M; lia); destruct (deriverAt st (LTask n)); lia. }
      lia.
    + destruct (send_owned _ _ _ _ _ _ G U K') as (E & _). destruct q; discriminate E.
Qed.
Lemma chain_up line st i j : good line st -> waitsChain st i j -> forall k, waitsFor st j k -> aim st i < aim st j.
Proof.
  intros G C. apply Operators_Properties.clos_trans_tn1 in C. induction C as [j W | j j' W C IH]; intros k W2.
  - eapply waits_up; eauto.
  - pose proof (IH _ W). pose proof (waits_up _ _ _ _ _ G W W2). lia.
Qed.
Lemma no_circle line st i : good line st -> ~ waitsChain st i i.
Proof.
  intros G C. pose proof C as C2. apply Operators_Properties.clos_trans_t1n in C2.
  inversion C2 as [y W | y z W _]; subst; pose proof (chain_up _ _ _ _ G C _ W); lia.
Qed.
Lemma rank_top st l : rank st l <= 13.
Proof. destruct l; cbn; try lia; [destruct (deriverAt st _) | destruct (mainHolds st _)]; lia. Qed.
Lemma aim_top st i : aim st i <= 27.
Proof.
  unfold aim. destruct (nth_error (k_threads st) i) as [t |]; [| lia]. destruct (th_todo t) as [| [[] | ] ?]; try lia.
  pose proof (rank_top st l). destruct (isWr m); lia.
Qed.

(** * A thread that does not wait moves or is at rest *)
Lemma canRead_false st i l : canRead st i l = false -> exists j u, threadAt st j u /\ (has u Wr l \/ (j <> i /\ asks l u = true)).
Proof.
  unfold canRead. intro F. assert (X : exists j, In j (seq 0 (length (k_threads st))) /\
    match nth_error (k_threads st) j with Some t => negb (writes l t) && (Nat.eqb j i || negb (asks l t)) | None => true end = false).
  { clear -F. induction (seq 0 (length (k_threads st))) as [| j s IH]; [discriminate F |]. cbn in F. apply andb_false_iff in F.
    destruct F as [F | F]; [exists j; split; [now left | exact F] | destruct (IH F) as (j' & J & E); exists j'; split; [now right | exact E]]. }
  destruct X as (j & _ & E). destruct (nth_error (k_threads st) j) as [u |] eqn:U; [| discriminate E].
  exists j, u. split; [exact U |]. apply andb_false_iff in E. destruct E as [E | E].
  - left. apply writes_in. now apply negb_false_iff in E.
  - right. apply orb_false_iff in E. destruct E as (E1 & E2). split; [now apply Nat.eqb_neq | now apply negb_false_iff in E2].
Qed.
Lemma asks_wants l u : asks l u = true -> wants u Wr l /\ th_waits u = true.
Proof.
  unfold asks. intro A. apply andb_true_iff in A. destruct A as (A & B). split; [| exact A].
  destruct (th_todo u) as [| [[] | ] k] eqn:K; try discriminate B. destruct m; [discriminate B |]. apply lock_eqb_eq in B. subst.
  exists c, k. exact K.
Qed.
Lemma canWrite_false st l : canWrite st l = false -> exists j u m, threadAt st j u /\ has u m l.
Proof.
  unfold canWrite. intro F. assert (X : exists u, In u (k_threads st) /\ holds l u = true).
  { clear -F. induction (k_threads st) as [| u s IH]; [discriminate F |]. cbn in F. apply andb_false_iff in F.
    destruct F as [F | F]; [exists u; split; [now left | now apply negb_false_iff in F] | destruct (IH F) as (u' & J & E); exists u'; split; [now right | exact E]]. }
  destruct X as (u & J & H). apply In_nth_error in J. destruct J as (j & J). apply holds_in in H. destruct H as (m & H). exists j, u, m. auto.
Qed.
Lemma canRead_in st i l j u : threadAt st j u -> has u Wr l \/ (j <> i /\ asks l u = true) -> canRead st i l = false.
Proof.
  intros U H. destruct (canRead st i l) eqn:R; [| reflexivity]. exfalso. unfold canRead in R. rewrite forallb_forall in R.
  assert (L : In j (seq 0 (length (k_threads st)))) by (apply in_seq; assert (j < length (k_threads st)) by (apply nth_error_Some; unfold threadAt in U; congruence); lia).
  specialize (R _ L). unfold threadAt in U. rewrite U in R. apply andb_true_iff in R. destruct R as (R1 & R2). destruct H as [H | (N & H)].
  - apply writes_in in H. rewrite H in R1. discriminate R1.
  - rewrite H in R2. apply orb_true_iff in R2. destruct R2 as [R2 | R2]; [now apply Nat.eqb_eq in R2 | discriminate R2].
Qed.
Lemma canWrite_in st l j u m : threadAt st j u -> has u m l -> canWrite st l = false.
Proof.
  intros U H. destruct (canWrite st l) eqn:R; [| reflexivity]. exfalso. unfold canWrite in R. rewrite forallb_forall in R.
  specialize (R u (nth_error_In _ _ U)). assert (X : holds l u = true) by (apply holds_in; eauto). rewrite X in R. discriminate R.
Qed.
Lemma waits_stuck st i j : waitsFor st i j -> ~ canMove st i.
Proof.
  intros W (n & st' & M). unfold lmove in M. destruct W as [t u m m' l T U (c & k & K) Aw J C | t u l T U N (c & k & K) (c' & k' & K') Ww | t q r T K F E];
    unfold threadAt in T; rewrite T, K in M.
  - destruct m.
    + destruct m'; [exfalso; apply C; split; reflexivity |]. rewrite (canRead_in st i l j u U (or_introl J)) in M. discriminate M.
    + rewrite (Aw eq_refl), (canWrite_in st l j u m' U J) in M. discriminate M.
  - assert (A : asks l u = true) by (unfold asks; rewrite Ww, K'; apply lock_eqb_refl).
    rewrite (canRead_in st i l j u U (or_intror (conj (not_eq_sym N) A))) in M. discriminate M.
  - apply Nat.ltb_ge in F. rewrite F in M. discriminate M.
Qed.
(** a move that brings the thread nearer to rest *)
Definition ahead (st : locks) (i : nat) : Prop := exists t t' g, threadAt st i t /\ did st i 0 t t' g /\ (forall c k, th_todo t <> Do (Listen c) :: k).
Lemma step_or_wait line st i : good line st -> i < length (k_threads st) -> ahead st i \/ atRest st i \/ exists j, waitsFor st i j.
Proof.
  intros G L. destruct (nth_error (k_threads st) i) as [t |] eqn:T; [| apply nth_error_None in T; lia].
  destruct (th_todo t) as [| [c | m l] k] eqn:K.
  - exfalso. destruct G as (_ & G). destruct (G _ _ T) as (_ & B & _). unfold okBottom in B. rewrite K in B. discriminate B.
  - destruct c as [| m l c | c d | f | c d | c | q | c | q c].
    + left. exists t. do 2 eexists. split; [exact T | split; [eapply did_nop; eassumption | rewrite K; discriminate]].
    + assert (Wt : wants t m l) by (exists c, k; exact K). destruct m.
      * destruct (canRead st i l) eqn:R.
        { left. exists t. do 2 eexists. split; [exact T | split; [eapply did_read; eassumption | rewrite K; discriminate]]. }
        destruct (canRead_false _ _ _ R) as (j & u & U & [H | (N & H)]).
        { right; right. exists j. eapply wf_held; eauto; [intro X; discriminate X |]. intros (_ & X); discriminate X. }
        { right; right. exists j. apply asks_wants in H. eapply wf_fair; eauto; tauto. }
      * destruct (th_waits t) eqn:W.
        { destruct (canWrite st l) eqn:R.
          - left. exists t. do 2 eexists. split; [exact T | split; [eapply did_write; eassumption | rewrite K; discriminate]].
          - destruct (canWrite_false _ _ R) as (j & u & m & U & H). right; right. exists j. eapply wf_held; eauto. intros (X & _); discriminate X. }
        { left. exists t. do 2 eexists. split; [exact T | split; [eapply did_ask; eassumption | rewrite K; discriminate]]. }
    + left. exists t. do 2 eexists. split; [exact T | split; [eapply did_then; eassumption | rewrite K; discriminate]].
    + left. exists t. do 2 eexists. split; [exact T | split; [eapply did_one; eassumption | rewrite K; discriminate]].
    + left. exists t. do 2 eexists. split; [exact T | split; [eapply did_or; eassumption | rewrite K; discriminate]].
    + left. exists t. do 2 eexists. split; [exact T | split; [eapply did_stop; [eassumption | reflexivity] | rewrite K; discriminate]].
    + destruct (le_lt_dec chanRoom (queued q st)) as [F | F].
      * right; right. exists (taker q). eapply wf_full; eauto.
      * left. exists t. do 2 eexists. split; [exact T | split; [eapply did_send; eassumption | rewrite K; discriminate]].
    + right; left. exists t, c, k. auto.
    + destruct (queued q st) as [| m] eqn:Q.
      * right; left. exists t, c, k. split; [exact T | right; exists q; auto].
      * left. exists t. do 2 eexists. split; [exact T | split; [eapply did_serve; eassumption | rewrite K; discriminate]].
  - left. exists t. do 2 eexists. split; [exact T | split; [eapply did_drop; eassumption | rewrite K; discriminate]].
Qed.
Lemma waited_not_resting line st i j : good line st -> waitsFor st i j -> j < length (k_threads st) /\ ~ atRest st j.
Proof.
  intros G W. destruct W as [t u m m' l T U Wt Aw J C | t u l T U N Wt Wu Ww | t q r T K F E].
  - split; [apply nth_error_Some; unfold threadAt in U; congruence |].
    intros (v & c & k & V & R). assert (v = u) by (unfold threadAt in *; congruence); subst v.
    destruct G as (_ & G). destruct (G _ _ U) as (O & _ & _).
    destruct R as [R | (q & R & _)]; rewrite R in O; unfold has in J; rewrite R in J; cbn [okStack fits] in O;
      (destruct J as [J | J]; [discriminate J |]); apply in_heldF in J; destruct O as ((E & _) & _); rewrite E in J; contradiction.
  - split; [apply nth_error_Some; unfold threadAt in U; congruence |].
    intros (v & c & k & V & R). assert (v = u) by (unfold threadAt in *; congruence); subst v.
    destruct Wu as (c' & k' & K). destruct R as [R | (q & R & _)]; rewrite R in K; discriminate K.
  - destruct G as (L & G). split; [subst; destruct q; cbn; lia |]. subst j.
    intros (v & c & k & V & R). destruct (G _ _ V) as (O & B & _). destruct R as [R | (q' & R & Q)]; rewrite R in O; cbn [okStack fits] in O.
    + destruct O as ((_ & X & _) & _). destruct q; cbn in X; destruct X as [X | X]; try discriminate X; lia.
    + destruct O as ((_ & X & _) & _). assert (q' = q) by (destruct q, q'; cbn in X; congruence). subst q'. rewrite Q in F. cbn in F. unfold chanRoom in F. lia.
Qed.
(** behind a waiting thread there is one that moves *)
Lemma someone_moves line st : good line st -> forall d i, 28 - aim st i <= d -> i < length (k_threads st) -> ~ atRest st i ->
  exists j, clos_refl_trans nat (waitsFor st) i j /\ ahead st j.
Proof.
  intros G. induction d as [| d IH]; intros i D L N.
  - pose proof (aim_top st i). lia.
  - destruct (step_or_wait _ _ i G L) as [A | [R | (j & W)]].
    + exists i. split; [apply rt_refl | exact A].
    + contradiction.
    + destruct (waited_not_resting _ _ _ _ G W) as (Lj & Nj).
      destruct (step_or_wait _ _ j G Lj) as [A | [R | (k & W2)]].
      * exists j. split; [apply rt_step; exact W | exact A].
      * contradiction.
      * pose proof (waits_up _ _ _ _ _ G W W2). destruct (IH j) as (x & C & A); [lia | exact Lj | exact Nj |].
        exists x. split; [eapply rt_trans; [apply rt_step; exact W | exact C] | exact A].
Qed.

(** * Everything can be finished *)
(** how many moves it takes when loops are left at once; [w]: what a message costs *)
Fixpoint cost (w : chan -> nat) (c : code) : nat :=
  match c with
  | Nop => 2
  | Guard _ _ c => 4 + cost w c
  | Then c d => 2 + cost w c + cost w d
  | One f => 2 + cost w (f 0)
  | Or c _ => 2 + cost w c
  | Many _ => 2
  | Send q => 2 + w q
  | Listen _ | Serve _ _ => 0
  end.
Definition msgCost (q : chan) : nat := 2 + cost (fun _ => 0) match q with CDerive => deriveL | CStore => storeEvidenceL end.
Definition frameCost (f : frame) : nat := match f with Do c => cost msgCost c | Drop _ _ => 2 end.
Definition threadCost (t : thread) : nat := list_sum (map frameCost (th_todo t)) + (if th_waits t then 0 else 1).
Definition total (st : locks) : nat :=
  list_sum (map threadCost (k_threads st)) + k_derive st * msgCost CDerive + k_store st * msgCost CStore.
Lemma cost_serve q : cost msgCost match q with CDerive => deriveL | CStore => storeEvidenceL end + 2 = msgCost q.
Proof. destruct q; reflexivity. Qed.
Lemma sum_replace {A} (f : A -> nat) i t t' l : nth_error l i = Some t ->
  list_sum (map f (replace_at i t' l)) + f t = list_sum (map f l) + f t'.
Proof.
  revert i; induction l as [| x l IH]; intros [| i] E; cbn in *; try discriminate.
  - inversion E; subst. lia.
  - specialize (IH _ E). unfold list_sum in IH. lia.
Qed.
Lemma total_putT st i t t' : threadAt st i t -> total (putT st i t') + threadCost t = total st + threadCost t'.
Proof. intro T. unfold total, putT. cbn [k_threads k_derive k_store]. pose proof (sum_replace threadCost i t t' _ T). lia. Qed.
Lemma total_putQ st q n : total (putQ st q n) + queued q st * msgCost q = total st + n * msgCost q.
Proof. unfold total. destruct q; cbn [putQ k_threads k_derive k_store queued]; lia. Qed.
Lemma did_cheaper line st i t t' g : good line st -> threadAt st i t -> did st i 0 t t' g -> (forall c k, th_todo t <> Do (Listen c) :: k) ->
  total (g (putT st i t')) < total st.
Proof.
  intros G T D NL. pose proof (total_putT st i t t' T) as P.
  assert (Q : forall q, queued q (putT st i t') = queued q st) by (intros []; reflexivity).
  destruct G as (_ & G). destruct (G _ _ T) as (O & _ & _).
  inversion D; subst; rename H into K; unfold threadCost in P; rewrite ?K in P; cbn [th_todo th_waits map frameCost cost list_sum fold_right Nat.eqb] in P;
    rewrite ?K in O; cbn [okStack fits] in O; try (destruct (th_waits t); lia).
  - rewrite K. rewrite H0 in P. lia.
  - cbn [Nat.eqb]. destruct (th_waits t); lia.
  - pose proof (total_putQ (putT st i (mkThread k false)) q (S (queued q st))) as PQ. rewrite Q in PQ.
    assert (msgCost q * 1 = msgCost q) by lia. destruct (th_waits t); lia.
  - exfalso. eapply NL; eassumption.
  - pose proof (total_putQ (putT st i (mkThread (Do c :: Do (Serve q c) :: k) false)) q m) as PQ. rewrite Q, H0 in PQ.
    destruct O as ((_ & _ & E & _) & _). pose proof (cost_serve q) as CS. rewrite <- E in CS.
    cbn [map frameCost cost] in P. destruct (th_waits t); lia.
Qed.
Definition allRest (st : locks) : Prop := forall i, i < length (k_threads st) -> atRest st i.
Lemma rest_dec st i : {atRest st i} + {~ atRest st i}.
Proof.
  destruct (nth_error (k_threads st) i) as [t |] eqn:T; [| right; intros (u & c & k & U & _); unfold threadAt in U; congruence].
  destruct (th_todo t) as [| [c | m l] k] eqn:K;
    try (right; intros (u & c' & k' & U & [R | (q & R & _)]); unfold threadAt in U; assert (u = t) by congruence; subst; rewrite K in R; discriminate R).
  destruct c as [| m l c | c d | f | c d | c | q | c | q c];
    try (right; intros (u & c' & k' & U & [R | (q' & R & _)]); unfold threadAt in U; assert (u = t) by congruence; subst; rewrite K in R; discriminate R).
  - left. exists t, c, k. auto.
  - destruct (queued q st) as [| n] eqn:Q.
    + left. exists t, c, k. split; [exact T | right; exists q; auto].
    + right; intros (u & c' & k' & U & [R | (q' & R & Z)]); unfold threadAt in U; assert (u = t) by congruence; subst; rewrite K in R; [discriminate R |].
      inversion R; subst. congruence.
Qed.
Lemma all_rest_dec st : allRest st \/ exists i, i < length (k_threads st) /\ ~ atRest st i.
Proof.
  unfold allRest. generalize (length (k_threads st)) as n. induction n as [| n IH]; [left; lia |].
  destruct IH as [IH | (i & L & N)]; [| right; exists i; split; [lia | exact N]].
  destruct (rest_dec st n) as [R | R]; [left | right; exists n; split; [lia | exact R]].
  intros i L. destruct (Nat.eq_dec i n) as [-> | X]; [exact R | apply IH; lia].
Qed.
Lemma finish line st : good line st -> exists st', runs st st' /\ good line st' /\ allRest st'.
Proof.
  remember (total st) as m. revert st Heqm. induction m as [m IH] using lt_wf_ind. intros st -> G.
  destruct (all_rest_dec st) as [R | (i & L & N)].
  - exists st. split; [constructor | auto].
  - destruct (someone_moves _ _ G 28 i (ltac:(lia)) L N) as (j & _ & (t & t' & g & T & D & NL)).
    pose proof (did_lmove _ _ _ _ _ _ T D) as M. pose proof (did_cheaper _ _ _ _ _ _ G T D NL) as C.
    destruct (IH _ C _ eq_refl (good_move _ _ _ _ _ G M)) as (st' & R & G' & A).
    exists st'. split; [econstructor; eauto | auto].
Qed.
Lemma rest_no_locks line st : good line st -> allRest st -> forall i t m l, threadAt st i t -> ~ has t m l.
Proof.
  intros (_ & G) A i t m l T J.
  destruct (A i) as (u & c & k & U & R); [apply nth_error_Some; unfold threadAt in T; congruence |].
  assert (u = t) by (unfold threadAt in *; congruence); subst u. destruct (G _ _ T) as (O & _ & _).
  destruct R as [R | (q & R & _)]; rewrite R in O; unfold has in J; rewrite R in J; cbn [okStack fits] in O;
    (destruct J as [J | J]; [discriminate J |]); apply in_heldF in J; destruct O as ((E & _) & _); rewrite E in J; contradiction.
Qed.
Lemma rest_no_messages line st : good line st -> allRest st -> forall q, queued q st = 0.
Proof.
  intros (L & G) A q. destruct (A (taker q)) as (u & c & k & U & R); [destruct q; cbn; lia |].
  destruct (G _ _ U) as (O & _ & _). destruct R as [R | (q' & R & Q)]; rewrite R in O; cbn [okStack fits] in O.
  - destruct O as ((_ & X & _) & _). destruct q; cbn in X; destruct X as [X | X]; try discriminate X; lia.
  - destruct O as ((_ & X & _) & _). assert (q' = q) by (destruct q, q'; cbn in X; congruence). now subst q'.
Qed.
Lemma runs_reach line clients st st' : reachL line clients st -> runs st st' -> reachL line clients st'.
Proof. intros R X. induction X; [exact R |]. apply IHX. econstructor; eauto. Qed.
