(** Sessions with typed rules. *)
From Coq Require Import String Ascii ZArith Bool Lia List.
From Verif Require Import Base F64_Model Term_Model Term_Spec Term_Proofs Unify_Proofs Stamp_Model Tv_Model Sentence_Model Mem_Model Cycle_Model Mem_Spec Mem_Proofs PMem_Model PMem_Proofs
  Goal_Model Goal_Spec Goal_Proofs Goal2_Proofs Goal3_Proofs Goal4_Proofs Proc_Model Proc_Spec ProcA_Proofs ProcB_Proofs ProcV_Proofs Parser_Model Nar_Model Nar_Spec Nar_Proofs Nar2_Proofs Serial_Spec Teach_Spec Teach_Proofs Teach2_Proofs Plan_Spec Plan_Proofs.
Import ListNotations.
Local Open Scope string_scope.
Local Open Scope list_scope.
Local Open Scope Z_scope.

(** * The memory after rules were typed *)
(** the beliefs are listed in the book [K] *)
Definition entered (K : list (term * stamp)) (b : sentence) : Prop :=
  In (s_term b, s_stamp b) K /\ s_stamp b <> [] /\ s_evi b = Some (CNT 10 10) /\ s_expDt b = None /\ s_punct b = JUGEMENT.
Definition enteredC (K : list (term * stamp)) (c : concept) : Prop :=
  (forall b, In b (byExp c) \/ In b (byUsage c) -> entered K b) /\ noDoubleEvidence (byExp c) /\ noDoubleEvidence (byUsage c).
Definition enteredM (K : list (term * stamp)) (m : mem) : Prop := mapOk m /\ forall t c, holds m t c -> enteredC K c.
Lemma entered_length : forall K l, (forall b, In b l -> entered K b) -> noDoubleEvidence l -> (length l <= length K)%nat.
Proof.
  intros K l F N. rewrite <- (map_length (fun b => (s_term b, s_stamp b)) l). apply NoDup_incl_length.
  - induction N as [|a l H N IH]; [constructor|]. cbn [map]. constructor; [|apply IH; intros; apply F; now right].
    intros Hin. apply in_map_iff in Hin. destruct Hin as (b & E & Hb). injection E as E1 E2. rewrite Forall_forall in H. apply (H b Hb (eq_sym E1)).
    destruct (F a (or_introl eq_refl)) as (_ & Na & _). destruct (s_stamp a) as [|i st] eqn:Es; [congruence|]. exists i. rewrite Es, E2. split; now left.
  - intros t Ht. apply in_map_iff in Ht. destruct Ht as (b & <- & Hb). apply (F b Hb).
Qed.
Lemma enteredC_more : forall K x c, enteredC K c -> enteredC (x :: K) c.
Proof. intros K x c (X & Y). split; [|auto]. intros b Hb. destruct (X b Hb) as (H & H'). split; [now right|auto]. Qed.
Lemma enteredM_more : forall K x m, enteredM K m -> enteredM (x :: K) m.
Proof. intros K x m (X & Y). split; [auto|]. intros k c H. apply enteredC_more. eauto. Qed.
Lemma enteredC_new : forall K s t, entered K s -> enteredC K (mkConcept t [s] [s]).
Proof. intros K s t F. split; [|split; constructor; constructor]. cbn. intros b [[<-|[]]|[<-|[]]]; auto. Qed.
Lemma enteredC_upd : forall K s n us now c e u, entered K s -> enteredC K c -> storeTable expKey n s (byExp c) = Ok e -> storeTable (usageKey us now) n s (byUsage c) = Ok u ->
  enteredC K (mkConcept (c_name c) e u).
Proof.
  intros K s n us now c e u F (X & Y & Z) E U. split; [|split; [eapply storeTable_disj; eauto|eapply storeTable_disj; eauto]].
  cbn. intros b [B|B]; eapply storeTable_in in B; eauto; destruct B as [B| ->]; auto.
Qed.
(** belief [T] can be found at the concept [A] *)
Definition foundAt (A T : term) (m : mem) : Prop := exists c b, mget A m = Some c /\ In b (byExp c) /\ s_term b = T.
Lemma store1_in : forall K n us now s m t m', (length K < n)%nat -> entered K s -> enteredM K m -> storeInConcept us s n now m t = Ok m' ->
  enteredM K m' /\ (forall A T, foundAt A T m -> foundAt A T m') /\ foundAt t (s_term s) m'.
Proof.
  intros K n us now s m t m' L F M H.
  assert (M' : enteredM K m').
  { refine (store1_inv n (enteredC K) s _ _ us now m t m' M H); [intros t'; now apply enteredC_new|intros; eapply enteredC_upd; eauto]. }
  split; [exact M'|]. pose proof (store1_well _ _ _ _ _ _ _ (proj1 M) H) as (_ & W & Fr). apply storeInConcept_ok in H. split.
  - intros A T (c & b & G & B & E). destruct (term_eq_dec A t) as [Et|N]; [subst t|exists c, b; rewrite Fr by auto; auto].
    destruct H as [(c0 & e & u & G' & E1 & E2 & ->)|[G' _]]; [|congruence]. assert (c0 = c) by congruence. subst c0.
    exists (mkConcept (c_name c) e u), b. rewrite mget_mset, checkEqTerm_refl. split; [reflexivity|]. split; [|exact E]. cbn [byExp].
    destruct (storeTable_kept _ _ _ _ _ b E1 B) as [K1|(K1 & _)]; [exact K1|]. exfalso.
    destruct M as (Mo & M). assert (Hc : enteredC K c) by (apply (M A); now apply mget_in). destruct (enteredC_upd K s n us now c e u F Hc E1 E2) as (X & Y & _).
    pose proof (entered_length K e (fun b Hb => X b (or_introl Hb)) Y) as Le. lia.
  - destruct W as (c & G & _ & P & _). destruct P as [P|[(b & Hb & Eb & _)|(P & _)]]; [exists c, s; auto|exists c, b; split; [auto|split; [auto|congruence]]|].
    exfalso. destruct M' as (_ & M'). destruct (M' t c) as (X & Y & _); [now apply mget_in|]. pose proof (entered_length K (byExp c) (fun b Hb => X b (or_introl Hb)) Y) as Le. lia.
Qed.
Lemma store_in : forall K n us now s ts m m', (length K < n)%nat -> entered K s -> enteredM K m -> rfold (storeInConcept us s n now) ts m = Ok m' ->
  enteredM K m' /\ (forall A T, foundAt A T m -> foundAt A T m') /\ (forall A, In A ts -> foundAt A (s_term s) m').
Proof.
  intros K n us now s. induction ts as [|t ts IH]; intros m m' L F M H; cbn [rfold] in H.
  - injection H as <-. split; [auto|]. split; [auto|intros A []].
  - destruct (storeInConcept us s n now m t) as [m1|] eqn:E; [|discriminate]. cbn [rbind] in H. apply (store1_in K) in E; auto. destruct E as (M1 & K1 & K2).
    destruct (IH _ _ L F M1 H) as (M2 & K3 & K4). split; [auto|]. split; [auto|]. intros A [->|Hin]; auto.
Qed.
Lemma internal_in : forall K us m s n now m', (length K < n)%nat -> entered K s -> wfP m -> enteredM K (deref m) -> mem_add_evidence_internal us m s n now = Ok m' ->
  wfP m' /\ enteredM K (deref m') /\ (forall A T, foundAt A T (deref m) -> foundAt A T (deref m')) /\ forall A O C, s_term s = Stmt PREDIMPL (Seq [A; O]) C -> foundAt A (s_term s) (deref m').
Proof.
  intros K us m s n now m' L F W M H. apply internal_ok in H. destruct H as (cond & pred & (rest & I) & H).
  pose proof (pStore_refines us m s (retSubterms cond ++ retSubterms pred) n now W) as R. rewrite H in R. destruct R as (R & W' & _).
  split; [exact W'|]. apply store2_cases in R. destruct R as [(J & _)|(_ & R)]; [destruct F as (_ & _ & _ & _ & F); congruence|].
  apply (store_in K) in R; auto. destruct R as (M' & K1 & K2). split; [auto|]. split; [auto|]. intros A O C E. apply K2. apply in_or_app. left.
  rewrite I in E. injection E as -> _ _. apply head_sub.
Qed.
(** generalisations are about situations that are left open *)
Definition open (t : term) : Prop := forall X rest p, t = Stmt PREDIMPL (Seq (X :: rest)) p -> ~ ground X.
Lemma intro_open : forall s ds vs, ground (s_term s) -> matchandintro_var1_sentence s ds = Ok vs ->
  vs = [] \/ exists v, vs = [v] /\ open (s_term v) /\ s_stamp v = s_stamp s /\ s_expDt v = s_expDt s /\ s_evi v = s_evi s /\ s_punct v = s_punct s.
Proof.
  intros s ds vs G H. apply intro_spec in H. destruct H as [->|(subj & prop & o & e & x & v & Es & _ & -> & Ev & B)]; [now left|]. right. exists v. split; [reflexivity|].
  split; [|rewrite Ev; cbn; auto]. destruct B as (B1 & B2); [intros Oc; apply (G _ Oc); exact I|].
  intros X rest p Et GX. apply B2. rewrite Et in B1 |- *. rewrite Es in B1. unfold replVar in B1. cbn [inst map] in B1. injection B1 as B1 _ _. rewrite ground_inst in B1 by exact GX. rewrite B1.
  assert (Cm : forall x y, component x y -> (forall r i l, y <> Img r i l) -> vcomponent x y) by (intros a b Ca Na; split; [exact Ca|intros r i l Eb; exfalso; eapply Na; eauto]).
  eapply Relation_Operators.rt_trans; [|eapply Relation_Operators.rt_trans].
  - apply Relation_Operators.rt_step. apply (Cm subj (Stmt INH subj (SetInt prop))); [constructor|intros; discriminate].
  - apply Relation_Operators.rt_step. apply (Cm (Stmt INH subj (SetInt prop)) (Seq (Stmt INH subj (SetInt prop) :: rest))); [constructor; now left|intros; discriminate].
  - apply Relation_Operators.rt_step. apply Cm; [constructor|intros; discriminate].
Qed.
(** everything in the book is one of the rules or a generalisation *)
Definition book (rules : list rule) (K : list (term * stamp)) : Prop :=
  (length K <= 2 * length rules)%nat /\
  forall t st, In (t, st) K -> ~ In (-1) st /\ ((exists ru, In ru rules /\ t = ruleTerm ru) \/ open t).
Definition schooled (rules : list rule) (m : pmem) : Prop :=
  wfP m /\ (exists K, book rules K /\ enteredM K (deref m)) /\ forall A O C, In (Rule A O C) rules -> foundAt A (ruleTerm (Rule A O C)) (deref m).
Lemma schooled_more : forall rules ru us m id u n now ds m', schooled rules m -> ground (ruleTerm ru) -> 0 <= id -> (2 * S (length rules) < n)%nat ->
  mem_add_evidence us m (mkSentence (ruleTerm ru) None JUGEMENT [id] None (Some (CNT 10 10)) u) n now ds = Ok m' -> schooled (rules ++ [ru]) m'.
Proof.
  intros rules ru us m id u n now ds m' (W & (K & (LK & BK) & M) & Fo) G Id L H. set (s := mkSentence _ _ _ _ _ _ _) in H. destruct ru as [A O C].
  unfold mem_add_evidence in H. destruct (mem_add_evidence_internal us m s n now) as [m1|] eqn:E1; [|discriminate]. cbn [rbind] in H.
  assert (Nid : ~ In (-1) [id]) by (intros [X|[]]; lia).
  set (K1 := (ruleTerm (Rule A O C), [id]) :: K).
  apply (internal_in K1) in E1; [|cbn [K1 length]; lia|split; [now left|]; split; [discriminate|]; repeat split|exact W|now apply enteredM_more].
  destruct E1 as (W1 & M1 & F1 & F2). specialize (F2 A O C eq_refl).
  assert (B1 : forall t st, In (t, st) K1 -> ~ In (-1) st /\ ((exists ru, In ru (rules ++ [Rule A O C]) /\ t = ruleTerm ru) \/ open t)).
  { intros t st [E|Hin].
    - injection E as <- <-. split; [exact Nid|]. left. exists (Rule A O C). split; [apply in_or_app; right; now left|reflexivity].
    - destruct (BK t st Hin) as (X & [(ru & Y & Z)|Y]); split; auto. left. exists ru. split; [apply in_or_app; now left|exact Z]. }
  assert (Fo1 : forall A' O' C', In (Rule A' O' C') (rules ++ [Rule A O C]) -> foundAt A' (ruleTerm (Rule A' O' C')) (deref m1)).
  { intros A' O' C' Hin. apply in_app_or in Hin. destruct Hin as [Hin|[E|[]]]; [apply F1; now apply Fo|]. injection E as <- <- <-. exact F2. }
  destruct (matchandintro_var1_sentence s ds) as [vs|] eqn:V; [|discriminate]. cbn [rbind] in H.
  destruct (intro_open s ds vs G V) as [->|(v & -> & Ov & S1 & S2 & S3 & S4)]; cbn [rfold] in H.
  - injection H as <-. split; [exact W1|]. split; [|exact Fo1]. exists K1. split; [split|exact M1]; [cbn [K1 length]; rewrite app_length; cbn [length]; lia|exact B1].
  - destruct (mem_add_evidence_internal us m1 v n now) as [m2|] eqn:E2; [|discriminate]. cbn [rbind] in H. injection H as <-.
    apply (internal_in ((s_term v, [id]) :: K1)) in E2; [|cbn [K1 length]; lia| |exact W1|now apply enteredM_more].
    2: { split; [rewrite S1; now left|]. split; [rewrite S1; discriminate|]. rewrite S2, S3, S4. repeat split. }
    destruct E2 as (W2 & M2 & F3 & _). split; [exact W2|]. split.
    + exists ((s_term v, [id]) :: K1). split; [split|exact M2]; [cbn [K1 length]; rewrite app_length; cbn [length]; lia|].
      intros t st [E|Hin]; [injection E as <- <-; auto|now apply B1].
    + intros A' O' C' Hin. apply F3. now apply Fo1.
Qed.
Lemma schooled_none : schooled [] pmemMake.
Proof.
  split; [intros t c a []|]. split; [|intros A O C []]. exists []. split; [split; [cbn; lia|intros t st []]|]. split; [split; [constructor|intros t c []]|]. intros t c [].
Qed.
(** what can be found for a situation *)
Lemma schooled_relevant : forall rules n A O C, schooled rules (n_mem n) -> ground A -> theWay rules A O C ->
  (exists a, relevant n A a) /\
  forall a, relevant n A a -> leads n A O C a /\ s_evi (rd (cells (n_mem n)) a) = Some (CNT 10 10) /\ s_expDt (rd (cells (n_mem n)) a) = None.
Proof.
  intros rules n A O C (W & (K & (LK & BK) & (Mo & M)) & Fo) GA (Hin & Only). split.
  - destruct (Fo A O C Hin) as (c & b & G & B & E).
    assert (Hb : In b (ret_beliefs_by_terms_nonunique (deref (n_mem n)) [A])).
    { apply (retrieve_many _ _ _ Mo). exists A, A, c. split; [now left|]. split; [apply Relation_Operators.rt_refl|]. split; [now apply mget_in|auto]. }
    rewrite <- pBeliefs_refines in Hb. apply in_map_iff in Hb. destruct Hb as (a & Ea & Ha). exists a. split; [exact Ha|]. exists [O], C. rewrite Ea. exact E.
  - intros a (Ha & rest & p & Et). apply (in_map (rd (cells (n_mem n)))) in Ha. rewrite pBeliefs_refines in Ha. apply (retrieve_many _ _ _ Mo) in Ha. destruct Ha as (t & st & c & _ & _ & Hc & Hb).
    destruct (M st c Hc) as (X & _). destruct (X (rd (cells (n_mem n)) a)) as (In_ & _ & Ev & Ex & _); [auto|]. split; [|auto].
    destruct (BK _ _ In_) as (Nm & [([A' O' C'] & Hr & Er)|Op]); [|exfalso; eapply Op; eauto].
    rewrite Et in Er. cbn [ruleTerm] in Er. injection Er as -> -> ->. destruct (Only _ _ Hr) as (-> & ->). split; [exact Et|exact Nm].
Qed.

Lemma schooled_rule : forall rules n A a, schooled rules (n_mem n) -> ground A -> relevant n A a ->
  exists O C, In (Rule A O C) rules /\ leads n A O C a /\ s_evi (rd (cells (n_mem n)) a) = Some (CNT 10 10) /\ s_expDt (rd (cells (n_mem n)) a) = None.
Proof.
  intros rules n A a (W & (K & (LK & BK) & (Mo & M)) & Fo) GA (Ha & rest & p & Et). apply (in_map (rd (cells (n_mem n)))) in Ha. rewrite pBeliefs_refines in Ha. apply (retrieve_many _ _ _ Mo) in Ha. destruct Ha as (t & st & c & _ & _ & Hc & Hb).
  destruct (M st c Hc) as (X & _). destruct (X (rd (cells (n_mem n)) a)) as (In_ & _ & Ev & Ex & _); [auto|].
  destruct (BK _ _ In_) as (Nm & [([A' O' C'] & Hr & Er)|Op]); [|exfalso; eapply Op; eauto].
  rewrite Et in Er. cbn [ruleTerm] in Er. injection Er as -> -> ->. exists O', C'. split; [exact Hr|]. split; [split; [exact Et|exact Nm]|auto].
Qed.
Lemma schooled_some : forall rules n A O C, schooled rules (n_mem n) -> In (Rule A O C) rules -> exists a, relevant n A a.
Proof.
  intros rules n A O C (W & (K & _ & (Mo & M)) & Fo) Hin. destruct (Fo A O C Hin) as (c & b & G & B & E).
  assert (Hb : In b (ret_beliefs_by_terms_nonunique (deref (n_mem n)) [A])).
  { apply (retrieve_many _ _ _ Mo). exists A, A, c. split; [now left|]. split; [apply Relation_Operators.rt_refl|]. split; [now apply mget_in|auto]. }
  rewrite <- pBeliefs_refines in Hb. apply in_map_iff in Hb. destruct Hb as (a & Ea & Ha). exists a. split; [exact Ha|]. exists [O], C. rewrite Ea. exact E.
Qed.

(** * The session *)
Lemma turn_session : forall pf t log n n' q, session log n -> takeTurn pf t n = Ok (n', q) -> exists log', session log' n'.
Proof.
  intros pf t log n n' q S H. destruct t as [line r| |ds]; cbn [takeTurn] in H.
  - destruct (facade pf n line r) as [[[n1 q1] x]|] eqn:F; [|discriminate]. cbn [rbind fst snd] in H. injection H as <- <-. destruct (facade_session pf _ _ _ _ _ _ _ S F) as (l & K). eauto.
  - destruct (declWork n) as [n1|] eqn:F; [|discriminate]. cbn [rbind] in H. injection H as <- <-. eexists. eapply ss_declWork; eauto.
  - destruct (procWork n ds) as [n1|] eqn:F; [|discriminate]. cbn [rbind] in H. injection H as <- <-. eexists. eapply ss_procWork; eauto.
Qed.
Definition inS (n : nar) (p : pnar) (q : list msg) : Prop := at_ n p q /\ exists log, session log n.
Lemma nextS : forall pf t ts b n x p q, mixed pf (t :: ts) b -> inS n p q -> takeTurns pf b n = Ok x ->
  exists b' n', mixed pf ts b' /\ inS n' p q /\ takeTurns pf (t :: b') n' = Ok x.
Proof.
  intros pf t ts b n x p q M. remember (t :: ts) as l eqn:E. revert n. induction M as [|t0 a b M IH|t0 a b As M IH]; intros n At H; [discriminate E| |].
  - injection E as -> ->. exists b, n. auto.
  - cbn [takeTurns] in H. destruct (takeTurn pf t0 n) as [[n1 q1]|] eqn:T0; [|discriminate H]. cbn [rbind fst snd] in H. destruct At as ((A1 & A2) & log & S). destruct (turn_session _ _ _ _ _ _ S T0) as (log' & S').
    apply As in T0. destruct T0 as (-> & T1 & T2). apply (IH E n1); [|exact H]. split; [split; congruence|eauto].
Qed.
Lemma split1 : forall pf t ts n x log, session log n -> takeTurns pf (t :: ts) n = Ok x -> exists n1 q1 log', takeTurn pf t n = Ok (n1, q1) /\ session log' n1 /\ (q1 = false -> takeTurns pf ts n1 = Ok x).
Proof.
  intros pf t ts n x log S H. cbn [takeTurns] in H. destruct (takeTurn pf t n) as [[n1 q1]|] eqn:T; [|discriminate H]. cbn [rbind fst snd] in H.
  destruct (turn_session _ _ _ _ _ _ S T) as (log' & S'). exists n1, q1, log'. split; [reflexivity|]. split; [exact S'|]. intros ->. exact H.
Qed.
Lemma rule_line : forall pf line r ru ts n x p q, states pf line (ruleTerm ru) -> inS n p q -> takeTurns pf (TLine line r :: ts) n = Ok x ->
  exists n' m id u us now ds, takeTurns pf ts n' = Ok x /\ inS n' (setMem p m) q /\ 0 <= id /\
    mem_add_evidence us (n_mem p) (mkSentence (ruleTerm ru) None JUGEMENT [id] None (Some (CNT 10 10)) u) 20 now ds = Ok m.
Proof.
  intros pf line r ru ts n x p q (c & i & v & Tr & N1 & N2 & As & Pa) ((E1 & E2) & log & S) H.
  destruct (split1 _ _ _ _ _ _ S H) as (n1 & q1 & log' & T & S' & H'). cbn [takeTurn] in T.
  assert (Sp : forall k, ~ splits (c :: i) k).
  { intros k (d & E & Cb). apply nth_error_In in E. unfold asciiText in As. rewrite Forall_forall in As. apply As in E. unfold contByte in Cb. lia. }
  rewrite (facade_narsese pf n line r c i) in T; auto. unfold inputN in T. rewrite Pa in T. cbn [rbind] in T. destruct (inputT2 _ _ _ _ _ _) as [n2|] eqn:I; [|discriminate T]. cbn [rbind fst snd] in T. injection T as <- <-.
  apply input_cases in I. destruct (session_run _ _ S) as ((Ct & _) & _ & NB). destruct I as [(Nt & _)|(_ & m & Ad & ->)]; [exfalso; apply Nt; destruct ru; eexists _, _; reflexivity|].
  rewrite NB, E1 in Ad. eexists _, m, (stampCtr (nr_decl n)), _, _, _, _. split; [apply H'; reflexivity|]. split; [split; [split; cbn; [now rewrite E1|exact E2]|eauto]|]. split; [lia|exact Ad].
Qed.
Lemma rules_end : forall pf rules lines done ts b n x p q, ruleLines pf rules lines -> Forall (fun ru => ground (ruleTerm ru)) rules -> (length (done ++ rules) <= 9)%nat ->
  inS n p q -> schooled done (n_mem p) -> mixed pf (map (fun l => TLine (fst l) (snd l)) lines ++ ts) b -> takeTurns pf b n = Ok x ->
  exists n' m b', mixed pf ts b' /\ takeTurns pf b' n' = Ok x /\ inS n' (setMem p m) q /\ schooled (done ++ rules) m.
Proof.
  intros pf rules lines done ts b n x p q RL. revert done b n p. induction RL as [|ru [line r] rules lines St RL IH]; intros done b n p G L At Sc Mx H; cbn [map app fst snd] in *.
  - exists n, (n_mem p), b. rewrite app_nil_r. split; [exact Mx|]. split; [exact H|]. split; [destruct p; exact At|exact Sc].
  - destruct (nextS _ _ _ _ _ _ _ _ Mx At H) as (b' & n' & Mx' & At' & H'). apply (rule_line _ _ _ _ _ _ _ _ _ St At') in H'.
    destruct H' as (n2 & m & id & u & us & now & ds & H2 & At2 & Id & Ad). rewrite app_length in L. cbn [length] in L.
    apply (schooled_more done) in Ad; [|exact Sc|now inversion G|exact Id|lia].
    destruct (IH (done ++ [ru]) b' n2 (setMem p m)) as (n3 & m3 & b3 & Mx3 & H3 & At3 & Sc3).
    + now inversion G.
    + rewrite <- app_assoc. cbn [app length]. rewrite app_length. cbn [length]. lia.
    + exact At2.
    + exact Ad.
    + exact Mx'.
    + exact H2.
    + exists n3, m3, b3. split; [exact Mx3|]. split; [exact H3|]. split; [destruct p; exact At3|]. rewrite <- app_assoc in Sc3. exact Sc3.
Qed.
(** the wish and the situation: what the reasoner looks like before it decides *)
Section End_.
  Variables (pf : text -> option f64) (tb : list Z) (ops : list op) (A C : term) (la lg : text).
  Hypothesis SC : situation C.
  Hypothesis LA : says pf la A JUGEMENT.
  Hypothesis LG : says pf lg C GOAL.
  Definition ready (rules : list rule) (p : pnar) : Prop :=
    gReach (n_goals p) /\ n_trace p = [mkEvent A 0 0] /\ n_ops p = ops /\ n_table p = tb /\ n_t p = 0 /\ n_ant p = [] /\ n_cfg p = calmCfg /\ schooled rules (n_mem p) /\
    (exists en, stored (n_goals p) en) /\ (forall en, stored (n_goals p) en -> e_term en = C /\ retTv (e_sentence en) = Some defaultTv) /\ g_active (n_goals p) = [].
  Lemma end_ready : forall rules lines r0 rg ra rs b n0 x, inS n0 (mkPnar defaultCfg ops tb 0 [] [] pmemMake (makeGoalSystem 20 8)) [] ->
    ruleLines pf rules lines -> Forall (fun ru => ground (ruleTerm ru)) rules -> (length rules <= 9)%nat ->
    mixed pf (instruct lines lg la r0 rg ra rs) b -> takeTurns pf b n0 = Ok x ->
    exists p1, ready rules p1 /\ narStep1 p1 true (ln_step rs) = Ok (nr_proc (fst x)).
  Proof.
    intros rules lines r0 rg ra rs b n0 x At RL G L Mx H. unfold instruct in Mx.
    destruct (nextS _ _ _ _ _ _ _ _ Mx At H) as (b1 & n1 & Mx1 & (At1 & log1 & S1) & H1). clear Mx H At.
    destruct (split1 _ _ _ _ _ _ S1 H1) as (n2 & q2 & log2 & T1 & S2 & H2).
    assert (E2 : inS n2 (empty tb ops 0 []) [] /\ q2 = false).
    { cbn [takeTurn] in T1. rewrite turn_peb in T1. cbn [rbind fst snd] in T1. injection T1 as <- <-. split; [|reflexivity]. split; [|eauto]. destruct At1 as (Ep & Eq). split; cbn; [rewrite Ep; reflexivity|exact Eq]. }
    destruct E2 as (At2 & ->). specialize (H2 eq_refl). clear H1 T1 S1 At1 S2.
    destruct (rules_end pf rules lines [] _ b1 n2 x _ _ RL G L At2 schooled_none Mx1 H2) as (n3 & m & b3 & Mx3 & H3 & At3 & Sc). cbn [app] in Sc. clear Mx1 H2 At2.
    destruct At3 as (A0 & _). clear n1 n2 log1 log2.
    onward Mx3 A0 H3. apply (then_goal _ _ _ _ _ _ _ _ _ LG A0) in H3. destruct H3 as (n4 & g & id & u & H3 & Gg & A1). clear A0. cbn [setMem empty n_goals n_t] in Gg. apply (goal_added C SC) in Gg. destruct Gg as (GR & GA & GE).
    set (e0 := mkEntry (newEternalSentenceByTv C GOAL defaultTv [id] u) None 0 0 f1 f1 f0) in GE.
    onward Mx3 A1 H3. apply (then_event _ _ _ _ _ _ _ _ _ LA A1) in H3. destruct H3 as (n5 & H3 & A2). clear A1.
    onward Mx3 A2 H3. apply (then_step _ _ _ _ _ _ _ A2) in H3. destruct H3 as (n6 & p1 & ms & p2 & H3 & S0 & S1 & A3). clear A2.
    rewrite step0_plain in S0 by reflexivity. apply (last_ _ _ _ _ _ _ Mx3 A3) in H3. destruct H3 as (-> & _). clear A3.
    match type of S0 with context [traceStep ?p _] => set (p0 := p) in S0 end.
    assert (E1 : p1 = setGoals p0 (event_occurred g A)).
    { unfold traceStep in S0. change (List.rev (n_trace p0)) with [mkEvent A 0 0] in S0. change (length (n_trace p0)) with 1%nat in S0. cbn [Nat.leb ev_name] in S0. change (n_goals p0) with g in S0. cbn [rbind] in S0. injection S0 as <- _. reflexivity. }
    subst p1. clear S0.
    assert (St : forall en, stored (event_occurred g A) en -> e_term en = C /\ retTv (e_sentence en) = Some defaultTv).
    { intros en Hs. apply stored_iff in Hs. unfold retEntries in Hs, GE. cbn [event_occurred g_batches g_active] in Hs. rewrite GA in *. cbn [map app] in Hs. rewrite app_nil_r in Hs, GE.
      apply in_flat_map in Hs. destruct Hs as (b' & Hb & Hs). apply in_map_iff in Hb. destruct Hb as (b2 & <- & Hb). apply in_flat_map in Hs. destruct Hs as (gr' & Hg & Hs). apply in_map_iff in Hg. destruct Hg as (gr & <- & Hg). cbn [snd] in Hs.
      apply in_map_iff in Hs. destruct Hs as (e & <- & He). assert (Ee : In e (flat_map (fun b => flat_map snd b) (g_batches g))) by (apply in_flat_map; exists b2; split; [exact Hb|]; apply in_flat_map; eauto).
      rewrite GE in Ee. destruct Ee as [<-|[]]. unfold satisfy. destruct (_ && _); split; reflexivity. }
    assert (Ex : exists en, stored (event_occurred g A) en).
    { assert (Hs : In e0 (retEntries g)) by (rewrite GE; now left). unfold retEntries in Hs. rewrite GA, app_nil_r in Hs. apply in_flat_map in Hs. destruct Hs as (b2 & Hb & Hs). apply in_flat_map in Hs. destruct Hs as (gr & Hg & Hs).
      exists (satisfy (g_sat g) A e0). apply stored_iff. unfold retEntries. apply in_or_app. left. cbn [event_occurred g_batches].
      apply in_flat_map. eexists. split; [apply in_map; exact Hb|]. apply in_flat_map. eexists. split; [apply in_map_iff; exists gr; split; [reflexivity|exact Hg]|]. cbn [snd]. now apply in_map. }
    exists (setGoals p0 (event_occurred g A)). split; [|exact S1].
    split; [now apply gr_event|]. repeat (split; [reflexivity|]). split; [exact Sc|]. split; [exact Ex|]. split; [exact St|]. change (g_active (event_occurred g A) = []). cbn [event_occurred g_active]. now rewrite GA.
  Qed.
  Variables (rules : list rule) (p : pnar) (r : step1In) (p' : pnar).
  Hypothesis Rd : ready rules p.
  Hypothesis Sp : narStep1 p true r = Ok p'.
  Hypothesis TB : nth_error tb 0 = Some 1.
  Lemma ready_wants : wants p C defaultTv.
  Proof.
    destruct Rd as (_ & _ & _ & _ & _ & _ & _ & _ & (en & Ex) & St & Ac). split; [exists en; split; [exact Ex|now apply St in Ex]|]. split; [intros e Hs _; now apply St in Hs|]. split.
    - intros e l Hs. apply St in Hs. destruct Hs as (-> & _). destruct SC as (_ & _ & N). apply N.
    - intros e y Hin. rewrite Ac in Hin. destruct Hin.
  Qed.
  Lemma ready_none : forall t, t <> C -> forall en, stored (n_goals p) en -> e_term en <> t.
  Proof. destruct Rd as (_ & _ & _ & _ & _ & _ & _ & _ & _ & St & _). intros t N en Hs. apply St in Hs. destruct Hs as (-> & _). congruence. Qed.
  Definition rule_tv : tv := match retTv (mkSentence (Name "") None JUGEMENT [] None (Some (CNT 10 10)) 0%nat) with Some v => v | None => defaultTv end.
  Lemma notC : forall O args name, opCall O args name -> O <> C.
  Proof. intros O args name OC ->. destruct SC as (_ & N & _). now apply N in OC. Qed.
  Theorem one_step : forall O, ground A -> callable ops O -> theWay rules A O C ->
    n_trace p' = [mkEvent A 0 0; mkEvent O 0 0] /\ exists a, n_ant p' = [(a, 1)] /\ s_term (rd (cells (n_mem p')) a) = ruleTerm (Rule A O C).
  Proof.
    intros O GA (args & name & o & OC & FN & PL) Way. pose proof Rd as (GR & Tr & Ops & Tb & Ti & An & Cf & Sc & _).
    destruct (schooled_relevant rules p A O C Sc GA Way) as (Ex & Al).
    destruct (act_it p r p' [] (mkEvent A 0 0) A O C defaultTv args name o) as (a & iv & Ra & Iv & Tr' & An' & Ce & _); auto.
    - now rewrite Ops.
    - rewrite Cf. vm_compute. reflexivity.
    - intros a Ha. destruct (Al a Ha) as ((T1 & T2) & T3 & _). split; [exact T1|]. split; [exact T2|]. exists rule_tv. rewrite Cf. split; [unfold retTv; rewrite T3; reflexivity|]. clear. split; vm_compute; reflexivity.
    - exact ready_wants.
    - intros en. apply ready_none. eapply notC; eauto.
    - destruct (Al a Ra) as ((T1 & _) & _ & T4). rewrite T4, Tb in Iv. change (Z.to_nat 0) with 0%nat in Iv. rewrite TB in Iv. injection Iv as <-. rewrite Tr, Ti in Tr'. rewrite An, Cf, Ti in An'.
      split; [rewrite Tr'; reflexivity|]. exists a. split; [rewrite An'; reflexivity|]. rewrite Ce. exact T1.
  Qed.
  Theorem two_steps : forall O1 B O2, ground A -> ground B -> B <> C -> callable ops O1 -> theWay rules A O1 B -> theWay rules B O2 C ->
    n_trace p' = [mkEvent A 0 0; mkEvent O1 0 0] /\ exists a, n_ant p' = [(a, 1)] /\ s_term (rd (cells (n_mem p')) a) = ruleTerm (Rule A O1 B).
  Proof.
    intros O1 B O2 GA GB NB (args & name & o & OC & FN & PL) Way1 Way2. pose proof Rd as (GR & Tr & Ops & Tb & Ti & An & Cf & Sc & _).
    destruct (schooled_relevant rules p A O1 B Sc GA Way1) as (Ex & Al). destruct (schooled_relevant rules p B O2 C Sc GB Way2) as (Ex2 & Al2).
    destruct (act2 p r p' [] (mkEvent A 0 0) A O1 B O2 C defaultTv args name o) as (a & iv & Ra & Iv & Tr' & An' & Ce & _); auto.
    - now rewrite Ops.
    - rewrite Cf. vm_compute. reflexivity.
    - intros a Ha. destruct (Al a Ha) as (Ld & T3 & _). split; [exact Ld|]. exists rule_tv. rewrite Cf. split; [unfold retTv; rewrite T3; reflexivity|]. clear. vm_compute; reflexivity.
    - intros b Hb. apply Al2. exact Hb.
    - intros a b Ha Hb. destruct (Al a Ha) as (_ & T3 & _). destruct (Al2 b Hb) as (_ & T3' & _). exists rule_tv, rule_tv. rewrite Cf. split; [unfold retTv; rewrite T3; reflexivity|]. split; [unfold retTv; rewrite T3'; reflexivity|]. clear. vm_compute; reflexivity.
    - intros en. now apply ready_none.
    - exact ready_wants.
    - intros en. apply ready_none. eapply notC; eauto.
    - destruct (Al a Ra) as ((T1 & _) & _ & T4). rewrite T4, Tb in Iv. change (Z.to_nat 0) with 0%nat in Iv. rewrite TB in Iv. injection Iv as <-. rewrite Tr, Ti in Tr'. rewrite An, Cf, Ti in An'.
      split; [rewrite Tr'; reflexivity|]. exists a. split; [rewrite An'; reflexivity|]. rewrite Ce. exact T1.
  Qed.
  Theorem three_steps : forall O1 B O2 D O3, ground A -> ground B -> B <> C -> D <> C -> theWay rules A O1 B -> theWay rules B O2 D -> theWay rules D O3 C ->
    n_trace p' = [mkEvent A 0 0] /\ n_ant p' = [].
  Proof.
    intros O1 B O2 D O3 GA GB NB ND Way1 Way2 _. pose proof Rd as (GR & Tr & Ops & Tb & Ti & An & Cf & Sc & _).
    destruct (schooled_relevant rules p A O1 B Sc GA Way1) as (_ & Al). destruct (schooled_relevant rules p B O2 D Sc GB Way2) as (_ & Al2).
    destruct (idle p r p' [] (mkEvent A 0 0) A) as (T' & A'); auto.
    - rewrite Cf. reflexivity.
    - split; apply ready_wants.
    - intros a rest X Ha T. destruct (Al a) as ((T1 & _) & _); [split; [exact Ha|eauto]|]. rewrite T in T1. injection T1 as _ ->. split; [intros en; now apply ready_none|].
      intros b rest' Y Hb T2. destruct (Al2 b) as ((T3 & _) & _); [split; [exact Hb|eauto]|]. rewrite T2 in T3. injection T3 as _ ->. intros en. now apply ready_none.
    - rewrite T', A', Tr, An. split; reflexivity.
  Qed.
  (** * Rules that compete *)
  Hypothesis GRu : Forall (fun ru => ground (ruleTerm ru)) rules.
  Lemma effect_ground : forall X O B, In (Rule X O B) rules -> ground B.
  Proof. intros X O B H x Ox. rewrite Forall_forall in GRu. apply (GRu _ H x). cbn [ruleTerm]. eapply Relation_Operators.rt_trans; [exact Ox|]. apply Relation_Operators.rt_step. constructor. Qed.
  Definition servesBy (O B : term) : Prop := In (Rule A O B) rules /\ (B = C \/ exists O2, In (Rule B O2 C) rules).
  Lemma rules_plan : ground A -> forall b1, planForward p (i_u r) (i_plan r) None = Ok b1 ->
    (b1 = None /\ ~ good rules A C) \/
    exists O B a x, servesBy O B /\ relevant p A a /\ leads p A O B a /\ b1 = Some (mkBest (Seq [A; O]) x (Some a)) /\ fltb (c_thresh (n_cfg p)) x = true.
  Proof.
    intros GA b1 H. pose proof Rd as (_ & Tr & _ & _ & _ & _ & Cf & Sc & (en0 & Ex0) & St & _). pose proof ready_wants as (GS & GAl & _).
    assert (Hit : forall X hit, query (n_goals p) X = Some hit -> X = C /\ retTv (e_sentence hit) = Some defaultTv).
    { intros X hit Q. pose proof (query_spec (n_goals p) X) as G. rewrite Q in G. destruct G as (G1 & G2).
      assert (Sh : stored (n_goals p) hit) by (apply stored_iff; apply in_app_or in G1; destruct G1 as [G1|G1]; [exact G1|unfold retEntries; apply in_or_app; now right]). apply St in Sh. destruct Sh as (E & V). rewrite <- G2. auto. }
    assert (Miss : forall X, query (n_goals p) X = None -> X <> C).
    { intros X Q ->. pose proof (query_spec (n_goals p) C) as G. rewrite Q in G. apply (G en0); [apply in_or_app; left; now apply stored_iff|]. apply St in Ex0. apply Ex0. }
    unfold planForward in H. rewrite (recent_last p [] (mkEvent A 0 0) Tr) in H. rewrite term_clone_id in H. cbn [plan ev_name] in H.
    destruct (query_by_antecedent A (n_mem p)) as [qr|] eqn:Q; [|discriminate]. cbn [rbind] in H. pose proof (antecedent_spec _ _ _ Q) as Sp1.
    destruct qr as [|q0 qr].
    { left. split; [congruence|]. intros ((O & B & Hr) & _). destruct (schooled_some rules p A O B Sc Hr) as (a & Ra). now apply (Sp1 a). }
    set (l := q0 :: qr) in *. destruct (idx l _) as [a|] eqn:I; [|discriminate]. cbn [rbind] in H. apply picked in I. apply Sp1 in I. assert (Ra : relevant p A a) by exact I.
    destruct (schooled_rule rules p A a Sc GA Ra) as (O & B & Hr & (T & Sn) & Ev & _). assert (Va : retTv (rd (cells (n_mem p)) a) = Some rule_tv) by (unfold retTv; now rewrite Ev).
    rewrite T in H. cbn [retPred rbind app] in H. rewrite term_clone_id in H. destruct (query (n_goals p) B) as [hit|] eqn:QB.
    { destruct (Hit _ _ QB) as (-> & Hv). right. exists O, C, a. unfold chainBack in H. rewrite Hv in H. cbn [unwrap rbind List.rev app rfold] in H.
      rewrite (back1 _ C defaultTv (i_u r) (Seq [A; O]) rule_tv T Sn Va) in H. cbn [unwrap rbind] in H. unfold newEternalSentenceByTv in H. cbn [retTv s_evi evidenceTv s_term s_punct retSeqCond2 idx nth_error unwrap rbind punct_eqb negb] in H.
      destruct (convTermToStr (Seq [A; O])) as [txt|]; [|discriminate]. cbn [rbind better] in H. injection H as <-. eexists. split; [split; [exact Hr|now left]|]. split; [exact Ra|]. split; [split; [exact T|exact Sn]|]. split; [reflexivity|]. rewrite Cf. clear. vm_compute; reflexivity. }
    pose proof (Miss _ QB) as NB. pose proof (effect_ground _ _ _ Hr) as GB.
    destruct (query_by_antecedent B (n_mem p)) as [qr2|] eqn:Q2; [|discriminate]. cbn [rbind] in H. pose proof (antecedent_spec _ _ _ Q2) as Sp2. clear I.
    destruct qr2 as [|q1 qr2].
    { left. split; [congruence|]. intros (_ & Gd). destruct (Gd _ _ Hr) as [E|((O2 & D & Hr2) & _)]; [now apply NB|]. destruct (schooled_some rules p B O2 D Sc Hr2) as (b & Rb). now apply (Sp2 b). }
    set (l2 := q1 :: qr2) in *. destruct (idx l2 _) as [b|] eqn:I; [|discriminate]. cbn [rbind] in H. apply picked in I. apply Sp2 in I. assert (Rb : relevant p B b) by exact I.
    destruct (schooled_rule rules p B b Sc GB Rb) as (O2 & D & Hr2 & (T2 & Sn2) & Ev2 & _). assert (Vb : retTv (rd (cells (n_mem p)) b) = Some rule_tv) by (unfold retTv; now rewrite Ev2).
    rewrite T2 in H. cbn [retPred rbind app] in H. rewrite term_clone_id in H. destruct (query (n_goals p) D) as [hit|] eqn:QD.
    { destruct (Hit _ _ QD) as (-> & Hv). right. exists O, B, a. unfold chainBack in H. rewrite Hv in H. cbn [unwrap rbind List.rev app rfold] in H.
      rewrite (back1 _ C defaultTv (i_u r) (Seq [B; O2]) rule_tv T2 Sn2 Vb) in H. cbn [unwrap rbind] in H.
      change (retTv (newEternalSentenceByTv (Seq [B; O2]) GOAL (dedGoal defaultTv rule_tv) (merge (newStamp [-1]) (s_stamp (rd (cells (n_mem p)) b))) (i_u r))) with (Some (dedGoal defaultTv rule_tv)) in H.
      cbn [unwrap rbind s_term newEternalSentenceByTv retSeqCond2 idx nth_error] in H.
      rewrite (back1 _ B (dedGoal defaultTv rule_tv) (i_u r) (Seq [A; O]) rule_tv T Sn Va) in H.
      unfold newEternalSentenceByTv in H. cbn [retTv s_evi evidenceTv s_term s_punct retSeqCond2 idx nth_error unwrap rbind punct_eqb negb] in H.
      destruct (convTermToStr (Seq [A; O])) as [txt|]; [|discriminate]. cbn [rbind better] in H. injection H as <-. eexists. split; [split; [exact Hr|right; eauto]|]. split; [exact Ra|]. split; [split; [exact T|exact Sn]|]. split; [reflexivity|]. rewrite Cf. clear. vm_compute; reflexivity. }
    pose proof (Miss _ QD) as ND. left. split.
    - destruct (query_by_antecedent D (n_mem p)) as [qr3|] eqn:Q3; [|discriminate]. cbn [rbind] in H. pose proof (antecedent_spec _ _ _ Q3) as Sp3.
      destruct qr3 as [|q2 qr3]; [congruence|]. set (l3 := q2 :: qr3) in *. destruct (idx l3 _) as [c|] eqn:I3; [|discriminate]. cbn [rbind] in H. apply picked in I3. apply Sp3 in I3. destruct I3 as (_ & rest3 & E & T3). rewrite T3 in H. cbn [retPred rbind] in H. congruence.
    - intros (_ & Gd). destruct (Gd _ _ Hr) as [E|(_ & Gd2)]; [now apply NB|]. apply ND. eapply Gd2; eauto.
  Qed.
  Theorem compete : ground A -> (forall O B, In (Rule A O B) rules -> callable ops O) ->
    (n_trace p' = [mkEvent A 0 0] /\ n_ant p' = [] /\ ~ good rules A C) \/
    exists O B a, servesBy O B /\ n_trace p' = [mkEvent A 0 0; mkEvent O 0 0] /\ n_ant p' = [(a, 1)] /\ s_term (rd (cells (n_mem p')) a) = ruleTerm (Rule A O B).
  Proof.
    intros GA Ca. pose proof Rd as (GR & Tr & Ops & Tb & Ti & An & Cf & Sc & _). pose proof ready_wants as (_ & _ & W3 & W4). pose proof (rules_plan GA) as Pl.
    destruct (planForward p (i_u r) (i_plan r) None) as [b1|] eqn:P.
    2: { exfalso. clear - Sp P W3. unfold narStep1 in Sp. rewrite noSeq_best in Sp by (intros en l K; apply W3; now apply stored_iff). cbn [rbind] in Sp. rewrite P in Sp. discriminate. }
    destruct (Pl b1 eq_refl) as [(-> & Ng)|(O & B & a & x & Sb & Ra & Ld & -> & X)].
    - left. destruct (idleG p r p' Sp) as (T' & A'); [now rewrite Cf|split; assumption|intros b1 E; rewrite P in E; injection E as <-; reflexivity|]. rewrite T', A', Tr, An. auto.
    - right. destruct Sb as (Hr & Hb). destruct (Ca _ _ Hr) as (args & name & o & OC & FN & PL).
      assert (BT : forall a, relevant p A a -> exists vb, retTv (rd (cells (n_mem p)) a) = Some vb /\ fltb (c_thresh (n_cfg p)) (calcExp vb) = true).
      { intros a' Ha'. destruct (schooled_rule rules p A a' Sc GA Ha') as (? & ? & _ & _ & Ev & _). exists rule_tv. split; [unfold retTv; now rewrite Ev|]. rewrite Cf. clear. vm_compute. reflexivity. }
      destruct (actG p r p' A O args name o (eq a) Sp GR OC) as (a1 & iv & <- & Iv & Tr' & An' & Ce & _).
      + now rewrite Ops.
      + exact PL.
      + rewrite Cf. vm_compute. reflexivity.
      + intros b1 E. rewrite P in E. injection E as <-. exists a, x. auto.
      + intros a' <-. apply BT. exact Ra.
      + exact W3.
      + exact W4.
      + intros en. apply ready_none. eapply notC; eauto.
      + destruct (schooled_rule rules p A a Sc GA Ra) as (? & ? & _ & _ & _ & T4). rewrite T4, Tb in Iv. change (Z.to_nat 0) with 0%nat in Iv. rewrite TB in Iv. injection Iv as <-. rewrite Tr, Ti in Tr'. rewrite An, Cf, Ti in An'.
        exists O, B, a. split; [split; assumption|]. split; [rewrite Tr'; reflexivity|]. split; [rewrite An'; reflexivity|]. rewrite Ce. apply Ld.
  Qed.
End End_.
