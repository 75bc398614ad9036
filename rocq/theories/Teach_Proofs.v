(** One lesson is remembered and used. *)
From Coq Require Import String Ascii ZArith Bool Lia List.
From Verif Require Import Base F64_Model Term_Model Term_Spec Term_Proofs Stamp_Model Tv_Model Sentence_Model Mem_Model Mem_Spec Mem_Proofs PMem_Model PMem_Proofs
  Goal_Model Goal_Spec Goal_Proofs Goal2_Proofs Goal3_Proofs Goal4_Proofs Proc_Model Proc_Spec ProcA_Proofs ProcB_Proofs ProcV_Proofs Parser_Model Nar_Model Nar_Spec Nar_Proofs Serial_Spec Teach_Spec.
Import ListNotations.
Local Open Scope string_scope.
Local Open Scope list_scope.
Local Open Scope Z_scope.

(** * The memory after the lesson *)
Section Memory.
  Variables (A O C : term).
  Let T := Stmt PREDIMPL (Seq [A; O]) C.
  Hypothesis GT : ground T.
  (** beliefs made from the lesson *)
  Definition fam (K : list term) (b : sentence) : Prop :=
    In (s_term b) K /\ s_stamp b = [0; 1; 2] /\ s_evi b = Some (CNT 3 3) /\ s_expDt b = Some 0 /\ s_punct b = JUGEMENT.
  Definition famC (K : list term) (c : concept) : Prop :=
    (forall b, In b (byExp c) \/ In b (byUsage c) -> fam K b) /\ noDoubleEvidence (byExp c) /\ noDoubleEvidence (byUsage c).
  Lemma fam_share : forall K a b, fam K a -> fam K b -> shareEvidence a b.
  Proof. intros K a b (_ & E & _) (_ & E' & _). exists 0. rewrite E, E'. split; now left. Qed.
  Lemma fam_length : forall K l, (forall b, In b l -> fam K b) -> noDoubleEvidence l -> (length l <= length K)%nat.
  Proof.
    intros K l F N. rewrite <- (map_length s_term l). apply NoDup_incl_length.
    - induction N as [|a l H N IH]; [constructor|]. cbn [map]. constructor; [|apply IH; intros; apply F; now right].
      intros Hin. apply in_map_iff in Hin. destruct Hin as (b & E & Hb). rewrite Forall_forall in H. apply (H b Hb (eq_sym E)). apply (fam_share K); apply F; [now left|now right].
    - intros t Ht. apply in_map_iff in Ht. destruct Ht as (b & <- & Hb). apply (F b Hb).
  Qed.
  Lemma fam_more : forall K t b, fam K b -> fam (t :: K) b.
  Proof. intros K t b (X & Y). split; [now right|auto]. Qed.
  Lemma famC_more : forall K t c, famC K c -> famC (t :: K) c.
  Proof. intros K t c (X & Y). split; [|auto]. intros b Hb. apply fam_more. auto. Qed.
  Definition famM (K : list term) (m : mem) : Prop := mapOk m /\ forall t c, holds m t c -> famC K c.
  Lemma famM_more : forall K t m, famM K m -> famM (t :: K) m.
  Proof. intros K t m (X & Y). split; [auto|]. intros k c H. apply famC_more. eauto. Qed.
  (** the lesson itself is found at its situation *)
  Definition known (m : mem) : Prop := exists c b, mget A m = Some c /\ In b (byExp c) /\ s_term b = T.

  Lemma famC_new : forall K s t, fam K s -> famC K (mkConcept t [s] [s]).
  Proof. intros K s t F. split; [|split; constructor; constructor]. cbn. intros b [[<-|[]]|[<-|[]]]; auto. Qed.
  Lemma famC_upd : forall K s n us now c e u, fam K s -> famC K c -> storeTable expKey n s (byExp c) = Ok e -> storeTable (usageKey us now) n s (byUsage c) = Ok u ->
    famC K (mkConcept (c_name c) e u).
  Proof.
    intros K s n us now c e u F (X & Y & Z) E U. split; [|split; [eapply storeTable_disj; eauto|eapply storeTable_disj; eauto]].
    cbn. intros b [B|B]; eapply storeTable_in in B; eauto; destruct B as [B| ->]; auto.
  Qed.
  Lemma store1_fam : forall K n us now s m t m', (length K < n)%nat -> fam K s -> famM K m -> storeInConcept us s n now m t = Ok m' ->
    famM K m' /\ (known m -> known m') /\ (t = A -> s_term s = T -> known m').
  Proof.
    intros K n us now s m t m' L F M H.
    assert (M' : famM K m').
    { refine (store1_inv n (famC K) s _ _ us now m t m' M H); [intros t'; now apply famC_new|intros; eapply famC_upd; eauto]. }
    split; [exact M'|]. pose proof (store1_well _ _ _ _ _ _ _ (proj1 M) H) as (_ & W & Fr). apply storeInConcept_ok in H. split.
    - intros (c & b & G & B & E). destruct (term_eq_dec A t) as [Et|N]; [subst t|exists c, b; rewrite Fr by auto; auto].
      destruct H as [(c0 & e & u & G' & E1 & E2 & ->)|[G' _]]; [|congruence]. assert (c0 = c) by congruence. subst c0.
      exists (mkConcept (c_name c) e u), b. rewrite mget_mset, checkEqTerm_refl. split; [reflexivity|]. split; [|exact E]. cbn [byExp].
      destruct (storeTable_kept _ _ _ _ _ b E1 B) as [K1|(K1 & _)]; [exact K1|]. exfalso.
      destruct M as (Mo & M). assert (Hc : famC K c) by (apply (M A); now apply mget_in). destruct (famC_upd K s n us now c e u F Hc E1 E2) as (X & Y & _).
      pose proof (fam_length K e (fun b Hb => X b (or_introl Hb)) Y) as Le. lia.
    - intros -> E. destruct W as (c & G & _ & P & _). destruct P as [P|[(b & Hb & Eb & _)|(P & _)]]; [exists c, s; auto|exists c, b; split; [auto|split; [auto|congruence]]|].
      exfalso. destruct M' as (_ & M'). destruct (M' A c) as (X & Y & _); [now apply mget_in|]. pose proof (fam_length K (byExp c) (fun b Hb => X b (or_introl Hb)) Y) as Le. lia.
  Qed.
  Lemma store_fam : forall K n us now s ts m m', (length K < n)%nat -> fam K s -> famM K m -> rfold (storeInConcept us s n now) ts m = Ok m' ->
    famM K m' /\ (known m -> known m') /\ (In A ts -> s_term s = T -> known m').
  Proof.
    intros K n us now s. induction ts as [|t ts IH]; intros m m' L F M H; cbn [rfold] in H.
    - injection H as <-. split; [auto|]. split; [auto|intros []].
    - destruct (storeInConcept us s n now m t) as [m1|] eqn:E; [|discriminate]. cbn [rbind] in H. apply (store1_fam K) in E; auto. destruct E as (M1 & K1 & K2).
      destruct (IH _ _ L F M1 H) as (M2 & K3 & K4). split; [auto|]. split; [auto|]. intros [->|Hin] Et; auto.
  Qed.

  Lemma head_sub : forall t, In t (retSubterms t). Proof. intros t. apply retSubterms_iff. apply Relation_Operators.rt_refl. Qed.
  Lemma internal_fam : forall K us m s n now m', (length K < n)%nat -> fam K s -> wfP m -> famM K (deref m) -> mem_add_evidence_internal us m s n now = Ok m' ->
    wfP m' /\ famM K (deref m') /\ (known (deref m) -> known (deref m')) /\ (s_term s = T -> known (deref m')).
  Proof.
    intros K us m s n now m' L F W M H. apply internal_ok in H. destruct H as (cond & pred & (rest & I) & H).
    pose proof (pStore_refines us m s (retSubterms cond ++ retSubterms pred) n now W) as R. rewrite H in R. destruct R as (R & W' & _).
    split; [exact W'|]. apply store2_cases in R. destruct R as [(J & _)|(_ & R)]; [destruct F as (_ & _ & _ & _ & F); congruence|].
    apply (store_fam K) in R; auto. destruct R as (M' & K1 & K2). split; [auto|]. split; [auto|]. intros E. apply K2; [|exact E]. apply in_or_app. left.
    rewrite I in E. unfold T in E. injection E as -> _ _. apply head_sub.
  Qed.

  (** a generalisation of the lesson is not about its situation any more *)
  Definition other (t : term) : Prop := forall rest p, t <> Stmt PREDIMPL (Seq (A :: rest)) p.
  Lemma intro_other : forall s ds vs, s_term s = T -> matchandintro_var1_sentence s ds = Ok vs ->
    vs = [] \/ exists v, vs = [v] /\ other (s_term v) /\ s_stamp v = s_stamp s /\ s_expDt v = s_expDt s /\ s_evi v = s_evi s /\ s_punct v = s_punct s.
  Proof.
    intros s ds vs E H. apply intro_spec in H. destruct H as [->|(subj & prop & o & e & x & v & Es & _ & -> & Ev & B)]; [now left|]. right. exists v. split; [reflexivity|].
    split; [|rewrite Ev; cbn; auto]. rewrite E in Es, B. unfold T in Es. injection Es as EA <- <-. destruct B as (_ & B); [intros Oc; apply (GT _ Oc); exact I|].
    intros rest p Et. apply B. rewrite Et, EA.
    assert (Cm : forall x y, component x y -> (forall r i l, y <> Img r i l) -> vcomponent x y) by (intros a b Ca Na; split; [exact Ca|intros r i l Eb; exfalso; eapply Na; eauto]).
    eapply Relation_Operators.rt_trans; [|eapply Relation_Operators.rt_trans].
    - apply Relation_Operators.rt_step. apply (Cm subj (Stmt INH subj (SetInt prop))); [constructor|intros; discriminate].
    - apply Relation_Operators.rt_step. apply (Cm (Stmt INH subj (SetInt prop)) (Seq (Stmt INH subj (SetInt prop) :: rest))); [constructor; now left|intros; discriminate].
    - apply Relation_Operators.rt_step. apply Cm; [constructor|intros; discriminate].
  Qed.
  Definition lessonK (K : list term) : Prop := In T K /\ forall t, In t K -> t = T \/ other t.
  Lemma add_fam : forall K us m s n now ds m', (length K + 1 < n)%nat -> lessonK K -> fam K s -> s_term s = T -> wfP m -> famM K (deref m) -> mem_add_evidence us m s n now ds = Ok m' ->
    wfP m' /\ known (deref m') /\ exists K', lessonK K' /\ (length K' <= length K + 1)%nat /\ famM K' (deref m').
  Proof.
    intros K us m s n now ds m' L (KT & KO) F E W M H. unfold mem_add_evidence in H. destruct (mem_add_evidence_internal us m s n now) as [m1|] eqn:E1; [|discriminate]. cbn [rbind] in H.
    apply (internal_fam K) in E1; auto; [|lia]. destruct E1 as (W1 & M1 & _ & Kn). specialize (Kn E).
    destruct (matchandintro_var1_sentence s ds) as [vs|] eqn:V; [|discriminate]. cbn [rbind] in H.
    destruct (intro_other s ds vs E V) as [->|(v & -> & Ov & S1 & S2 & S3 & S4)]; cbn [rfold] in H.
    - injection H as <-. split; [auto|]. split; [auto|]. exists K. split; [split; auto|]. split; [lia|auto].
    - destruct (mem_add_evidence_internal us m1 v n now) as [m2|] eqn:E2; [|discriminate]. cbn [rbind] in H. injection H as <-.
      destruct F as (F1 & F2 & F3 & F4 & F5).
      apply (internal_fam (s_term v :: K)) in E2; [|cbn [length]; lia|split; [now left|repeat split; congruence]|auto|now apply famM_more].
      destruct E2 as (W2 & M2 & K2 & _). split; [auto|]. split; [auto|]. exists (s_term v :: K). split; [|split; [cbn [length]; lia|auto]].
      split; [now right|]. intros t [<-|Ht]; auto.
  Qed.
  Lemma beliefs_fam : forall K m ts a, wfP m -> famM K (deref m) -> In a (pBeliefs m ts) -> fam K (rd (cells m) a).
  Proof.
    intros K m ts a W (Mo & M) H. apply (in_map (rd (cells m))) in H. rewrite pBeliefs_refines in H. apply (retrieve_many _ _ _ Mo) in H. destruct H as (t & st & c & _ & _ & Hc & Hb).
    apply (M st c Hc). auto.
  Qed.
  (** one message *)
  Lemma evidence_fam : forall K us m s now ds m', (length K + 1 < 100)%nat -> lessonK K -> fam K s -> s_term s = T -> wfP m -> famM K (deref m) -> storeEvidence us m s now 100 ds = Ok m' ->
    wfP m' /\ known (deref m') /\ exists K', lessonK K' /\ (length K' <= length K + 1)%nat /\ famM K' (deref m').
  Proof.
    intros K us m s now ds m' L LK F E W M H. eapply add_fam; eauto.
    assert (I : implOf s A C) by (exists [O]; exact E).
    refine (proj2 (proj2 (proj2 (store_counts us m s now 100 ds m' A C W _ I H))) _); [destruct F as (_ & -> & _); discriminate|].
    intros (a & Ha & _ & _ & D). apply (beliefs_fam K) in Ha; auto. destruct Ha as (_ & Sa & _). destruct F as (_ & Ss & _). apply (D 0); [rewrite Sa; now left|rewrite Ss; now left].
  Qed.
  (** what can be found for the situation *)
  Lemma ask_fam : forall K m qr, lessonK K -> wfP m -> famM K (deref m) -> known (deref m) -> query_by_antecedent A m = Ok qr ->
    qr <> [] /\ forall a, In a qr -> s_term (rd (cells m) a) = T /\ fam K (rd (cells m) a).
  Proof.
    intros K m qr (KT & KO) W M (c & b & G & B & E) H. pose proof (antecedent_spec m A qr H) as Sp. split.
    - intros ->. assert (Hb : In b (ret_beliefs_by_terms_nonunique (deref m) [A])).
      { apply (retrieve_many _ _ _ (proj1 M)). exists A, A, c. split; [now left|]. split; [apply Relation_Operators.rt_refl|]. split; [now apply mget_in|auto]. }
      rewrite <- pBeliefs_refines in Hb. apply in_map_iff in Hb. destruct Hb as (a & Ea & Ha). apply (Sp a). split; [exact Ha|]. exists [O], C. rewrite Ea. exact E.
    - intros a Ha. apply Sp in Ha. destruct Ha as (Ha & rest & p & Et). apply (beliefs_fam K) in Ha; auto. split; [|exact Ha].
      destruct Ha as (Hk & _). destruct (KO _ Hk) as [K1|K1]; [exact K1|]. exfalso. eapply K1; eauto.
  Qed.
End Memory.

(** * Acting on what was learned *)
Lemma better_none : forall b, better None b = Some b. Proof. reflexivity. Qed.
Lemma op_decode : forall O args name, opCall O args name -> decodeOp O = Some (args, name).
Proof. intros O args name H. now apply decodeOp_some. Qed.
Lemma noSeq_best : forall n, (forall en l, In en (retEntries (n_goals n)) -> e_term en <> Seq l) -> bestByState n = Ok None.
Proof.
  intros n N. unfold bestByState.
  assert (S : forall st, selHighestExpGoalByState (n_goals n) st = Ok (f0, None)).
  { intros st. unfold selHighestExpGoalByState. assert (G : forall l x, incl l (retEntries (n_goals n)) -> rfold (selStep st) l x = Ok x).
    { induction l as [|en l IH]; intros x I; cbn [rfold]; [reflexivity|]. assert (H : selStep st x en = Ok x).
      { unfold selStep. pose proof (N en) as K. unfold e_term in K. destruct (s_term (e_sentence en)); try reflexivity. exfalso. eapply K; [apply I; now left|reflexivity]. }
      rewrite H. cbn [rbind]. apply IH. intros y Hy. apply I. now right. }
    apply G. apply incl_refl. }
  assert (G : forall l, rfold (fun cur i => match recent (n_trace n) i with None => Ok cur | Some e => do '(exp, r) <- selHighestExpGoalByState (n_goals n) (term_clone (ev_name e));
        Ok (match r with Some (en, ut) => better cur (mkBest (term_clone ut) exp (e_evi en)) | None => cur end) end) l None = Ok None).
  { induction l as [|i l IH]; cbn [rfold]; [reflexivity|]. destruct (recent (n_trace n) i) as [e|]; [rewrite S|]; cbn [rbind]; exact IH. }
  apply G.
Qed.
Lemma pick_none : forall th l x k y, (forall en y, In en l -> ~ eligible th en y) -> rfold (pickStep th) l (f0, x, k) = Ok y -> y = (f0, x, (k + length l)%nat).
Proof.
  intros th. induction l as [|en l IH]; intros x k y N R; cbn [rfold length] in *; [rewrite Nat.add_0_r; congruence|].
  destruct (pickStep th (f0, x, k) en) as [z|] eqn:Z; [|discriminate]. cbn [rbind] in R.
  assert (H : z = (f0, x, S k)).
  { unfold pickStep in Z. destruct (is_desired en) eqn:D; [|congruence]. destruct (retTv (e_sentence en)) as [v|] eqn:E; [|discriminate]. cbn [unwrap rbind] in Z.
    destruct (fgtb (calcExp v) f0 && fgtb (calcExp v) th) eqn:B; [|congruence]. exfalso. apply andb_prop in B. destruct B as (B1 & B2).
    apply (N en (calcExp v)); [now left|]. split; [exact D|]. split; [now exists v|]. split; [exact B1|exact B2]. }
  subst z. apply IH in R; [|intros; apply N; now right]. rewrite R. f_equal. lia.
Qed.
Lemma rfold_app : forall X Y (f : X -> Y -> res X) a b x, rfold f (a ++ b) x = (do y <- rfold f a x; rfold f b y).
Proof. intros X Y f. induction a as [|c a IH]; intros b x; cbn [rfold app rbind]; [reflexivity|]. destruct (f x c); cbn [rbind]; auto. Qed.
(** ** any way to a decision *)
Section ActG.
  Variables (n : pnar) (r : step1In) (n' : pnar) (A O : term) (args : list term) (name : string) (o : op) (Q : nat -> Prop).
  Hypothesis R : narStep1 n true r = Ok n'.
  Hypothesis GR : gReach (n_goals n).
  Hypothesis OC : opCall O args name.
  Hypothesis FN : firstNamed (n_ops n) name o.
  Hypothesis PL : op_kind o = OpPlain.
  Hypothesis TH : fltb f0 (c_thresh (n_cfg n)) = true.
  Hypothesis PI : forall b1, planForward n (i_u r) (i_plan r) None = Ok b1 ->
    exists a x, Q a /\ b1 = Some (mkBest (Seq [A; O]) x (Some a)) /\ fltb (c_thresh (n_cfg n)) x = true.
  Hypothesis BT : forall a, Q a -> exists vb, retTv (rd (cells (n_mem n)) a) = Some vb /\ fltb (c_thresh (n_cfg n)) (calcExp vb) = true.
  Hypothesis NS : forall en l, stored (n_goals n) en -> e_term en <> Seq l.
  Hypothesis NA : forall en y, In en (g_active (n_goals n)) -> ~ eligible (c_thresh (n_cfg n)) en y.
  Hypothesis NO : noneFor n O.
  Lemma best_none : bestByState n = Ok None.
  Proof. apply noSeq_best. intros en l H. apply NS. now apply stored_iff. Qed.
  Lemma decide_it : forall x a n1, Q a -> fltb (c_thresh (n_cfg n)) x = true -> decide n true (i_u r) (Some (mkBest (Seq [A; O]) x (Some a))) = Ok n1 ->
    exists vb, retTv (rd (cells (n_mem n)) a) = Some vb /\ fltb (c_thresh (n_cfg n)) (calcExp vb) = true /\
      n1 = setGoals n (setActive (n_goals n) (g_active (n_goals n) ++ [mkEntry (newEternalSentenceByTv O GOAL vb (s_stamp (rd (cells (n_mem n)) a)) (i_u r)) (Some a) (n_t n) 0 f1 f1 f0])).
  Proof.
    intros x a n1 Rv X H. destruct (BT a Rv) as (vb & V & X1). exists vb. split; [exact V|]. split; [exact X1|].
    cbn [decide] in H. unfold fgtb in H. unfold fltb in X. rewrite X in H.
    destruct (convTermToStr (Seq [A; O])) as [txt|]; [|discriminate]. cbn [rbind is_seq enforce] in H.
    unfold is_seqAndLastOp in H. cbn [retSeqLast idx nth_error unwrap rbind length Nat.sub] in H. rewrite (op_decode _ _ _ OC) in H. cbn [rbind enforce] in H.
    destruct (sentenceText _) as [u|]; [|discriminate]. cbn [rbind] in H. destruct (convTermToStr O) as [to|]; [|discriminate]. cbn [rbind] in H.
    rewrite V in H. cbn [unwrap rbind] in H. rewrite term_clone_id in H. unfold addEntry in H. cbn [newEternalSentenceByTv s_punct punct_eqb negb] in H.
    set (s := newEternalSentenceByTv O GOAL vb (s_stamp (rd (cells (n_mem n)) a)) (i_u r)) in *.
    assert (K : goalKnown (n_goals n) s = false).
    { destruct (goalKnown (n_goals n) s) eqn:K; [|reflexivity]. exfalso. apply (known_iff _ _ (reach_ok _ GR)) in K. destruct K as (l & E & y & Hy & _).
      destruct (ok_index _ (reach_ok _ GR) _ _ _ E Hy) as (Ty & i & en & At & Es). apply (NO en); [left; eauto|]. unfold e_term. rewrite Es. exact Ty. }
    change (mkSentence O None GOAL (s_stamp (rd (cells (n_mem n)) a)) None (Some (TV vb)) (i_u r)) with s in H. rewrite K in H.
    unfold addEntry2 in H. cbn [e_sentence] in H. change (s_term s) with O in H. rewrite (op_decode _ _ _ OC) in H.
    assert (N : checkSetContains (g_active (n_goals n)) s = false).
    { destruct (checkSetContains (g_active (n_goals n)) s) eqn:B; [|reflexivity]. exfalso. unfold checkSetContains in B. apply existsb_exists in B. destruct B as (en & He & B). apply andb_prop in B. destruct B as (B & _).
      apply checkEqTerm_eq in B. apply (NO en); [now right|exact B]. }
    rewrite N in H. cbn [rbind] in H. now injection H as <-.
  Qed.
  Theorem actG : exists a iv, Q a /\
    nth_error (n_table n) (Z.to_nat (match s_expDt (rd (cells (n_mem n)) a) with Some d => d | None => 0 end)) = Some iv /\
    n_trace n' = traceLimit (n_trace n ++ [mkEvent O (n_t n) (n_t n)]) /\
    n_ant n' = n_ant n ++ (if c_anticipate (n_cfg n) then [(a, n_t n + iv)] else []) /\ cells (n_mem n') = cells (n_mem n) /\ n_t n' = n_t n + 1.
  Proof.
    pose proof R as H. unfold narStep1 in H. rewrite best_none in H. cbn [rbind] in H.
    destruct (planForward n (i_u r) (i_plan r) None) as [b1|] eqn:P; [|discriminate]. cbn [rbind] in H. destruct (PI _ eq_refl) as (a & x & Rv & -> & X). clear P.
    destruct (decide n true (i_u r) _) as [n1|] eqn:D; [|discriminate]. cbn [rbind] in H. destruct (decide_it x a n1 Rv X D) as (vb & V & X1 & ->). clear D.
    set (e1 := mkEntry (newEternalSentenceByTv O GOAL vb (s_stamp (rd (cells (n_mem n)) a)) (i_u r)) (Some a) (n_t n) 0 f1 f1 f0) in *.
    unfold execGoal in H. destruct (pickGoal _ _) as [pk|] eqn:Pk; [|discriminate]. cbn [rbind] in H.
    assert (Epk : pk = Some (length (g_active (n_goals n)), e1)).
    { unfold pickGoal in Pk. cbn [setGoals n_goals setActive g_active n_cfg] in Pk. rewrite rfold_app in Pk.
      destruct (rfold (pickStep (c_thresh (n_cfg n))) (g_active (n_goals n)) (f0, None, 0%nat)) as [st|] eqn:F; [|discriminate]. apply pick_none in F; [|exact NA]. subst st.
      cbn [rbind rfold pickStep is_desired e1 e_des] in Pk. assert (De : is_desired e1 = true) by (vm_compute; reflexivity). change (fgtb f1 (f_frac 1 10000)) with (is_desired e1) in Pk. rewrite De in Pk.
      change (retTv (e_sentence e1)) with (Some vb) in Pk. cbn [unwrap rbind] in Pk.
      assert (B : fgtb (calcExp vb) f0 = true) by (unfold fgtb; eapply fltb_trans'; [exact TH|exact X1]). rewrite B in Pk. change (fgtb (calcExp vb) (c_thresh (n_cfg n))) with (fltb (c_thresh (n_cfg n)) (calcExp vb)) in Pk. rewrite X1 in Pk. cbn [andb rbind] in Pk.
      injection Pk as <-. reflexivity. }
    subst pk. clear Pk. cbn [e1 e_evi e_sentence] in H. change (s_term (newEternalSentenceByTv O GOAL vb (s_stamp (rd (cells (n_mem n)) a)) (i_u r))) with O in H.
    rewrite (op_decode _ _ _ OC), term_clone_id in H. cbn [setGoals n_mem n_table] in H. unfold idxZ in H.
    destruct (_ <? 0); [discriminate|]. destruct (idx (n_table n) _) as [iv|] eqn:I; [|discriminate]. cbn [rbind] in H. unfold babble in H. cbn [rbind] in H.
    match type of H with context [execAction ?x _] => set (n2 := x) in H end.
    assert (F2 : n_ops n2 = n_ops n /\ n_trace n2 = n_trace n /\ n_t n2 = n_t n /\ n_mem n2 = n_mem n /\ n_ant n2 = n_ant n ++ (if c_anticipate (n_cfg n) then [(a, n_t n + iv)] else []))
      by (unfold n2; cbn [setGoals n_cfg n_ant n_t]; destruct (c_anticipate (n_cfg n)); cbn; rewrite ?app_nil_r; auto).
    clearbody n2. destruct F2 as (F1 & F2 & F3 & F4 & F5). exists a, iv. split; [exact Rv|]. split; [unfold idx, unwrap in I; destruct (nth_error _ _); [congruence|discriminate]|].
    unfold execAction in H. rewrite (op_decode _ _ _ OC) in H. cbn [unwrap rbind fst snd] in H.
    assert (Fo : ret_op_by_name (n_ops n) name = Some o) by now apply ret_op_some. rewrite F1, Fo, PL in H.
    assert (Cl : forall f l, callOp f (n_ops n) (n_t n2) OpPlain l = []) by (intros [|f] l; reflexivity). rewrite Cl, app_nil_r in H.
    destruct (convTermToStr O); [|discriminate]. cbn [rbind] in H. rewrite term_clone_id in H. unfold event_happened in H. cbn [setTrace n_trace n_t n_mem n_cfg] in H. rewrite F2, F3, F4 in H.
    destruct (Z.rem (n_t n) 101 =? 1).
    - destruct (pLimit (n_mem n) (c_nConcepts (n_cfg n2))) as [m|] eqn:Lm; [|discriminate]. cbn [rbind setMem n_t n_goals] in H.
      assert (Cm : cells m = cells (n_mem n)).
      { unfold pLimit in Lm. destruct (Nat.leb _ _); [now injection Lm as <-|]. destruct (rmapM _ _); [|discriminate]. cbn [rbind] in Lm. destruct (fsort_desc _ _); [|discriminate]. cbn [rbind] in Lm. now injection Lm as <-. }
      destruct (Z.rem _ 13 =? 1).
      + cbn [enforce rbind] in H. destruct (limitGoals _ _ _); [|discriminate]. cbn [rbind] in H. destruct (rfold _ _ _); [|discriminate]. cbn [rbind] in H. injection H as <-. cbn. rewrite F3, F5. auto.
      + cbn [rbind] in H. destruct (rfold _ _ _); [|discriminate]. cbn [rbind] in H. injection H as <-. cbn. rewrite F3, F5. auto.
    - cbn [rbind n_t n_goals] in H. destruct (Z.rem _ 13 =? 1).
      + cbn [enforce rbind] in H. destruct (limitGoals _ _ _); [|discriminate]. cbn [rbind] in H. destruct (rfold _ _ _); [|discriminate]. cbn [rbind] in H. injection H as <-. cbn. rewrite F3, F4, F5. auto.
      + cbn [rbind] in H. destruct (rfold _ _ _); [|discriminate]. cbn [rbind] in H. injection H as <-. cbn. rewrite F3, F4, F5. auto.
  Qed.
End ActG.
Section Act.
  Variables (n : pnar) (r : step1In) (n' : pnar) (tr : list event) (e : event) (A O C : term) (v : tv) (args : list term) (name : string) (o : op).
  Hypothesis R : narStep1 n true r = Ok n'.
  Hypothesis GR : gReach (n_goals n).
  Hypothesis TR : n_trace n = tr ++ [e].
  Hypothesis EA : ev_name e = A.
  Hypothesis OC : opCall O args name.
  Hypothesis FN : firstNamed (n_ops n) name o.
  Hypothesis PL : op_kind o = OpPlain.
  Hypothesis TH : fltb f0 (c_thresh (n_cfg n)) = true.
  Hypothesis BS : exists a, relevant n A a.
  Hypothesis BA : forall a, relevant n A a -> advises n A O C v a.
  Hypothesis WA : wants n C v.
  Hypothesis NO : noneFor n O.
  Lemma recent_last : recent (n_trace n) 0 = Some e.
  Proof.
    unfold recent. rewrite TR, app_length. cbn [length]. destruct (Nat.ltb_spec 0 (length tr + 1)) as [L|L]; [|lia].
    replace (length tr + 1 - 1 - 0)%nat with (length tr) by lia. rewrite nth_error_app2 by lia. now rewrite Nat.sub_diag.
  Qed.
  Lemma plan_it : forall b1, planForward n (i_u r) (i_plan r) None = Ok b1 ->
    exists a x, relevant n A a /\ b1 = Some (mkBest (Seq [A; O]) x (Some a)) /\ fltb (c_thresh (n_cfg n)) x = true.
  Proof.
    intros b1 H. unfold planForward in H. rewrite recent_last in H. rewrite term_clone_id, EA in H. cbn [plan] in H.
    destruct (query_by_antecedent A (n_mem n)) as [qr|] eqn:Q; [|discriminate]. cbn [rbind] in H. pose proof (antecedent_spec _ _ _ Q) as Sp.
    destruct BS as (a0 & B1 & B2). destruct qr as [|q0 qr]; [exfalso; apply (Sp a0); split; [exact B1|exact B2]|]. set (l := q0 :: qr) in *.
    destruct (idx l (Nat.modulo (hd 0%nat (i_plan r)) (length l))) as [a|] eqn:I; [|discriminate]. cbn [rbind] in H.
    assert (Ha : In a l) by (unfold idx, unwrap in I; destruct (nth_error l _) eqn:E; [injection I as <-; eapply nth_error_In; eauto|discriminate]).
    apply Sp in Ha. assert (Rv : relevant n A a) by exact Ha. pose proof (BA a Rv) as (T & St & vb & V & X1 & X2).
    rewrite T in H. cbn [retPred rbind app] in H. rewrite term_clone_id in H. destruct WA as (GS & GA & _).
    pose proof (query_spec (n_goals n) C) as G. destruct (query (n_goals n) C) as [hit|].
    2: { exfalso. destruct GS as (en & G1 & G2). apply (G en); [apply in_or_app; left; now apply stored_iff|exact G2]. }
    assert (Hv : retTv (e_sentence hit) = Some v).
    { destruct G as (G1 & G2). apply GA; [|exact G2]. apply stored_iff. apply in_app_or in G1. destruct G1 as [G1|G1]; [exact G1|]. unfold retEntries. apply in_or_app. now right. }
    unfold chainBack in H. rewrite Hv in H. cbn [unwrap rbind List.rev app rfold] in H. unfold infGoalBelief in H. cbn [newEternalSentenceByTv s_term s_stamp] in H. rewrite T in H.
    rewrite checkEqTerm_refl in H. cbn [negb] in H.
    destruct (checkOverlap (newStamp [-1]) (s_stamp (rd (cells (n_mem n)) a))) eqn:Ov.
    { exfalso. apply St. unfold checkOverlap, newStamp in Ov. cbn [existsb] in Ov. rewrite orb_false_r in Ov. apply existsb_exists in Ov. destruct Ov as (y & Y & E). apply Z.eqb_eq in E. now subst. }
    rewrite V in H. cbn [unwrap rbind] in H. unfold newEternalSentenceByTv in H.
    cbn [retTv s_evi evidenceTv s_term retSeqCond2 idx nth_error unwrap rbind punct_eqb negb] in H.
    destruct (convTermToStr (Seq [A; O])) as [txt|]; [|discriminate]. cbn [rbind better] in H. injection H as <-. eexists a, _. split; [exact Rv|]. split; [reflexivity|]. exact X2.
  Qed.
  Theorem act_it : exists a iv, relevant n A a /\
    nth_error (n_table n) (Z.to_nat (match s_expDt (rd (cells (n_mem n)) a) with Some d => d | None => 0 end)) = Some iv /\
    n_trace n' = traceLimit (n_trace n ++ [mkEvent O (n_t n) (n_t n)]) /\
    n_ant n' = n_ant n ++ (if c_anticipate (n_cfg n) then [(a, n_t n + iv)] else []) /\ cells (n_mem n') = cells (n_mem n) /\ n_t n' = n_t n + 1.
  Proof.
    apply (actG n r n' A O args name o (relevant n A)); auto.
    - exact plan_it.
    - intros a Ha. destruct (BA a Ha) as (_ & _ & vb & V & X & _). eauto.
    - apply WA.
    - apply WA.
  Qed.
End Act.
