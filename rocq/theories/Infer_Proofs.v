(** Proofs about the inference rules. *)
From Coq Require Import String ZArith Bool Lia List Permutation.
From Verif Require Import Base F64_Model Term_Model Term_Spec Term_Proofs Unify_Model Unify_Spec Unify_Proofs
  Stamp_Model Stamp_Proofs Tv_Model Tv_Spec Tv_Proofs Sentence_Model Sentence_Proofs Infer_Model Infer_Spec.
Import ListNotations.

Lemma isJ_eq : forall p, isJ p = true <-> p = JUGEMENT.
Proof. intros p. unfold isJ. apply punct_eqb_eq. Qed.

Lemma pushRules_cons {A} : forall (r : unit -> res (option A)) rs st,
  pushRules (r :: rs) st = (do o <- r tt; pushRules rs (match o with Some x => (fst st ++ [x], true) | None => st end)).
Proof. intros. unfold pushRules. simpl. destruct (r tt) as [[x|]|]; reflexivity. Qed.

Lemma pushRules_panic {A} : forall (rules : list (unit -> res (option A))) st,
  pushRules rules st = Panic <-> exists r, In r rules /\ r tt = Panic.
Proof.
  induction rules as [|r rs IH]; intros st.
  - cbv [pushRules rfold]. split; [discriminate|intros (r & [] & _)].
  - rewrite pushRules_cons. destruct (r tt) as [o|] eqn:E; cbn [rbind].
    + rewrite IH. split; intros (r' & H1 & H2); exists r'; [split; [right; auto|auto]|].
      destruct H1 as [<-|H1]; [congruence|auto].
    + split; intros _; [|reflexivity]. exists r. split; [now left|auto].
Qed.

Lemma pushRules_ok {A} : forall (rules : list (unit -> res (option A))) l0 b0 l b,
  pushRules rules (l0, b0) = Ok (l, b) ->
  (forall x, In x l <-> In x l0 \/ exists r, In r rules /\ r tt = Ok (Some x)) /\
  (exists e, l = l0 ++ e /\ b = (b0 || match e with [] => false | _ => true end)).
Proof.
  induction rules as [|r rs IH]; intros l0 b0 l b H.
  - cbv [pushRules rfold] in H. injection H as <- <-. split.
    + intros x. split; [auto|intros [?|(r & [] & _)]; auto].
    + exists []. rewrite app_nil_r, orb_false_r. auto.
  - rewrite pushRules_cons in H. destruct (r tt) as [o|] eqn:E; cbn [rbind] in H; [|discriminate].
    destruct o as [y|].
    + cbn [fst] in H. apply IH in H. destruct H as [H1 (e & -> & ->)]. split.
      * intros x. rewrite H1, in_app_iff. cbn [In]. split.
        { intros [[H|[->|[]]]|(r' & H2 & H3)]; [now left|right; exists r; split; [now left|auto]|right; exists r'; split; [now right|auto]]. }
        { intros [H|(r' & [<-|H2] & H3)]; [now left; left| |right; eauto].
          left. right. left. congruence. }
      * exists (y :: e). rewrite <- app_assoc. simpl. rewrite orb_true_r. auto.
    + apply IH in H. destruct H as [H1 H2]. split; [|exact H2].
      intros x. rewrite H1. split; (intros [H|(r' & H3 & H4)]; [now left|right; exists r']).
      * split; [now right|auto].
      * destruct H3 as [<-|H3]; [congruence|auto].
Qed.

(** [r] is the value of a rule whose conclusion is characterised by [P]. *)
Definition computes (r : res (option concl)) (tr : truth) (ta tb : option tv) (P : term -> Prop) : Prop :=
  (exists t, (forall t', P t' <-> t' = t) /\
     r = match truthVal tr ta tb with Some v => Ok (Some (t, v, JUGEMENT)) | None => Panic end) \/
  ((forall t, ~ P t) /\ r = Ok None).

Lemma computes_ok : forall r tr ta tb P t v p, computes r tr ta tb P ->
  (r = Ok (Some (t, v, p)) <-> p = JUGEMENT /\ P t /\ truthVal tr ta tb = Some v).
Proof.
  intros r tr ta tb P t v p [(t0 & HP & ->)|[HP ->]].
  - rewrite HP. destruct (truthVal tr ta tb) as [w|]; split.
    + intros [= <- <- <-]. auto.
    + intros (-> & -> & [= ->]). reflexivity.
    + discriminate.
    + intros (_ & _ & [=]).
  - split; [discriminate|]. intros (_ & H & _). destruct (HP _ H).
Qed.

Lemma computes_panic : forall r tr ta tb P, computes r tr ta tb P ->
  (r = Panic <-> (exists t, P t) /\ truthVal tr ta tb = None).
Proof.
  intros r tr ta tb P [(t0 & HP & ->)|[HP ->]].
  - destruct (truthVal tr ta tb) as [w|]; split; try discriminate.
    + intros [_ H]. discriminate.
    + intros _. split; [|reflexivity]. exists t0. now apply HP.
    + reflexivity.
  - split; [discriminate|]. intros [[t H] _]. destruct (HP _ H).
Qed.

Lemma tvApp_truth : forall f ta tb (g : tv -> concl),
  (do v <- tvApp f ta tb; Ok (Some (g v))) = match truthVal (TBoth f) ta tb with Some v => Ok (Some (g v)) | None => Panic end.
Proof. intros f [x|] [y|] g; reflexivity. Qed.

(** matching *)
Lemma unify_matchBy : forall a b u, unify a b = Some u -> matchBy (fun v => lookupVar v u) a b.
Proof.
  intros a b u H. destruct (unify_dom _ _ _ H) as (N & D & V). repeat split.
  - intros v Hv Ho. destruct (lookup_binds u v) as [(w & Hb & ->)|[Hn _]].
    + apply (V v). destruct Hb as (u1 & u2 & -> & _). apply in_or_app. right. now left.
    + destruct Hn. apply D. auto.
  - intros v Hv Ho. destruct (lookup_binds u v) as [(w & Hb & _)|[_ Hn]]; [|exact Hn].
    destruct Ho. apply D. destruct Hb as (u1 & u2 & -> & _). rewrite map_app. apply in_or_app. right. now left.
  - rewrite <- subst_inst. now apply unify_sound.
Qed.

Lemma inst_agree : forall s1 s2 t, inst s1 t = inst s2 t -> forall v, isVar v -> occurs v t -> s1 v = s2 v.
Proof.
  intros s1 s2 t. 
  assert (L : forall l, Forall (fun x => inst s1 x = inst s2 x -> forall v, isVar v -> occurs v x -> s1 v = s2 v) l ->
            map (inst s1) l = map (inst s2) l -> forall x, In x l -> forall v, isVar v -> occurs v x -> s1 v = s2 v).
  { induction 1 as [|y l Hy Hl IH]; intros E x Hin; [destruct Hin|]. simpl in E. injection E as E1 E2.
    destruct Hin as [<-|Hin]; eauto. }
  induction t as [c s p IHs IHp|n|l IH|l IH|l IH|n|n|n|l IH|l IH|r i l IHr IH|l IH|l IH|l IH|x IHx] using term_ind2;
  simpl; intros E v Hv Ho; apply occurs_inv in Ho; destruct Ho as [->|(x0 & Hc & Ho)];
  try (destruct Hv; fail); try exact E; try (inversion Hc; fail).
  all: try (injection E as E; inversion Hc; subst; eauto; fail).
Qed.

Lemma inst_ext : forall s1 s2 t, (forall v, isVar v -> s1 v = s2 v) -> inst s1 t = inst s2 t.
Proof.
  intros s1 s2 t H. induction t using term_ind2; simpl; auto; try (apply H; exact I); f_equal; auto;
   apply map_ext_Forall; assumption.
Qed.

Lemma occurs_dec : forall v t, {occurs v t} + {~ occurs v t}.
Proof.
  intros v t. destruct (in_dec term_eq_dec v (retSubterms t)) as [H|H]; rewrite retSubterms_iff in H; auto.
Qed.

Lemma matchBy_unique : forall s1 s2 a b t, matchBy s1 a b -> matchBy s2 a b -> inst s1 t = inst s2 t.
Proof.
  intros s1 s2 a b t (V1 & N1 & E1) (V2 & N2 & E2). apply inst_ext. intros v Hv.
  destruct (occurs_dec v a) as [H|H].
  - eapply inst_agree; eauto. congruence.
  - rewrite N1, N2; auto.
Qed.

Lemma match_none : forall a b sg, unify a b = None -> ~ matchBy sg a b.
Proof.
  intros a b sg H (V & _ & E). assert (K : instanceOf b a) by (exists sg; auto).
  apply unify_iff in K. destruct K as [u K]. congruence.
Qed.

Ltac injStmt := repeat match goal with H : Stmt _ _ _ = Stmt _ _ _ |- _ => injection H; clear H; intros; subst end.
Ltac noP := right; split; [|reflexivity]; let tt0 := fresh in let HH := fresh in intros tt0 HH; decompose [ex and] HH; clear HH; injStmt; subst; try discriminate; try congruence.

Definition P_inf3 pA a pB b t := pA = JUGEMENT /\ pB = JUGEMENT /\ exists s l1 l2,
  a = Stmt INH s (SetInt l1) /\ b = Stmt INH s (SetInt l2) /\ t = Stmt INH s (SetInt (l1 ++ l2)).
Lemma inf3_spec : forall a pA ta b pB tb,
  computes (inf3 a pA ta b pB tb) (TBoth int) ta tb (P_inf3 pA a pB b).
Proof.
  intros. unfold inf3, P_inf3, isJ. destruct pA; cbn [punct_eqb negb orb]; [|noP|noP]. destruct pB; cbn [punct_eqb negb orb]; [|noP|noP].
  destruct a as [[] s [] | | | | | | | | | | | | | | ]; try noP.
  destruct b as [[] s' [] | | | | | | | | | | | | | | ]; try noP.
  destruct (checkEqTerm s s') eqn:E.
  - apply checkEqTerm_eq in E. subst s'. left. eexists. split; [|apply tvApp_truth].
    intros t'. split.
    + intros (_ & _ & s0 & l1 & l2 & [= -> ->] & [= ->] & ->). reflexivity.
    + intros ->. repeat split. eauto 10.
  - noP. rewrite checkEqTerm_refl in E. discriminate.
Qed.

(** conjunctive detachment *)
Lemma remove_split : forall (A : Type) (l1 : list A) c l2, remove_at (length l1) (l1 ++ c :: l2) = l1 ++ l2.
Proof. induction l1; simpl; intros; [reflexivity|]. now rewrite IHl1. Qed.

Definition P_inf5 (i : nat) pA a pB b t := pA = JUGEMENT /\ pB = JUGEMENT /\ exists l1 c l2 p sg,
  length l1 = i /\ a = Stmt IMPL (Conj (l1 ++ c :: l2)) p /\ matchBy sg c b /\
  ((exists x, l1 ++ l2 = [x] /\ t = Stmt IMPL (inst sg x) (inst sg p)) \/
   (length (l1 ++ l2) <> 1 /\ t = Stmt IMPL (Conj (map (inst sg) (l1 ++ l2))) (inst sg p))).

Lemma split_unique : forall (A : Type) (l1 l1' l2 l2' : list A) c c',
  l1 ++ c :: l2 = l1' ++ c' :: l2' -> length l1 = length l1' -> l1 = l1' /\ c = c' /\ l2 = l2'.
Proof.
  induction l1 as [|x l1 IH]; destruct l1' as [|x' l1']; simpl; intros l2 l2' c c' E L; try discriminate.
  - now injection E as -> ->.
  - injection E as -> E. injection L as L. destruct (IH _ _ _ _ _ E L) as (-> & -> & ->). auto.
Qed.

Lemma inf5_spec : forall i a pA ta b pB tb,
  computes (inf5 a pA ta b pB tb i) (TBoth ded) ta tb (P_inf5 i pA a pB b).
Proof.
  intros. unfold inf5, P_inf5, isJ. destruct pA; cbn [punct_eqb negb orb]; [|noP|noP]. destruct pB; cbn [punct_eqb negb orb]; [|noP|noP].
  destruct a as [[] [] p | | | | | | | | | | | | | | ]; try noP.
  destruct (nth_error l i) as [cj|] eqn:E.
  2:{ noP. rewrite nth_error_app2, Nat.sub_diag in E by lia. discriminate. }
  destruct (unify cj b) as [u|] eqn:U.
  2:{ noP; rewrite nth_error_app2, Nat.sub_diag in E by lia; injection E as <-; eapply match_none in U; eauto. }
  apply nth_error_split in E. destruct E as (l1 & l2 & -> & <-). rewrite remove_split.
  assert (M := unify_matchBy _ _ _ U).
  rewrite tvApp_truth. left. eexists. split; [|reflexivity].
  rewrite (map_ext _ (inst (fun v => lookupVar v u))) by (intros; apply subst_inst). rewrite subst_inst.
  intros t'. split.
  - intros (_ & _ & l1' & c' & l2' & p' & sg & L & [= E ->] & M' & H).
    apply split_unique in E; [|auto]. destruct E as (-> & -> & ->).
    destruct H as [(x & Ex & ->)|[Hn ->]].
    + rewrite Ex. simpl. f_equal; eapply matchBy_unique; eauto.
    + rewrite (map_ext (inst sg) (inst (fun v => lookupVar v u))) by (intros; eapply matchBy_unique; eauto).
      rewrite (matchBy_unique sg (fun v => lookupVar v u) c' b p' M' M).
      destruct (l1' ++ l2') as [|x [|y l]]; simpl in *; try reflexivity; lia.
  - intros ->. split; [auto|split; [auto|]]. exists l1, cj, l2, p, (fun v => lookupVar v u).
    repeat split; auto; try apply M.
    destruct (l1 ++ l2) as [|x [|y l]]; [right|left|right]; simpl; eauto; split; auto; lia.
Qed.

Definition P_det pA a pB b t := pA = JUGEMENT /\ pB = JUGEMENT /\ exists s p sg,
  a = Stmt IMPL s p /\ matchBy sg s b /\ t = inst sg p.
Lemma infImplDed_spec : forall a pA ta b pB tb,
  computes (infImplDed a pA ta b pB tb) (TBoth ded) ta tb (P_det pA a pB b).
Proof.
  intros. unfold infImplDed, P_det, isJ. destruct pA; cbn [punct_eqb negb orb]; [|noP|noP]. destruct pB; cbn [punct_eqb negb orb]; [|noP|noP].
  destruct a as [[] s p | | | | | | | | | | | | | | ]; try noP.
  destruct (unify s b) as [u|] eqn:U.
  - assert (M := unify_matchBy _ _ _ U). rewrite tvApp_truth. left. eexists. split; [|reflexivity].
    rewrite subst_inst. intros t'. split.
    + intros (_ & _ & s' & p' & sg & [= <- <-] & M' & ->). eapply matchBy_unique; eauto.
    + intros ->. repeat split. exists s, p. eexists. split; [reflexivity|split; [exact M|reflexivity]].
  - noP. eapply match_none; eauto.
Qed.

Definition P_q pA a pB b t := pA = QUESTION /\ pB = JUGEMENT /\ exists s p sg,
  a = Stmt IMPL s p /\ matchBy sg p b /\ t = Stmt IMPL (inst sg s) (inst sg p).
Lemma inf7_spec : forall a pA ta b pB tb,
  computes (inf7 a pA ta b pB tb) TSecond ta tb (P_q pA a pB b).
Proof.
  intros. unfold inf7, P_q, isJ. destruct pA; cbn [punct_eqb negb orb]; [noP| |noP]. destruct pB; cbn [punct_eqb negb orb]; [|noP|noP].
  destruct a as [[] s p | | | | | | | | | | | | | | ]; try noP.
  destruct (unify p b) as [u|] eqn:U.
  - assert (M := unify_matchBy _ _ _ U). left. exists (unifySubst (Stmt IMPL s p) u). split; [|destruct tb; reflexivity].
    rewrite subst_inst. intros t'. split.
    + intros (_ & _ & s' & p' & sg & [= <- <-] & M' & ->). simpl. f_equal; eapply matchBy_unique; eauto.
    + intros ->. repeat split. exists s, p. eexists. split; [reflexivity|split; [exact M|reflexivity]].
  - noP. eapply match_none; eauto.
Qed.

Definition P_ext pA a pB b t := pA = JUGEMENT /\ pB = JUGEMENT /\ exists s p q,
  a = Stmt INH s p /\ b = Stmt INH s q /\ p <> q /\ t = Stmt INH s (ExtInt [p; q]).
Lemma inf10_spec : forall a pA ta b pB tb,
  computes (inf10 a pA ta b pB tb) (TBoth int) ta tb (P_ext pA a pB b).
Proof.
  intros. unfold inf10, P_ext, isJ. destruct pA; cbn [punct_eqb negb orb]; [|noP|noP]. destruct pB; cbn [punct_eqb negb orb]; [|noP|noP].
  destruct a as [[] s p | | | | | | | | | | | | | | ]; try noP.
  destruct b as [[] s' q | | | | | | | | | | | | | | ]; try noP.
  destruct (checkEqTerm p q) eqn:E1; cbn [negb andb].
  { noP. apply checkEqTerm_eq in E1. congruence. }
  destruct (checkEqTerm s s') eqn:E2.
  2:{ noP. rewrite checkEqTerm_refl in E2. discriminate. }
  apply checkEqTerm_eq in E2. subst s'. left. eexists. split; [|apply tvApp_truth]. intros t'. split.
  - intros (_ & _ & s0 & p0 & q0 & [= -> ->] & [= ->] & _ & ->). reflexivity.
  - intros ->. repeat split. exists s, p, q. repeat split; auto. intros ->. rewrite checkEqTerm_refl in E1. discriminate.
Qed.

Lemma isInhSim_iff : forall c, isInhSim c = true <-> inhOrSim c.
Proof. intros []; unfold isInhSim, inhOrSim; simpl; intuition congruence. Qed.

Definition P_cp pA a pB b t := pA = JUGEMENT /\ pB = JUGEMENT /\ exists c1 c2 s p q,
  a = Stmt c1 s p /\ b = Stmt c2 s q /\ inhOrSim c1 /\ inhOrSim c2 /\ p <> q /\ t = Stmt SIM p q.
Definition P_cs pA a pB b t := pA = JUGEMENT /\ pB = JUGEMENT /\ exists c1 c2 s r p,
  a = Stmt c1 s p /\ b = Stmt c2 r p /\ inhOrSim c1 /\ inhOrSim c2 /\ s <> r /\ t = Stmt SIM s r.


Lemma infCompPred_spec : forall a pA ta b pB tb,
  computes (infCompPred a pA ta b pB tb) (TBoth comp) ta tb (P_cp pA a pB b).
Proof.
  intros. unfold infCompPred, P_cp, isJ. destruct pA; cbn [punct_eqb negb orb]; [|noP|noP]. destruct pB; cbn [punct_eqb negb orb]; [|noP|noP].
  destruct a as [c s p | | | | | | | | | | | | | | ]; try noP.
  destruct (isInhSim c) eqn:C1. 2:{ noP. repeat match goal with H : inhOrSim _ |- _ => apply isInhSim_iff in H end; congruence. }
  destruct b as [d s' q | | | | | | | | | | | | | | ]; try noP.
  destruct (isInhSim d) eqn:C2. 2:{ noP. repeat match goal with H : inhOrSim _ |- _ => apply isInhSim_iff in H end; congruence. }
  apply isInhSim_iff in C1. apply isInhSim_iff in C2.
  destruct (checkEqTerm p q) eqn:E1; cbn [negb andb].
  { noP. apply checkEqTerm_eq in E1. congruence. }
  destruct (checkEqTerm s s') eqn:E2.
  2:{ noP. injStmt. rewrite checkEqTerm_refl in E2. discriminate. }
  apply checkEqTerm_eq in E2. subst s'. left. eexists. split; [|apply tvApp_truth]. intros t'. split.
  - intros (_ & _ & c1 & c2 & s0 & p0 & q0 & [= -> -> ->] & [= -> ->] & _ & _ & _ & ->). reflexivity.
  - intros ->. repeat split. exists c, d, s, p, q. repeat split; auto. intros ->. rewrite checkEqTerm_refl in E1. discriminate.
Qed.

Lemma infCompSubj_spec : forall a pA ta b pB tb,
  computes (infCompSubj a pA ta b pB tb) (TBoth comp) ta tb (P_cs pA a pB b).
Proof.
  intros. unfold infCompSubj, P_cs, isJ. destruct pA; cbn [punct_eqb negb orb]; [|noP|noP]. destruct pB; cbn [punct_eqb negb orb]; [|noP|noP].
  destruct a as [c s p | | | | | | | | | | | | | | ]; try noP.
  destruct (isInhSim c) eqn:C1. 2:{ noP. repeat match goal with H : inhOrSim _ |- _ => apply isInhSim_iff in H end; congruence. }
  destruct b as [d s' q | | | | | | | | | | | | | | ]; try noP.
  destruct (isInhSim d) eqn:C2. 2:{ noP. repeat match goal with H : inhOrSim _ |- _ => apply isInhSim_iff in H end; congruence. }
  apply isInhSim_iff in C1. apply isInhSim_iff in C2.
  destruct (checkEqTerm s s') eqn:E1; cbn [negb andb].
  { noP. apply checkEqTerm_eq in E1. congruence. }
  destruct (checkEqTerm p q) eqn:E2.
  2:{ noP. injStmt. rewrite checkEqTerm_refl in E2. discriminate. }
  apply checkEqTerm_eq in E2. subst q. left. eexists. split; [|apply tvApp_truth]. intros t'. split.
  - intros (_ & _ & c1 & c2 & s0 & p0 & q0 & [= -> -> ->] & [= -> ->] & _ & _ & _ & ->). reflexivity.
  - intros ->. repeat split. exists c, d, s, s', p. repeat split; auto. intros ->. rewrite checkEqTerm_refl in E1. discriminate.
Qed.

(** the generalised two-judgement rule *)
Definition P_gen ca cb cc sa sb pA a pB b t := pA = JUGEMENT /\ pB = JUGEMENT /\ exists s p s' p',
  a = Stmt ca s p /\ b = Stmt cb s' p' /\
  (if sa : bool then s else p) = (if sb : bool then s' else p') /\
  (if sa then p else s) <> (if sb then p' else s') /\
  t = Stmt cc (if sa then p else s) (if sb then p' else s').
Lemma gen_spec : forall ca cb cc sa sb f a pA ta b pB tb,
  computes (infGeneralizedJudgJudg a pA ta b pB tb ca cb cc sa sb f) (TBoth f) ta tb (P_gen ca cb cc sa sb pA a pB b).
Proof.
  intros. unfold infGeneralizedJudgJudg, P_gen, isJ. destruct pA; cbn [punct_eqb negb orb]; [|noP|noP]. destruct pB; cbn [punct_eqb negb orb]; [|noP|noP].
  destruct a as [c s p | | | | | | | | | | | | | | ]; try noP.
  destruct (copula_eqb c ca) eqn:C1. 2:{ noP. injStmt. destruct ca; discriminate. }
  destruct b as [d s' q | | | | | | | | | | | | | | ]; try noP.
  destruct (copula_eqb d cb) eqn:C2. 2:{ noP. injStmt. destruct cb; discriminate. }
  apply copula_eqb_eq in C1. apply copula_eqb_eq in C2. subst.
  destruct (checkEqTerm (sel s p sa) (sel s' q sb)) eqn:E1; cbn [negb andb].
  2:{ noP. injStmt. rewrite checkEqTerm_neq in E1. destruct sa, sb; unfold sel in *; congruence. }
  destruct (checkEqTerm (sel s p (negb sa)) (sel s' q (negb sb))) eqn:E2; cbn [negb].
  { noP. injStmt. apply checkEqTerm_eq in E2. destruct sa, sb; unfold sel in *; simpl in *; congruence. }
  apply checkEqTerm_eq in E1.
  left. eexists. split; [|apply tvApp_truth]. intros t'. split.
  - intros (_ & _ & s0 & p0 & s1 & p1 & [= -> ->] & [= -> ->] & _ & _ & ->). destruct sa, sb; reflexivity.
  - intros ->. repeat split. exists s, p, s', q. unfold sel in *.
    assert (N : (if negb sa then s else p) <> (if negb sb then s' else q)) by (intros K; rewrite K, checkEqTerm_refl in E2; discriminate).
    destruct sa, sb; simpl in *; repeat split; auto.
Qed.

Lemma rules_sound : forall a pA ta b pB tb r, In r (binaryRules a pA ta b pB tb) ->
  exists tr P, computes (r tt) tr ta tb P /\ forall t, P t -> schema pA a pB b t tr.
Proof.
  intros a pA ta b pB tb r H. unfold binaryRules in H.
  repeat (destruct H as [<-|H]); [..|destruct H].
  - eexists _, _. split; [apply inf3_spec|]. intros t (-> & -> & s & l1 & l2 & -> & -> & ->). constructor.
  - exists TSecond, (fun _ => False). split; [right; split; auto|tauto].
  - eexists _, _. split; [apply inf5_spec|]. intros t (-> & -> & l1 & c & l2 & p & sg & L & -> & M & [(x & E & ->)|[N ->]]); econstructor; eauto; lia.
  - eexists _, _. split; [apply inf5_spec|]. intros t (-> & -> & l1 & c & l2 & p & sg & L & -> & M & [(x & E & ->)|[N ->]]); econstructor; eauto; lia.
  - eexists _, _. split; [apply inf5_spec|]. intros t (-> & -> & l1 & c & l2 & p & sg & L & -> & M & [(x & E & ->)|[N ->]]); econstructor; eauto; lia.
  - eexists _, _. split; [apply inf5_spec|]. intros t (-> & -> & l1 & c & l2 & p & sg & L & -> & M & [(x & E & ->)|[N ->]]); econstructor; eauto; lia.
  - eexists _, _. split; [apply infImplDed_spec|]. intros t (-> & -> & s & p & sg & -> & M & ->). now constructor.
  - eexists _, _. split; [apply inf7_spec|]. intros t (-> & -> & s & p & sg & -> & M & ->). now constructor.
  - eexists _, _. split; [apply inf10_spec|]. intros t (-> & -> & s & p & q & -> & -> & N & ->). now constructor.
  - eexists _, _. split; [apply infCompPred_spec|]. intros t (-> & -> & c1 & c2 & s & p & q & -> & -> & C1 & C2 & N & ->). now constructor.
  - eexists _, _. split; [apply infCompSubj_spec|]. intros t (-> & -> & c1 & c2 & s & p & q & -> & -> & C1 & C2 & N & ->). now constructor.
  - eexists _, _. split; [apply gen_spec|]. intros t (-> & -> & s & p & s' & p' & -> & -> & E & N & ->). simpl in *. subst. constructor; auto.
  - eexists _, _. split; [apply gen_spec|]. intros t (-> & -> & s & p & s' & p' & -> & -> & E & N & ->). simpl in *. subst. constructor; auto.
  - eexists _, _. split; [apply gen_spec|]. intros t (-> & -> & s & p & s' & p' & -> & -> & E & N & ->). simpl in *. subst. constructor; auto.
  - eexists _, _. split; [apply gen_spec|]. intros t (-> & -> & s & p & s' & p' & -> & -> & E & N & ->). simpl in *. subst. constructor; auto.
  - eexists _, _. split; [apply gen_spec|]. intros t (-> & -> & s & p & s' & p' & -> & -> & E & N & ->). simpl in *. subst. constructor; auto.
Qed.

Ltac pick n := match n with O => left; reflexivity | S ?m => right; pick m end.

Lemma rules_complete : forall a pA ta b pB tb t tr, schema pA a pB b t tr ->
  exists r P, In r (binaryRules a pA ta b pB tb) /\ computes (r tt) tr ta tb P /\ P t.
Proof.
  intros a pA ta b pB tb t tr H. unfold binaryRules. destruct H.
  - eexists _, _. split; [pick 0|split; [apply inf3_spec|]]. repeat split. eauto 10.
  - assert (K : P_inf5 (length l1) JUGEMENT (Stmt IMPL (Conj (l1 ++ c :: l2)) p) JUGEMENT b (Stmt IMPL (inst sg x) (inst sg p))).
    { split; [auto|split; [auto|]]. exists l1, c, l2, p, sg. do 3 (split; [auto|]). left. eauto. }
    destruct (length l1) as [|[|[|[|n]]]]; [..|lia]; eexists _, _.
    + split; [pick 2|split; [apply inf5_spec|exact K]].
    + split; [pick 3|split; [apply inf5_spec|exact K]].
    + split; [pick 4|split; [apply inf5_spec|exact K]].
    + split; [pick 5|split; [apply inf5_spec|exact K]].
  - assert (K : P_inf5 (length l1) JUGEMENT (Stmt IMPL (Conj (l1 ++ c :: l2)) p) JUGEMENT b (Stmt IMPL (Conj (map (inst sg) (l1 ++ l2))) (inst sg p))).
    { split; [auto|split; [auto|]]. exists l1, c, l2, p, sg. do 3 (split; [auto|]). right. eauto. }
    destruct (length l1) as [|[|[|[|n]]]]; [..|lia]; eexists _, _.
    + split; [pick 2|split; [apply inf5_spec|exact K]].
    + split; [pick 3|split; [apply inf5_spec|exact K]].
    + split; [pick 4|split; [apply inf5_spec|exact K]].
    + split; [pick 5|split; [apply inf5_spec|exact K]].
  - eexists _, _. split; [pick 6|split; [apply infImplDed_spec|]]. split; [auto|split; [auto|]]. eauto 10.
  - eexists _, _. split; [pick 7|split; [apply inf7_spec|]]. split; [auto|split; [auto|]]. eauto 10.
  - eexists _, _. split; [pick 8|split; [apply inf10_spec|]]. split; [auto|split; [auto|]]. eauto 10.
  - eexists _, _. split; [pick 9|split; [apply infCompPred_spec|]]. split; [auto|split; [auto|]]. exists c1, c2. eauto 10.
  - eexists _, _. split; [pick 10|split; [apply infCompSubj_spec|]]. split; [auto|split; [auto|]]. exists c1, c2. eauto 10.
  - destruct H as [->|[->| ->]]; eexists _, _.
    + split; [pick 11|split; [apply gen_spec|]]. split; [auto|split; [auto|]]. exists a, b, b, d. eauto 10.
    + split; [pick 12|split; [apply gen_spec|]]. split; [auto|split; [auto|]]. exists a, b, b, d. eauto 10.
    + split; [pick 13|split; [apply gen_spec|]]. split; [auto|split; [auto|]]. exists a, b, b, d. eauto 10.
  - eexists _, _. split; [pick 14|split; [apply gen_spec|]]. split; [auto|split; [auto|]]. exists a, m, b, m. eauto 10.
  - eexists _, _. split; [pick 15|split; [apply gen_spec|]]. split; [auto|split; [auto|]]. exists m, a, m, b. eauto 10.
Qed.

Lemma inner_iff : forall a pA ta b pB tb f l g, infBinaryInner a pA ta b pB tb f = Ok (l, g) ->
  (forall t v p, In (t, v, p) l <-> p = JUGEMENT /\ exists tr, schema pA a pB b t tr /\ truthVal tr ta tb = Some v) /\
  g = (f || match l with [] => false | _ => true end).
Proof.
  intros a pA ta b pB tb f l g H. unfold infBinaryInner in H. apply pushRules_ok in H.
  destruct H as [H (e & -> & ->)]. split; [|reflexivity].
  intros t v p. rewrite H. split.
  - intros [[]|(r & Hr & E)]. destruct (rules_sound _ _ _ _ _ _ _ Hr) as (tr & P & C & S).
    apply (computes_ok _ _ _ _ _ _ _ _ C) in E. destruct E as (-> & HP & E). eauto 10.
  - intros (-> & tr & S & E). destruct (rules_complete _ _ ta _ _ tb _ _ S) as (r & P & Hr & C & HP).
    right. exists r. split; auto. apply (computes_ok _ _ _ _ _ _ _ _ C). auto.
Qed.

Lemma inner_panic : forall a pA ta b pB tb f, infBinaryInner a pA ta b pB tb f = Panic <->
  exists t tr, schema pA a pB b t tr /\ truthVal tr ta tb = None.
Proof.
  intros. unfold infBinaryInner. rewrite pushRules_panic. split.
  - intros (r & Hr & E). destruct (rules_sound _ _ _ _ _ _ _ Hr) as (tr & P & C & S).
    apply (computes_panic _ _ _ _ _ C) in E. destruct E as [[t Ht] E]. eauto.
  - intros (t & tr & S & E). destruct (rules_complete _ _ ta _ _ tb _ _ S) as (r & P & Hr & C & HP).
    exists r. split; auto. apply (computes_panic _ _ _ _ _ C). eauto.
Qed.

Theorem binary_iff : forall a pA ta b pB tb l g, infBinary a pA ta b pB tb = Ok (l, g) ->
  (forall t v p, In (t, v, p) l <-> p = JUGEMENT /\ exists tr,
     (schema pA a pB b t tr \/ schema pB b pA a t tr) /\ truthVal tr ta tb = Some v) /\
  (g = true <-> l <> []).
Proof.
  intros a pA ta b pB tb l g H. unfold infBinary in H.
  destruct (infBinaryInner a pA ta b pB tb false) as [[l1 g1]|] eqn:E1; [|discriminate]. cbn [rbind fst snd] in H.
  destruct (infBinaryInner b pB ta a pA tb g1) as [[l2 g2]|] eqn:E2; [|discriminate]. cbn [rbind fst snd] in H.
  injection H as <- <-. apply inner_iff in E1. apply inner_iff in E2.
  destruct E1 as [H1 ->]. destruct E2 as [H2 ->]. split.
  - intros t v p. rewrite in_app_iff, H1, H2. split.
    + intros [(-> & tr & S & E)|(-> & tr & S & E)]; eauto 10.
    + intros (-> & tr & [S|S] & E); [left|right]; eauto 10.
  - destruct l1, l2; simpl; split; try congruence; try discriminate; auto.
Qed.

Theorem binary_panic : forall a pA ta b pB tb, infBinary a pA ta b pB tb = Panic <->
  exists t tr, (schema pA a pB b t tr \/ schema pB b pA a t tr) /\ truthVal tr ta tb = None.
Proof.
  intros. unfold infBinary.
  destruct (infBinaryInner a pA ta b pB tb false) as [[l1 g1]|] eqn:E1; cbn [rbind fst snd].
  - destruct (infBinaryInner b pB ta a pA tb g1) as [[l2 g2]|] eqn:E2; cbn [rbind fst snd].
    + split; [discriminate|]. intros (t & tr & [S|S] & E); exfalso.
      * assert (K : infBinaryInner a pA ta b pB tb false = Panic) by (apply inner_panic; eauto). congruence.
      * assert (K : infBinaryInner b pB ta a pA tb g1 = Panic) by (apply inner_panic; eauto). congruence.
    + split; [|reflexivity]. intros _. apply inner_panic in E2. destruct E2 as (t & tr & S & E). eauto.
  - split; [|reflexivity]. intros _. apply inner_panic in E1. destruct E1 as (t & tr & S & E). eauto.
Qed.

Theorem binary_total : forall a b pA pB (x y : tv), exists l g, infBinary a pA (Some x) b pB (Some y) = Ok (l, g).
Proof.
  intros. destruct (infBinary a pA (Some x) b pB (Some y)) as [[l g]|] eqn:E; eauto.
  apply binary_panic in E. destruct E as (t & [f|] & _ & E); discriminate.
Qed.

(** * Premise order *)
Definition binSpecs (a : term) (pA : punct) (b : term) (pB : punct) : list (truth * (term -> Prop)) :=
  [ (TBoth int, P_inf3 pA a pB b); (TSecond, fun _ => False);
    (TBoth ded, P_inf5 0 pA a pB b); (TBoth ded, P_inf5 1 pA a pB b);
    (TBoth ded, P_inf5 2 pA a pB b); (TBoth ded, P_inf5 3 pA a pB b);
    (TBoth ded, P_det pA a pB b); (TSecond, P_q pA a pB b);
    (TBoth int, P_ext pA a pB b); (TBoth comp, P_cp pA a pB b); (TBoth comp, P_cs pA a pB b);
    (TBoth ded, P_gen PREDIMPL PREDIMPL PREDIMPL false true pA a pB b);
    (TBoth ded, P_gen IMPL IMPL IMPL false true pA a pB b);
    (TBoth ded, P_gen INH INH INH false true pA a pB b);
    (TBoth abd, P_gen INH INH INH false false pA a pB b);
    (TBoth ind, P_gen INH INH INH true true pA a pB b) ].

Lemma rules_specs : forall a pA ta b pB tb,
  Forall2 (fun r s => computes (r tt) (fst s) ta tb (snd s)) (binaryRules a pA ta b pB tb) (binSpecs a pA b pB).
Proof.
  intros. unfold binaryRules, binSpecs.
  repeat (apply Forall2_cons; cbn [fst snd]); try apply Forall2_nil;
    auto using inf3_spec, inf5_spec, infImplDed_spec, inf7_spec, inf10_spec, infCompPred_spec, infCompSubj_spec, gen_spec.
  right. split; auto.
Qed.

Definition termOf (c : concl) : term := fst (fst c).

Lemma specs_terms : forall ta tb ta' tb' specs rs rs',
  Forall2 (fun r s => computes (r tt) (fst s) ta tb (snd s)) rs specs ->
  Forall2 (fun r s => computes (r tt) (fst s) ta' tb' (snd s)) rs' specs ->
  forall l0 l0' g0 g0' l g l' g', pushRules rs (l0, g0) = Ok (l, g) -> pushRules rs' (l0', g0') = Ok (l', g') ->
  map termOf l0 = map termOf l0' -> map termOf l = map termOf l'.
Proof.
  induction specs as [|s specs IH]; intros rs rs' F F'; inversion F as [|r1 ? rs1 ? C1 F1]; inversion F' as [|r2 ? rs2 ? C2 F2]; subst; intros k0 k0' g0 g0' k1 g k1' g' E E' H.
  - cbv [pushRules rfold] in E, E'. congruence.
  - rewrite pushRules_cons in E, E'.
    destruct C1 as [(t & HP & E1)|[HN E1]], C2 as [(t' & HP' & E1')|[HN' E1']]; rewrite E1 in E; rewrite E1' in E'; clear E1 E1'.
    + assert (t = t') by (apply HP'; apply HP; reflexivity). subst t'.
      destruct (truthVal (fst s) ta tb); [|discriminate]. destruct (truthVal (fst s) ta' tb'); [|discriminate].
      cbn [rbind fst] in E, E'. eapply IH; [exact F1|exact F2|exact E|exact E'|]. rewrite !map_app, H. reflexivity.
    + destruct (HN' t). apply HP. reflexivity.
    + destruct (HN t'). apply HP'. reflexivity.
    + cbn [rbind] in E, E'. eapply IH; [exact F1|exact F2|exact E|exact E'|exact H].
Qed.

Lemma inner_terms : forall a pA b pB ta tb ta' tb' f f' l g l' g',
  infBinaryInner a pA ta b pB tb f = Ok (l, g) -> infBinaryInner a pA ta' b pB tb' f' = Ok (l', g') ->
  map termOf l = map termOf l'.
Proof.
  intros a pA b pB ta tb ta' tb' f f' l g l' g' E E'. unfold infBinaryInner in E, E'.
  exact (specs_terms _ _ _ _ _ _ _ (rules_specs _ _ _ _ _ _) (rules_specs _ _ _ _ _ _) _ _ _ _ _ _ _ _ E E' eq_refl).
Qed.

Lemma binary_split : forall a pA ta b pB tb l g, infBinary a pA ta b pB tb = Ok (l, g) ->
  exists l1 g1 l2 g2, infBinaryInner a pA ta b pB tb false = Ok (l1, g1) /\
    infBinaryInner b pB ta a pA tb g1 = Ok (l2, g2) /\ l = l1 ++ l2.
Proof.
  intros a pA ta b pB tb l g H. unfold infBinary in H.
  destruct (infBinaryInner a pA ta b pB tb false) as [[l1 g1]|] eqn:E1; [|discriminate]. cbn [rbind fst snd] in H.
  destruct (infBinaryInner b pB ta a pA tb g1) as [[l2 g2]|] eqn:E2; [|discriminate]. cbn [rbind fst snd] in H.
  injection H as <- <-. eauto 10.
Qed.

Theorem order_terms : forall a pA ta b pB tb l g l' g',
  infBinary a pA ta b pB tb = Ok (l, g) -> infBinary b pB tb a pA ta = Ok (l', g') ->
  Permutation (map termOf l) (map termOf l').
Proof.
  intros a pA ta b pB tb l g l' g' H H'.
  apply binary_split in H. destruct H as (l1 & g1 & l2 & g2 & E1 & E2 & ->).
  apply binary_split in H'. destruct H' as (l1' & g1' & l2' & g2' & E1' & E2' & ->).
  rewrite !map_app. rewrite (inner_terms _ _ _ _ _ _ _ _ _ _ _ _ _ _ E1 E2').
  rewrite (inner_terms _ _ _ _ _ _ _ _ _ _ _ _ _ _ E2 E1'). apply Permutation_app_comm.
Qed.

(** With equal values of every applicable truth function the lists are equal. *)
Lemma specs_eq : forall ta tb ta' tb' specs rs rs',
  Forall2 (fun r s => computes (r tt) (fst s) ta tb (snd s)) rs specs ->
  Forall2 (fun r s => computes (r tt) (fst s) ta' tb' (snd s)) rs' specs ->
  Forall (fun s : truth * (term -> Prop) => forall t, snd s t -> truthVal (fst s) ta tb = truthVal (fst s) ta' tb') specs ->
  forall l0 g0 g0' l g l' g', pushRules rs (l0, g0) = Ok (l, g) -> pushRules rs' (l0, g0') = Ok (l', g') -> l = l'.
Proof.
  induction specs as [|s specs IH]; intros rs rs' F F' FA; inversion F as [|r1 ? rs1 ? C1 F1]; inversion F' as [|r2 ? rs2 ? C2 F2]; inversion FA as [|? ? FA1 FA2]; subst; intros k0 g0 g0' k1 g k1' g' E E'.
  - cbv [pushRules rfold] in E, E'. congruence.
  - rewrite pushRules_cons in E, E'.
    destruct C1 as [(t & HP & E1)|[HN E1]], C2 as [(t' & HP' & E1')|[HN' E1']]; rewrite E1 in E; rewrite E1' in E'; clear E1 E1'.
    + assert (t = t') by (apply HP'; apply HP; reflexivity). subst t'.
      rewrite <- (FA1 t) in E' by (apply HP; reflexivity).
      destruct (truthVal (fst s) ta tb); [|discriminate].
      cbn [rbind fst] in E, E'. eapply IH; [exact F1|exact F2|exact FA2|exact E|exact E'].
    + destruct (HN' t). apply HP. reflexivity.
    + destruct (HN t'). apply HP'. reflexivity.
    + cbn [rbind] in E, E'. eapply IH; [exact F1|exact F2|exact FA2|exact E|exact E'].
Qed.

Definition lowOrder (t : term) : Prop := exists c s p, t = Stmt c s p /\ inhOrSim c.

Lemma inner_eq : forall a b (x y : tv) f f' l g l' g', ~ (lowOrder a /\ lowOrder b) ->
  infBinaryInner a JUGEMENT (Some x) b JUGEMENT (Some y) f = Ok (l, g) ->
  infBinaryInner a JUGEMENT (Some y) b JUGEMENT (Some x) f' = Ok (l', g') -> l = l'.
Proof.
  intros a b x y f f' l g l' g' N E E'.
  unfold infBinaryInner in E, E'.
  refine (specs_eq _ _ _ _ _ _ _ (rules_specs _ _ _ _ _ _) (rules_specs _ _ _ _ _ _) _ _ _ _ _ _ _ _ E E').
  clear E E'.
  assert (LO : forall c s p, a = Stmt c s p -> inhOrSim c -> forall d r q, b = Stmt d r q -> inhOrSim d -> False).
  { intros c s p -> Hc d r q -> Hd. apply N. unfold lowOrder. eauto 10. }
  assert (INHi : inhOrSim INH) by (left; reflexivity).
  unfold binSpecs. repeat apply Forall_cons; try apply Forall_nil; cbn [fst snd truthVal];
    try (intros; f_equal; auto using ded_comm, int_comm; fail); try tauto.
  - intros t (K & _). discriminate.
  - intros t (_ & _ & c1 & c2 & s & p & q & -> & -> & C1 & C2 & _). exfalso. eapply LO; eauto.
  - intros t (_ & _ & c1 & c2 & s & p & q & -> & -> & C1 & C2 & _). exfalso. eapply LO; eauto.
  - intros t (_ & _ & s & p & s' & p' & -> & -> & _). exfalso. eapply LO; eauto.
  - intros t (_ & _ & s & p & s' & p' & -> & -> & _). exfalso. eapply LO; eauto.
Qed.

Theorem order_higher : forall a b (x y : tv) l g l' g', ~ (lowOrder a /\ lowOrder b) ->
  infBinary a JUGEMENT (Some x) b JUGEMENT (Some y) = Ok (l, g) ->
  infBinary b JUGEMENT (Some y) a JUGEMENT (Some x) = Ok (l', g') -> Permutation l l'.
Proof.
  intros a b x y l g l' g' N H H'.
  apply binary_split in H. destruct H as (l1 & g1 & l2 & g2 & E1 & E2 & ->).
  apply binary_split in H'. destruct H' as (l1' & g1' & l2' & g2' & E1' & E2' & ->).
  rewrite (inner_eq _ _ _ _ _ _ _ _ _ _ N E1 E2').
  assert (N' : ~ (lowOrder b /\ lowOrder a)) by tauto.
  rewrite (inner_eq _ _ _ _ _ _ _ _ _ _ N' E2 E1'). apply Permutation_app_comm.
Qed.

(** * Structural rules *)
Definition stTruth (mir : bool) (v : tv) : tv := if mir then neg v else v.

Definition computes1 (r : res (option concl1)) (mir : bool) (bias : positive) (ta : option tv) (P : term -> Prop) : Prop :=
  (exists t, (forall t', P t' <-> t' = t) /\
     r = match ta with Some v => Ok (Some (t, stTruth mir v, JUGEMENT, f_frac bias 10)) | None => Panic end) \/
  ((forall t, ~ P t) /\ r = Ok None).


Lemma unwrap_truth : forall (ta : option tv) (g : tv -> concl1),
  (do v <- unwrap ta; Ok (Some (g v))) = match ta with Some v => Ok (Some (g v)) | None => Panic end.
Proof. intros [v|] g; reflexivity. Qed.

Definition S_neg p a t := p = JUGEMENT /\ a = Neg t.
Lemma infNeg_spec : forall a p ta, computes1 (infNeg a p ta) true 5 ta (S_neg p a).
Proof.
  intros. unfold infNeg, S_neg, isJ. destruct p; cbn [punct_eqb negb]; [|noP|noP].
  destruct a; try noP. left. exists a. split; [|rewrite unwrap_truth; reflexivity].
  intros t'. split; [intros [_ [= ->]]; auto|intros ->; auto].
Qed.

Definition S_subj i p a t := p = JUGEMENT /\ exists l1 x l2 q, length l1 = i /\ a = Stmt INH (IntInt (l1 ++ x :: l2)) q /\ t = Stmt INH x q.
Definition S_pred i p a t := p = JUGEMENT /\ exists l1 x l2 s, length l1 = i /\ a = Stmt INH s (IntInt (l1 ++ x :: l2)) /\ t = Stmt INH s x.
Lemma infStructSubj1_spec : forall i a p ta, computes1 (infStructSubj1 a p ta i) false 9 ta (S_subj i p a).
Proof.
  intros. unfold infStructSubj1, S_subj, isJ. destruct p; cbn [punct_eqb negb]; [|noP|noP].
  destruct a as [[] [] q | | | | | | | | | | | | | | ]; try noP.
  destruct (nth_error l i) as [x|] eqn:E.
  - apply nth_error_split in E. destruct E as (l1 & l2 & -> & <-).
    left. eexists. split; [|rewrite unwrap_truth; reflexivity]. intros t'. split.
    + intros (_ & l1' & x' & l2' & q' & L & [= E ->] & ->). apply split_unique in E; [|auto]. destruct E as (_ & -> & _). auto.
    + intros ->. split; [auto|]. exists l1, x, l2, q. auto.
  - noP. rewrite nth_error_app2, Nat.sub_diag in E by lia. discriminate.
Qed.
Lemma infStructPred1_spec : forall i a p ta, computes1 (infStructPred1 a p ta i) false 10 ta (S_pred i p a).
Proof.
  intros. unfold infStructPred1, S_pred, isJ. destruct p; cbn [punct_eqb negb]; [|noP|noP].
  destruct a as [[] s [] | | | | | | | | | | | | | | ]; try noP.
  destruct (nth_error l i) as [x|] eqn:E.
  - apply nth_error_split in E. destruct E as (l1 & l2 & -> & <-).
    left. eexists. split; [|rewrite unwrap_truth; reflexivity]. intros t'. split.
    + intros (_ & l1' & x' & l2' & q' & L & [= -> E] & ->). apply split_unique in E; [|auto]. destruct E as (_ & -> & _). auto.
    + intros ->. split; [auto|]. exists l1, x, l2, s. auto.
  - noP. rewrite nth_error_app2, Nat.sub_diag in E by lia. discriminate.
Qed.

Definition S_prod0 p a t := p = JUGEMENT /\ exists x y l r, a = Stmt INH (Prod (x :: y :: l)) r /\ t = Stmt INH x (Img r 0 [y]).
Lemma infStructProd0_spec : forall a p ta, ~ shortProd p a -> computes1 (infStructProd0 a p ta) false 8 ta (S_prod0 p a).
Proof.
  intros a p ta N. unfold infStructProd0, S_prod0, isJ. destruct p; cbn [punct_eqb negb]; [|noP|noP].
  destruct a as [[] [] q | | | | | | | | | | | | | | ]; try noP.
  destruct l as [|x [|y l]]; try (exfalso; apply N; split; [auto|]; eexists _, _; split; [reflexivity|]; simpl; lia).
  left. eexists. split; [|simpl; rewrite unwrap_truth; reflexivity]. intros t'. split.
  - intros (_ & x' & y' & l' & r & [= -> -> -> ->] & ->). auto.
  - intros ->. split; auto. exists x, y, l, q. auto.
Qed.
Lemma infStructProd0_short : forall a p ta, shortProd p a -> infStructProd0 a p ta = Panic.
Proof.
  intros a p ta (-> & l & r & -> & L). destruct l as [|x [|y l]]; [reflexivity..|simpl in L; lia].
Qed.

Definition S_prod1 p a t := p = JUGEMENT /\ exists x y r, a = Stmt INH (Prod [x; y]) r /\ t = Stmt INH y (Img r 1 [x]).
Lemma infStructProd1_spec : forall a p ta, computes1 (infStructProd1 a p ta) false 8 ta (S_prod1 p a).
Proof.
  intros. unfold infStructProd1, S_prod1, isJ. destruct p; cbn [punct_eqb negb]; [|noP|noP].
  destruct a as [[] [| | | | | | | | | [|x [|y [|z l]]] | | | | | ] q | | | | | | | | | | | | | | ]; try noP.
  left. eexists. split; [|rewrite unwrap_truth; reflexivity]. intros t'. split.
  - intros (_ & x' & y' & r & [= -> -> ->] & ->). auto.
  - intros ->. split; auto. exists x, y, q. auto.
Qed.

Definition S_img0 p a t := (p = JUGEMENT \/ p = QUESTION) /\ exists x y r, a = Stmt INH x (Img r 0 [y]) /\ t = Stmt INH (Prod [x; y]) r.
Definition S_img1 p a t := (p = JUGEMENT \/ p = QUESTION) /\ exists x y r, a = Stmt INH y (Img r 1 [x]) /\ t = Stmt INH (Prod [x; y]) r.
Lemma infStructImg0_spec : forall a p ta, computes1 (infStructImg0 a p ta) false 9 ta (S_img0 p a).
Proof.
  intros. unfold infStructImg0, S_img0, isJ.
  assert (D : (p = JUGEMENT \/ p = QUESTION) /\ negb (punct_eqb p JUGEMENT) && negb (punct_eqb p QUESTION) = false \/
              p = GOAL /\ negb (punct_eqb p JUGEMENT) && negb (punct_eqb p QUESTION) = true) by (destruct p; auto).
  destruct D as [[Hp ->]|[-> ->]]; [|right; split; [|reflexivity]; intros t [[K|K] _]; discriminate].
  destruct a as [[] s [| | | | | | | | | | r [|n] [|y [|z l]] | | | | ] | | | | | | | | | | | | | | ]; try noP.
  left. eexists. split; [|rewrite unwrap_truth; reflexivity]. intros t'. split.
  - intros (_ & x' & y' & r' & [= -> -> ->] & ->). auto.
  - intros ->. split; auto. exists s, y, r. auto.
Qed.
Lemma infStructImg1_spec : forall a p ta, computes1 (infStructImg1 a p ta) false 9 ta (S_img1 p a).
Proof.
  intros. unfold infStructImg1, S_img1, isJ.
  assert (D : (p = JUGEMENT \/ p = QUESTION) /\ negb (punct_eqb p JUGEMENT) && negb (punct_eqb p QUESTION) = false \/
              p = GOAL /\ negb (punct_eqb p JUGEMENT) && negb (punct_eqb p QUESTION) = true) by (destruct p; auto).
  destruct D as [[Hp ->]|[-> ->]]; [|right; split; [|reflexivity]; intros t [[K|K] _]; discriminate].
  destruct a as [[] s [| | | | | | | | | | r [|[|n]] [|y [|z l]] | | | | ] | | | | | | | | | | | | | | ]; try noP.
  left. eexists. split; [|rewrite unwrap_truth; reflexivity]. intros t'. split.
  - intros (_ & x' & y' & r' & [= -> -> ->] & ->). auto.
  - intros ->. split; auto. exists y, s, r. auto.
Qed.

Definition S_si p a t := p = JUGEMENT /\ exists x y, a = Stmt SIM (SetInt [x]) (SetInt [y]) /\ t = Stmt SIM x y.
Definition S_se p a t := p = JUGEMENT /\ exists x y, a = Stmt SIM (SetExt [x]) (SetExt [y]) /\ t = Stmt SIM x y.
Lemma infStructSetInt_spec : forall a p ta, computes1 (infStructSetInt a p ta) false 10 ta (S_si p a).
Proof.
  intros. unfold infStructSetInt, S_si, isJ. destruct p; cbn [punct_eqb negb]; [|noP|noP].
  destruct a as [[] s p | | | | | | | | | | | | | | ]; try noP.
  destruct s as [| | | [|x [|z l]] | | | | | | | | | | | ]; try noP.
  destruct p as [| | | [|y [|z' l']] | | | | | | | | | | | ]; try noP.
  left. eexists. split; [|rewrite unwrap_truth; reflexivity]. intros t'. split.
  - intros (_ & x' & y' & [= -> ->] & ->). auto.
  - intros ->. split; auto. exists x, y. auto.
Qed.
Lemma infStructSetExt_spec : forall a p ta, computes1 (infStructSetExt a p ta) false 10 ta (S_se p a).
Proof.
  intros. unfold infStructSetExt, S_se, isJ. destruct p; cbn [punct_eqb negb]; [|noP|noP].
  destruct a as [[] s p | | | | | | | | | | | | | | ]; try noP.
  destruct s as [| | | | [|x [|z l]] | | | | | | | | | | ]; try noP.
  destruct p as [| | | | [|y [|z' l']] | | | | | | | | | | ]; try noP.
  left. eexists. split; [|rewrite unwrap_truth; reflexivity]. intros t'. split.
  - intros (_ & x' & y' & [= -> ->] & ->). auto.
  - intros ->. split; auto. exists x, y. auto.
Qed.

Lemma computes1_ok : forall r mir bias ta P t v p b, computes1 r mir bias ta P ->
  (r = Ok (Some (t, v, p, b)) <-> p = JUGEMENT /\ P t /\ b = f_frac bias 10 /\ exists w, ta = Some w /\ v = stTruth mir w).
Proof.
  intros r mir bias ta P t v p b [(t0 & HP & ->)|[HP ->]].
  - rewrite HP. destruct ta as [w|]; split.
    + intros [= <- <- <- <-]. eauto 10.
    + intros (-> & -> & -> & w' & [= <-] & ->). reflexivity.
    + discriminate.
    + intros (_ & _ & _ & w & [=] & _).
  - split; [discriminate|]. intros (_ & H & _). destruct (HP _ H).
Qed.
Lemma computes1_panic : forall r mir bias ta P, computes1 r mir bias ta P ->
  (r = Panic <-> (exists t, P t) /\ ta = None).
Proof.
  intros r mir bias ta P [(t0 & HP & ->)|[HP ->]].
  - destruct ta as [w|]; split; try discriminate; auto.
    + intros [_ H]. discriminate.
    + intros _. split; [|reflexivity]. exists t0. now apply HP.
  - split; [discriminate|]. intros [[t H] _]. destruct (HP _ H).
Qed.

Lemma single_sound : forall a p ta r, ~ shortProd p a -> In r (singleRules a p ta) ->
  exists mir bias P, computes1 (r tt) mir bias ta P /\ forall t, P t -> struct p a t mir bias.
Proof.
  intros a p ta r N H. unfold singleRules in H.
  repeat (destruct H as [<-|H]); [..|destruct H]; do 3 eexists.
  - split; [apply infNeg_spec|]. intros t [-> ->]. constructor.
  - split; [apply infStructSubj1_spec|]. intros t (-> & l1 & x & l2 & q & L & -> & ->). constructor. lia.
  - split; [apply infStructSubj1_spec|]. intros t (-> & l1 & x & l2 & q & L & -> & ->). constructor. lia.
  - split; [apply infStructSubj1_spec|]. intros t (-> & l1 & x & l2 & q & L & -> & ->). constructor. lia.
  - split; [apply infStructPred1_spec|]. intros t (-> & l1 & x & l2 & q & L & -> & ->). constructor. lia.
  - split; [apply infStructPred1_spec|]. intros t (-> & l1 & x & l2 & q & L & -> & ->). constructor. lia.
  - split; [apply infStructPred1_spec|]. intros t (-> & l1 & x & l2 & q & L & -> & ->). constructor. lia.
  - split; [apply infStructProd0_spec; exact N|]. intros t (-> & x & y & l & q & -> & ->). constructor.
  - split; [apply infStructProd1_spec|]. intros t (-> & x & y & q & -> & ->). constructor.
  - split; [apply infStructImg0_spec|]. intros t (Hp & x & y & q & -> & ->). now constructor.
  - split; [apply infStructImg1_spec|]. intros t (Hp & x & y & q & -> & ->). now constructor.
  - split; [apply infStructSetInt_spec|]. intros t (-> & x & y & -> & ->). constructor.
  - split; [apply infStructSetExt_spec|]. intros t (-> & x & y & -> & ->). constructor.
Qed.

Lemma single_complete : forall a p ta t mir bias, ~ shortProd p a -> struct p a t mir bias ->
  (exists r P, In r (singleRules a p ta) /\ computes1 (r tt) mir bias ta P /\ P t) \/
  (exists s l x, p = JUGEMENT /\ a = Stmt PREDIMPL s (Par l) /\ In x l /\ t = Stmt PREDIMPL s x /\ mir = false /\ bias = 9%positive).
Proof.
  intros a p ta t mir bias N H. unfold singleRules. destruct H; [left..|].
  - eexists _, _. split; [pick 0|split; [apply infNeg_spec|]]. split; auto.
  - destruct l1 as [|x0 [|x1 [|x2 l1]]]; [| | |simpl in H; lia]; eexists _, _.
    + split; [pick 1|split; [apply infStructSubj1_spec|]]. split; auto. exists [], x, l2, p. auto.
    + split; [pick 2|split; [apply infStructSubj1_spec|]]. split; auto. exists [x0], x, l2, p. auto.
    + split; [pick 3|split; [apply infStructSubj1_spec|]]. split; auto. exists [x0; x1], x, l2, p. auto.
  - destruct l1 as [|x0 [|x1 [|x2 l1]]]; [| | |simpl in H; lia]; eexists _, _.
    + split; [pick 4|split; [apply infStructPred1_spec|]]. split; auto. exists [], x, l2, s. auto.
    + split; [pick 5|split; [apply infStructPred1_spec|]]. split; auto. exists [x0], x, l2, s. auto.
    + split; [pick 6|split; [apply infStructPred1_spec|]]. split; auto. exists [x0; x1], x, l2, s. auto.
  - eexists _, _. split; [pick 7|split; [apply infStructProd0_spec; exact N|]]. split; auto. eauto 10.
  - eexists _, _. split; [pick 8|split; [apply infStructProd1_spec|]]. split; auto. eauto 10.
  - eexists _, _. split; [pick 9|split; [apply infStructImg0_spec|]]. split; auto. eauto 10.
  - eexists _, _. split; [pick 10|split; [apply infStructImg1_spec|]]. split; auto. exists x, y, r. auto.
  - eexists _, _. split; [pick 11|split; [apply infStructSetInt_spec|]]. split; auto. eauto 10.
  - eexists _, _. split; [pick 12|split; [apply infStructSetExt_spec|]]. split; auto. eauto 10.
  - right. eauto 10.
Qed.

Definition isPar (p : punct) (a : term) s l := p = JUGEMENT /\ a = Stmt PREDIMPL s (Par l).
Lemma rmapM_par : forall s (ta : option tv) l,
  rmapM (fun t => do v <- unwrap ta; Ok (Stmt PREDIMPL s t, v, JUGEMENT, f_frac 9 10)) l =
  match l, ta with
  | [], _ => Ok []
  | _, Some v => Ok (map (fun t => (Stmt PREDIMPL s t, v, JUGEMENT, f_frac 9 10)) l)
  | _, None => Panic
  end.
Proof.
  intros s ta l. destruct ta as [v|]; [|destruct l; reflexivity].
  induction l as [|x l IH]; [reflexivity|]. cbn [rmapM]. rewrite IH. destruct l; reflexivity.
Qed.

Lemma par_spec : forall a p ta,
  (exists s l, isPar p a s l /\ infStructDecomposePar a p ta =
     rmap Some (rmapM (fun t => do v <- unwrap ta; Ok (Stmt PREDIMPL s t, v, JUGEMENT, f_frac 9 10)) l)) \/
  ((forall s l, ~ isPar p a s l) /\ infStructDecomposePar a p ta = Ok None).
Proof.
  intros a p ta. unfold infStructDecomposePar, isPar, isJ. destruct p; cbn [punct_eqb negb];
   [|right; split; [intros s l [K _]; discriminate|reflexivity]..].
  destruct a as [[] s [] | | | | | | | | | | | | | | ];
   try (right; split; [intros s0 l0 [_ K]; discriminate|reflexivity]).
  left. eauto 10.
Qed.

Theorem single_iff : forall a p ta l, infSinglePremise a p ta = Ok l ->
  forall t v q b, In (t, v, q, b) l <-> q = JUGEMENT /\ exists mir bias w,
    struct p a t mir bias /\ ta = Some w /\ v = stTruth mir w /\ b = f_frac bias 10.
Proof.
  intros a p ta l H. unfold infSinglePremise in H.
  destruct (pushRules (singleRules a p ta) ([], false)) as [[l1 g]|] eqn:E; [|discriminate]. cbn [rbind fst] in H.
  assert (N : ~ shortProd p a).
  { intros S. assert (K : pushRules (singleRules a p ta) ([], false) = Panic); [|congruence].
    apply pushRules_panic. exists (fun _ => infStructProd0 a p ta). split; [unfold singleRules; do 7 right; left; reflexivity|].
    now apply infStructProd0_short. }
  apply pushRules_ok in E. destruct E as [E _].
  intros t v q b.
  assert (I1 : In (t, v, q, b) l1 -> q = JUGEMENT /\ exists mir bias w,
    struct p a t mir bias /\ ta = Some w /\ v = stTruth mir w /\ b = f_frac bias 10).
  { rewrite E. intros [[]|(r & Hr & K)]. destruct (single_sound _ _ _ _ N Hr) as (mir & bias & P & C & S).
    apply (computes1_ok _ _ _ _ _ _ _ _ _ C) in K. destruct K as (-> & Pt & -> & w & -> & ->).
    split; auto. exists mir, bias, w. auto 10. }
  destruct (par_spec a p ta) as [(s & lp & [-> ->] & Ep)|[Np Ep]]; rewrite Ep in H; clear Ep.
  - rewrite rmapM_par in H.
    assert (H2 : l = l1 ++ match ta with Some w => map (fun t => (Stmt PREDIMPL s t, w, JUGEMENT, f_frac 9 10)) lp | None => [] end /\ (lp = [] \/ ta <> None)).
    { destruct lp; destruct ta; cbn in H; try discriminate; injection H as <-; split; auto; right; discriminate. }
    clear H. destruct H2 as [-> Hlp]. rewrite in_app_iff. split.
    + intros [Hin|Hin]; [apply I1, Hin|].
      destruct ta as [w|]; [|destruct Hin]. apply in_map_iff in Hin. destruct Hin as (x & [= <- <- <- <-] & Hin).
      split; auto. exists false, 9%positive, w. repeat split; auto. constructor. exact Hin.
    + intros (-> & mir & bias & w & S & -> & -> & ->).
      inversion S; subst. right. apply in_map_iff. eexists. split; [reflexivity|]. assumption.
  - cbn [rbind] in H. injection H as <-. rewrite app_nil_r. split; [exact I1|].
    intros (-> & mir & bias & w & S & -> & -> & ->). apply E. right.
    destruct (single_complete _ _ (Some w) _ _ _ N S) as [(r & P & Hr & C & Pt)|(s & lp & x & -> & -> & _)].
    + exists r. split; auto. apply (computes1_ok _ _ _ _ _ _ _ _ _ C). eauto 10.
    + destruct (Np s lp). split; auto.
Qed.

Theorem single_panic : forall a p ta, infSinglePremise a p ta = Panic <->
  shortProd p a \/ (ta = None /\ exists t mir bias, struct p a t mir bias).
Proof.
  intros a p ta.
  assert (SP : forall X : Prop, (shortProd p a -> X) -> (~ shortProd p a -> X) -> X).
  { intros X H1 H2. destruct p; try (apply H2; intros [K _]; discriminate).
    destruct a as [[] [] q | | | | | | | | | | | | | | ]; try (apply H2; intros (_ & l0 & r0 & K & _); discriminate).
    destruct l as [|x [|y l]]; [apply H1; split; auto; eexists _, _; split; [reflexivity|simpl; lia]..|].
    apply H2. intros (_ & l0 & r0 & [= <- <-] & K). simpl in K. lia. }
  apply SP; clear SP; intros N.
  - split; [auto|]. intros _. unfold infSinglePremise.
    assert (K : pushRules (singleRules a p ta) ([], false) = Panic); [|rewrite K; reflexivity].
    apply pushRules_panic. exists (fun _ => infStructProd0 a p ta). split; [unfold singleRules; do 7 right; left; reflexivity|].
    now apply infStructProd0_short.
  - unfold infSinglePremise. destruct (pushRules (singleRules a p ta) ([], false)) as [[l1 g]|] eqn:E; cbn [rbind fst].
    + destruct (par_spec a p ta) as [(s & lp & [-> ->] & Ep)|[Np Ep]]; rewrite Ep.
      * rewrite rmapM_par. split.
        -- destruct lp as [|x lp]; [discriminate|]. destruct ta; [discriminate|]. intros _. right. split; auto.
           exists (Stmt PREDIMPL s x), false, 9%positive. constructor. now left.
        -- intros [S|(-> & t & mir & bias & S)]; [destruct N; exact S|]. inversion S; subst. destruct lp; [contradiction|reflexivity].
      * cbn [rbind]. split; [discriminate|]. intros [S|(-> & t & mir & bias & S)]; [destruct N; exact S|].
        destruct (single_complete _ _ None _ _ _ N S) as [(r & P & Hr & C & Pt)|(s & lp & x & -> & -> & _)].
        -- assert (K : pushRules (singleRules a p None) ([], false) = Panic); [|congruence].
           apply pushRules_panic. exists r. split; auto. apply (computes1_panic _ _ _ _ _ C). eauto.
        -- destruct (Np s lp). split; auto.
    + split; [|reflexivity]. intros _. right. apply pushRules_panic in E. destruct E as (r & Hr & K).
      destruct (single_sound _ _ _ _ N Hr) as (mir & bias & P & C & S).
      apply (computes1_panic _ _ _ _ _ C) in K. destruct K as ((t & Pt) & ->). eauto 10.
Qed.

(** * Sentences *)
Lemma number_in : forall A B (f : A -> nat -> B) l u y, In y (number f u l) -> exists x n, In x l /\ u <= n < u + length l /\ y = f x n.
Proof.
  induction l as [|x l IH]; simpl; intros u y H; [contradiction|]. destruct H as [<-|H].
  - exists x, u. repeat split; auto; lia.
  - apply IH in H. destruct H as (x' & n & Hin & Hn & ->). exists x', n. repeat split; auto; lia.
Qed.
Lemma number_map : forall A B C (f : A -> nat -> B) (g : B -> C) (h : A -> C), (forall x n, g (f x n) = h x) ->
  forall l u, map g (number f u l) = map h l.
Proof. induction l as [|x l IH]; simpl; intros u; [auto|]. now rewrite H, IH. Qed.

Theorem inference_overlap : forall pa pb u cs ap, inference pa pb u = Ok (cs, ap) ->
  (exists e, In e (s_stamp pa) /\ In e (s_stamp pb)) -> cs = [].
Proof.
  intros pa pb u cs ap H Hov. unfold inference, inference2 in H.
  destruct (infBinary _ _ _ _ _ _) as [[l g]|]; [|discriminate]. cbn [rbind fst snd] in H. injection H as H _.
  assert (O : checkOverlap (s_stamp pa) (s_stamp pb) = true) by (apply checkOverlap_iff; exact Hov).
  rewrite O, andb_true_r in H.
  destruct l as [|c l]; [symmetry; exact H|]. cbn [number] in H. cbn in H. auto.
Qed.

Theorem inference_shape : forall pa pb u cs ap, inference pa pb u = Ok (cs, ap) ->
  ~ (exists e, In e (s_stamp pa) /\ In e (s_stamp pb)) ->
  exists l, infBinary (s_term pa) (s_punct pa) (retTv pa) (s_term pb) (s_punct pb) (retTv pb) = Ok (l, ap) /\
  map (fun c => (s_term (fst c), retTv (fst c))) cs = map (fun c => (fst (fst c), Some (snd (fst c)))) l /\
  Forall (fun c => s_punct (fst c) = JUGEMENT /\ s_t (fst c) = None /\ s_expDt (fst c) = None /\
     s_stamp (fst c) = merge (s_stamp pa) (s_stamp pb) /\ snd c = f1 /\ (u <= s_usage (fst c) < u + length cs)%nat) cs /\
  NoDup (map (fun c => s_usage (fst c)) cs).
Proof.
  intros pa pb u cs ap H Hov. unfold inference, inference2 in H.
  destruct (infBinary _ _ _ _ _ _) as [[l g]|] eqn:E; [|discriminate]. cbn [rbind fst snd] in H. injection H as H ->.
  assert (O : checkOverlap (s_stamp pa) (s_stamp pb) = false).
  { destruct (checkOverlap (s_stamp pa) (s_stamp pb)) eqn:O; [|auto]. apply checkOverlap_iff in O. contradiction. }
  rewrite O, andb_false_r in H. subst cs. exists l. split; [auto|].
  destruct (binary_iff _ _ _ _ _ _ _ _ E) as [B _].
  split; [|split].
  - apply number_map. intros [[t v] p] n. reflexivity.
  - apply Forall_forall. intros y Hy.
    assert (L : forall u, length (number (fun (c : concl) (n : nat) =>
      let (p0, p) := c in let (t, v) := p0 in
        (mkSentence t None p (merge (s_stamp pa) (s_stamp pb)) None (Some (TV v)) n, f1)) u l) = length l).
    { clear. induction l as [|[[t v] p] l IH]; intros u; simpl; auto. }
    rewrite L. apply number_in in Hy. destruct Hy as ([[t v] p] & n & Hin & Hn & ->).
    apply B in Hin. destruct Hin as [-> _]. cbn. auto 10.
  - clear. revert u. induction l as [|[[t v] p] l IH]; intros u; [constructor|]. cbn. constructor; [|apply IH].
    rewrite in_map_iff. intros (y & Ey & Hy). apply number_in in Hy. destruct Hy as ([[t' v'] p'] & n & _ & Hn & ->). cbn in Ey. lia.
Qed.

Theorem single2_shape : forall pa u cs, infSinglePremise2 pa u = Ok cs ->
  exists l, infSinglePremise (s_term pa) (s_punct pa) (retTv pa) = Ok l /\
  map (fun c => (s_term (fst c), retTv (fst c), snd c)) cs = map (fun c => (fst (fst (fst c)), Some (snd (fst (fst c))), snd c)) l /\
  Forall (fun c => s_punct (fst c) = JUGEMENT /\ s_t (fst c) = None /\ s_expDt (fst c) = None /\ s_stamp (fst c) = s_stamp pa) cs.
Proof.
  intros pa u cs H. unfold infSinglePremise2 in H.
  destruct (infSinglePremise _ _ _) as [l|] eqn:E; [|discriminate]. cbn [rbind] in H. injection H as <-.
  exists l. split; [auto|]. split.
  - apply number_map. intros [[[t v] p] b] n. reflexivity.
  - apply Forall_forall. intros y Hy. apply number_in in Hy. destruct Hy as ([[[t v] p] b] & n & Hin & Hn & ->).
    apply (single_iff _ _ _ _ E) in Hin. destruct Hin as [-> _]. cbn. auto.
Qed.

(** Truth values of conclusions stay in range. *)
Definition inRangeOpt (o : option tv) : Prop := match o with Some v => tvInRange v | None => True end.
Definition rangePreserving (f : tv -> tv -> tv) := forall x y, tvInRange x -> tvInRange y -> tvInRange (f x y).

Lemma schema_range : forall pA a pB b t tr, schema pA a pB b t tr ->
  match tr with TBoth f => rangePreserving f | TSecond => True end.
Proof.
  intros pA a pB b t tr H. destruct H; cbn; auto; intros x' y' Hx Hy;
   auto using int_range, ded_range, comp_range, abd_range, ind_range.
Qed.
Theorem binary_range : forall a pA ta b pB tb l g, infBinary a pA ta b pB tb = Ok (l, g) ->
  inRangeOpt ta -> inRangeOpt tb -> forall t v p, In (t, v, p) l -> tvInRange v.
Proof.
  intros a pA ta b pB tb l g H Ra Rb t v p Hin.
  destruct (binary_iff _ _ _ _ _ _ _ _ H) as [B _]. apply B in Hin. destruct Hin as (_ & tr & S & E).
  assert (R : match tr with TBoth f => rangePreserving f | TSecond => True end) by (destruct S as [S|S]; eapply schema_range; eauto).
  destruct tr as [f|]; cbn in E.
  - destruct ta as [x|]; [|discriminate]. destruct tb as [y|]; [|discriminate]. injection E as <-. apply R; assumption.
  - subst tb. exact Rb.
Qed.
Theorem single_range : forall a p ta l, infSinglePremise a p ta = Ok l -> inRangeOpt ta ->
  forall t v q b, In (t, v, q, b) l -> tvInRange v.
Proof.
  intros a p ta l H R t v q b Hin. apply (single_iff _ _ _ _ H) in Hin.
  destruct Hin as (_ & mir & bias & w & _ & -> & -> & _). destruct mir; cbn; [apply neg_range|]; exact R.
Qed.
