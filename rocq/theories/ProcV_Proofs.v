(** Introduction of variables. *)
From Coq Require Import String Ascii ZArith Bool Lia List Relations.
From Verif Require Import Base F64_Model Term_Model Term_Spec Term_Proofs Unify_Model Unify_Spec Stamp_Model Tv_Model Sentence_Model Goal_Model Proc_Model Proc_Spec.
Import ListNotations.
Local Open Scope list_scope.

Lemma replVar_id : forall w r t, ~ occurs w t -> replVar w r t = t.
Proof.
  intros w r. unfold replVar.
  assert (L : forall l, Forall (fun t => ~ occurs w t -> inst (fun v => if checkEqTerm v w then r else v) t = t) l -> (forall x, In x l -> ~ occurs w x) ->
    map (inst (fun v => if checkEqTerm v w then r else v)) l = l).
  { intros l F H. induction F as [|x l Hx F IH]; simpl; auto. rewrite Hx, IH; auto; intros; apply H; simpl; auto. }
  assert (V : forall v, ~ occurs w v -> (if checkEqTerm v w then r else v) = v).
  { intros v H. destruct (checkEqTerm v w) eqn:E; auto. apply checkEqTerm_eq in E. subst. exfalso. apply H. apply rt_refl. }
  induction t using term_ind2; intros N; cbn [inst]; auto; try (now apply V);
    try (f_equal; apply L; auto; intros x Hx O; apply N; eapply occurs_step; [exact O|]; constructor; auto; fail).
  - rewrite IHt1, IHt2; auto; intros O; apply N; eapply occurs_step; eauto; constructor.
  - rewrite IHt; [|intros O; apply N; eapply occurs_step; [exact O|apply comp_imgrel]]. f_equal. apply L; auto. intros x Hx O. apply N. eapply occurs_step; [exact O|]. constructor; auto.
  - rewrite IHt; auto. intros O; apply N; eapply occurs_step; eauto; constructor.
Qed.
Definition vmap (f : term -> term) (t : term) : term :=
  match t with
  | Stmt c s p => Stmt c (f s) (f p)
  | Name _ | QVar _ | DepVar _ | IndepVar _ => t
  | Seq l => Seq (map f l) | SetInt l => SetInt (map f l) | SetExt l => SetExt (map f l) | Conj l => Conj (map f l)
  | Prod l => Prod (map f l) | Img r i l => Img r i (map f l) | IntInt l => IntInt (map f l) | ExtInt l => ExtInt (map f l)
  | Par l => Par (map f l) | Neg x => Neg (f x)
  end.
Lemma intro_step : forall repl w t, introHelper repl w t = if checkEqTerm t repl then w else vmap (introHelper repl w) t.
Proof. intros repl w t. destruct t; cbn [introHelper vmap]; rewrite ?term_clone_id; reflexivity. Qed.
Lemma intro_back : forall repl x t, ~ occurs (IndepVar x) t -> replVar (IndepVar x) repl (introHelper repl (IndepVar x) t) = t.
Proof.
  intros repl x. set (w := IndepVar x).
  assert (L : forall l, Forall (fun t => ~ occurs w t -> replVar w repl (introHelper repl w t) = t) l -> (forall y, In y l -> ~ occurs w y) ->
    map (replVar w repl) (map (introHelper repl w) l) = l).
  { intros l F H. induction F as [|y l Hy F IH]; simpl; auto. rewrite Hy, IH; auto; intros; apply H; simpl; auto. }
  assert (W : replVar w repl w = repl).
  { unfold replVar. cbn [inst w]. unfold w. now rewrite checkEqTerm_refl. }
  induction t using term_ind2; intros N; rewrite intro_step;
    match goal with |- context [checkEqTerm ?a repl] => destruct (checkEqTerm a repl) eqn:E end;
    try (apply checkEqTerm_eq in E; rewrite W; congruence); cbn [vmap]; unfold replVar in *; cbn [inst]; auto;
    try (f_equal; apply L; auto; intros y Hy O; apply N; eapply occurs_step; [exact O|]; constructor; auto; fail);
    try (match goal with |- (if ?b then _ else ?v) = _ => destruct b eqn:Q; [apply checkEqTerm_eq in Q; exfalso; apply N; rewrite Q; apply rt_refl|reflexivity] end).
  - rewrite IHt1, IHt2; auto; intros O; apply N; eapply occurs_step; eauto; constructor.
  - f_equal.
    + apply (replVar_id w repl). intros O; apply N; eapply occurs_step; [exact O|apply comp_imgrel].
    + apply L; auto. intros y Hy O. apply N. eapply occurs_step; [exact O|]. constructor; auto.
  - rewrite IHt; auto. intros O; apply N; eapply occurs_step; eauto; constructor.
Qed.
Lemma vargs_vmap : forall f t, vargs (vmap f t) = map f (vargs t).
Proof. intros f t. destruct t; reflexivity. Qed.
Lemma vargs_comp : forall x t, In x (vargs t) -> component x t.
Proof. intros x t H. apply vargs_iff in H. exact (proj1 H). Qed.
Lemma intro_gone : forall repl x t, ~ occurs (IndepVar x) t -> ~ occurs (IndepVar x) repl -> ~ voccurs repl (introHelper repl (IndepVar x) t).
Proof.
  intros repl x t. set (w := IndepVar x).
  assert (G : forall t, (forall y, In y (vargs t) -> ~ occurs w y -> ~ occurs w repl -> ~ voccurs repl (introHelper repl w y)) ->
     ~ occurs w t -> ~ occurs w repl -> ~ voccurs repl (introHelper repl w t)).
  { intros t0 IH N Nr V. rewrite intro_step in V. destruct (checkEqTerm t0 repl) eqn:E.
    - apply voccurs_inv in V. destruct V as [V|(c & Hc & _)].
      + apply Nr. subst repl. apply rt_refl.
      + apply vargs_iff in Hc. destruct Hc.
    - apply checkEqTerm_neq in E. apply voccurs_inv in V. destruct V as [V|(c & Hc & V)].
      + apply E. assert (B := intro_back repl x t0 N). fold w in B. rewrite intro_step in B. destruct (checkEqTerm t0 repl) eqn:E2; [now apply checkEqTerm_eq in E2|].
        rewrite <- V in B. rewrite replVar_id in B by auto. congruence.
      + apply vargs_iff in Hc. rewrite vargs_vmap in Hc. apply in_map_iff in Hc. destruct Hc as (y & <- & Hy).
        apply (IH y); auto. intros O. apply N. eapply occurs_step; [exact O|]. now apply vargs_comp. }
  induction t using term_ind2; apply G; cbn [vargs]; try (intros y []; fail);
    try (intros y Hy; match goal with F : Forall _ _ |- _ => rewrite Forall_forall in F; exact (F y Hy) end).
  - intros y [<-|[<-|[]]]; auto.
  - intros y [<-|[]]; auto.
Qed.

(** * The rule *)
Lemma varname_ok : forall draws, (forall d, In d (firstn 24 draws) -> Nat.modulo d 16 <> 15) <-> exists x, create_random_varname draws = Ok (IndepVar x).
Proof.
  intros draws. unfold create_random_varname. 
  assert (G : forall l acc, (forall d, In d l -> Nat.modulo d 16 <> 15) <->
    exists x, rfold (fun acc d => do c <- unwrap (String.get (Nat.modulo d 16) alphabet); Ok (String.append acc (String c EmptyString))) l acc = Ok x).
  { induction l as [|d l IH]; intros acc; cbn [rfold].
    - split; [eauto|intros _ d []].
    - assert (K : Nat.modulo d 16 <> 15 <-> exists c, String.get (Nat.modulo d 16) alphabet = Some c).
      { assert (Lt : (Nat.modulo d 16 < 16)%nat) by (apply Nat.mod_upper_bound; lia). generalize dependent (Nat.modulo d 16). intros k Lt.
        do 15 (destruct k as [|k]; [split; [intros _; cbn; eauto|intros _; discriminate]|]).
        destruct k; [|lia]. split; [congruence|intros (c & C); discriminate]. }
      split.
      + intros H. destruct (proj1 K) as (c & ->); [apply H; now left|]. cbn [unwrap rbind]. apply IH. intros; apply H; now right.
      + intros (x & H). destruct (String.get (Nat.modulo d 16) alphabet) as [c|] eqn:C; [|discriminate]. cbn [unwrap rbind] in H.
        intros e [<-|He]; [apply K; eauto|]. eapply (proj2 (IH _)); eauto. }
  rewrite (G _ "Q"%string). split; intros (x & H).
  - rewrite H. cbn [rbind]. eauto.
  - destruct (rfold _ _ _) as [y|]; [eauto|discriminate].
Qed.
Theorem intro_spec : forall s draws vs, matchandintro_var1_sentence s draws = Ok vs ->
  vs = [] \/
  exists subj prop o e x v, s_term s = Stmt PREDIMPL (Seq [Stmt INH subj (SetInt prop); o]) e /\
    (2 <= count_occurence_subterms (s_term s) subj)%Z /\ vs = [v] /\
    v = mkSentence (s_term v) (s_t s) (s_punct s) (s_stamp s) (s_expDt s) (s_evi s) (s_usage s) /\
    (~ occurs (IndepVar x) (s_term s) -> replVar (IndepVar x) subj (s_term v) = s_term s /\ ~ voccurs subj (s_term v)).
Proof.
  intros s draws vs H. unfold matchandintro_var1_sentence in H. destruct (matchandintro_var1 (s_term s) draws) as [ts|] eqn:E; [|discriminate].
  cbn [rbind] in H. assert (Q : vs = map (fun t => setTerm (shallowCopySentence s) t) ts) by congruence. subst vs. clear H.
  assert (K : ts = [] \/ exists subj prop o e w, s_term s = Stmt PREDIMPL (Seq [Stmt INH subj (SetInt prop); o]) e /\ (2 <= count_occurence_subterms (s_term s) subj)%Z /\
     create_random_varname draws = Ok w /\ ts = [introHelper subj w (s_term s)]).
  { unfold matchandintro_var1 in E. destruct (s_term s) as [c a e| | | | | | | | | | | | | |] eqn:Et; try (left; congruence).
    destruct c; try (left; congruence). destruct a as [|l| | | | | | | | | | | | |]; try (left; congruence).
    all: try (destruct l; left; congruence).
    destruct l as [|[c2 subj p2| | | | | | | | | | | | | |] [|o [|]]]; try (left; congruence); destruct c2; try (left; congruence); destruct p2; try (left; congruence).
    unfold intro_vars in E. destruct (Z.ltb_spec (count_occurence_subterms (Stmt PREDIMPL (Seq [Stmt INH subj (SetInt l); o]) e) subj) 2) as [C|C]; [left; congruence|].
    destruct (create_random_varname draws) as [w|] eqn:W; [|discriminate]. cbn [rbind] in E. right. exists subj, l, o, e, w. repeat split; auto. congruence. }
  destruct K as [->|(subj & prop & o & e & w & K1 & K2 & K3 & ->)]; [now left|]. right.
  assert (exists x, w = IndepVar x). { unfold create_random_varname in K3. destruct (rfold _ _ _) as [nm|]; [|discriminate]. cbn [rbind] in K3. exists nm. congruence. }
  destruct H as (x & ->). exists subj, prop, o, e, x. eexists. split; auto. split; auto. split; [reflexivity|]. split; [reflexivity|].
  intros N. cbn [setTerm s_term]. split; [now apply intro_back|]. apply intro_gone; auto. intros O. apply N.
  assert (V : voccurs subj (s_term s)) by (apply count_pos_iff; lia). clear - O V. induction V; auto.
  - destruct H as (H & _). eapply occurs_step; eauto.
Qed.
