(** Property C97: what follows from typed statements is reported as an answer. *)
From Coq Require Import String Ascii ZArith Arith Bool Lia List.
From Verif Require Import Base F64_Model Term_Model Term_Spec Term_Proofs Unify_Spec Stamp_Model Tv_Model Tv_Spec Tv_Proofs Sentence_Model Infer_Spec Mem_Model Mem_Spec Cycle_Model Sched_Model Sched_Spec
  Proc_Model ProcS_Model ProcX_Model Parser_Model Nar_Model Whole_Model Whole_Spec Whole_Proofs Reply_Proofs Reply2_Proofs Reply3_Proofs Props_Reply Props_Whole Reply_Spec Typed_Spec Typed_Proofs.
Import ListNotations.
Local Open Scope list_scope.
Local Open Scope nat_scope.

Lemma entry_of : forall nB hs xs x, Forall2 (ofEntry nB) hs xs -> In x xs -> exists h, In h hs /\ ofEntry nB h x.
Proof. intros nB hs xs x F. induction F as [|h y hs xs D F IH]; intros []; [subst; exists h; split; [now left|exact D]|]. destruct (IH H) as (h' & I & E). exists h'. split; [now right|exact E]. Qed.
Lemma entry_in : forall nB hs xs h, Forall2 (ofEntry nB) hs xs -> In h hs -> exists x, In x xs /\ ofEntry nB h x.
Proof. intros nB hs xs h F. induction F as [|h' y hs xs D F IH]; intros []; [subst; exists y; split; [now left|exact D]|]. destruct (IH H) as (x & I & E). exists x. split; [now right|exact E]. Qed.
Lemma entry_term : forall nB h x, ofEntry nB h x -> s_term (ar_s x) = entryTerm h /\ s_punct (ar_s x) = snd h.
Proof. intros nB h x (_ & id & u & E). rewrite E. split; reflexivity. Qed.
Lemma entry_distinct : forall nB hs xs, Forall2 (ofEntry nB) hs xs -> noneTwice hs -> distinct xs.
Proof.
  intros nB hs xs F. unfold noneTwice, distinct. replace (map (fun x => s_term (ar_s x)) (filter (fun x => match s_punct (ar_s x) with JUGEMENT => true | _ => false end) xs))
    with (map entryTerm (filter (fun h => match snd h with JUGEMENT => true | _ => false end) hs)); auto.
  induction F as [|h x hs xs D F IH]; auto. destruct (entry_term _ _ _ D) as [E1 E2]. cbn [filter]. rewrite E2. destruct (snd h); auto. cbn [map]. now rewrite E1, IH.
Qed.
Lemma entry_nodes : forall nB hs xs, Forall2 (ofEntry nB) hs xs -> map (fun x => nodes (s_term (ar_s x))) xs = map (fun h => nodes (entryTerm h)) hs.
Proof. intros nB hs xs F. induction F as [|h x hs xs D F IH]; auto. cbn [map]. destruct (entry_term _ _ _ D) as [-> _]. now rewrite IH. Qed.
Lemma same_id : forall (xs : list addArgs) x y i, NoDup (flat_map (fun x => s_stamp (ar_s x)) xs) -> In x xs -> In y xs -> In i (s_stamp (ar_s x)) -> In i (s_stamp (ar_s y)) -> x = y.
Proof.
  induction xs as [|z xs IH]; intros x y i N Hx Hy Ix Iy; [contradiction|]. cbn [flat_map] in N.
  assert (NN : forall a b : list Z, NoDup (a ++ b) -> NoDup b /\ forall k, In k a -> In k b -> False).
  { clear. induction a as [|q a IH]; intros b N; [split; [exact N|contradiction]|]. cbn [app] in N. inversion N; subst. destruct (IH _ H2) as [K1 K2]. split; [exact K1|].
    intros k [<-|Hk] Hb; [apply H1, in_or_app; now right|eauto]. }
  apply NN in N. destruct N as [N D]. assert (M : forall w, In w xs -> In i (s_stamp (ar_s w)) -> In i (flat_map (fun x => s_stamp (ar_s x)) xs)) by (intros w Hw Iw; apply in_flat_map; eauto).
  destruct Hx as [<-|Hx], Hy as [<-|Hy]; auto; [destruct (D i Ix (M _ Hy Iy))|destruct (D i Iy (M _ Hx Ix))|eauto].
Qed.

(** Some lines are typed that are not commands, then cycles are asked for, then more
    lines may follow. When the program has done all this and waits again, every question
    typed in the beginning was answered at least as well as each conclusion allows that
    follows by one rule from one of the typed statements, alone or together with another
    one that has a part in common with it. Which statement this is depends on the run. *)
Theorem c97_typed : forall pf p0 verb nB maxC wired texts cl k more w,
  talk pf (texts ++ cl :: more) (wholeMake p0 verb nB maxC wired) w -> atEase w -> 1 <= nB ->
  Forall plainText texts -> cycleLine cl k -> 1 <= k -> Forall easyLine more ->
  let hs := heardAll pf texts in
  noneTwice hs -> list_sum (map (fun h => nodes (entryTerm h)) hs) <= 51 -> (exists t v, statedThat maxC hs t v) ->
  exists t0 v0, statedThat maxC hs t0 v0 /\ forall q t v, askedFor maxC hs q ->
  (fromOne t0 v0 t v \/ exists t1 v1, statedThat maxC hs t1 v1 /\ t1 <> t0 /\ sharePart t0 t1 /\ fromTwo t0 v0 t1 v1 t v) ->
  instanceOf t q -> fltb f0 (calcExp v) = true -> told (w_decl w) q (calcExp v).
Proof.
  intros pf p0 verb nB maxC wired texts cl k more w T AE HN PT CL HK EM hs NT SZ (ts & vs & Hs & As).
  destruct (talk_session pf nB maxC p0 verb wired texts cl k more w T AE HN PT CL HK EM) as (xs & y & rest & SP & FR & Q & F & ND). fold hs in F.
  assert (Back : forall t v, statedThat maxC hs t v -> exists x, In x xs /\ ofEntry nB (t, v, JUGEMENT) x /\ Reply_Spec.statement maxC xs (ar_s x)).
  { intros t v [I S]. destruct (entry_in _ _ _ _ F I) as (x & Hx & E). exists x. split; auto. split; auto. destruct (entry_term _ _ _ E) as [E1 E2].
    exists x. split; [exact Hx|]. split; [reflexivity|]. split; [exact E2|]. unfold accepted. rewrite E1. exact S. }
  destruct (c96_session maxC nB nB xs y rest (w_decl w)) as (p & (xp & Hp & <- & Jp & Ap) & H); auto.
  - apply Forall_forall. intros x Hx. destruct (entry_of _ _ _ _ F Hx) as (h & _ & E & _). lia.
  - eapply entry_distinct; eauto.
  - rewrite (entry_nodes _ _ _ F). exact SZ.
  - destruct (Back ts vs (conj Hs As)) as (x & _ & _ & S). eauto.
  - destruct (entry_of _ _ _ _ F Hp) as ([[t0 v0] p] & Ih & E). destruct (entry_term _ _ _ E) as [E1 E2]. cbn [snd entryTerm fst] in E1, E2. rewrite Jp in E2. subst p.
    assert (Tv0 : retTv (ar_s xp) = Some v0) by (destruct E as (_ & id & u & E); rewrite E; reflexivity).
    exists t0, v0. split; [split; [exact Ih|]; unfold accepted in Ap; rewrite E1 in Ap; exact Ap|].
    intros q t v (vq & Hq & Sq) FO IN PO. destruct (entry_in _ _ _ _ F Hq) as (xq & Hxq & Eq). destruct (entry_term _ _ _ Eq) as [Eq1 Eq2]. cbn [snd entryTerm fst] in Eq1, Eq2.
    rewrite <- Eq1. rewrite <- Eq1 in IN. apply (H (ar_s xq) t v); auto.
    + exists xq. split; [auto|]. split; [auto|]. split; [auto|]. unfold accepted. rewrite Eq1. exact Sq.
    + destruct FO as [(mir & bias & ST & E3)|(t1 & v1 & S1 & NE & SH & tr & SC & TR)].
      * left. exists mir, bias, v0. rewrite E1. auto.
      * right. destruct (Back _ _ S1) as (x1 & Hx1 & Ex1 & St1). destruct (entry_term _ _ _ Ex1) as [F1 F2]. cbn [snd entryTerm fst] in F1, F2.
        assert (Tv1 : retTv (ar_s x1) = Some v1) by (destruct Ex1 as (_ & id & u & E3); rewrite E3; reflexivity).
        exists (ar_s x1). split; [exact St1|]. rewrite E1, F1. split; [exact SH|]. split.
        -- intros (i & I1 & I2). apply NE. rewrite <- F1, <- E1. rewrite (same_id xs x1 xp i); auto.
        -- exists tr. rewrite E1, F1, Tv0, Tv1. auto.
Qed.

(** When a-->b and b-->c are typed, and no other statements, then the question a-->c, or
    a question it is an instance of, is answered with at least the expectation of the
    deduced statement. *)
Theorem c97_syllogism : forall pf p0 verb nB maxC wired texts cl k more w kc a b c v1 v2 q,
  talk pf (texts ++ cl :: more) (wholeMake p0 verb nB maxC wired) w -> atEase w -> 1 <= nB ->
  Forall plainText texts -> cycleLine cl k -> 1 <= k -> Forall easyLine more ->
  let hs := heardAll pf texts in
  list_sum (map (fun h => nodes (entryTerm h)) hs) <= 51 ->
  kc = IMPL \/ kc = INH -> a <> b -> a <> c -> tvInRange v1 -> tvInRange v2 ->
  filter (fun h => match snd h with JUGEMENT => true | _ => false end) hs = [(Stmt kc a b, v1, JUGEMENT); (Stmt kc b c, v2, JUGEMENT)] ->
  small maxC (Stmt kc a b) -> small maxC (Stmt kc b c) ->
  askedFor maxC hs q -> instanceOf (Stmt kc a c) q ->
  told (w_decl w) q (calcExp (ded v1 v2)).
Proof.
  intros pf p0 verb nB maxC wired texts cl k more w kc a b c v1 v2 q T AE HN PT CL HK EM hs SZ KC NB NC R1 R2 FH S1 S2 HQ IN.
  assert (St : forall t v, In (t, v, JUGEMENT) hs <-> (t, v) = (Stmt kc a b, v1) \/ (t, v) = (Stmt kc b c, v2)).
  { intros t v. assert (E : In (t, v, JUGEMENT) hs <-> In (t, v, JUGEMENT) (filter (fun h => match snd h with JUGEMENT => true | _ => false end) hs)) by (rewrite filter_In; cbn [snd]; tauto).
    rewrite E, FH. cbn [In]. split; [intros [X|[X|[]]]; injection X as <- <-; auto|intros [X|X]; injection X as -> ->; auto]. }
  assert (P1 : statedThat maxC hs (Stmt kc a b) v1) by (split; [apply St; auto|exact S1]).
  assert (P2 : statedThat maxC hs (Stmt kc b c) v2) by (split; [apply St; auto|exact S2]).
  destruct (c97_typed pf p0 verb nB maxC wired texts cl k more w T AE HN PT CL HK EM) as (t0 & v0 & [I0 A0] & H).
  - unfold noneTwice. fold hs. rewrite FH. cbn [map entryTerm fst]. repeat constructor; cbn [In]; [|tauto]. intros [X|[]]. injection X as X1 X2. congruence.
  - exact SZ.
  - eauto.
  - assert (SC : schema JUGEMENT (Stmt kc a b) JUGEMENT (Stmt kc b c) (Stmt kc a c) (TBoth ded)) by (apply sc_trans; tauto).
    assert (O1 : occurs b (Stmt kc a b)) by (apply Relation_Operators.rt_step; constructor).
    assert (O2 : occurs b (Stmt kc b c)) by (apply Relation_Operators.rt_step; constructor).
    assert (NE : Stmt kc a b <> Stmt kc b c) by congruence.
    apply (H q (Stmt kc a c)); auto using ded_pos. right. apply St in I0. destruct I0 as [X|X]; injection X as -> ->.
    + exists (Stmt kc b c), v2. split; auto. split; [auto|]. split; [exists b; auto|]. exists (TBoth ded). split; auto.
    + exists (Stmt kc a b), v1. split; auto. split; [auto|]. split; [exists b; auto|]. exists (TBoth ded). split; auto. cbn [truthVal]. now rewrite ded_comm.
Qed.

(** ** Sessions *)
Fixpoint linesRead (pf : text -> option f64) (l : list wact) (w : whole) : list text :=
  match l with
  | [] => []
  | a :: l' =>
      match wstep pf a w with
      | Ok (Some w') => (match a with ARead line _ => [line] | _ => [] end) ++ linesRead pf l' w'
      | _ => linesRead pf l' w
      end
  end.
Lemma run_talk : forall pf l lines w0 w w', talk pf lines w0 w -> wrun pf l w = Ok w' -> talk pf (lines ++ linesRead pf l w) w0 w'.
Proof.
  intros pf. induction l as [|a l IH]; intros lines w0 w w' T R; cbn [wrun linesRead] in *.
  - injection R as <-. now rewrite app_nil_r.
  - destruct (wstep pf a w) as [[w1|]|] eqn:E; [| |discriminate]; cbn [rbind] in R; [|now apply IH]. rewrite app_assoc. apply (IH _ w0 w1 w'); [|exact R].
    destruct a as [line r|rs| |dr]; [eapply tk_read; eauto| | |]; rewrite app_nil_r; (eapply tk_move; [exact T| |exact E]); discriminate.
Qed.
Definition ended (o : res whole) : whole := match o with Ok w => w | Panic => begin (narInit []) end.
Definition easeb (w : whole) : bool :=
  mainFree w && match w_jobs w with [] => true | _ => false end && match y_worker (w_decl w) with Sched_Model.WIdle => true | _ => false end && match y_queue (w_decl w) with [] => true | _ => false end.
Lemma ease_b : forall w, easeb w = true -> atEase w.
Proof.
  intros w H. unfold easeb in H. apply andb_true_iff in H. destruct H as [H H4]. apply andb_true_iff in H. destruct H as [H H3]. apply andb_true_iff in H. destruct H as [H1 H2].
  split; [exact H1|]. split; [destruct (w_jobs w); [auto|discriminate]|]. split; [destruct (y_worker (w_decl w)); [auto|discriminate..]|destruct (y_queue (w_decl w)); [auto|discriminate]].
Qed.
Definition endl (s : string) : text := tx s ++ ["010"%char].
(** two statements and a question; a cycle; more statements and two cycles *)
Definition chat : list wact := say "<a --> b>." 20 ++ say "<b --> c>." 20 ++ say "<?1 --> c>? :|:" 20 ++ say "<a --> c>? :|:" 20 ++ say "!s" 40 ++ repeat ADerive 60 ++ say "<c --> d>." 30 ++ say "!s2" 60 ++ repeat ADerive 99.
Definition chatEnd : whole := ended (wrun noNum chat (begin (narInit []))).
Definition v9 : tv := mkTv f1 (f_frac 9 10).
Lemma chat_lines : linesRead noNum chat (begin (narInit [])) = [endl "<a --> b>."; endl "<b --> c>."; endl "<?1 --> c>? :|:"; endl "<a --> c>? :|:"] ++ endl "!s" :: [endl "<c --> d>."; endl "!s2"].
Proof. vm_compute. reflexivity. Qed.
Lemma chat_run : wrun noNum chat (begin (narInit [])) = Ok chatEnd.
Proof.
  unfold chatEnd. destruct (wrun noNum chat (begin (narInit []))) eqn:E; [reflexivity|]. exfalso.
  assert (X : match wrun noNum chat (begin (narInit [])) with Ok _ => true | Panic => false end = true) by (vm_compute; reflexivity). rewrite E in X. discriminate X.
Qed.
Lemma chat_ease : atEase chatEnd.
Proof. apply ease_b. vm_compute. reflexivity. Qed.
Lemma plain_b : forall i, forallb isAscii (trimNewline i) && negb (starts (tx "//") (trimNewline i)) && negb (starts (tx "!") (trimNewline i)) && match trimNewline i with [] => false | _ => true end = true -> plainText i.
Proof.
  intros i H. apply andb_true_iff in H. destruct H as [H H4]. apply andb_true_iff in H. destruct H as [H H3]. apply andb_true_iff in H. destruct H as [H1 H2].
  apply negb_true_iff in H2, H3. split; [now apply ascii_check|]. split; [exact H2|]. split; [exact H3|]. intros E. rewrite E in H4. discriminate.
Qed.
Lemma sLine : cycleLine (endl "!s") 1.
Proof. left. split; vm_compute; reflexivity. Qed.
Lemma s2Line : cycleLine (endl "!s2") 2.
Proof. right. exists (tx "2"). split; [vm_compute; reflexivity|]. split; [apply ascii_check; vm_compute; reflexivity|]. split; [reflexivity|]. split; [discriminate|]. exists 2%Z. split; vm_compute; reflexivity. Qed.
Definition opening : list text := [endl "<a --> b>."; endl "<b --> c>."; endl "<?1 --> c>? :|:"; endl "<a --> c>? :|:"].
Lemma chat_heard : heardAll noNum opening = [(Stmt INH (Name "a") (Name "b"), v9, JUGEMENT); (Stmt INH (Name "b") (Name "c"), v9, JUGEMENT);
  (Stmt INH (QVar "1") (Name "c"), v9, QUESTION); (Stmt INH (Name "a") (Name "c"), v9, QUESTION)].
Proof. vm_compute. reflexivity. Qed.
Example c97_ex : told (w_decl chatEnd) (Stmt INH (Name "a") (Name "c")) (calcExp (ded v9 v9)) /\ told (w_decl chatEnd) (Stmt INH (QVar "1") (Name "c")) (calcExp (ded v9 v9)).
Proof.
  assert (T := run_talk noNum chat [] _ _ _ (tk_none noNum (begin (narInit []))) chat_run). rewrite chat_lines in T. cbn [app] in T.
  change [endl "<a --> b>."; endl "<b --> c>."; endl "<?1 --> c>? :|:"; endl "<a --> c>? :|:"; endl "!s"; endl "<c --> d>."; endl "!s2"] with (opening ++ endl "!s" :: [endl "<c --> d>."; endl "!s2"]) in T.
  assert (K : forall q, askedFor 50 (heardAll noNum opening) q -> instanceOf (Stmt INH (Name "a") (Name "c")) q -> told (w_decl chatEnd) q (calcExp (ded v9 v9))).
  { intros q HQ IN. apply (c97_syllogism noNum (narInit []) 1 10 50 true opening (endl "!s") 1 [endl "<c --> d>."; endl "!s2"] chatEnd INH (Name "a") (Name "b") (Name "c") v9 v9 q T); auto.
    - exact chat_ease.
    - lia.
    - repeat (constructor; [apply plain_b; vm_compute; reflexivity|]). constructor.
    - exact sLine.
    - constructor; [left; apply plain_b; vm_compute; reflexivity|]. constructor; [right; exists 2; exact s2Line|constructor].
    - rewrite chat_heard. vm_compute. lia.
    - discriminate.
    - discriminate.
    - vm_compute. auto.
    - vm_compute. auto.
    - unfold small. vm_compute. discriminate.
    - unfold small. vm_compute. discriminate. }
  split; apply K.
  - exists v9. rewrite chat_heard. split; [cbn; auto|unfold small; vm_compute; discriminate].
  - exists (fun v => Name "a"). split; [intros v _ _ []|reflexivity].
  - exists v9. rewrite chat_heard. split; [cbn; auto|unfold small; vm_compute; discriminate].
  - exists (fun v => Name "a"). split; [intros v _ _ []|reflexivity].
Qed.
Example c97_ex_log : map (fun a => (fst a, s_term (snd a), s_stamp (snd a))) (y_log (w_decl chatEnd)) =
  [(Stmt INH (QVar "1") (Name "c"), Stmt INH (Name "b") (Name "c"), [1%Z]); (Stmt INH (Name "a") (Name "c"), Stmt INH (Name "a") (Name "c"), [1%Z; 0%Z])].
Proof. vm_compute. reflexivity. Qed.

(** Questions that are not marked as events are not answered: they are refused
    (Nar.rs 111-122). *)
Definition eternal : list wact := say "<a --> b>." 20 ++ say "<b --> c>." 20 ++ say "<a --> c>?" 20 ++ say "!s2" 60 ++ repeat ADerive 99.
Theorem c97_eternal_refuted : exists w,
  talk noNum ([endl "<a --> b>."; endl "<b --> c>."; endl "<a --> c>?"] ++ endl "!s2" :: []) (wholeMake (narInit []) 1 10 50 true) w /\ atEase w /\ y_log (w_decl w) = [] /\
  parseNarsese noNum (tx "<a --> c>?") = Ok (Some (Stmt INH (Name "a") (Name "c"), v9, QUESTION, false)) /\
  exists tk, In tk (heap (y_sh (w_decl w))) /\ s_term (tk_s tk) = Stmt INH (Name "a") (Name "c").
Proof.
  exists (ended (wrun noNum eternal (begin (narInit [])))). split; [|split; [|split; [|split]]].
  - assert (E : wrun noNum eternal (begin (narInit [])) = Ok (ended (wrun noNum eternal (begin (narInit []))))).
    { destruct (wrun noNum eternal (begin (narInit []))) eqn:E; [reflexivity|]. exfalso.
      assert (X : match wrun noNum eternal (begin (narInit [])) with Ok _ => true | Panic => false end = true) by (vm_compute; reflexivity). rewrite E in X. discriminate X. }
    assert (L : linesRead noNum eternal (begin (narInit [])) = [endl "<a --> b>."; endl "<b --> c>."; endl "<a --> c>?"] ++ endl "!s2" :: []) by (vm_compute; reflexivity).
    assert (T := run_talk noNum eternal [] _ _ _ (tk_none noNum (begin (narInit []))) E). rewrite L in T. exact T.
  - apply ease_b. vm_compute. reflexivity.
  - vm_compute. reflexivity.
  - vm_compute. reflexivity.
  - assert (X : existsb (fun tk => match s_term (tk_s tk) with Stmt INH (Name x) (Name y) => String.eqb x "a" && String.eqb y "c" | _ => false end) (heap (y_sh (w_decl (ended (wrun noNum eternal (begin (narInit []))))))) = true) by (vm_compute; reflexivity).
    apply existsb_exists in X. destruct X as (tk & I & X). exists tk. split; [exact I|]. destruct (s_term (tk_s tk)) as [[] [] []| | | | | | | | | | | | | |]; try discriminate X. apply andb_true_iff in X. destruct X as [X1 X2]. apply String.eqb_eq in X1, X2. rewrite X1, X2. reflexivity.
Qed.

Print Assumptions c97_typed.
Print Assumptions c97_syllogism.
Print Assumptions c97_eternal_refuted.
