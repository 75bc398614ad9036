(** Property C98: what is known is told when it is asked for. *)
From Coq Require Import String Ascii ZArith Arith Bool Lia List.
From Verif Require Import Base F64_Model Sort_Proofs Term_Model Term_Spec Term_Proofs Unify_Spec Stamp_Model Tv_Model Sentence_Model Mem_Model Mem_Spec Mem_Proofs Cycle_Model PMem_Model PMem_Proofs Goal_Model Sched_Model Proc_Model Proc_Spec ProcS_Model
  ProcX_Model Parser_Model Nar_Model Whole_Model Serial_Spec Serial_Proofs Props_Serial Teach_Spec Teach_Proofs Teach2_Proofs Props_Reply Props_Whole Props_Teach Reply_Spec Typed_Spec Typed_Proofs Props_Typed Known_Spec Known_Proofs.
Import ListNotations.
Local Open Scope list_scope.
Local Open Scope nat_scope.

(** The program waits, in whatever state, and no question is open. A question is typed,
    then a line that asks for cycles, then any lines. When the main thread waits for a line again, every
    belief was reported that is an instance of the question and is remembered at a part
    of it, or a better one was. This holds for all interleavings, all random numbers and
    both memories; for questions about time the two parts have to be linked. *)
Theorem c98_asked : forall pf w0 q ql cl vq k more w, atEase w0 -> stored w0 -> questions (y_sh (w_decl w0)) = [] ->
  (isTemporal q = true -> w_wired w0 = true) -> plainText ql -> heard pf (trimNewline ql) = [(q, vq, QUESTION)] -> small (w_maxC w0) q ->
  cycleLine cl k -> 1 <= k -> talk pf (ql :: cl :: more) w0 w -> mainFree w = true -> w_jobs w = [] ->
  forall b e, knows w0 q b e -> fltb f0 e = true -> told (w_decl w) q e.
Proof. intros pf w0 q ql cl vq k more w A S N W P H Sm C K T M J. eapply asked_told; eauto. Qed.

(** What was shown once is told: after the lesson of C94 (the situation [A], the
    operation [O], then [C]) every question about time that mentions [A] and has this as
    an instance is answered. Turns that only concern the declarative half may be in
    between; the question and what follows it may be interleaved in any way. *)
Definition shownOnce : f64 := calcExp (mkTv f1 (f_frac 3 4)).
Lemma mget_filed : forall m u c b, mget u m = Some c -> In b (byExp c) \/ In b (byUsage c) -> filedUnder m u b.
Proof.
  induction m as [|[k d] m IH]; intros u c b G B; cbn [mget] in G; [discriminate|]. destruct (checkEqTerm k u) eqn:E.
  - injection G as ->. apply checkEqTerm_eq in E. subst k. exists [], c, m. split; [reflexivity|]. split; [intros []|exact B].
  - destruct (IH _ _ _ G B) as (m1 & c' & m2 & -> & N & B'). exists ((k, d) :: m1), c', m2. split; [reflexivity|]. split; [|exact B']. cbn [map fst In]. intros [->|H]; [now rewrite checkEqTerm_refl in E|auto].
Qed.
Theorem c98_taught : forall pf ops A O C la lo lc r ds turns verb n',
  let n0 := mkNar (narInit ops) sharedMake 0 verb 20 64 [] [] true in
  situation A -> situation C -> A <> C -> deed ops O -> says pf la A JUGEMENT -> says pf lo O JUGEMENT -> says pf lc C JUGEMENT -> drawn (r 6) -> ds <> [] ->
  mixed pf (teach la lo lc r ++ filed ds) turns -> takeTurns pf turns n0 = Ok (n', false) -> rooms pf turns n0 ->
  nr_pq n' = [] -> nr_dq n' = [] -> questions (nr_decl n') = [] ->
  exists acts w0, oneByOne turns acts /\ wrun pf acts (wholeMake (narInit ops) verb 20 64 true) = Ok w0 /\
    forall S P ql cl vq k more w, let q := Stmt PREDIMPL S P in
    occurs A q -> instanceOf (Stmt PREDIMPL (Seq [A; O]) C) q -> plainText ql -> heard pf (trimNewline ql) = [(q, vq, QUESTION)] -> small 64 q ->
    cycleLine cl k -> 1 <= k -> talk pf (ql :: cl :: more) w0 w -> mainFree w = true -> w_jobs w = [] ->
    told (w_decl w) q shownOnce.
Proof.
  intros pf ops A O C la lo lc r ds turns verb n' n0 SA SC NE D LA LO LC Dr Nd Mx H Rm Pq Dq Nq.
  destruct (c93_sessions pf turns ops verb true Rm) as (acts & Ob & K). fold n0 in K. rewrite H in K. destruct K as (w0 & R & St & Q & W1 & W2). exists acts, w0. split; [exact Ob|]. split; [exact R|].
  intros S P ql cl vq k more w q Oa In1 Pt Hd Sm Cl K1 T MF J.
  assert (Lm : learned A O C (n_mem (nr_proc n'))).
  { assert (TB : findMinTableIdx 1 defaultTable = 0%Z) by (vm_compute; reflexivity).
    assert (E1 : nr_proc n0 = narInit ops) by reflexivity. assert (E2 : nr_pq n0 = []) by reflexivity. clearbody n0. unfold narInit in E1. revert TB E1. generalize defaultTable. intros tb TB E1.
    destruct (teach_end pf tb ops A O C la lo lc TB SA SC D NE LA LO LC r (filed ds) turns n0 (n', false) Dr (conj E1 E2) Mx H) as (n & us & b1 & Mx1 & H1 & A1 & L).
    rewrite <- (app_nil_r (filed ds)) in Mx1.
    destruct (filed_end pf tb ops A O C SA SC D ds [] b1 n (n', false) pmemMake us [Stmt PREDIMPL (Seq [A; O]) C] A1) as (n2 & m2 & us2 & b2 & Mx2 & H2 & A2 & Lm); auto.
    - intros t c a [].
    - split; [now left|]. intros t [<-|[]]. now left.
    - split; [split; [constructor|intros t c []]|]. intros t c [].
    - cbn [length]. lia.
    - right. split; [intros ->; discriminate L|exact Nd].
    - apply (last_ _ _ _ _ _ _ Mx2 A2) in H2. destruct H2 as (E & _). cbn [fst] in E. rewrite E. exact Lm. }
  destruct Lm as (Wf & (c & b & G & B & Eb) & Kf & _ & (_ & Fm)). destruct (Fm A c (mget_in _ _ _ _ G)) as (Fb & _). destruct (Fb b (or_introl B)) as (_ & _ & Ev & _ & Jb).
  refine (c98_asked pf w0 q ql cl vq k more w _ _ _ _ Pt Hd _ Cl K1 T MF J b shownOnce _ _).
  - split; [|split; [exact (sa_jobs _ _ St)|split; [exact W1|rewrite (sa_dq _ _ St); exact Dq]]]. unfold mainFree. now rewrite (sa_main _ _ St), (sa_clients _ _ St).
  - split; [rewrite (sa_pq _ _ St); exact Pq|exact W2].
  - destruct (sa_decl _ _ St) as (pm & ->). exact Nq.
  - intros _. apply wrun_settings in R. unfold settings in R. injection R as _ ->. reflexivity.
  - apply wrun_settings in R. unfold settings in R. injection R as -> _. exact Sm.
  - exists A. split; [exact Oa|]. split; [|split; [exact Jb|split; [rewrite Eb; exact In1|]]].
    + rewrite <- (sa_proc _ _ St) in G. unfold q, knowledge. eapply mget_filed; [exact G|now left].
    + exists (mkTv f1 (f_frac 3 4)). split; [unfold retTv; rewrite Ev; vm_compute; reflexivity|reflexivity].
  - vm_compute. reflexivity.
Qed.

(** ** examples *)
Definition saidSo : list wact := say "<a --> b>." 20 ++ say "<b --> c>." 20 ++ say "!s" 60 ++ repeat ADerive 60.
Definition before : whole := ended (wrun noNum saidSo (begin (narInit []))).
(** the deriver is busy while the question is looked up, and another statement follows *)
Definition asking : list wact := say "<?1 --> b>? :|:" 20 ++ say "!s2" 12 ++ [ADerive] ++ repeat (AMain pick0) 7 ++ repeat ADerive 20 ++ repeat (AMain pick0) 40 ++ say "<c --> d>." 30 ++ say "!sp" 30.
Definition after : whole := ended (wrun noNum asking before).
Lemma runs : forall l w, match wrun noNum l w with Ok _ => true | Panic => false end = true -> wrun noNum l w = Ok (ended (wrun noNum l w)).
Proof. intros l w H. destruct (wrun noNum l w); [reflexivity|discriminate H]. Qed.
Lemma after_run : wrun noNum asking before = Ok after.
Proof. unfold after. apply runs. vm_compute. reflexivity. Qed.
Definition qb : term := Stmt INH (QVar "1") (Name "b").
Definition isAB (s : sentence) : bool :=
  match s_term s, retTv s, s_punct s with Stmt INH (Name x) (Name y), Some v, JUGEMENT => String.eqb x "a" && String.eqb y "b" && fleb (calcExp v9) (calcExp v) && fleb (calcExp v) (calcExp v9) | _, _, _ => false end.
Lemma before_knows : exists b e, knows before qb b e /\ s_term b = Stmt INH (Name "a") (Name "b") /\ fleb (calcExp v9) e = true /\ fleb e (calcExp v9) = true.
Proof.
  assert (X : match mget (Name "b") (memory (y_sh (w_decl before))) with Some c => existsb isAB (byExp c) | None => false end = true) by (vm_compute; reflexivity).
  destruct (mget (Name "b") (memory (y_sh (w_decl before)))) as [c|] eqn:G; [|discriminate X]. apply existsb_exists in X. destruct X as (b & I & X). unfold isAB in X.
  destruct (s_term b) as [[] [] []| | | | | | | | | | | | | |] eqn:Et; try discriminate X. destruct (retTv b) as [v|] eqn:Ev; [|discriminate X]. destruct (s_punct b) eqn:Ep; try discriminate X.
  apply andb_true_iff in X. destruct X as [X X4]. apply andb_true_iff in X. destruct X as [X X3]. apply andb_true_iff in X. destruct X as [X1 X2]. apply String.eqb_eq in X1, X2. subst.
  exists b, (calcExp v). split; [|auto]. exists (Name "b"). split; [apply Relation_Operators.rt_step; constructor|]. split; [eapply mget_filed; [exact G|now left]|]. split; [exact Ep|].
  split; [|exists v; auto]. rewrite Et. exists (fun _ => Name "a"). split; [intros x _ _ []|reflexivity].
Qed.
Example c98_ex : exists e, told (w_decl after) qb e /\ fleb (calcExp v9) e = true.
Proof.
  destruct before_knows as (b & e & Kn & _ & L & L2). exists e. split; [|exact L].
  assert (T := run_talk noNum asking [] _ _ _ (tk_none noNum before) after_run).
  assert (Ls : linesRead noNum asking before = endl "<?1 --> b>? :|:" :: endl "!s2" :: [endl "<c --> d>."; endl "!sp"]) by (vm_compute; reflexivity). rewrite Ls in T.
  eapply (c98_asked noNum before qb (endl "<?1 --> b>? :|:") (endl "!s2") v9 2 _ after); [| | | | | | |exact s2Line|lia|exact T| | |exact Kn|].
  - apply ease_b. vm_compute. reflexivity.
  - split; vm_compute; reflexivity.
  - vm_compute. reflexivity.
  - intros X. discriminate X.
  - apply plain_b. vm_compute. reflexivity.
  - vm_compute. reflexivity.
  - unfold small. vm_compute. discriminate.
  - vm_compute. reflexivity.
  - vm_compute. reflexivity.
  - destruct Kn as (_ & _ & _ & _ & _ & v & _ & ->). apply (fltb_leb_trans f0 (calcExp v9)); [vm_compute; reflexivity|exact L].
Qed.
Example c98_ex_log : map (fun a => (fst a, s_term (snd a))) (y_log (w_decl before)) = [] /\
  map (fun a => (fst a, s_term (snd a))) (y_log (w_decl after)) = [(qb, Stmt INH (Name "a") (Name "b"))].
Proof. split; vm_compute; reflexivity. Qed.
(** The lesson of C94, with statements about other things in between; then: what can be done
    when the cup is near, and what will come of it? *)
Definition lessonTurns : list turn := hears "// a lesson" :: teach near doing held lucky ++ filed (repeat (repeat 3%nat 24) 4).
Definition whatThen : term := Stmt PREDIMPL (Seq [cup "near"; QVar "0"]) (QVar "1").
Definition whatAns (v : term) : term := match v with QVar i => if String.eqb i "0" then grasp else cup "held" | _ => grasp end.
Lemma whatInst : instanceOf (Stmt PREDIMPL (Seq [cup "near"; grasp]) (cup "held")) whatThen.
Proof. exists whatAns. split; [|reflexivity]. intros x _ _. unfold whatAns, grasp, cup. destruct x; cbn; auto. destruct (String.eqb _ _); cbn; auto. Qed.
Definition whatLine : text := endl "<(<{cup} --> [near]>,?0) =/> ?1>? :|:".
Definition done (x : nar * bool) : bool :=
  negb (snd x) && match nr_pq (fst x) with [] => true | _ => false end && match nr_dq (fst x) with [] => true | _ => false end && match questions (nr_decl (fst x)) with [] => true | _ => false end.
Example c98_ex_taught : exists acts w0, oneByOne lessonTurns acts /\ wrun noNum acts (wholeMake (narInit ops1) 0 20 64 true) = Ok w0 /\
  forall more w, talk noNum (whatLine :: endl "!s" :: more) w0 w -> mainFree w = true -> w_jobs w = [] -> told (w_decl w) whatThen shownOnce.
Proof.
  destruct (comesOut _ (takeTurns noNum lessonTurns room1) done) as ([n q] & R & B); [vm_compute; reflexivity|]. unfold done in B. cbn [fst snd] in B. apply andb_true_iff in B. destruct B as [B B4]. apply andb_true_iff in B. destruct B as [B B3]. apply andb_true_iff in B. destruct B as [B1 B2].
  destruct q; [discriminate B1|].
  destruct (c98_taught noNum ops1 (cup "near") grasp (cup "held") near doing held lucky (repeat (repeat 3%nat 24) 4) lessonTurns 0 n) as (acts & w0 & Ob & Rn & K); auto.
  - apply cup_situation.
  - apply cup_situation.
  - intros E; discriminate E.
  - exact grasp_deed.
  - exact says_near.
  - exact says_doing.
  - exact says_held.
  - intros i E; discriminate E.
  - intros E; discriminate E.
  - unfold lessonTurns. apply mx_aside; [|apply same]. eapply c94_aside_comment with (i := tx "// a lesson").
    + apply trimmedBy. vm_compute. reflexivity.
    + vm_compute tx. repeat (apply Nar_Spec.u8_one; [vm_compute; lia|]). apply Nar_Spec.u8_nil.
    + exists (tx " a lesson"). reflexivity.
  - apply roomsB_ok. vm_compute. reflexivity.
  - destruct (nr_pq n); [reflexivity|discriminate B2].
  - destruct (nr_dq n); [reflexivity|discriminate B3].
  - destruct (questions (nr_decl n)); [reflexivity|discriminate B4].
  - exists acts, w0. split; [exact Ob|]. split; [exact Rn|]. intros more w T MF J.
    refine (K _ _ whatLine (endl "!s") v9 1 more w _ _ _ _ _ sLine (Nat.le_refl 1) T MF J).
    + eapply Relation_Operators.rt_trans; [apply Relation_Operators.rt_step; apply (comp_seq _ [cup "near"; QVar "0"]); now left|apply Relation_Operators.rt_step; constructor].
    + exact whatInst.
    + apply plain_b. vm_compute. reflexivity.
    + vm_compute. reflexivity.
    + unfold small. vm_compute. discriminate.
Qed.

Definition shown : whole := ended (wrun noNum (flat_map (fun t => match t with TLine l r => ARead l r :: repeat (AMain (ln_smp r)) 60 | TDerive => [ADerive] | TStore d => repeat (AStore d) 60 end) lessonTurns) (wholeMake (narInit ops1) 0 20 64 true)).
Definition asked3 : whole := ended (wrun noNum (say "<(<{cup} --> [near]>,?0) =/> ?1>? :|:" 20 ++ say "!s" 60) shown).
Example c98_ex_shown : map (fun a => (checkEqTerm (fst a) whatThen, checkEqTerm (s_term (snd a)) (Stmt PREDIMPL (Seq [cup "near"; grasp]) (cup "held")))) (y_log (w_decl asked3)) = [(true, true)].
Proof. vm_compute. reflexivity. Qed.

(** Finding: a second question may wait. One cycle looks up one question only; the
    other one gets no answer although the belief is there. *)
Definition two : list wact := say "<a --> b>? :|:" 20 ++ say "!s" 60.
Definition waiting : whole := ended (wrun noNum (say "<a --> b>." 20 ++ say "<c --> ?1>? :|:" 20) (begin (narInit []))).
Lemma knows_ab : forall w c u q, mget u (memory (y_sh (w_decl w))) = Some c -> existsb isAB (byExp c) = true -> occurs u q -> isTemporal q = false -> instanceOf (Stmt INH (Name "a") (Name "b")) q -> exists b e, knows w q b e /\ fltb f0 e = true.
Proof.
  intros w c u q G X Ou Nt In1. apply existsb_exists in X. destruct X as (b & I & X). unfold isAB in X.
  destruct (s_term b) as [[] [] []| | | | | | | | | | | | | |] eqn:Et; try discriminate X. destruct (retTv b) as [v|] eqn:Ev; [|discriminate X]. destruct (s_punct b) eqn:Ep; try discriminate X.
  apply andb_true_iff in X. destruct X as [X X4]. apply andb_true_iff in X. destruct X as [X X3]. apply andb_true_iff in X. destruct X as [X1 X2]. apply String.eqb_eq in X1, X2. subst.
  exists b, (calcExp v). split; [|apply (fltb_leb_trans f0 (calcExp v9)); [vm_compute; reflexivity|exact X3]]. exists u. split; [exact Ou|]. split; [rewrite knowledge_is, Nt; eapply mget_filed; [exact G|now left]|]. split; [exact Ep|].
  split; [|exists v; auto]. rewrite Et. exact In1.
Qed.
Theorem c98_second_refuted : exists w0 w, atEase w0 /\ stored w0 /\ length (questions (y_sh (w_decl w0))) = 1 /\
  talk noNum [endl "<a --> b>? :|:"; endl "!s"] w0 w /\ mainFree w = true /\ w_jobs w = [] /\
  (exists b e, knows w0 (Stmt INH (Name "a") (Name "b")) b e /\ fltb f0 e = true) /\ y_log (w_decl w) = [].
Proof.
  exists waiting, (ended (wrun noNum two waiting)). split; [apply ease_b; vm_compute; reflexivity|]. split; [split; vm_compute; reflexivity|]. split; [vm_compute; reflexivity|]. split; [|split; [vm_compute; reflexivity|split; [vm_compute; reflexivity|split]]].
  - assert (E : wrun noNum two waiting = Ok (ended (wrun noNum two waiting))) by (apply runs; vm_compute; reflexivity).
    assert (T := run_talk noNum two [] _ _ _ (tk_none noNum waiting) E). assert (L : linesRead noNum two waiting = [endl "<a --> b>? :|:"; endl "!s"]) by (vm_compute; reflexivity). rewrite L in T. exact T.
  - assert (X : match mget (Name "b") (memory (y_sh (w_decl waiting))) with Some c => existsb isAB (byExp c) | None => false end = true) by (vm_compute; reflexivity).
    destruct (mget (Name "b") (memory (y_sh (w_decl waiting)))) as [c|] eqn:G; [|discriminate X]. apply (knows_ab _ c (Name "b")); auto; [apply Relation_Operators.rt_step; constructor|].
    exists (fun v => v). split; [|reflexivity]. intros v Iv Ov. apply occurs_inv in Ov. destruct Ov as [->|(y & Cy & Ov)]; [destruct Iv|]. inversion Cy; subst; (apply occurs_inv in Ov; destruct Ov as [->|(z & Cz & _)]; [destruct Iv|inversion Cz]).
  - vm_compute. reflexivity.
Qed.
(** Finding: a question without a name in it is not looked up anywhere. The belief
    a --> b is remembered at itself, at a and at b, but not at the question's parts. *)
Definition vague : list wact := say "<?1 --> ?2>? :|:" 20 ++ say "!s9" 200.
Definition knowing : whole := ended (wrun noNum (say "<a --> b>." 20) (begin (narInit []))).
Theorem c98_vague_refuted : exists w0 w, atEase w0 /\ stored w0 /\ questions (y_sh (w_decl w0)) = [] /\
  talk noNum [endl "<?1 --> ?2>? :|:"; endl "!s9"] w0 w /\ mainFree w = true /\ w_jobs w = [] /\
  (exists c, mget (Name "a") (memory (y_sh (w_decl w0))) = Some c /\ existsb isAB (byExp c) = true) /\ instanceOf (Stmt INH (Name "a") (Name "b")) (Stmt INH (QVar "1") (QVar "2")) /\
  y_log (w_decl w) = [].
Proof.
  exists knowing, (ended (wrun noNum vague knowing)). split; [apply ease_b; vm_compute; reflexivity|]. split; [split; vm_compute; reflexivity|]. split; [vm_compute; reflexivity|]. split; [|split; [vm_compute; reflexivity|split; [vm_compute; reflexivity|split; [|split]]]].
  - assert (E : wrun noNum vague knowing = Ok (ended (wrun noNum vague knowing))) by (apply runs; vm_compute; reflexivity).
    assert (T := run_talk noNum vague [] _ _ _ (tk_none noNum knowing) E). assert (L : linesRead noNum vague knowing = [endl "<?1 --> ?2>? :|:"; endl "!s9"]) by (vm_compute; reflexivity). rewrite L in T. exact T.
  - assert (X : match mget (Name "a") (memory (y_sh (w_decl knowing))) with Some c => existsb isAB (byExp c) | None => false end = true) by (vm_compute; reflexivity).
    destruct (mget (Name "a") (memory (y_sh (w_decl knowing)))) as [c|]; [|discriminate X]. exists c. auto.
  - exists (fun v => match v with QVar i => if String.eqb i "1" then Name "a" else Name "b" | _ => Name "a" end). split; [|reflexivity]. intros x _ _. destruct x; cbn; auto. destruct (String.eqb _ _); cbn; auto.
  - vm_compute. reflexivity.
Qed.

Print Assumptions c98_asked. Print Assumptions c98_taught. Print Assumptions c98_second_refuted. Print Assumptions c98_vague_refuted.
