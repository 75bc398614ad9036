(** What can be learned, wanted and done where only named things are perceived. *)
From Coq Require Import String ZArith Bool Lia List Sorted Permutation.
From Verif Require Import Base F64_Model Term_Model Term_Spec Term_Proofs Sort_Proofs Unify_Model Stamp_Model Tv_Model Sentence_Model Mem_Model Mem_Proofs
  PMem_Model PMem_Proofs PMem2_Proofs Goal_Model Goal_Spec Goal_Proofs Goal2_Proofs Goal3_Proofs Goal4_Proofs Run_Proofs Proc_Model Proc_Spec ProcA_Proofs ProcP_Proofs ProcB_Proofs
  ProcC_Proofs ProcV_Proofs ProcS_Model ProcS_Proofs ProcX_Model ProcX3_Proofs ProcX4_Proofs Parser_Model Nar_Model Play_Spec Live_Spec Live_Proofs Once2_Proofs Vocab_Spec.
Import ListNotations.
Local Open Scope list_scope.
Local Open Scope Z_scope.

Section Vocab.
Variables (ops : list op) (F : string -> Prop) (R : string -> string -> string -> Prop).
Hypothesis plain : forall o, In o ops -> op_kind o = OpPlain.
Notation names := (map op_name ops).
Notation Fact := (fact F).
Notation Deed := (deed names).
(** what lies between two situations in the past is as [R] says *)
Definition lawR (t : term) : Prop := law F names t /\ forall s o s', t = Stmt PREDIMPL (Seq [Name s; plainCall o]) (Name s') -> R s o s'.
Notation Law := lawR.
Definition ordered (tr : list event) : Prop := forall i j k e0 e1 e2 s o s', (i < j < k)%nat -> nth_error tr i = Some e0 -> nth_error tr j = Some e1 -> nth_error tr k = Some e2 ->
  ev_name e0 = Name s -> ev_name e1 = plainCall o -> ev_name e2 = Name s' -> R s o s'.
Definition lets (tr : list event) (t : term) : Prop := forall i j e0 e1 s o s', (i < j)%nat -> nth_error tr i = Some e0 -> nth_error tr j = Some e1 -> ev_name e0 = Name s -> ev_name e1 = plainCall o -> t = Name s' -> R s o s'.
Lemma ordered_nil : ordered [].
Proof. intros [|i] j k e0 e1 e2 s o s' _ H; discriminate H. Qed.
Lemma ordered_skip : forall k tr, ordered tr -> ordered (skipn k tr).
Proof.
  induction k as [|k IH]; intros [|x tr] H; auto. cbn [skipn]. apply IH. intros i j l e0 e1 e2 s o s' L H0 H1 H2. apply (H (S i) (S j) (S l) e0 e1 e2); auto. lia.
Qed.
Lemma ordered_add : forall tr e, ordered tr -> lets tr (ev_name e) -> ordered (tr ++ [e]).
Proof.
  intros tr e H Le i j k e0 e1 e2 s o s' L H0 H1 H2 E0 E1 E2. assert (Lk : (k < length (tr ++ [e]))%nat) by (apply nth_error_Some; congruence). rewrite app_length in Lk. cbn [length] in Lk.
  rewrite nth_error_app1 in H0, H1 by lia. destruct (Nat.eq_dec k (length tr)) as [->|N].
  - rewrite nth_error_app2, Nat.sub_diag in H2 by lia. injection H2 as <-. apply (Le i j e0 e1); auto. lia.
  - rewrite nth_error_app1 in H2 by lia. apply (H i j k e0 e1 e2); auto.
Qed.
Lemma ordered_deeds : forall evs tr, ordered tr -> Forall (fun e => Deed (ev_name e)) evs -> ordered (tr ++ evs).
Proof.
  induction evs as [|e evs IH]; intros tr H D; [now rewrite app_nil_r|]. inversion D as [|? ? D1 D2]; subst. change (e :: evs) with ([e] ++ evs). rewrite app_assoc. apply IH; auto. apply ordered_add; auto.
  intros i j e0 e1 s o s' _ _ _ _ _ E. destruct D1 as (x & _ & D1). rewrite D1 in E. discriminate E.
Qed.

Notation Aim := (aim F names).
(** the concepts *)
Definition keysOk (m : pmem) : Prop := NoDup (map fst (pcs m)) /\ forall t c, In (t, c) (pcs m) -> Fact t /\ pc_name c = t.
Record vInv (y : psys) : Prop := mkV {
  v_ops : n_ops (y_nar y) = ops;
  v_cfg : c_nOpsMax (n_cfg (y_nar y)) = 1%nat;
  v_trace : Forall (fun e => Fact (ev_name e) \/ Deed (ev_name e)) (n_trace (y_nar y));
  v_cells : forall s, In s (cells (n_mem (y_nar y))) -> Law (s_term s);
  v_main : match y_main y with
           | MSend ms => forall s now, In (s, now) ms -> Law (s_term s)
           | MAdd _ l => forall s, In s l -> Law (s_term s)
           | _ => True
           end;
  v_chan : forall s now, In (s, now) (y_chan y) -> Law (s_term s);
  v_work : match y_work y with
           | WMerge s _ _ _ => Law (s_term s)
           | WAdd _ l => forall s, In s l -> Law (s_term s)
           | _ => True
           end;
  v_reach : gReach (n_goals (y_nar y));
  v_goals : allP (fun s _ => Aim (s_term s)) (n_goals (y_nar y));
  v_keys : keysOk (n_mem (y_nar y));
  v_order : ordered (n_trace (y_nar y))
}.
Lemma keys_set : forall h m t c, keysOk m -> Fact t -> pc_name c = t -> keysOk (mkPmem h (mset t c (pcs m))).
Proof.
  intros h m t c (N & K) Ft E. split; cbn [pcs]; [now apply mset_nodup|]. intros t0 c0 H. assert (G := in_mget _ _ _ _ (mset_nodup _ t c _ N) H).
  rewrite mget_mset in G. destruct (checkEqTerm t t0) eqn:Q; [apply checkEqTerm_eq in Q; subst t0; injection G as <-; auto|]. apply K. now apply mget_in.
Qed.
Lemma keys_in : forall us s n now m t m', keysOk m -> Fact t -> pStoreIn us s n now m t = Ok m' -> keysOk m'.
Proof.
  intros us s n now m t m' K Ft H. unfold pStoreIn in H. rewrite term_clone_id in H. destruct (mget t (pcs m)) as [c|] eqn:G.
  - destruct (pStoreTable _ _ _ _ _) as [[h1 e]|]; cbn [rbind] in H; [|discriminate H]. destruct (pStoreTable _ _ _ _ _) as [[h2 u]|]; cbn [rbind] in H; [|discriminate H]. injection H as <-.
    apply keys_set; auto. cbn. now apply K, mget_in.
  - injection H as <-. now apply keys_set.
Qed.
Lemma keys_all : forall us s n now l m m', keysOk m -> Forall Fact l -> rfold (pStoreIn us s n now) l m = Ok m' -> keysOk m'.
Proof.
  intros us s n now l. induction l as [|t l IH]; intros m m' K Fl H; cbn [rfold] in H; [now injection H as <-|]. inversion Fl; subst.
  destruct (pStoreIn us s n now m t) as [m1|] eqn:E; cbn [rbind] in H; [|discriminate H]. apply (IH m1); auto. eapply keys_in; eauto.
Qed.
Lemma keys_store : forall us m s nB now m', keysOk m -> law F names (s_term s) -> mem_add_evidence_internal us m s nB now = Ok m' -> keysOk m'.
Proof.
  intros us m s nB now m' K (a & d & b & Ha & Hb & _ & _ & E) H. apply internal_ok in H. destruct H as (cond & pred & (rest & I) & H). rewrite E in I. injection I as <- _ <-.
  unfold pStoreInConcepts2 in H. destruct (negb _); [now injection H as <-|]. apply keys_all in H; auto. destruct Ha as (x & -> & Hx). destruct Hb as (z & -> & Hz). cbn. repeat constructor; eexists; eauto.
Qed.
Lemma keys_sets : forall (l : list (pconcept * f64)) acc, NoDup (map fst acc) -> (forall t c, In (t, c) acc -> Fact t /\ pc_name c = t) -> (forall c r, In (c, r) l -> Fact (pc_name c)) ->
  keysOk (mkPmem [] (fold_left (fun acc cr => mset (pc_name (fst cr)) (fst cr) acc) l acc)).
Proof.
  induction l as [|[c r] l IH]; intros acc N K H; [now split|]. cbn [fold_left fst]. destruct (keys_set [] (mkPmem [] acc) (pc_name c) c (conj N K) (H c r (or_introl eq_refl)) eq_refl) as (N' & K'). apply IH; auto. intros c0 r0 H0. apply (H c0 r0). now right.
Qed.
Lemma in_firstn_any : forall (A : Type) (x : A) k l, In x (firstn k l) -> In x l.
Proof. intros A x k l H. rewrite <- (firstn_skipn k l). apply in_or_app. now left. Qed.
Lemma keys_limit : forall m k m', keysOk m -> pLimit m k = Ok m' -> keysOk m'.
Proof.
  intros m k m' (N & K) H. unfold pLimit in H. destruct (Nat.leb _ _); [injection H as <-; now split|]. destruct (rmapM _ _) as [rated|] eqn:Rm; cbn [rbind] in H; [|discriminate H]. destruct (fsort_desc _ _) as [srt|] eqn:So; cbn [rbind] in H; [|discriminate H]. injection H as <-.
  destruct (keys_sets (firstn (Nat.min (length srt) k) srt) []) as (N' & K'); [constructor|intros t c []| |split; auto].
  intros c r Hc. apply (in_firstn_any) in Hc. apply fsort_desc_ok in So. destruct So as (Q & _). apply (Permutation_in _ (Permutation_sym Q)) in Hc. apply rmapM_ok in Rm.
  clear - Rm Hc K. induction Rm as [|[t0 c0] b l l' Hab Rm IH]; [destruct Hc|]. destruct Hc as [->|Hc]; [|apply IH; auto; intros t1 c1 H1; apply K; now right].
  cbn [snd] in Hab. destruct (pRating (cells m) c0); cbn [rbind] in Hab; [|discriminate Hab]. injection Hab as <- _. destruct (K t0 c0 (or_introl eq_refl)) as (Ft & En). now rewrite En.
Qed.
Lemma fact_ground : forall t s, Fact t -> unifySubst t s = t.
Proof. intros t s (x & -> & _). reflexivity. Qed.
Lemma deed_ground : forall t s, Deed t -> unifySubst t s = t.
Proof. intros t s (x & _ & ->). reflexivity. Qed.
Lemma fact_call : forall t args name, Fact t -> ~ opCall t args name.
Proof. intros t args name (x & -> & _) (_ & E). discriminate E. Qed.
Lemma deed_callable : forall t, Deed t -> callable ops t.
Proof. intros t (x & Hx & ->). apply in_map_iff in Hx. destruct Hx as (o & <- & Ho). exists [SetExt [Name "SELF"%string]], (op_name o), o. split; [split; [discriminate|reflexivity]|auto]. Qed.
Lemma call_deed : forall t, callable ops t -> Fact t \/ Deed t -> Deed t.
Proof. intros t (args & name & o & C & _) [H|H]; auto. destruct (fact_call _ _ _ H C). Qed.
(** what is observed *)
Lemma observed : forall n rs g ms, n_ops n = ops -> c_nOpsMax (n_cfg n) = 1%nat -> Forall (fun e => Fact (ev_name e) \/ Deed (ev_name e)) (n_trace n) ->
  ordered (n_trace n) -> traceStep n rs = Ok (g, ms) -> forall s now, In (s, now) ms -> Law (s_term s).
Proof.
  intros n rs g ms Eo Ec Tr Or T s now Hs. assert (Ln := sends_len _ _ _ _ T ltac:(lia) _ _ Hs). destruct (trace_sends _ _ _ _ T ltac:(lia) _ _ Hs) as (_ & O). rewrite Eo in O.
  destruct O as (i & js & k & e0 & es & ek & lop & o & So & Hi & Hj & Hk & _ & (op1 & rest & Ees & _) & Hc & _ & N0 & Nk & Ne & Et & Es & _).
  rewrite Es in Ln. cbn [length] in Ln. rewrite app_length, map_length in Ln. cbn [length] in Ln. rewrite Ees in Ln. cbn [length] in Ln. destruct rest; [|cbn [length] in Ln; lia]. subst es.
  rewrite Forall_forall in Tr. assert (At : forall j e, nth_error (n_trace n) j = Some e -> Fact (ev_name e) \/ Deed (ev_name e)) by (intros j e H; apply Tr; now apply nth_error_In in H).
  assert (A0 : Fact (ev_name e0)) by (destruct (At _ _ Hi) as [A|A]; auto; destruct (N0 (deed_callable _ A))).
  assert (Ak : Fact (ev_name ek)) by (destruct (At _ _ Hk) as [A|A]; auto; destruct (Nk (deed_callable _ A))).
  assert (A1 : Deed (ev_name op1)). { inversion Hj as [|j ? ? ? H1 H2]. apply call_deed; [apply Hc; now left|]. eapply At; eauto. }
  split; [exists (ev_name e0), (ev_name op1), (ev_name ek); auto 10|]. intros x y z Ex. rewrite Et in Ex. cbn [map] in Ex. injection Ex as X1 X2 X3.
  inversion Hj as [|j ? js' ? H1 H2 H3 H4]. inversion H2. subst js' js. cbn [app] in So. inversion So as [|? ? So1 So2]; subst. inversion So1 as [|? ? So3 So4]; subst. inversion So2 as [|? ? L1 _]; subst. inversion So4 as [|? ? L2 _]; subst.
  apply (Or i j k e0 op1 ek); auto.
Qed.
Lemma law_intro : forall s draws vs, law F names (s_term s) -> matchandintro_var1_sentence s draws = Ok vs -> vs = [].
Proof.
  intros s draws vs (a & d & b & (x & -> & _) & _ & _ & _ & E) M. destruct (intro_spec _ _ _ M) as [->|(subj & prop & o & e & y & w & E1 & _)]; auto. rewrite E in E1. discriminate E1.
Qed.
(** what is wanted *)
Lemma chain_aim : forall m k g ev c, (forall s, In s (cells m) -> law F names (s_term s)) -> Aim (s_term g) -> goalChain (believed m) k g ev c -> Aim (s_term c).
Proof.
  intros m k g ev c A Hg Ch. assert (St : forall g ev c, Aim (s_term g) -> goalStep (believed m) g ev c -> Aim (s_term c)).
  { clear - A. intros g ev c Hg S. destruct S as [g x rest v c E V I|g a b subj vg vb c N (-> & _) E Sh V1 V2 I]; destruct I as (-> & _).
    - destruct Hg as [(y & Y & _)|[(y & _ & Y)|(a & d & Ha & Hd & Y)]]; rewrite E in Y; try discriminate Y. injection Y as -> _. now left.
    - destruct (cell_in _ _ _ _ E) as (_ & Hin). destruct (A _ Hin) as (a1 & d & b1 & Ha & Hb & _ & Hd & E'). rewrite E in E'. injection E' as -> _. right. right. eauto. }
  induction Ch as [g ev c S|n g ev1 c1 ev c Ch IH S]; [eapply St; eauto|]. eapply St; [|exact S]. auto.
Qed.
Lemma last_two : forall (a d x : term) pre, [a; d] = pre ++ [x] -> x = d.
Proof. intros a d x pre E. change [a; d] with ([a] ++ [d]) in E. apply app_inj_tail in E. symmetry. apply E. Qed.
Lemma candidate_deed : forall n b pre opT, (forall s, In s (cells (n_mem n)) -> law F names (s_term s)) -> allP (fun s _ => Aim (s_term s)) (n_goals n) ->
  candidate n b -> b_seq b = Seq (pre ++ [opT]) -> Deed opT.
Proof.
  intros n b pre opT A Al Cd Es. destruct Cd as [ev en ut v0 He St (pre' & op' & asg & T & U & ->) V0|tr ev a0 l p hit v0 v' sq p0 Et Pl St Eh V0 Cb T Ln]; cbn [b_seq] in Es.
  - assert (W := Al en St). cbn beta in W. unfold e_term in *. destruct W as [(y & Y & _)|[(y & _ & Y)|(a & d & Ha & Hd & Y)]]; rewrite Y in T; try discriminate T.
    rewrite Y in Es. cbn [unifySubst map] in Es. rewrite (fact_ground _ _ Ha), (deed_ground _ _ Hd) in Es. injection Es as Es. apply last_two in Es. now subst.
  - destruct (cell_in _ _ _ _ T) as (_ & Hin). destruct (A _ Hin) as (a & d & b & _ & _ & _ & Hd & E). rewrite T in E. injection E as -> _. injection Es as Es. apply last_two in Es. now subst.
Qed.
(** what is done *)
Lemma done_deed : forall n t evs, n_ops n = ops -> Deed t -> executed n t evs -> Forall (fun e => Deed (ev_name e)) evs.
Proof.
  intros n t evs Eo D (args & name & C & [(_ & ->)|(o & inj & rels & Fo & P & ->)]); [constructor|]. rewrite Eo in *.
  assert (inj = []). { assert (K : forall args name o, opCall t args name -> firstNamed ops name o -> op_kind o = OpPlain).
    { intros ar nm o' _ (pre & post & -> & _). apply plain. apply in_app_iff. right. now left. }
    inversion P as [| |? ar nm o' C' F' K'|? ar nm o' C' F' K'|? x sq i nm o' evs rels' C' F' K' Pa]; subst; auto; rewrite (K _ _ _ C' F') in K'; discriminate K'. }
  subst inj. cbn [app map]. constructor; auto.
Qed.
Lemma outcome_vocab : forall n evs ant, n_ops n = ops -> (forall s, In s (cells (n_mem n)) -> law F names (s_term s)) -> allP (fun s _ => Aim (s_term s)) (n_goals n) ->
  outcome n evs ant -> Forall (fun e => Deed (ev_name e)) evs.
Proof.
  intros n evs ant Eo A Al O. destruct O as [|e x a iv evs Mo El Ea _ Ex|o evs B Ho Bo Ex]; [constructor| |].
  - apply (done_deed n (e_term e)); auto. destruct Mo as [Ha|(b & pre & e0 & Cd & _ & Eb & Es & _)]; [|eapply candidate_deed; eauto].
    assert (W := Al e (or_intror Ha)). cbn beta in W. destruct Ex as (args & name & C & _). unfold e_term in *.
    destruct W as [W|[W|(a1 & d & _ & _ & Y)]]; auto; [destruct (fact_call _ _ _ W C)|]. destruct C as (_ & C). rewrite Y in C. discriminate C.
  - eapply done_deed; [exact Eo| |exact Ex]. exists (op_name o). split; [|reflexivity]. apply in_map. now rewrite <- Eo.
Qed.
Lemma last_forall : forall (A : Type) (P : A -> Prop) k l, Forall P l -> Forall P (skipn k l).
Proof. intros A P k l H. rewrite <- (firstn_skipn k l) in H. apply Forall_app in H. apply H. Qed.
Theorem vocab_act : forall us y a y', vInv y -> yact us y a = Ok (Some y') ->
  match a with XEvent e => Fact e /\ lets (n_trace (y_nar y)) e | XGoal s => Fact (s_term s) | XBelief _ _ _ _ => False | _ => True end -> vInv y'.
Proof.
  intros us [n p c w] a y' [V1 V2 V3 V4 V5 V6 V7 V8 V9 V10 V11] Y K. cbn [y_nar y_main y_chan y_work] in *.
  assert (V4' : forall s, In s (cells (n_mem n)) -> law F names (s_term s)) by (intros s Hs; now apply V4).
  destruct a as [e|s|t id u draws| |decl r|nB rs|draws]; try contradiction; cbn [yact] in Y.
  - destruct p; try discriminate Y. injection Y as <-. destruct K as (K & Kl). constructor; cbn; auto; unfold event_happened.
    + apply Forall_app. split; auto.
    + apply ordered_add; auto.
  - destruct p; try discriminate Y. destruct (addEntry _ _ _ _ _) as [g|] eqn:Ad; cbn [rbind] in Y; [|discriminate Y]. injection Y as <-. constructor; cbn; auto; [eapply gr_add; eauto|]. eapply add_P; eauto. now left.
  - destruct p; try discriminate Y. destruct (confirm n) as [ant|]; cbn [rbind] in Y; [|discriminate Y]. injection Y as <-. constructor; cbn; auto.
  - destruct p; try discriminate Y. destruct (narStep1 n decl r) as [n'|] eqn:S; cbn [rbind] in Y; [|discriminate Y]. injection Y as <-.
    assert (Sc := step1_cells _ _ _ _ S). assert (Sp := step1_spec _ _ _ _ S). destruct Sp as (_ & S1 & S2 & S3 & Sm & (evs & ant & O & T & _) & S4).
    constructor; cbn [y_nar y_main y_chan y_work]; auto; try congruence.
    + rewrite T. apply last_forall. apply Forall_app. split; auto. assert (D := outcome_vocab _ _ _ V1 V4' V9 O). eapply Forall_impl; [|exact D]. auto.
    + rewrite Sc. exact V4.
    + apply (step1_P (fun s _ => Aim (s_term s)) _ _ _ _ S V8 V9).
      * intros g0 ev0 k ev cc P Ch. apply (chain_aim (n_mem n') k g0 ev cc); auto. rewrite Sc. exact V4'.
      * intros b a pre opT e Cd E1 E2 Op (v & _ & (-> & _) & _). right. left. eapply candidate_deed; eauto.
    + destruct Sm as [-> | Sm]; auto. eapply keys_limit; eauto.
    + rewrite T. apply ordered_skip. apply ordered_deeds; auto. exact (outcome_vocab _ _ _ V1 V4' V9 O).
  - destruct p as [|[|a todo]|[|m ms]|now [|s todo]]; try discriminate Y.
    + destruct (traceStep n rs) as [[g ms]|] eqn:T; cbn [rbind] in Y; [|discriminate Y]. injection Y as <-.
      assert (Ob := observed _ _ _ _ V1 V2 V3 V11 T). constructor; cbn; auto; destruct (trace_goals _ _ _ _ T) as [->|(ev & ->)]; auto; [now apply gr_event|now apply event_P].
    + destruct (negConfirm _ _) as [h|] eqn:N; cbn [rbind] in Y; [|discriminate Y]. injection Y as <-. apply neg_one in N. destruct N as (L & _ & p0 & c0 & Ev & ->).
      constructor; cbn; auto. intros x Hx. apply wr_in' in Hx. destruct Hx as [->|Hx]; auto. cbn. apply V4. now apply nth_In.
    + injection Y as <-. constructor; cbn; auto.
    + destruct (Nat.ltb _ _); [|discriminate Y]. injection Y as <-. constructor; cbn; auto.
      * intros s now Hs. apply (V5 s now). now right.
      * intros s now Hs. apply in_app_iff in Hs. destruct Hs as [Hs|[->|[]]]; [eauto|]. apply (V5 s now). now left.
    + injection Y as <-. constructor; cbn; auto.
    + destruct (mem_add_evidence_internal _ _ _ _ _) as [m|] eqn:M; cbn [rbind] in Y; [|discriminate Y]. injection Y as <-. assert (Kn := keys_store _ _ _ _ _ _ V10 (proj1 (V5 _ (or_introl eq_refl))) M). apply internal_new in M. destruct M as (x & M & X).
      constructor; cbn; auto; [|intros; apply V5; now right]. rewrite M. intros z Hz. apply in_app_iff in Hz. destruct Hz as [Hz|Hz]; auto. rewrite (X z Hz). apply V5. now left.
  - assert (Y' : match w with
      | WIdle => match c with (s, now) :: c' => do l <- mergeTargets (n_mem n) s; Ok (Some (mkPsys n p c' (WMerge s now l false))) | [] => Ok None end
      | WMerge s now (a :: l) rv => do '(h, b) <- mergeInto s (cells (n_mem n)) a; Ok (Some (mkPsys (setCells n h) p c (WMerge s now l (rv || b))))
      | WMerge s now [] true => Ok (Some (mkPsys n p c WIdle))
      | WMerge s now [] false => do vs <- matchandintro_var1_sentence s draws; Ok (Some (mkPsys n p c (WAdd now (s :: vs))))
      | WAdd now (s :: todo) => do m <- mem_add_evidence_internal us (n_mem n) s (c_nBeliefs (n_cfg n)) now; Ok (Some (mkPsys (setMem n m) p c (WAdd now todo)))
      | WAdd now [] => Ok (Some (mkPsys n p c WIdle)) end = Ok (Some y')) by (destruct p; exact Y). clear Y.
    destruct w as [|s now [|a l] rv|now [|s todo]].
    + destruct c as [|[s now] c]; [discriminate Y'|]. destruct (mergeTargets _ _) as [l|]; cbn [rbind] in Y'; [|discriminate Y']. injection Y' as <-. constructor; cbn; auto.
      * intros s0 now0 Hs. apply (V6 s0 now0). now right.
      * apply (V6 s now). now left.
    + destruct rv.
      * injection Y' as <-. constructor; cbn; auto.
      * destruct (matchandintro_var1_sentence s draws) as [vs|] eqn:M; cbn [rbind] in Y'; [|discriminate Y']. injection Y' as <-. rewrite (law_intro _ _ _ (proj1 V7) M). constructor; cbn; auto. intros x [<-|[]]. exact V7.
    + destruct (mergeInto _ _ _) as [[h b]|] eqn:M; cbn [rbind] in Y'; [|discriminate Y']. injection Y' as <-. assert (L := merge_in _ _ _ _ M). apply mergeInto_ok in M. destruct M as (Eb & M).
      constructor; cbn; auto. destruct b; [|now subst h]. destruct M as (e' & C & ->). intros x Hx. apply wr_in' in Hx. destruct Hx as [->|Hx]; auto. destruct C as (? & ? & ? & ? & _ & _ & ->). cbn. apply V4. now apply nth_In.
    + injection Y' as <-. constructor; cbn; auto.
    + destruct (mem_add_evidence_internal _ _ _ _ _) as [m|] eqn:M; cbn [rbind] in Y'; [|discriminate Y']. injection Y' as <-. assert (Kn := keys_store _ _ _ _ _ _ V10 (proj1 (V7 _ (or_introl eq_refl))) M). apply internal_new in M. destruct M as (x & M & X).
      constructor; cbn; auto; [|intros; apply V7; now right]. rewrite M. intros z Hz. apply in_app_iff in Hz. destruct Hz as [Hz|Hz]; auto. rewrite (X z Hz). apply V7. now left.
Qed.
(** the programs also set the reasoner up between the steps *)
Lemma vocab_set : forall n n' p c w, vInv (mkPsys n p c w) -> n_ops n' = n_ops n -> c_nOpsMax (n_cfg n') = c_nOpsMax (n_cfg n) -> n_mem n' = n_mem n -> n_goals n' = n_goals n ->
  Forall (fun e => Fact (ev_name e) \/ Deed (ev_name e)) (n_trace n') -> ordered (n_trace n') -> vInv (mkPsys n' p c w).
Proof. intros n n' p c w [V1 V2 V3 V4 V5 V6 V7 V8 V9 V10 V11] E1 E2 E3 E4 T Or. cbn [y_nar y_main y_chan y_work] in *. constructor; cbn [y_nar y_main y_chan y_work]; rewrite ?E1, ?E2, ?E3, ?E4; auto. Qed.
End Vocab.
