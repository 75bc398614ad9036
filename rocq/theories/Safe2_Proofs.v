(** Credits and truth values stay in range. *)
From Coq Require Import ZArith Reals Bool Lia Lra List.
From Coq Require Import Floats.SpecFloat.
From Flocq Require Import Core.
From Verif Require Import Base F64_Model F64_Proofs Term_Model Term_Spec Unify_Spec Stamp_Model Tv_Model Tv_Spec Tv_Proofs
  Sentence_Model Sentence_Proofs Infer_Model Infer_Spec Infer_Proofs Mem_Model Mem_Spec Mem_Proofs Cycle_Model Cycle_Spec Deriv_Proofs
  Sched_Model Sched_Spec Safe_Spec Safe_Proofs.
Import ListNotations.
Local Open Scope R_scope.

Definition lim : R := bpow radix2 54.
Lemma lim_val : fval (f_of_Z (2 ^ 54)) = lim /\ ffin (f_of_Z (2 ^ 54)).
Proof.
  destruct (f_of_Z_ok (2 ^ 54)) as [F V]; [vm_compute; discriminate|]. split; [|auto]. rewrite V.
  replace (IZR (2 ^ 54)) with lim by (unfold lim; rewrite <- IZR_Zpower; [reflexivity|lia]). apply rnd_id, fmt_bpow. lia.
Qed.
Lemma lim_fmt : fmt lim.
Proof. apply fmt_bpow. lia. Qed.
Lemma lim_pos : 1 <= lim.
Proof. change 1 with (bpow radix2 0). apply bpow_le. lia. Qed.
Lemma lim_big : 4 * lim < fmaxR.
Proof.
  replace (4 * lim) with (bpow radix2 56); [apply bpow_lt; reflexivity|].
  unfold lim. replace 56%Z with (2 + 54)%Z by lia. rewrite bpow_plus. reflexivity.
Qed.
Lemma amount_iff : forall x, amount x <-> ffin x /\ 0 <= fval x <= lim.
Proof.
  intros x. destruct lim_val as [VL FL]. destruct f0_ok as [F0 V0]. unfold amount. split.
  - intros (Hv & H1 & H2). assert (F : ffin x).
    { split; [exact Hv|]. destruct x as [s|[]| |s m e]; auto; discriminate. }
    apply fleb_ok in H1, H2; auto. rewrite V0 in H1. rewrite VL in H2. auto.
  - intros (F & H). split; [apply F|]. split; apply fleb_ok; auto; rewrite ?V0, ?VL; lra.
Qed.
Lemma amount_plus : forall x p, amount x -> unit64 p -> amount (fadd x p).
Proof.
  intros x p Hx Hp. rewrite amount_iff in *. apply unit64_R01 in Hp. destruct Hx as [Fx Hx], Hp as [Fp Hp].
  assert (T : rnd (lim + 1) <= lim).
  { destruct lim_val as [VL FL]. destruct f1_ok as [F1 V1].
    assert (K : Rabs (rnd (fval (f_of_Z (2 ^ 54)) + fval f1)) < fmaxR).
    { rewrite VL, V1. apply (rnd_upto (2 * lim)).
      - unfold lim. replace (2 * bpow radix2 54) with (bpow radix2 55); [apply fmt_bpow; lia|].
        replace 55%Z with (1 + 54)%Z by lia. rewrite bpow_plus. reflexivity.
      - generalize lim_pos. lra.
      - generalize lim_pos lim_big. lra. }
    destruct (fadd_ok _ _ FL F1 K) as [_ V]. rewrite VL, V1 in V. rewrite <- V.
    replace (fadd (f_of_Z (2 ^ 54)) f1) with (f_of_Z (2 ^ 54)) by (vm_compute; reflexivity). rewrite VL. lra. }
  assert (L : rnd (fval x + fval p) <= lim) by (eapply Rle_trans; [apply rnd_mono with (b := lim + 1); lra|exact T]).
  assert (G : 0 <= rnd (fval x + fval p)) by (apply rnd_ge; [apply fmt_0|lra]).
  destruct (fadd_ok x p Fx Fp) as [F V]; [apply Rabs_def1; generalize lim_pos lim_big; lra|].
  rewrite V. auto.
Qed.
Lemma amount_div : forall x z, amount x -> (1 <= z <= 2 ^ 64)%Z -> amount (fdiv x (f_of_Z z)).
Proof.
  intros x z Hx Hz. rewrite amount_iff in *. destruct Hx as [Fx Hx].
  destruct (f_of_Z_ok z) as [Fz _]; [lia|]. assert (P := f_of_Z_pos z (proj1 Hz) (proj2 Hz)).
  assert (Q : 0 <= fval x / fval (f_of_Z z) <= lim).
  { assert (I : 0 < / fval (f_of_Z z) <= 1).
    { split; [apply Rinv_0_lt_compat; lra|]. rewrite <- Rinv_1. apply Rinv_le_contravar; lra. }
    unfold Rdiv. split; [nra|]. apply Rle_trans with (fval x * 1); nra. }
  assert (L := rnd_between 0 lim _ fmt_0 lim_fmt Q).
  destruct (fdiv_ok x (f_of_Z z) Fx Fz) as [F V]; [lra|apply Rabs_def1; generalize lim_pos lim_big; lra|].
  rewrite V. auto.
Qed.
Lemma amount_0 : amount f0.
Proof. apply amount_iff. destruct f0_ok as [F V]. split; auto. generalize lim_pos. lra. Qed.
Lemma amount_1 : amount f1.
Proof. apply amount_iff. destruct f1_ok as [F V]. split; auto. generalize lim_pos. lra. Qed.
Lemma unit_0 : unit64 f0.
Proof. repeat split. Qed.
Lemma unit_1 : unit64 f1.
Proof. repeat split. Qed.
Lemma unit_05 : unit64 f05.
Proof. repeat split. Qed.
Lemma unit_mul : forall x y, unit64 x -> unit64 y -> unit64 (fmul x y).
Proof. intros x y Hx Hy. rewrite unit64_R01 in *. now apply R01_mul. Qed.

(** * The attention value of a task is a number *)
Lemma sane_credit : forall expf now t, expLike expf -> i64 now -> saneTask now t -> fis_nan (taskCalcCredit expf t now) = false.
Proof.
  intros expf now t HE HN (Hc & Hq & Hm & Hd). unfold taskCalcCredit, i64 in *.
  assert (X : fleb (fmul (fopp (f_frac 1 1000)) (f_of_Z (now - derivTime t))) f0 = true).
  { set (k := fopp (f_frac 1 1000)). assert (Fk : ffin k) by (split; [reflexivity|exact I]).
    assert (Vk : -1 <= fval k <= 0).
    { destruct f0_ok as [F0 V0]. destruct f1_ok as [F1 V1].
      assert (Fm : ffin (fopp f1)) by (split; [reflexivity|exact I]).
      assert (Vm : fval (fopp f1) = -1). { replace (fopp f1) with (fsub f0 f1) by reflexivity. destruct (fsub_ok f0 f1 F0 F1) as [_ V].
        - rewrite V0, V1. apply (rnd_small (-1) 0); try lra; [apply generic_format_opp, fmt_1|apply fmt_0].
        - rewrite V, V0, V1. rewrite rnd_id; [lra|]. replace (0 - 1) with (- (1)) by ring. apply generic_format_opp, fmt_1. }
      split; [rewrite <- Vm|rewrite <- V0]; apply fleb_ok; auto; vm_compute; reflexivity. }
    destruct (f_of_Z_mono 0 (now - derivTime t)) as (_ & Fz & Hz & Bz); [lia|lia|].
    assert (Z0 : 0 <= fval (f_of_Z (now - derivTime t))) by lra.
    assert (B : - bpow radix2 64 <= fval k * fval (f_of_Z (now - derivTime t)) <= 0).
    { generalize (bpow_ge_0 radix2 64). intros. split; nra. }
    assert (Fb : fmt (- bpow radix2 64)) by (apply generic_format_opp, fmt_bpow; lia).
    assert (R := rnd_between _ 0 _ Fb fmt_0 B).
    destruct (fmul_ok k (f_of_Z (now - derivTime t)) Fk Fz) as [F V].
    - assert (bpow radix2 64 < fmaxR) by (apply bpow_lt; reflexivity). apply Rabs_def1; lra.
    - apply fleb_ok; [auto|apply f0_ok|]. rewrite V. destruct f0_ok as [_ ->]. lra. }
  apply HE in X. set (d := expf _) in *. clearbody d.
  rewrite amount_iff in Hc, Hq. rewrite unit64_R01 in X, Hm. destruct Hc as [Fc Hc], Hq as [Fq Hq], Hm as [Fm Hm], X as [Fd Hx].
  assert (Up : fmt (2 * lim)).
  { unfold lim. replace (2 * bpow radix2 54) with (bpow radix2 55); [apply fmt_bpow; lia|].
    replace 55%Z with (1 + 54)%Z by lia. rewrite bpow_plus. reflexivity. }
  assert (L1 := lim_pos). assert (L2 := lim_big).
  set (k := f_frac 2 10). assert (Rk : R01 k). { apply unit64_R01. repeat split. }
  destruct Rk as [Fk Hk].
  assert (Q1 : 0 <= fval (qaCredit t) * fval k <= lim) by (split; nra).
  assert (R1 := rnd_between 0 lim _ fmt_0 lim_fmt Q1).
  destruct (fmul_ok _ _ Fq Fk) as [F1 V1]; [apply Rabs_def1; lra|].
  set (a := fmul (qaCredit t) k) in *. clearbody a.
  assert (Q2 : 0 <= fval a + fval (credit t) <= 2 * lim) by lra.
  assert (R2 := rnd_between 0 _ _ fmt_0 Up Q2).
  destruct (fadd_ok _ _ F1 Fc) as [F2 V2]; [apply Rabs_def1; lra|].
  set (b := fadd a (credit t)) in *. clearbody b.
  assert (Q3 : 0 <= fval b * fval d <= 2 * lim) by (split; nra).
  assert (R3 := rnd_between 0 _ _ fmt_0 Up Q3).
  destruct (fmul_ok _ _ F2 Fd) as [F3 V3]; [apply Rabs_def1; lra|].
  set (c := fmul b d) in *. clearbody c.
  assert (Q4 : 0 <= fval c * fval (mulCredit t) <= 2 * lim) by (split; nra).
  assert (R4 := rnd_between 0 _ _ fmt_0 Up Q4).
  destruct (fmul_ok _ _ F3 Fm) as [F4 V4]; [apply Rabs_def1; lra|].
  destruct F4 as [_ F4]. destruct (fmul c (mulCredit t)); simpl in *; tauto.
Qed.

(** * Changes of credits *)
Definition size_ok (t : task) : Prop := (1 <= calcComplexity (s_term (tk_s t)) <= 2 ^ 64)%Z.
Lemma sane_later : forall n n' t, (n <= n')%Z -> saneTask n t -> saneTask n' t.
Proof. intros n n' t L (A & B & C & D). repeat split; try apply A; try apply B; try apply C; lia. Qed.
Lemma sane_addQa : forall n p t, unit64 p -> saneTask n t -> saneTask n (addQa p t).
Proof. intros n p t Hp (A & B & C & D). split; [exact A|]. split; [now apply amount_plus|]. auto. Qed.
Lemma sane_addBase : forall n t, saneTask n t -> saneTask n (addBase t).
Proof. intros n t (A & B & C & D). split; [apply amount_plus; [exact A|exact unit_05]|]. auto. Qed.
Lemma sane_div : forall n t, size_ok t -> saneTask n t -> saneTask n (divCreditByComplexity t).
Proof. intros n t S (A & B & C & D). split; [now apply amount_div|]. split; [now apply amount_div|]. auto. Qed.
Definition okTask (now : Z) (t : task) : Prop := saneTask now t /\ size_ok t.
Definition okHeap (now : Z) (h : list task) : Prop := forall a, (a < length h)%nat -> okTask now (hget h a).
Lemma ok_later : forall n n' h, (n <= n')%Z -> okHeap n h -> okHeap n' h.
Proof. intros n n' h L H a Ha. destruct (H a Ha). split; [eapply sane_later; eauto|auto]. Qed.
Lemma ok_addQa : forall n p t, unit64 p -> okTask n t -> okTask n (addQa p t).
Proof. intros n p t Hp [A B]. split; [now apply sane_addQa|exact B]. Qed.
Lemma ok_addBase : forall n t, okTask n t -> okTask n (addBase t).
Proof. intros n t [A B]. split; [now apply sane_addBase|exact B]. Qed.
Lemma ok_div : forall n t, okTask n t -> okTask n (divCreditByComplexity t).
Proof. intros n t [A B]. split; [now apply sane_div|exact B]. Qed.
Lemma ok_hupd : forall n h a f, okHeap n h -> (forall t, okTask n t -> okTask n (f t)) -> okHeap n (hupd h a f).
Proof.
  intros n h a f H Hf b Hb. rewrite hupd_length in Hb. rewrite hget_hupd.
  destruct (andb _ _) eqn:E; [|now apply H].
  apply andb_true_iff in E. destruct E as [E1 E2]. apply Nat.eqb_eq in E1. subst. auto.
Qed.
Lemma ok_fold : forall n A (f : list task -> A -> list task) l h, (forall h x, In x l -> okHeap n h -> okHeap n (f h x)) ->
  okHeap n h -> okHeap n (fold_left f l h).
Proof.
  induction l as [|x l IH]; intros h Hf H; simpl; [auto|]. apply IH; [intros h' y Hy; apply Hf; now right|]. apply Hf; [now left|auto].
Qed.
Lemma ok_transfer : forall n sh, Forall (fun q => unit64 (prio q)) (questions sh) -> okHeap n (heap sh) -> okHeap n (heap (transferCredits sh)).
Proof.
  intros n sh Q H. unfold transferCredits. cbn [heap setHeap]. apply ok_fold; [|auto]. intros h q Hq Hh.
  rewrite Forall_forall in Q. specialize (Q q Hq). apply ok_fold; [|auto]. intros h2 u _ H2.
  destruct (mget u (byTerm sh)); [|auto]. apply ok_fold; [|auto]. intros h3 a _ H3. apply ok_hupd; [auto|]. intros t. now apply ok_addQa.
Qed.
Lemma ok_base : forall n sh, okHeap n (heap sh) -> okHeap n (heap (baseCredits sh)).
Proof.
  intros n sh H. unfold baseCredits. cbn [heap setHeap]. apply ok_fold; [intros; apply ok_hupd; auto using ok_div|].
  apply ok_fold; [intros; apply ok_hupd; auto using ok_addBase|auto].
Qed.
Lemma ok_new : forall sh s cc mul, unit64 mul -> (0 <= cycleCtr sh)%Z -> (1 <= calcComplexity (s_term s) <= 2 ^ 64)%Z ->
  okTask (cycleCtr sh) (newTask sh s cc mul).
Proof.
  intros sh s cc mul Hm Hc Hs. unfold newTask. rewrite shallow_id.
  assert (K : okTask (cycleCtr sh) (mkTask s f1 f0 mul (taskCtr sh) (cycleCtr sh))).
  { split; [|exact Hs]. split; [exact amount_1|]. split; [exact amount_0|]. split; [exact Hm|]. simpl. lia. }
  destruct cc; [now apply ok_div|exact K].
Qed.
Lemma ok_app : forall n h t, okHeap n h -> okTask n t -> okHeap n (h ++ [t]).
Proof.
  intros n h t H Ht a Ha. rewrite app_length in Ha. simpl in Ha. unfold hget. destruct (Nat.eq_dec a (length h)) as [->|N].
  - rewrite app_nth2, Nat.sub_diag by lia. exact Ht.
  - rewrite app_nth1 by lia. apply H. lia.
Qed.
Lemma ok_env : forall n h h', okHeap n h -> creditsOnly h h' -> (forall a, (a < length h')%nat -> saneTask n (hget h' a)) -> okHeap n h'.
Proof.
  intros n h h' H [L C] S a Ha. split; [auto|]. unfold size_ok. rewrite (proj1 (C a)). apply H. lia.
Qed.

(** * Usage cells *)
Lemma touch_cells : forall m now sh, saneCells (usages sh) -> (0 <= now)%Z -> saneCells (usages (touchAll (Some m) now sh)).
Proof.
  intros m now sh H N a. rewrite touch_spec. cbv zeta. destruct (Nat.eqb _ 0); [apply H|]. simpl. destruct (H a). lia.
Qed.
Lemma touch_count : forall m now sh a, (useCount (usages (touchAll (Some m) now sh) a) <=
  useCount (usages sh a) + 1 + Z.of_nat (length (secondary m)))%Z.
Proof.
  intros m now sh a. rewrite touch_spec. cbv zeta. set (k := length (filter _ _)).
  assert (K : (k <= S (length (secondary m)))%nat).
  { unfold k. change (S (length (secondary m))) with (length (primary m :: secondary m)).
    generalize (primary m :: secondary m). intros l. induction l as [|x l IH]; simpl; [lia|]. destruct (Nat.eqb _ _); simpl; lia. }
  destruct (Nat.eqb k 0); simpl; lia.
Qed.
Lemma usable : forall us now, saneCells us -> (forall a, (useCount (us a) < 2 ^ 63)%Z) -> (now < 2 ^ 63)%Z -> usableUs us now.
Proof.
  intros us now H C N a. destruct (H a) as [H1 H2]. assert (U : unit64 (calcUsageUsefulness (us a) now)).
  { apply useful_range; [split; auto|lia]. }
  destruct U as (_ & U & _). destruct (calcUsageUsefulness (us a) now); try reflexivity; discriminate.
Qed.

(** * Truth values that follow from the inputs *)
Lemma derivable_range : forall Inp : sentence -> Prop, (forall s, Inp s -> fairInput s) -> tempered Inp ->
  forall s, derivable Inp s -> exists v, retTv s = Some v /\ tvInRange v.
Proof.
  intros Inp HI HT s D. induction D as [s I P|p c mir bias w D IH S E1 E2 _ _ _ _|a b c tr v Da IHa Db IHb _ S E1 E2 _ _ _ _|s b nb Ds IHs Db IHb R I].
  - now apply HI.
  - destruct IH as (w' & E & R). rewrite E1 in E. injection E as <-. rewrite E2. eexists; split; [reflexivity|].
    destruct mir; [now apply neg_range|auto].
  - destruct IHa as (va & Ea & Ra), IHb as (vb & Eb & Rb). rewrite E2. eexists; split; [reflexivity|].
    assert (R : match tr with TBoth f => rangePreserving f | TSecond => True end) by (destruct S as [S|S]; eapply schema_range; eauto).
    rewrite Ea, Eb in E1. destruct tr as [f|]; simpl in E1; injection E1 as <-; [now apply R|auto].
  - destruct IHs as (vs & Es & Rs), IHb as (vb & Eb & Rb). destruct I as (va & vs' & Ea & Es' & E & _).
    rewrite Eb in Ea. injection Ea as <-. rewrite Es in Es'. injection Es' as <-.
    unfold retTv. rewrite E. eexists; split; [reflexivity|]. cbn [evidenceTv]. apply rev_range; auto; [exact (HT _ _ Db Eb)|exact (HT _ _ Ds Es)].
Qed.
Lemma derivable_storable : forall Inp : sentence -> Prop, (forall s, Inp s -> fairInput s) -> tempered Inp ->
  forall s, derivable Inp s -> storable s.
Proof.
  intros Inp HI HT s D. destruct (derivable_range Inp HI HT s D) as (v & E & R). exists (calcExp v). split; [exists v; auto|].
  apply calcExp_range in R. destruct R as (_ & R & _). destruct (calcExp v); try reflexivity; discriminate.
Qed.
(** biases of conclusions *)
Lemma single_bias : forall p u cs, infSinglePremise2 p u = Ok cs -> Forall (fun c => unit64 (snd c)) cs.
Proof.
  intros p u cs H. unfold infSinglePremise2 in H. destruct (infSinglePremise _ _ _) as [r|] eqn:E; [|discriminate]. cbn [rbind] in H. injection H as <-.
  assert (B : forall c, In c r -> unit64 (snd c)).
  { intros [[[t v] q] b] Hc. apply (single_iff _ _ _ _ E) in Hc. destruct Hc as (_ & mir & bias & w & S & _ & _ & ->). simpl.
    destruct S; repeat split. }
  clear E. revert u. induction r as [|[[[t v] q] b] r IH]; intros u; simpl; [constructor|].
  constructor; [exact (B (t, v, q, b) (or_introl eq_refl))|]. apply IH. intros c Hc. apply B. now right.
Qed.
Lemma inference_bias : forall a b u r, inference a b u = Ok r -> Forall (fun c => unit64 (snd c)) (fst r).
Proof.
  intros a b u r H. unfold inference, inference2 in H. destruct (infBinary _ _ _ _ _ _) as [l|]; [|discriminate]. cbn [rbind] in H. injection H as <-.
  cbn [fst]. destruct (andb _ _); [constructor|]. generalize u. induction (fst l) as [|[[t v] q] r IH]; intros u'; simpl; [constructor|].
  constructor; [exact unit_1|]. apply IH.
Qed.
