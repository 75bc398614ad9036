(** Proofs about task selection and question answering. *)
From Coq Require Import ZArith Bool Lia List Permutation Sorted SpecFloat Reals Lra.
From Verif Require Import Base F64_Model F64_Proofs Sort_Proofs Term_Model Term_Spec Term_Proofs Unify_Model Unify_Spec Unify_Proofs
  Stamp_Model Stamp_Proofs Tv_Model Sentence_Model Sentence_Proofs Mem_Model Mem_Spec Mem_Proofs Cycle_Model Cycle_Spec.
Import ListNotations.

(** * Highest credit *)
(** the running best of [taskSelByCreditTop] over the list of credits *)
Definition topFold (ks : list f64) (i b : nat) (m : f64) : nat * (nat * f64) :=
  fold_left (fun st c => let '(i, best) := st in (S i, if fgtb c (snd best) then (i, c) else best)) ks (i, (b, m)).
Lemma top_as_fold : forall expf arr cyc,
  taskSelByCreditTop expf arr cyc = fst (snd (topFold (map (fun t => taskCalcCredit expf t cyc) arr) 0 0 (f_of_Z (-5000)))).
Proof.
  intros expf arr cyc. unfold taskSelByCreditTop, topFold. f_equal. f_equal.
  generalize (O, (O, f_of_Z (-5000))) as st. induction arr as [|t arr IH]; intros st; simpl; auto.
Qed.
Lemma topFold_cons : forall k ks i b m,
  topFold (k :: ks) i b m = if fgtb k m then topFold ks (S i) i k else topFold ks (S i) b m.
Proof. intros. unfold topFold. simpl. destruct (fgtb k m); reflexivity. Qed.
Lemma topFold_spec : forall ks i b m, fis_nan m = false -> (forall k, In k ks -> fis_nan k = false) ->
  (topFold ks i b m = (i + length ks, (b, m)) /\ forall k, In k ks -> fleb k m = true) \/
  exists j k, topFold ks i b m = (i + length ks, (i + j, k)) /\ nth_error ks j = Some k /\ fltb m k = true /\ firstMax ks j.
Proof.
  induction ks as [|k ks IH]; intros i b m Hm Hk.
  - left. unfold topFold. simpl. rewrite Nat.add_0_r. split; [auto|]. intros x [].
  - assert (Nk : fis_nan k = false) by (apply Hk; now left).
    assert (Hk' : forall x, In x ks -> fis_nan x = false) by (intros; apply Hk; now right).
    rewrite topFold_cons.
    rewrite fgtb_flip. destruct (fltb m k) eqn:E.
    + right. destruct (IH (S i) i k Nk Hk') as [[-> L]|(j & k' & -> & G & Lt & k2 & G2 & F)].
      * exists 0, k. simpl. rewrite Nat.add_0_r, Nat.add_succ_r. repeat split; auto. exists k. repeat split; auto.
        -- intros [|j] kj Hj; simpl in Hj; [injection Hj as <-; now apply fleb_refl|]. apply L. eapply nth_error_In; eauto.
        -- intros j kj Hj. lia.
      * exists (S j), k'. simpl. rewrite !Nat.add_succ_r. repeat split; auto.
        -- clear - E Lt. apply fltb_leb in Lt. eapply fltb_leb_trans; eauto.
        -- exists k'. rewrite G2 in G. injection G as ->. destruct F as [F1 F2]. repeat split; auto.
           ++ intros [|a] ka Ha; simpl in Ha; [injection Ha as <-; now apply fltb_leb|eauto].
           ++ intros [|a] ka Ha Hn; simpl in Hn; [injection Hn as <-; auto|]. apply (F2 a); auto. lia.
    + assert (Le : fleb k m = true) by (rewrite fleb_not_lt, E; auto).
      destruct (IH (S i) b m Hm Hk') as [[-> L]|(j & k' & -> & G & Lt & k2 & G2 & F1 & F2)].
      * left. simpl. rewrite Nat.add_succ_r. split; auto. intros x [<-|Hx]; auto.
      * right. exists (S j), k'. simpl. rewrite !Nat.add_succ_r. repeat split; auto.
        exists k'. rewrite G2 in G. injection G as ->. repeat split; auto.
        -- intros [|a] ka Ha; simpl in Ha; [injection Ha as <-|eauto]. apply fltb_leb. eapply fleb_ltb_trans; eauto.
        -- intros [|a] ka Ha Hn; simpl in Hn; [injection Hn as <-; eapply fleb_ltb_trans; eauto|]. apply (F2 a); auto. lia.
Qed.

Theorem top_spec : forall expf arr cyc, let ks := map (fun t => taskCalcCredit expf t cyc) arr in
  (forall k, In k ks -> fis_nan k = false) ->
  (exists k, In k ks /\ fltb (f_of_Z (-5000)) k = true) ->
  firstMax ks (taskSelByCreditTop expf arr cyc).
Proof.
  intros expf arr cyc ks N (k & Hk & Lt). rewrite top_as_fold. fold ks.
  destruct (topFold_spec ks 0 0 (f_of_Z (-5000))) as [[_ L]|(j & k' & -> & _ & _ & F)]; auto.
  apply L in Hk. assert (K := fleb_ltb_trans _ _ _ Hk Lt). rewrite fltb_irrefl in K. discriminate.
Qed.
(** with non-negative credits the result is always a valid index of a non-empty list *)
Lemma topFold_bound : forall ks i b m, (b < i)%nat \/ ks = [] -> (fst (snd (topFold ks i b m)) < i + length ks \/ ks = [])%nat.
Proof.
  induction ks as [|k ks IH]; intros i b m H; auto.
  left. rewrite topFold_cons.
  destruct H as [H|H]; [|discriminate]. destruct (fgtb k m).
  - destruct (IH (S i) i k) as [L|L]; [lia|simpl; lia|subst; simpl; lia].
  - destruct (IH (S i) b m) as [L|L]; [lia|simpl; lia|subst; simpl; lia].
Qed.
Theorem top_valid : forall expf arr cyc, arr <> [] -> (taskSelByCreditTop expf arr cyc < length arr)%nat.
Proof.
  intros expf arr cyc H. rewrite top_as_fold. destruct arr as [|t arr]; [contradiction|]. cbn [map].
  set (k := taskCalcCredit expf t cyc). set (ks := map _ arr).
  assert (L : length (t :: arr) = (1 + length ks)%nat) by (unfold ks; rewrite map_length; reflexivity). rewrite L.
  rewrite topFold_cons.
  destruct (fgtb k (f_of_Z (-5000)));
    match goal with |- (fst (snd (topFold ks 1 0 ?m)) < _)%nat =>
      destruct (topFold_bound ks 1 0 m) as [B|B]; [left; lia|exact B|rewrite B; simpl; lia] end.
Qed.

(** [tasksSelHighestCreditIdx] *)
Theorem highest_spec : forall expf arr cyc, let ks := map (fun t => taskCalcCredit expf t cyc) arr in
  (forall k, In k ks -> fis_nan k = false) ->
  match tasksSelHighestCreditIdx expf arr cyc with
  | None => arr = []
  | Some i => firstMax ks i
  end.
Proof.
  intros expf [|t arr] cyc ks N; simpl; auto.
  assert (E : forall arr i b bt, fst (snd (fold_left (fun st t => let '(i, best) := st in
        (S i, if fgtb (taskCalcCredit expf t cyc) (taskCalcCredit expf (snd best) cyc) then (i, t) else best)) arr (i, (b, bt))))
      = fst (snd (topFold (map (fun t => taskCalcCredit expf t cyc) arr) i b (taskCalcCredit expf bt cyc)))).
  { clear. induction arr as [|x arr IH]; intros i b bt; cbn [map fold_left]; auto. rewrite topFold_cons. cbn [snd].
    destruct (fgtb (taskCalcCredit expf x cyc) (taskCalcCredit expf bt cyc)); apply IH. }
  rewrite E. clear E. set (k0 := taskCalcCredit expf t cyc) in *.
  change ks with (k0 :: map (fun t => taskCalcCredit expf t cyc) arr) in *. clear ks.
  set (ks := map (fun t => taskCalcCredit expf t cyc) arr) in *.
  assert (N0 : fis_nan k0 = false) by (apply N; now left).
  destruct (topFold_spec ks 1 0 k0) as [[-> L]|(j & k' & -> & G & Lt & k2 & G2 & F1 & F2)]; auto.
  - intros; apply N; now right.
  - simpl. exists k0. repeat split; auto.
    + intros [|j] kj Hj; simpl in Hj; [injection Hj as <-; now apply fleb_refl|]. apply L. eapply nth_error_In; eauto.
    + intros j kj Hj. lia.
  - simpl. rewrite G2 in G. injection G as ->. exists k'. repeat split; auto.
    + intros [|a] ka Ha; simpl in Ha; [injection Ha as <-; now apply fltb_leb|eauto].
    + intros [|a] ka Ha Hn; simpl in Hn; [injection Hn as <-; auto|]. apply (F2 a); auto. lia.
Qed.

(** * Roulette wheel selection *)
Lemma selRandomFrom_spec : forall ws thr acc i,
  match selRandomFrom thr acc i ws with
  | Some j => exists n, j = i + n /\ n < length ws /\ fleb thr (fold_left fadd (firstn (S n) ws) acc) = true /\
       forall k, k < n -> fleb thr (fold_left fadd (firstn (S k) ws) acc) = false
  | None => forall k, k < length ws -> fleb thr (fold_left fadd (firstn (S k) ws) acc) = false
  end.
Proof.
  induction ws as [|w ws IH]; intros thr acc i; cbn [selRandomFrom].
  - intros k Hk. simpl in Hk. lia.
  - rewrite fgeb_flip. destruct (fleb thr (fadd acc w)) eqn:E.
    + exists 0. simpl. repeat split; auto; try lia.
    + specialize (IH thr (fadd acc w) (S i)). destruct (selRandomFrom thr (fadd acc w) (S i) ws) as [j|].
      * destruct IH as (n & -> & L & G & F). exists (S n). simpl. repeat split; auto; try lia.
        intros [|k] Hk; simpl; auto. apply (F k). lia.
      * intros [|k] Hk; simpl in *; auto. apply (IH k). lia.
Qed.

Theorem roulette_panic : forall sv ws, selRandom sv ws = Panic <-> ws = [].
Proof.
  intros sv ws. unfold selRandom. split; [|intros ->; reflexivity].
  destruct (selRandomFrom (fmul sv (fsum ws)) f0 0 ws); [discriminate|]. destruct ws; [auto|discriminate].
Qed.
Theorem roulette_spec : forall sv ws i, selRandom sv ws = Ok i ->
  (i < length ws)%nat /\
  (forall k, k < i -> fleb (fmul sv (fsum ws)) (fsum (firstn (S k) ws)) = false) /\
  (fleb (fmul sv (fsum ws)) (fsum (firstn (S i) ws)) = true \/ S i = length ws).
Proof.
  intros sv ws i H. unfold selRandom in H.
  assert (S := selRandomFrom_spec ws (fmul sv (fsum ws)) f0 0). unfold fsum in *.
  destruct (selRandomFrom (fmul sv (fold_left fadd ws f0)) f0 0 ws) as [j|].
  - injection H as <-. destruct S as (n & -> & L & G & F). simpl. auto.
  - destruct ws as [|w ws]; [discriminate|]. assert (i = length ws) by (injection H as <-; simpl; lia). subst i. split; [simpl; lia|].
    split; [intros k Hk; apply S; simpl; lia|right; reflexivity].
Qed.

Lemma selRandomFrom_mono : forall ws t1 t2 acc i, fleb t1 t2 = true ->
  match selRandomFrom t1 acc i ws, selRandomFrom t2 acc i ws with
  | Some a, Some b => a <= b
  | None, Some _ => False
  | _, None => True
  end.
Proof.
  induction ws as [|w ws IH]; intros t1 t2 acc i H; cbn [selRandomFrom]; auto.
  rewrite !fgeb_flip. destruct (fleb t2 (fadd acc w)) eqn:E2.
  - rewrite (fleb_trans _ _ _ H E2). lia.
  - destruct (fleb t1 (fadd acc w)).
    + assert (B : forall j, selRandomFrom t2 (fadd acc w) (S i) ws = Some j -> i <= j).
      { intros j Hj. assert (S := selRandomFrom_spec ws t2 (fadd acc w) (S i)). rewrite Hj in S. destruct S as (n & -> & _). lia. }
      destruct (selRandomFrom t2 (fadd acc w) (S i) ws); auto.
    + apply IH. auto.
Qed.
Lemma selRandomFrom_range : forall ws thr acc i j, selRandomFrom thr acc i ws = Some j -> j < i + length ws.
Proof.
  intros ws thr acc i j H. assert (S := selRandomFrom_spec ws thr acc i). rewrite H in S. destruct S as (n & -> & L & _). lia.
Qed.
Theorem roulette_mono_thr : forall v1 v2 ws i1 i2, fleb (fmul v1 (fsum ws)) (fmul v2 (fsum ws)) = true ->
  selRandom v1 ws = Ok i1 -> selRandom v2 ws = Ok i2 -> i1 <= i2.
Proof.
  intros v1 v2 ws i1 i2 H H1 H2. unfold selRandom in *. assert (M := selRandomFrom_mono ws _ _ f0 0 H).
  destruct (selRandomFrom (fmul v1 (fsum ws)) f0 0 ws) as [a|] eqn:E1, (selRandomFrom (fmul v2 (fsum ws)) f0 0 ws) as [b|] eqn:E2; try contradiction.
  - congruence.
  - apply selRandomFrom_range in E1. destruct ws as [|w ws]; [discriminate|]. injection H1 as <-. injection H2 as <-. simpl in *. lia.
  - destruct ws as [|w ws]; [discriminate|]. injection H1 as <-. injection H2 as <-. lia.
Qed.

Lemma fmul_mono : forall a b s, in01 a -> in01 b -> ffin s -> fleb f0 s = true -> fleb a b = true ->
  fleb (fmul a s) (fmul b s) = true /\ fleb (fmul b s) s = true /\ ffin (fmul b s) /\ fleb f0 (fmul b s) = true.
Proof.
  intros a b s Ha Hb Fs Hs Hab. apply in01_iff in Ha, Hb. destruct Ha as [Fa Ra], Hb as [Fb Rb].
  destruct f0_ok as [F0 V0]. apply fleb_ok in Hs; auto. rewrite V0 in Hs. apply fleb_ok in Hab; auto.
  assert (Bs := ffin_lt _ Fs). assert (Fm := ffin_fmt _ Fs).
  assert (X : forall x, (0 <= x <= 1)%R -> (0 <= rnd (x * fval s) <= fval s)%R).
  { intros x Hx. apply rnd_between; auto using fmt_0. split; [apply Rmult_le_pos; lra|].
    rewrite <- (Rmult_1_l (fval s)) at 2. apply Rmult_le_compat_r; lra. }
  assert (Y : forall x, (0 <= x <= 1)%R -> (Rabs (rnd (x * fval s)) < fmaxR)%R).
  { intros x Hx. specialize (X x Hx). rewrite Rabs_pos_eq by lra. rewrite Rabs_pos_eq in Bs by lra. lra. }
  destruct (fmul_ok a s Fa Fs (Y _ Ra)) as [Fas Vas]. destruct (fmul_ok b s Fb Fs (Y _ Rb)) as [Fbs Vbs].
  split; [|split; [|split]].
  - apply fleb_ok; auto. rewrite Vas, Vbs. apply rnd_mono. apply Rmult_le_compat_r; lra.
  - apply fleb_ok; auto. rewrite Vbs. apply X; auto.
  - auto.
  - apply fleb_ok; auto. rewrite Vbs, V0. apply X; auto.
Qed.

(** monotone in the random value *)
Theorem roulette_mono : forall v1 v2 ws i1 i2, in01 v1 -> in01 v2 -> ffin (fsum ws) -> fleb f0 (fsum ws) = true ->
  fleb v1 v2 = true -> selRandom v1 ws = Ok i1 -> selRandom v2 ws = Ok i2 -> i1 <= i2.
Proof.
  intros v1 v2 ws i1 i2 H1 H2 F N L. apply roulette_mono_thr. apply (fmul_mono v1 v2); auto.
Qed.

Lemma fadd_zero_cmp : forall t x z, fleb t (fadd x (S754_zero z)) = fleb t x.
Proof. intros t [] z; try reflexivity; destruct s, z, t; reflexivity. Qed.
Lemma firstn_S_snoc : forall A (l : list A) n x, nth_error l n = Some x -> firstn (S n) l = firstn n l ++ [x].
Proof.
  induction l as [|y l IH]; intros [|n] x H; simpl in *; try discriminate.
  - injection H as ->. reflexivity.
  - f_equal. auto.
Qed.
(** a positive threshold within the total never selects a zero weight *)
Theorem roulette_nonzero : forall v ws i w, in01 v -> ffin (fsum ws) -> fltb f0 (fmul v (fsum ws)) = true ->
  fleb f0 (fsum ws) = true ->
  selRandom v ws = Ok i -> nth_error ws i = Some w ->
  fleb (fmul v (fsum ws)) (fsum (firstn (S i) ws)) = true /\ (forall z, w <> S754_zero z).
Proof.
  intros v ws i w Hv F P N H Hw. destruct (roulette_spec _ _ _ H) as (L & B & A).
  assert (R : fleb v v = true). { apply fleb_refl. destruct Hv as (_ & _ & K). now apply fleb_nan_l in K. }
  destruct (fmul_mono v v (fsum ws) Hv Hv F N R) as (_ & U & _).
  assert (A' : fleb (fmul v (fsum ws)) (fsum (firstn (S i) ws)) = true).
  { destruct A as [A|A]; auto. rewrite A, firstn_all. exact U. }
  split; auto. intros z ->.
  rewrite (firstn_S_snoc _ _ _ _ Hw) in A'. unfold fsum at 2 in A'. rewrite fold_left_app in A'. simpl in A'. rewrite fadd_zero_cmp in A'.
  destruct i as [|i].
  - simpl in A'. assert (K := fleb_ltb_trans _ _ _ A' P). rewrite fltb_irrefl in K. discriminate.
  - fold (fsum (firstn (S i) ws)) in A'. rewrite (B i) in A' by lia. discriminate.
Qed.

(** * Answers *)
(** how one candidate changes a question *)
Lemma qaTryAnswer_spec : forall q c q' ans, qaTryAnswer q c = Ok (q', ans) ->
  q_s q' = q_s q /\ q_handler q' = q_handler q /\ prio q' = prio q /\
  ((ans = [] /\ q' = q /\ (s_punct c = JUGEMENT -> instanceOf (s_term c) (s_term (q_s q)) -> exists e, hasExp c e /\ fltb (bestAnswerExp q) e = false)) \/
   (ans = [(s_term (q_s q), c)] /\ s_punct c = JUGEMENT /\ instanceOf (s_term c) (s_term (q_s q)) /\
    hasExp c (bestAnswerExp q') /\ fltb (bestAnswerExp q) (bestAnswerExp q') = true)).
Proof.
  intros q c q' ans H. unfold qaTryAnswer in H.
  destruct (s_punct c) eqn:P; cbn [punct_eqb negb] in H.
  2,3: injection H as <- <-; repeat split; auto; left; repeat split; auto; discriminate.
  destruct (retTv c) as [v|] eqn:T; [|discriminate]. cbn [unwrap rbind] in H.
  assert (E : hasExp c (calcExp v)) by (exists v; auto).
  rewrite fgtb_flip in H. destruct (fltb (bestAnswerExp q) (calcExp v)) eqn:L.
  - destruct (unify (s_term (q_s q)) (s_term c)) as [u|] eqn:U.
    + destruct (printSentence (q_s q)); [|discriminate]. destruct (printSentence c); [|discriminate].
      cbn [rbind] in H. injection H as <- <-. repeat split; auto. right. repeat split; auto.
      apply unify_iff. eauto.
    + injection H as <- <-. repeat split; auto. left. repeat split; auto. intros _ I. apply unify_iff in I.
      destruct I as [u I]. congruence.
  - injection H as <- <-. repeat split; auto. left. repeat split; auto. intros _ _. eauto.
Qed.

Lemma qaTryAll_spec : forall cs q q' ans, qaTryAll q cs = Ok (q', ans) -> fis_nan (bestAnswerExp q) = false ->
  q_s q' = q_s q /\ answersFor q q' cs ans.
Proof.
  intros cs q q' ans H Hn. unfold qaTryAll in H.
  assert (G : forall cs q0 acc q' ans, rfold (fun st c => do r <- qaTryAnswer (fst st) c; Ok (fst r, snd st ++ snd r)) cs (q0, acc) = Ok (q', ans) ->
     fis_nan (bestAnswerExp q0) = false -> exists ans', ans = acc ++ ans' /\ q_s q' = q_s q0 /\ answersFor q0 q' cs ans').
  { clear. induction cs as [|c cs IH]; intros q0 acc q' ans H Hn; cbn [rfold] in H.
    - injection H as <- <-. exists []. rewrite app_nil_r. split; [auto|]. split; [auto|]. constructor; simpl; auto; try contradiction. constructor.
    - cbn [fst snd] in H. destruct (qaTryAnswer q0 c) as [[q1 a1]|] eqn:E; [|discriminate]. cbn [rbind fst snd] in H.
      apply qaTryAnswer_spec in E. destruct E as (Es & _ & _ & C).
      assert (N1 : fis_nan (bestAnswerExp q1) = false).
      { destruct C as [(_ & -> & _)|(_ & _ & _ & _ & L)]; auto. now apply fltb_nan_l in L. }
      destruct (IH _ _ _ _ H N1) as (a2 & -> & Es2 & [A1 A2 A3 A4 A5]). clear IH.
      assert (M : fleb (bestAnswerExp q1) (bestAnswerExp q') = true).
      { destruct A4 as [(_ & ->)|(x & (pre & ->) & Ex')]; [now apply fleb_refl|].
        destruct (A3 x) as (e' & Ee' & Le'); [apply in_or_app; right; now left|].
        assert (e' = bestAnswerExp q') by (destruct Ex' as (v1 & T1 & ->), Ee' as (v2 & T2 & ->); congruence). subst e'. now apply fltb_leb. }
      exists (a1 ++ a2). rewrite app_assoc. split; [auto|]. split; [congruence|]. rewrite Es in *.
      destruct C as [(-> & -> & C)|(-> & P & I & X & L)]; simpl.
      + constructor; auto.
        * intros x Hx. destruct (A1 x Hx) as (B1 & B2 & B3 & B4). repeat split; auto. now right.
        * intros x e [<-|Hx] Px Ix Ex; [|eauto]. destruct (C Px Ix) as (e' & Ee & Le).
          assert (e = e') by (destruct Ex as (v1 & T1 & ->), Ee as (v2 & T2 & ->); congruence). subst e'.
          destruct (fltb (bestAnswerExp q') e) eqn:K; auto. rewrite <- Le. symmetry. exact (fleb_ltb_trans _ _ _ M K).
      + constructor.
        * intros x [<-|Hx]; simpl; [repeat split; auto|]. destruct (A1 x Hx) as (B1 & B2 & B3 & B4). repeat split; auto.
        * constructor; auto. rewrite Forall_forall. intros x Hx.
          destruct (A3 x Hx) as (e & Ee & Le). exists (bestAnswerExp q1), e. auto.
        * intros x [<-|Hx]; [exists (bestAnswerExp q1); auto|]. destruct (A3 x Hx) as (e & Ee & Le). exists e. split; auto.
          apply fltb_leb in Le. eapply fltb_leb_trans; eauto.
        * destruct a2 as [|y a3].
          -- right. exists (s_term (q_s q0), c). split; [exists []; reflexivity|]. destruct A4 as [(_ & Eq)|(x & (pre & Hx) & _)]; [|destruct pre; discriminate].
             rewrite Eq. auto.
          -- right. destruct A4 as [(K & _)|(x & Hx & Ex)]; [discriminate|]. exists x. split; auto.
             change ((s_term (q_s q0), c) :: y :: a3) with ([(s_term (q_s q0), c)] ++ y :: a3).
             destruct Hx as (pre & ->). exists ((s_term (q_s q0), c) :: pre). reflexivity.
        * intros x e [<-|Hx] Px Ix Ex; [|eauto].
          assert (e = bestAnswerExp q1) by (destruct Ex as (v1 & T1 & ->), X as (v2 & T2 & ->); congruence). subst e.
          destruct (fltb (bestAnswerExp q') (bestAnswerExp q1)) eqn:K; auto. exfalso.
          assert (Z := fleb_ltb_trans _ _ _ M K). rewrite fltb_irrefl in Z. discriminate. }
  destruct (G _ _ _ _ _ H Hn) as (a & -> & E & A). simpl. auto.
Qed.
