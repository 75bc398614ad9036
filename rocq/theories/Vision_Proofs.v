(** Proofs for Vision_Model. *)
From Coq Require Import List ZArith QArith Lqa Bool Lia Floats.SpecFloat.
From Verif Require Import Base F64_Model Sort_Proofs Tv_Model Tv_Spec TvQ_Proofs Map_Model Map_Spec Map_Proofs Vision_Model Vision_Spec.
Import ListNotations.
Local Open Scope list_scope.
Local Open Scope nat_scope.

(** * The maximum *)
Section Max.
  Context {F : Type} (A : arith F).
  Hypothesis T1 : forall a b c, Altb A a b = true -> Altb A b c = true -> Altb A a c = true.
  Hypothesis T2 : forall a b c, Altb A a b = true -> Aleb A b c = true -> Altb A a c = true.
  Hypothesis T3 : forall x m, Altb A x m = true -> Altb A m (Ahalf A) = false -> Aleb A (Ahalf A) m = true.
  Hypothesis T4 : Altb A (A0 A) (Ahalf A) = true.
  Hypothesis T5 : forall a, Altb A a a = false.

  Lemma maxLoop_spec : forall sims pre m mi, 
    (m = A0 A /\ (forall t, In t pre -> Altb A m t = false) \/ (Altb A (A0 A) m = true /\ best A pre mi m)) ->
    exists m' mi' k, maxLoop A sims (m, mi, length pre) = (m', mi', k) /\
      (m' = A0 A /\ (forall t, In t (pre ++ sims) -> Altb A m' t = false) \/ (Altb A (A0 A) m' = true /\ best A (pre ++ sims) mi' m')).
  Proof.
    induction sims as [|v sims IH]; intros pre m mi H; cbn [maxLoop fold_left].
    - exists m, mi, (length pre). rewrite app_nil_r. split; auto.
    - replace (pre ++ v :: sims) with ((pre ++ [v]) ++ sims) by (rewrite <- app_assoc; reflexivity).
      assert (L : S (length pre) = length (pre ++ [v])) by (rewrite app_length; cbn; lia).
      destruct (Altb A m v) eqn:E; fold (maxLoop A sims).
      + change (fold_left _ sims ?st) with (maxLoop A sims st). rewrite L. apply IH. right. split.
        * destruct H as [(-> & _)|(P & _)]; eauto.
        * split; [rewrite nth_error_app2 by lia; rewrite Nat.sub_diag; reflexivity|]. intros j t Hj.
          destruct (Nat.lt_ge_cases j (length pre)) as [Lj|Lj].
          { rewrite nth_error_app1 in Hj by auto. assert (N : Altb A m t = false) by (destruct H as [(_ & N)|(_ & N)]; [apply N; eapply nth_error_In; eauto|apply (proj2 N _ _ Hj)]).
            split; [|intros _]; apply not_true_iff_false; intros K; assert (Altb A m t = true) by eauto; congruence. }
          { rewrite nth_error_app2 in Hj by auto. destruct (j - length pre) as [|[|?]] eqn:D; cbn in Hj; try discriminate. injection Hj as <-. split; auto. lia. }
      + change (fold_left _ sims ?st) with (maxLoop A sims st). rewrite L. apply IH. destruct H as [(-> & N)|(P & N)]; [left|right]; split; auto.
        * intros t Ht. apply in_app_or in Ht. destruct Ht as [Ht|[<-|[]]]; auto.
        * destruct N as (N1 & N2). assert (Lm : mi < length pre) by (apply nth_error_Some; congruence). split; [rewrite nth_error_app1 by auto; exact N1|]. intros j t Hj.
          destruct (Nat.lt_ge_cases j (length pre)) as [Lj|Lj]; [rewrite nth_error_app1 in Hj by auto; auto|].
          rewrite nth_error_app2 in Hj by auto. destruct (j - length pre) as [|[|?]] eqn:D; cbn in Hj; try discriminate. injection Hj as <-. split; auto. lia.
  Qed.
  Theorem classifyMax_spec : forall sims, match g_classifyMax A sims with
    | Some (i, s) => best A sims i s /\ Aleb A (Ahalf A) s = true
    | None => noMatch A sims
    end.
  Proof.
    intros sims. unfold g_classifyMax. destruct sims as [|v sims]; [intros t []|]. 
    destruct (maxLoop_spec (v :: sims) [] (A0 A) 0) as (m & mi & k & E & H); [left; split; auto; intros t []|]. cbn [app length] in E, H. rewrite E.
    destruct (Altb A m (Ahalf A)) eqn:D.
    - intros t Ht. apply not_true_iff_false. intros K. assert (X : Altb A m t = true) by eauto.
      destruct H as [(_ & H)|(_ & H)]; [rewrite H in X by auto; discriminate|]. apply In_nth_error in Ht. destruct Ht as (j & Hj). rewrite (proj1 (proj2 H _ _ Hj)) in X. discriminate.
    - destruct H as [(-> & _)|(P & H)]; [congruence|]. split; eauto.
  Qed.
  (** at most one answer fits *)
  Lemma classifyMax_new : forall sims s, noMatch A sims -> Aleb A (Ahalf A) s = true -> g_classifyMax A (sims ++ [s]) = Some (length sims, s).
  Proof.
    intros sims s N H. assert (M := classifyMax_spec (sims ++ [s])). destruct (g_classifyMax A (sims ++ [s])) as [[i x]|].
    - destruct M as ((M1 & M2) & M3). destruct (Nat.lt_ge_cases i (length sims)) as [L|L].
      + rewrite nth_error_app1 in M1 by auto. rewrite (N x) in M3; [discriminate|]. eapply nth_error_In; eauto.
      + rewrite nth_error_app2 in M1 by auto. destruct (i - length sims) as [|[|?]] eqn:D; cbn in M1; try discriminate. injection M1 as <-. do 2 f_equal. lia.
    - rewrite (M s) in H; [discriminate|]. apply in_or_app. right. now left.
  Qed.
End Max.
Lemma f64_T1 : forall a b c, fltb a b = true -> fltb b c = true -> fltb a c = true.
Proof. intros a b c H1 H2. apply fltb_leb in H2. eapply fltb_leb_trans; eauto. Qed.
Lemma f64_T3 : forall x m, fltb x m = true -> fltb m f05 = false -> fleb f05 m = true.
Proof. intros x m H1 H2. rewrite fleb_not_lt, H2; auto. apply fltb_nan_l in H1. apply H1. Qed.
Theorem classifyMax_f64 : forall sims, match classifyMax sims with
  | Some (i, s) => best f64_arith sims i s /\ fleb f05 s = true
  | None => noMatch f64_arith sims
  end.
Proof. exact (classifyMax_spec f64_arith f64_T1 fltb_leb_trans f64_T3 eq_refl fltb_irrefl). Qed.
Lemma classifyMax_new_f64 : forall sims s, noMatch f64_arith sims -> fleb f05 s = true -> classifyMax (sims ++ [s]) = Some (length sims, s).
Proof. exact (classifyMax_new f64_arith f64_T1 fltb_leb_trans f64_T3 eq_refl fltb_irrefl). Qed.
Lemma Q_T1 : forall a b c, Q_ltb a b = true -> Q_ltb b c = true -> Q_ltb a c = true.
Proof. intros a b c. rewrite !Q_ltb_true. lra. Qed.
Lemma Q_T2 : forall a b c, Q_ltb a b = true -> Qle_bool b c = true -> Q_ltb a c = true.
Proof. intros a b c. rewrite !Q_ltb_true, Qle_bool_iff. lra. Qed.
Lemma Q_T3 : forall x m, Q_ltb x m = true -> Q_ltb m (1 # 2) = false -> Qle_bool (1 # 2) m = true.
Proof. intros x m _. rewrite Q_ltb_false, Qle_bool_iff. lra. Qed.
Lemma Q_T5 : forall a, Q_ltb a a = false.
Proof. intros a. rewrite Q_ltb_false. lra. Qed.
Lemma classifyMax_new_Q : forall sims s, noMatch Q_arith sims -> Qle_bool (1 # 2) s = true -> g_classifyMax Q_arith (sims ++ [s]) = Some (length sims, s).
Proof. exact (classifyMax_new Q_arith Q_T1 Q_T2 Q_T3 eq_refl Q_T5). Qed.
Lemma classifyMax_Q : forall sims, match g_classifyMax Q_arith sims with
  | Some (i, s) => best Q_arith sims i s /\ Qle_bool (1 # 2) s = true
  | None => noMatch Q_arith sims
  end.
Proof. exact (classifyMax_spec Q_arith Q_T1 Q_T2 Q_T3 eq_refl Q_T5). Qed.

(** * One classification *)
Lemma put_replaced : forall P i (p' : P) cls, i < length cls -> replaced cls (put i p' cls) i p'.
Proof.
  intros P i p' cls H. split; [apply put_length|]. revert i H. induction cls as [|a cls IH]; intros [|i] H; cbn in *; try lia.
  - split; auto. intros [|j] Hj; [lia|reflexivity].
  - destruct (IH i) as (H1 & H2); [lia|]. split; auto. intros [|j] Hj; cbn; auto.
Qed.
Lemma rmapM_spec : forall A B (f : A -> res B) l r, rmapM f l = Ok r <-> Forall2 (fun a b => f a = Ok b) l r.
Proof.
  intros A B f l. induction l as [|a l IH]; intros r; cbn [rmapM].
  - split; [intros [= <-]; constructor|intros H; inversion H; reflexivity].
  - destruct (f a) as [b|] eqn:E; cbn [rbind].
    + destruct (rmapM f l) as [bs|] eqn:E2; cbn [rbind].
      * split; [intros [= <-]; constructor; auto; now apply IH|]. intros H. inversion H as [|? b' ? bs' Hb Hbs]; subst. apply IH in Hbs. congruence.
      * split; [discriminate|]. intros H. inversion H as [|? b' ? bs' Hb Hbs]; subst. apply IH in Hbs. congruence.
    + split; [discriminate|]. intros H. inversion H as [|? b' ? bs' Hb Hbs]; subst. congruence.
Qed.
Lemma rmapM_panic : forall A B (f : A -> res B) l, rmapM f l = Panic <-> exists a, In a l /\ f a = Panic.
Proof.
  intros A B f l. induction l as [|a l IH]; cbn [rmapM].
  - split; [discriminate|intros (? & [] & _)].
  - destruct (f a) as [b|] eqn:E; cbn [rbind].
    + destruct (rmapM f l) as [bs|] eqn:E2; cbn [rbind].
      * split; [discriminate|]. intros (x & [->|H] & Hx); [congruence|]. assert (K : Ok bs = Panic) by (apply IH; eauto). discriminate.
      * split; auto. intros _. destruct (proj1 IH eq_refl) as (x & H & Hx). exists x. split; auto. now right.
    + split; auto. intros _. exists a. split; auto. now left.
Qed.
Lemma Forall2_len : forall A B (R : A -> B -> Prop) l l', Forall2 R l l' -> length l = length l'.
Proof. intros A B R l l' H. induction H; cbn; auto. Qed.

Section Classify.
  Context {F P St : Type} (A : arith F) (sim : St -> P -> res F) (revise : P -> St -> Z -> res P) (fresh : St -> Z -> P).
  Variable revised : P -> St -> Z -> P -> Prop.
  Hypothesis max_ok : forall sims, match g_classifyMax A sims with
    | Some (i, s) => best A sims i s /\ Aleb A (Ahalf A) s = true
    | None => noMatch A sims
    end.
  Variables (okP : P -> Prop) (okS : St -> Prop).
  Hypothesis revise_ok : forall p stim now p', okP p -> okS stim -> revise p stim now = Ok p' -> revised p stim now p'.

  Theorem classify_spec : forall cls stim now add r cls', (forall p, In p cls -> okP p) -> okS stim -> g_classify A sim revise fresh cls stim now add = Ok (r, cls') ->
    exists sims, Forall2 (fun p s => sim stim p = Ok s) cls sims /\ outcome A revised fresh cls sims stim now add r cls'.
  Proof.
    intros cls stim now add r cls' KP KS H. unfold g_classify, g_calcSims in H. destruct (rmapM (sim stim) cls) as [sims|] eqn:E; [|discriminate]. cbn [rbind] in H. apply rmapM_spec in E. exists sims. split; auto.
    assert (M := max_ok sims). destruct (g_classifyMax A sims) as [[i s]|].
    - destruct M as (B & M). assert (L : i < length cls) by (rewrite (Forall2_len _ _ _ _ _ E); apply nth_error_Some; destruct B as (B & _); congruence).
      destruct (nth_error cls i) as [p|] eqn:N; [|apply nth_error_None in N; lia]. destruct add.
      + unfold idx in H. rewrite N in H. cbn [unwrap rbind] in H. destruct (revise p stim now) as [p'|] eqn:R; [|discriminate]. cbn [rbind] in H. injection H as <- <-. left. exists s, p. do 3 (split; auto). exists p'. split; [|now apply put_replaced].
        apply revise_ok; auto. apply KP. eapply nth_error_In; eauto.
      + injection H as <- <-. left. exists s, p. do 3 (split; auto).
    - destruct add; injection H as <- <-; [right; auto|]. split; auto.
  Qed.
  (** indices are valid and no prototype disappears *)
  Theorem outcome_valid : forall cls sims stim now add r cls', length sims = length cls -> outcome A revised fresh cls sims stim now add r cls' ->
    length cls <= length cls' <= S (length cls) /\ (add = false -> cls' = cls) /\
    match r with Some i => i < length cls' /\ (i < length cls -> length cls' = length cls) | None => length cls' = length cls end.
  Proof.
    intros cls sims stim now add r cls' L H. unfold outcome in H. destruct r as [i|].
    - destruct H as [(s & p & B & M & N & H)|(B & -> & -> & ->)].
      + assert (Li : i < length cls) by (apply nth_error_Some; congruence). destruct add.
        * destruct H as (p' & _ & R & _). rewrite R. split; [lia|]. split; [discriminate|]. split; auto.
        * subst cls'. split; [lia|]. split; auto.
      + rewrite app_length. cbn. split; [lia|]. split; [discriminate|]. lia.
    - destruct H as (B & -> & ->). repeat split; auto.
  Qed.
  (** presenting a stimulus again after it made a prototype finds that prototype *)
  Hypothesis max_new : forall sims s, noMatch A sims -> Aleb A (Ahalf A) s = true -> g_classifyMax A (sims ++ [s]) = Some (length sims, s).
  Theorem recognised : forall cls stim now cls' s now', g_classify A sim revise fresh cls stim now true = Ok (Some (length cls), cls') ->
    sim stim (fresh stim now) = Ok s -> Aleb A (Ahalf A) s = true -> g_classify A sim revise fresh cls' stim now' false = Ok (Some (length cls), cls').
  Proof.
    intros cls stim now cls' s now' H S0 S1. unfold g_classify, g_calcSims in *. destruct (rmapM (sim stim) cls) as [sims|] eqn:E; [|discriminate]. cbn [rbind] in H. apply rmapM_spec in E.
    assert (M := max_ok sims). destruct (g_classifyMax A sims) as [[i x]|].
    - destruct M as (B & M). assert (L : i < length cls) by (rewrite (Forall2_len _ _ _ _ _ E); apply nth_error_Some; destruct B as (B & _); congruence).
      unfold idx in H. destruct (nth_error cls i) as [p|]; [|discriminate]. cbn [unwrap rbind] in H. destruct (revise p stim now); [|discriminate]. cbn [rbind] in H. injection H as H _. lia.
    - injection H as <-. assert (E2 : rmapM (sim stim) (cls ++ [fresh stim now]) = Ok (sims ++ [s])) by (apply rmapM_spec, Forall2_app; auto). rewrite E2. cbn [rbind]. rewrite (max_new sims s M S1).
      rewrite (Forall2_len _ _ _ _ _ E). reflexivity.
  Qed.
End Classify.

(** * Revision *)
Section Loop.
  Context {C S : Type} (h : C -> S -> res C) (stim : list S).
  Definition revLoop (ch : list C) (l : list nat) : res (list C) :=
    rfold (fun ch i => do c <- idx ch i; do s <- idx stim i; do r <- h c s; Ok (put i r ch)) l ch.
  Lemma revLoop_ok : forall n k ch ch', revLoop ch (seq k n) = Ok ch' -> length ch' = length ch /\
    forall i, (i < k \/ k + n <= i -> nth_error ch' i = nth_error ch i) /\
      (k <= i < k + n -> exists c s r, nth_error ch i = Some c /\ nth_error stim i = Some s /\ h c s = Ok r /\ nth_error ch' i = Some r).
  Proof.
    induction n as [|n IH]; intros k ch ch' H; unfold revLoop in H; cbn [seq rfold] in H.
    - injection H as <-. split; auto. intros i. split; auto. lia.
    - unfold idx in H at 1 2. destruct (nth_error ch k) as [c|] eqn:C0; [|discriminate]. cbn [unwrap rbind] in H. destruct (nth_error stim k) as [s|] eqn:S0; [|discriminate]. cbn [unwrap rbind] in H.
      destruct (h c s) as [r|] eqn:H0; [|discriminate]. cbn [rbind] in H. apply IH in H. destruct H as (L & H). assert (Lk : k < length ch) by (apply nth_error_Some; congruence).
      destruct (put_replaced _ k r ch Lk) as (R1 & R2 & R3). split; [congruence|]. intros i. destruct (H i) as (Ha & Hb). split.
      + intros O. rewrite Ha by lia. apply R3. lia.
      + intros O. destruct (Nat.eq_dec i k) as [->|N].
        * exists c, s, r. rewrite Ha by lia. auto.
        * destruct (Hb ltac:(lia)) as (c' & s' & r' & X1 & X2 & X3 & X4). rewrite R3 in X1 by auto. eauto 10.
  Qed.
  Lemma revLoop_runs : forall n k ch, k + n <= length ch -> k + n <= length stim ->
    (forall i c s, k <= i -> nth_error ch i = Some c -> nth_error stim i = Some s -> h c s <> Panic) -> exists ch', revLoop ch (seq k n) = Ok ch'.
  Proof.
    induction n as [|n IH]; intros k ch Lc Ls H; unfold revLoop; cbn [seq rfold]; [eauto|]. unfold idx at 1 2.
    destruct (nth_error ch k) as [c|] eqn:C0; [|apply nth_error_None in C0; lia]. cbn [unwrap rbind]. destruct (nth_error stim k) as [s|] eqn:S0; [|apply nth_error_None in S0; lia]. cbn [unwrap rbind].
    destruct (h c s) as [r|] eqn:H0; [|edestruct H; eauto]. cbn [rbind]. destruct (put_replaced _ k r ch ltac:(lia)) as (R1 & R2 & R3). apply (IH (Datatypes.S k)); try lia.
    intros i c' s' Hi Hc Hs. rewrite R3 in Hc by lia. apply (H i); auto; lia.
  Qed.
  Lemma revLoop_short : forall n k ch, k + n <= length ch -> k <= length stim -> length stim < k + n ->  revLoop ch (seq k n) = Panic.
  Proof.
    induction n as [|n IH]; intros k ch Lc Ls H; [lia|]. unfold revLoop; cbn [seq rfold]. unfold idx at 1 2.
    destruct (nth_error ch k) as [c|] eqn:C0; [|reflexivity]. cbn [unwrap rbind]. destruct (nth_error stim k) as [s|] eqn:S0; [|reflexivity]. cbn [unwrap rbind].
    destruct (h c s) as [r|]; [|reflexivity]. cbn [rbind]. assert (k < length stim) by (apply nth_error_Some; congruence). apply (IH (Datatypes.S k)); rewrite ?put_length; lia.
  Qed.
End Loop.

(** * The classifier B *)
Section B.
  Context {F : Type} (A : arith F).
  Lemma simLoop : forall (stim proto : list (list (gtv F))) n k t, k + n <= length stim ->
    match rfold (fun t i => do s <- idx stim i; do p <- idx proto i; Ok (g_rev A t (g_foldVec A (g_compVec A s p)))) (seq k n) t with
    | Ok _ => k + n <= length proto \/ n = 0
    | Panic => length proto < k + n
    end.
  Proof.
    intros stim proto. induction n as [|n IH]; intros k t L; cbn [seq rfold]; auto. unfold idx at 1 2. destruct (nth_error stim k) as [s|] eqn:S0; [|apply nth_error_None in S0; lia]. cbn [unwrap rbind].
    destruct (nth_error proto k) as [p|] eqn:P0; cbn [unwrap rbind]; [|apply nth_error_None in P0; lia]. assert (k < length proto) by (apply nth_error_Some; congruence).
    specialize (IH (S k) (g_rev A t (g_foldVec A (g_compVec A s p))) ltac:(lia)). destruct (rfold _ _ _); lia.
  Qed.
  Lemma simB_panic : forall stim (p : protoB F), g_simB A stim p = Panic <-> length (pb_ch p) < length stim.
  Proof.
    intros stim p. unfold g_simB, g_calcSim. assert (H := simLoop stim (pb_ch p) (length stim) 0 (mkTv (A0 A) (A0 A)) ltac:(lia)).
    destruct (rfold _ _ _); cbn [rbind]; split; try discriminate; auto; lia.
  Qed.
  Lemma reviseB_loop : forall p stim now, g_reviseB A p stim now = do ch <- revLoop (fun c s => Ok (g_revVec A c s)) stim (pb_ch p) (seq 0 (length (pb_ch p))); Ok (mkPB ch now).
  Proof. reflexivity. Qed.
  Lemma reviseB_panic : forall p stim now, g_reviseB A p stim now = Panic <-> length stim < length (pb_ch p).
  Proof.
    intros p stim now. rewrite reviseB_loop. destruct (Nat.lt_ge_cases (length stim) (length (pb_ch p))) as [L|L].
    - rewrite revLoop_short by lia. cbn. tauto.
    - destruct (revLoop_runs (fun c s => Ok (g_revVec A c s)) stim (length (pb_ch p)) 0 (pb_ch p)) as (ch & E); try lia; [discriminate|]. rewrite E. cbn. split; [discriminate|lia].
  Qed.
  Lemma revVec_nth : forall (a b : list (gtv F)) k x y, nth_error a k = Some x -> nth_error b k = Some y -> nth_error (g_revVec A a b) k = Some (g_rev A x y).
  Proof.
    unfold g_revVec. intros a. induction a as [|u a IH]; intros [|v b] [|k] x y; cbn; try discriminate.
    - intros [= ->] [= ->]. reflexivity.
    - apply IH.
  Qed.
  Lemma revVec_length : forall a b : list (gtv F), length (g_revVec A a b) = Nat.min (length a) (length b).
  Proof. intros a b. unfold g_revVec. rewrite map_length, combine_length. reflexivity. Qed.
  Lemma reviseB_ok : forall p stim now p', True -> True -> g_reviseB A p stim now = Ok p' -> revisedB A p stim now p'.
  Proof.
    intros p stim now p' _ _ H. rewrite reviseB_loop in H. destruct (revLoop _ _ _ _) as [ch|] eqn:E; [|discriminate]. injection H as <-. apply revLoop_ok in E. destruct E as (L & E).
    split; auto. split; auto. intros i c Hc. assert (Li : i < length (pb_ch p)) by (apply nth_error_Some; congruence). destruct (proj2 (E i) ltac:(lia)) as (c' & s & r & X1 & X2 & X3 & X4).
    exists s. split; auto. exists r. split; auto. assert (c' = c) by congruence. injection X3 as <-. subst c'. split; [apply revVec_length|]. intros k a b. apply revVec_nth.
  Qed.
End B.
Theorem classifyB_spec : forall cls stim now add r cls', classifyB cls stim now add = Ok (r, cls') ->
  exists sims, Forall2 (fun p s => g_simB f64_arith stim p = Ok s) cls sims /\ outcome f64_arith (revisedB f64_arith) g_freshB cls sims stim now add r cls'.
Proof.
  intros cls stim now add r cls' H. refine (classify_spec f64_arith _ _ _ _ classifyMax_f64 (fun _ => True) (fun _ => True) (reviseB_ok f64_arith) cls stim now add r cls' _ I H); auto.
Qed.
Theorem classifyB_panic : forall cls stim now add, classifyB cls stim now add = Panic <->
  (exists p, In p cls /\ length (pb_ch p) < length stim) \/
  (add = true /\ exists sims i s p, Forall2 (fun p s => g_simB f64_arith stim p = Ok s) cls sims /\ classifyMax sims = Some (i, s) /\ nth_error cls i = Some p /\ length stim < length (pb_ch p)).
Proof.
  intros cls stim now add. unfold classifyB, g_classifyB, g_classify, g_calcSims. destruct (rmapM (g_simB f64_arith stim) cls) as [sims|] eqn:E.
  - cbn [rbind]. assert (E' := E). apply rmapM_spec in E'. assert (N : ~ exists p, In p cls /\ length (pb_ch p) < length stim).
    { intros (p & Hp & Hl). apply (simB_panic f64_arith stim) in Hl. assert (K : rmapM (g_simB f64_arith stim) cls = Panic) by (apply rmapM_panic; eauto). congruence. }
    assert (M := classifyMax_f64 sims). unfold classifyMax in *. destruct (g_classifyMax f64_arith sims) as [[i s]|] eqn:CM; [|split; [destruct add; discriminate|intros [K|(_ & sims' & i & s & p & K1 & K2 & _)]; [tauto|]]; apply rmapM_spec in K1; assert (sims' = sims) by congruence; subst; congruence].
    destruct M as (B & M). assert (L : i < length cls) by (rewrite (Forall2_len _ _ _ _ _ E'); apply nth_error_Some; destruct B as (B & _); congruence).
    destruct (nth_error cls i) as [p|] eqn:P0; [|apply nth_error_None in P0; lia]. destruct add.
    + unfold idx. rewrite P0. cbn [unwrap rbind]. assert (R := reviseB_panic f64_arith p stim now). destruct (g_reviseB f64_arith p stim now) as [p'|]; cbn [rbind].
      * split; [discriminate|]. intros [K|(_ & sims' & i' & s' & q & K1 & K2 & K3 & K4)]; [tauto|]. apply rmapM_spec in K1. assert (sims' = sims) by congruence. subst sims'. assert (i' = i) by congruence. subst i'. assert (q = p) by congruence. subst q.
        apply R in K4. discriminate.
      * split; auto. intros _. right. split; auto. exists sims, i, s, p. do 3 (split; auto). now apply R.
    + split; [discriminate|]. intros [K|(K & _)]; [tauto|discriminate].
  - cbn [rbind]. split; auto. intros _. left. apply rmapM_panic in E. destruct E as (p & Hp & E). apply simB_panic in E. eauto.
Qed.

(** * The classifier D *)
Definition okD (p : protoD) : Prop := Forall wfMap (pd_ch p).
Definition okStim (stim : list (map2d f64)) : Prop := Forall wfMap stim.
Lemma nth_Forall : forall T (Q : T -> Prop) l i x, Forall Q l -> nth_error l i = Some x -> Q x.
Proof. intros T Q l i x H N. rewrite Forall_forall in H. apply H. eapply nth_error_In; eauto. Qed.
Lemma reviseD_loop : forall p stim now, reviseD p stim now = do ch <- revLoop madd stim (pd_ch p) (seq 0 (length (pd_ch p))); Ok (mkPD ch now (pd_count p + 1)).
Proof. reflexivity. Qed.
Lemma reviseD_ok : forall p stim now p', okD p -> okStim stim -> reviseD p stim now = Ok p' -> revisedD p stim now p'.
Proof.
  intros p stim now p' W WS H. rewrite reviseD_loop in H. destruct (revLoop _ _ _ _) as [ch|] eqn:E; [|discriminate]. injection H as <-. apply revLoop_ok in E. destruct E as (L & E).
  split; auto. split; auto. split; auto. intros i c Hc. assert (Li : i < length (pd_ch p)) by (apply nth_error_Some; congruence). destruct (proj2 (E i) ltac:(lia)) as (c' & s & r & X1 & X2 & X3 & X4).
  exists s. split; auto. exists r. split; auto. assert (c' = c) by congruence. subst c'. destruct (add_spec c s (nth_Forall _ _ _ _ _ W Hc) (nth_Forall _ _ _ _ _ WS X2)) as (m & M & S & V).
  assert (m = r) by congruence. subst m. split; auto. intros y x Hyx. rewrite V. apply inb_iff in Hyx. rewrite Hyx. reflexivity.
Qed.
Lemma revisedD_wf : forall p stim now p', revisedD p stim now p' -> okD p'.
Proof.
  intros p stim now p' (_ & _ & L & H). apply Forall_forall. intros c Hc. apply In_nth_error in Hc. destruct Hc as (i & Hi). assert (Li : i < length (pd_ch p)) by (rewrite <- L; apply nth_error_Some; congruence).
  destruct (nth_error (pd_ch p) i) as [c0|] eqn:C0; [|apply nth_error_None in C0; lia]. destruct (H i c0 C0) as (s & _ & c' & X & (_ & _ & Y) & _). assert (c' = c) by congruence. subst. exact Y.
Qed.
Lemma reviseD_runs : forall p stim now, okD p -> okStim stim -> length (pd_ch p) <= length stim -> exists p', reviseD p stim now = Ok p'.
Proof.
  intros p stim now W WS L. rewrite reviseD_loop. destruct (revLoop_runs madd stim (length (pd_ch p)) 0 (pd_ch p)) as (ch & E); try lia.
  - intros i c s _ Hc Hs. destruct (add_spec c s (nth_Forall _ _ _ _ _ W Hc) (nth_Forall _ _ _ _ _ WS Hs)) as (m & M & _). congruence.
  - rewrite E. cbn. eauto.
Qed.
Lemma simD_runs : forall expf stim p, okD p -> okStim stim -> length stim <= length (pd_ch p) -> exists s, simD expf stim p = Ok s.
Proof.
  intros expf stim p W WS L. unfold simD. enough (G : forall n k d, k + n <= length stim -> exists r, rfold (fun dist i => do c <- idx (pd_ch p) i; do cp <- divScalar c (f_of_Z (pd_count p)); do s <- idx stim i; do df <- msub s cp; do cd <- distPow2 df; Ok (fadd dist cd)) (seq k n) d = Ok r).
  { destruct (G (length stim) 0 f0 ltac:(lia)) as (r & E). rewrite E. cbn. eauto. }
  induction n as [|n IH]; intros k d Lk; cbn [seq rfold]; [eauto|]. unfold idx at 1 2. destruct (nth_error (pd_ch p) k) as [c|] eqn:C0; [|apply nth_error_None in C0; lia]. cbn [unwrap rbind].
  destruct (div_spec c (f_of_Z (pd_count p)) (nth_Forall _ _ _ _ _ W C0)) as (cp & E1 & (_ & _ & W1) & _). rewrite E1. cbn [rbind].
  destruct (nth_error stim k) as [s|] eqn:S0; [|apply nth_error_None in S0; lia]. cbn [unwrap rbind]. destruct (sub_spec s cp (nth_Forall _ _ _ _ _ WS S0) W1) as (df & E2 & (_ & _ & W2) & _). rewrite E2. cbn [rbind].
  rewrite dist_spec by auto. cbn [rbind]. apply IH. lia.
Qed.
Theorem classifyD_spec : forall expf cls stim now add r cls', Forall okD cls -> okStim stim -> classifyD expf cls stim now add = Ok (r, cls') ->
  exists sims, Forall2 (fun p s => simD expf stim p = Ok s) cls sims /\ outcome f64_arith revisedD freshD cls sims stim now add r cls'.
Proof.
  intros expf cls stim now add r cls' W WS H. refine (classify_spec f64_arith _ _ _ _ classifyMax_f64 okD okStim reviseD_ok cls stim now add r cls' _ WS H); auto. now apply Forall_forall.
Qed.
(** the similarity *)
Theorem simD_spec : forall expf stim p, okD p -> okStim stim -> length stim <= length (pd_ch p) ->
  simD expf stim p = Ok (expf (fmul (fold_left fadd (map (fun '(s, c) => distOf s c (f_of_Z (pd_count p))) (combine stim (pd_ch p))) f0) (fneg f05))).
Proof.
  intros expf stim p W WS L. unfold simD.
  enough (G : forall rest k d pre, stim = pre ++ rest -> length pre = k -> rfold (fun dist i => do c <- idx (pd_ch p) i; do cp <- divScalar c (f_of_Z (pd_count p)); do s <- idx stim i; do df <- msub s cp; do cd <- distPow2 df; Ok (fadd dist cd)) (seq k (length rest)) d
    = Ok (fold_left fadd (map (fun '(s, c) => distOf s c (f_of_Z (pd_count p))) (combine rest (skipn k (pd_ch p)))) d)).
  { rewrite (G stim 0 f0 []) by reflexivity. reflexivity. }
  induction rest as [|s rest IH]; intros k d pre Hs Hk; cbn [length seq rfold]; [reflexivity|].
  assert (S0 : nth_error stim k = Some s) by (rewrite Hs, nth_error_app2, Hk, Nat.sub_diag by lia; reflexivity).
  unfold idx at 1 2. destruct (nth_error (pd_ch p) k) as [c|] eqn:C0.
  2:{ apply nth_error_None in C0. assert (k < length stim) by (apply nth_error_Some; congruence). lia. }
  assert (SK : skipn k (pd_ch p) = c :: skipn (S k) (pd_ch p)).
  { clear -C0. revert C0. generalize (pd_ch p) as l. induction k as [|k IH]; intros [|a l] H; cbn in *; try discriminate; [congruence|]. rewrite (IH l H). reflexivity. }
  rewrite SK, S0. cbn [unwrap rbind combine map fold_left].
  destruct (div_spec c (f_of_Z (pd_count p)) (nth_Forall _ _ _ _ _ W C0)) as (cp & E1 & (_ & _ & W1) & V1). rewrite E1. cbn [rbind].
  destruct (sub_spec s cp (nth_Forall _ _ _ _ _ WS S0) W1) as (df & E2 & (S1 & S2 & W2) & V2). rewrite E2. cbn [rbind]. unfold distPow2. rewrite rfold_dist; auto; [|intros y x H; apply grid_in in H; exact H]. cbn [rbind].
  rewrite (IH (S k) _ (pre ++ [s])); [|rewrite <- app_assoc; exact Hs|rewrite app_length; cbn; lia]. do 3 f_equal. unfold distOf. rewrite S1, S2.
  assert (Q : forall l acc, (forall y x, In (y, x) l -> within s y x) -> fold_left (fun s v => fadd s (fmul v v)) (map (fun '(y, x) => nth (Z.to_nat (y * m_w s + x)) (m_arr df) f0) l) acc =
    fold_left (fun acc '(y, x) => let d := fsub (val f0 s y x) (if inb c y x then fdiv (val f0 c y x) (f_of_Z (pd_count p)) else f0) in fadd acc (fmul d d)) l acc).
  { induction l as [|[y x] l IHl]; intros acc I; [reflexivity|]. cbn [map fold_left]. rewrite IHl by (intros; apply I; now right). f_equal.
    assert (Iy : inb s y x = true) by (apply inb_iff, I; now left). assert (E : nth (Z.to_nat (y * m_w s + x)) (m_arr df) f0 = val f0 df y x).
    { unfold val. assert (X : inb df y x = true) by (unfold inb; rewrite S1, S2; exact Iy). rewrite X, S1. reflexivity. }
    rewrite E, V2, Iy, V1. reflexivity. }
  apply Q. intros y x H. apply grid_in in H. exact H.
Qed.
