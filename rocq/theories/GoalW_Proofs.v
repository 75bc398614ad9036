(** The weights of the goal system: sampling never panics. *)
From Coq Require Import String ZArith Reals Bool Lia Lra List Permutation SpecFloat.
From Flocq Require Import Core BinarySingleNaN.
From Verif Require Import Base F64_Model Term_Model Term_Spec Stamp_Model Tv_Model Sentence_Model Sort_Proofs F64_Proofs Mem_Model Mem_Spec Mem_Proofs PMem_Model Goal_Model Goal_Spec Goal_Proofs Goal2_Proofs Goal3_Proofs.
Import ListNotations.

(** ** non-negative floats, infinity included *)
Definition fnn (x : f64) : Prop := fvalid x /\ fleb f0 x = true.

Lemma fnn_cases : forall x, fnn x -> x = S754_infinity false \/ (ffin x /\ (0 <= fval x)%R).
Proof.
  intros x (V & H). destruct x as [s|s| |s m e]; try discriminate.
  - right. assert (F : ffin (S754_zero s)) by (split; auto; exact Logic.I). split; auto. simpl. apply Rle_refl.
  - left. destruct s; [discriminate|auto].
  - right. assert (F : ffin (S754_finite s m e)) by (split; auto; exact Logic.I). split; auto.
    apply fleb_ok in H; [|apply f0_ok|assumption]. destruct f0_ok as (_ & E). now rewrite E in H.
Qed.
Lemma fnn_fin : forall x, ffin x -> (0 <= fval x)%R -> fnn x.
Proof. intros x F H. split; [apply F|]. apply fleb_ok; [apply f0_ok|assumption|]. destruct f0_ok as (_ & ->). auto. Qed.
Lemma fnn_inf : fnn (S754_infinity false).
Proof. split; reflexivity. Qed.
Lemma fnn_0 : fnn f0.
Proof. split; reflexivity. Qed.
Lemma fnn_1 : fnn f1.
Proof. split; reflexivity. Qed.
Lemma fleb_inf : forall x, fnn x -> fleb x (S754_infinity false) = true.
Proof. intros x H. apply fnn_cases in H. destruct H as [->|((_ & F) & _)]; [reflexivity|]. destruct x; try contradiction; try reflexivity; destruct s; reflexivity. Qed.

Lemma fadd_inf_l : forall y, fnn y -> fadd (S754_infinity false) y = S754_infinity false.
Proof. intros y H. apply fnn_cases in H. destruct H as [->|((_ & F) & _)]; [reflexivity|]. destruct y; try contradiction; reflexivity. Qed.
Lemma fadd_inf_r : forall y, fnn y -> fadd y (S754_infinity false) = S754_infinity false.
Proof. intros y H. apply fnn_cases in H. destruct H as [->|((_ & F) & _)]; [reflexivity|]. destruct y; try contradiction; reflexivity. Qed.

Lemma fadd_nn : forall x y, fnn x -> fnn y -> fnn (fadd x y) /\ fleb x (fadd x y) = true.
Proof.
  intros x y Hx Hy. pose proof (fnn_cases x Hx) as Cx. pose proof (fnn_cases y Hy) as Cy.
  destruct Cx as [->|(Fx & Px)]; [rewrite fadd_inf_l by auto; split; [apply fnn_inf|reflexivity]|].
  destruct Cy as [->|(Fy & Py)]; [rewrite fadd_inf_r by auto; split; [apply fnn_inf|now apply fleb_inf]|].
  destruct (Rlt_dec (Rabs (rnd (fval x + fval y))) fmaxR) as [L|L].
  - destruct (fadd_ok x y Fx Fy L) as (F & V). assert (G : (fval x <= fval (fadd x y))%R).
    { rewrite V. apply rnd_ge; [now apply ffin_fmt|lra]. }
    split; [apply fnn_fin; auto; lra|]. now apply fleb_ok.
  - assert (E : fadd x y = S754_infinity false).
    { destruct (ffin_B x Fx) as (a & Ea & Ia). destruct (ffin_B y Fy) as (b & Eb & Ib). subst x y. rewrite fadd_equiv. rewrite !fval_B in *.
      generalize (Bplus_correct fprec femax Hprec53 Hmax1024 mode_NE a b Ia Ib). intros H.
      destruct (Rlt_bool_spec (Rabs (round radix2 (SpecFloat.fexp fprec femax) (round_mode mode_NE) (B2R a + B2R b))) (bpow radix2 femax)) as [H1|H1].
      - exfalso. apply L. exact H1.
      - destruct H as (H & S). rewrite H. destruct (Bsign a) eqn:Sa; [exfalso|reflexivity].
        assert (Z : forall c : bf, Bsign c = true -> (0 <= B2R c)%R -> B2R c = 0%R).
        { intros c Sc Pc. apply Rle_antisym; auto. destruct c as [s|s| |s m e Hm]; simpl in *; try apply Rle_refl. subst s. 
          apply F2R_le_0. simpl. lia. }
        apply L. rewrite (Z a Sa Px), (Z b (eq_sym S) Py), Rplus_0_l, rnd_0, Rabs_R0. generalize fmaxR_1. lra. }
    rewrite E. split; [apply fnn_inf|now apply fleb_inf].
Qed.
Lemma fsum_ge : forall l s, fnn s -> Forall fnn l -> fnn (fold_left fadd l s) /\ fleb s (fold_left fadd l s) = true.
Proof.
  induction l as [|x l IH]; intros s Hs Hl; simpl.
  - split; auto. apply fleb_refl. destruct Hs as (_ & H). now apply fleb_nan_l in H.
  - inversion Hl as [|? ? H1 H2]; subst. destruct (fadd_nn s x Hs H1) as (A & B). destruct (IH _ A H2) as (C & D). split; auto.
    eapply fleb_trans; eauto.
Qed.

(** ** every stored goal has weight 0 or 1 and a non-negative running sum *)
Definition weighted (e : entry) : Prop := fnn (e_acc e) /\ (e_des e = f0 \/ e_des e = f1).
Lemma reach_weighted : forall g, gReach g -> forall e, In e (retEntries g) -> weighted e.
Proof.
  apply (reach_entries weighted).
  - intros. split; simpl; [apply fnn_0|auto].
  - intros e l (A & B) (C & D). split; [|exact B]. simpl. apply fadd_nn; auto.
    destruct D as [-> | ->]; [exact fnn_0|exact fnn_1].
  - intros e u H. exact H.
  - intros e (A & B). split; simpl; auto.
Qed.

Lemma binSearch_total : forall n arr v, arr <> [] -> (length arr <= S n)%nat -> exists e, binSearch n arr v = Ok e.
Proof.
  induction n as [|n IH]; intros arr v N L.
  - destruct arr as [|x [|y l]]; simpl in *; [easy|eauto|lia].
  - destruct arr as [|x [|y l]]; [easy|simpl; eauto|]. set (arr := x :: y :: l) in *.
    change (binSearch (S n) arr v) with (do m <- idx arr (Nat.div (length arr) 2);
        binSearch n (if fgtb (e_acc m) v then firstn (Nat.div (length arr) 2) arr else skipn (Nat.div (length arr) 2) arr) v).
    assert (L2 : (2 <= length arr)%nat) by (simpl; lia).
    assert (M1 : (1 <= Nat.div (length arr) 2)%nat) by (apply (Nat.div_le_lower_bound (length arr) 2 1); lia).
    assert (M2 : (Nat.div (length arr) 2 < length arr)%nat) by (apply Nat.div_lt; lia).
    unfold idx. destruct (nth_error arr (Nat.div (length arr) 2)) as [m|] eqn:E; [|apply nth_error_None in E; lia].
    cbn [unwrap rbind]. apply IH.
    + assert (Q : forall l : list entry, (1 <= length l)%nat -> l <> []) by (intros [|q l0]; simpl; [lia|easy]). apply Q. destruct (fgtb _ _); [rewrite firstn_length|rewrite skipn_length]; lia.
    + destruct (fgtb _ _); [rewrite firstn_length|rewrite skipn_length]; lia.
Qed.

Lemma selInBatch_total : forall sel gs ws sum, Forall2 (fun gr w => groupWeight gr = Ok w) gs ws -> Forall fnn ws -> fnn sum ->
  (forall gr, In gr gs -> snd gr <> []) -> exists r, selInBatch (fold_left fadd ws sum) sel sum gs = Ok r.
Proof.
  intros sel gs. induction gs as [|gr gs IH]; intros ws sum F W S N; [simpl; eauto|].
  inversion F as [|? w ? ws' Hw F']; subst. inversion W as [|? ? W1 W2]; subst. cbn [selInBatch].
  destruct (fsum_ge (w :: ws') sum S W) as (_ & ->). cbn [negb]. rewrite Hw. cbn [rbind].
  destruct (fgtb _ _).
  - destruct (binSearch_total (length (snd gr)) (snd gr) sel) as (e & ->); [apply N; now left|lia|]. simpl. eauto.
  - cbn [fold_left]. apply IH; auto; [apply fadd_nn; auto|]. intros; apply N; now right.
Qed.

Theorem sample_total : forall g r1 r2, gReach g -> (1 <= g_maxDepth g)%Z -> exists r, sample g r1 r2 = Ok r.
Proof.
  intros g r1 r2 R D. pose proof (reach_ok _ R) as G. unfold sample, idx.
  destruct (nth_error (g_batches g) 0) as [b0|] eqn:E.
  2:{ exfalso. apply nth_error_None in E. assert (L := ok_len _ G). match type of E with (length ?x <= _)%nat => change (length x) with (length (g_batches g)) in E end. rewrite L in E. lia. }
  cbn [unwrap rbind].
  match goal with |- context [fold_left (selBatchStep ?p) (g_batches g) (f0, b0)] => pose proof (selBatch_in p (g_batches g) (f0, b0)) as I;
    revert I; generalize (snd (fold_left (selBatchStep p) (g_batches g) (f0, b0))) end.
  intros b I. assert (Ib : In b (g_batches g)). { simpl in I. destruct I as [<-|I]; auto. eapply nth_error_In; eauto. } clear I.
  destruct b as [|gr b]; [eauto|]. apply In_nth_error in Ib. destruct Ib as (i & Ib). set (bt := gr :: b) in *.
  assert (Ne : forall x, In x bt -> snd x <> []). { intros [t es] Hx. apply (ok_groups _ G i bt t es Ib Hx). }
  assert (Wt : forall x e, In x bt -> In e (snd x) -> weighted e).
  { intros x e Hx He. apply (reach_weighted g R). apply stored_iff. left. exists i, bt, x. auto. }
  destruct (rmapM_total _ _ groupWeight bt) as (ws & Ew).
  { intros x Hx. unfold groupWeight. destruct (lastEntry_total (snd x) (Ne x Hx)) as (e & ->). simpl. eauto. }
  rewrite Ew. cbn [rbind]. apply selInBatch_total; auto.
  - now apply rmapM_ok.
  - apply Forall_forall. intros w Hw. destruct (rmapM_back _ _ _ _ _ _ Ew Hw) as (x & Hx & Q). unfold groupWeight in Q.
    destruct (lastEntry (snd x)) as [e|] eqn:L; cbn [rbind] in Q; [|discriminate]. injection Q as <-. apply lastEntry_ok in L. destruct L as (l' & L).
    destruct (Wt x e Hx) as (A & B); [rewrite L; apply in_app_iff; right; now left|]. apply fadd_nn; auto. destruct B as [-> | ->]; [exact fnn_0|exact fnn_1].
  - exact fnn_0.
Qed.

(** ** the whole derivation step never panics *)
Lemma helper_total : forall u g d st m, retTv g <> None -> (forall a b, believed m a b -> retTv b <> None) ->
  exists hs, deriveGoalsHelper u g d st m = Ok hs.
Proof.
  intros u g d st m Hg Hb. unfold deriveGoalsHelper. pose proof (detach_spec g u) as D.
  destruct (infGoalDetach g u) as [[c|]|]; cbn [rbind]; [eauto| |congruence].
  assert (T : forall a acc, In a (query_by_consequence (s_term g) m) -> exists acc', tryBelief u m g d acc a = Ok acc').
  { intros a acc Ha. unfold tryBelief. pose proof (belief_spec g (rd (cells m) a) u) as S.
    destruct (infGoalBelief g (rd (cells m) a) u) as [c|]; cbn [rbind]; [eauto|]. exfalso. destruct S as [S|S]; auto.
    apply (Hb a (rd (cells m) a)); auto. eapply cand_believed; eauto. }
  destruct st as [|i j].
  - generalize (@nil hgoal). revert T. generalize (query_by_consequence (s_term g) m). intros l T. induction l as [|a l IH]; intros acc; cbn [rfold]; [eauto|].
    destruct (T a acc) as (acc' & ->); [now left|]. cbn [rbind]. apply IH. intros; apply T; now right.
  - destruct (query_by_consequence (s_term g) m) as [|a0 cand] eqn:C; [simpl; eauto|]. set (l := a0 :: cand) in *.
    assert (L : (0 < length l)%nat) by (simpl; lia).
    assert (M : forall k, exists a, idx l (Nat.modulo k (length l)) = Ok a /\ In a l).
    { intros k. unfold idx. destruct (nth_error l (Nat.modulo k (length l))) as [a|] eqn:E.
      - exists a. split; auto. eapply nth_error_In; eauto.
      - apply nth_error_None in E. pose proof (Nat.mod_upper_bound k (length l)). lia. }
    destruct (M i) as (a1 & E1 & I1). destruct (M j) as (a2 & E2 & I2). unfold rfold. rewrite E1. cbn [rbind].
    destruct (T a1 [] I1) as (acc1 & ->). cbn [rbind]. rewrite E2. cbn [rbind]. destruct (T a2 acc1 I2) as (acc2 & ->). simpl. eauto.
Qed.
Lemma step_tv : forall m g ev c, goalStep (believed m) g ev c -> retTv c <> None /\ s_punct c = GOAL.
Proof.
  intros m g ev c H. destruct H as [g x rest v c _ _ H|g a b subj vg vb c _ _ _ _ _ _ H]; destruct H as (_ & P & E & _); split; auto;
  unfold retTv; rewrite E; discriminate.
Qed.
Lemma rounds_total : forall u m rs ws cs, (forall a b, believed m a b -> retTv b <> None) -> (forall w, In w ws -> retTv (fst w) <> None) ->
  exists r, rfold (subRound u m) rs (ws, cs) = Ok r.
Proof.
  intros u m rs. induction rs as [|r rs IH]; intros ws cs Hb W; cbn [rfold]; [eauto|].
  assert (S : exists ws1 cs1, subRound u m (ws, cs) r = Ok (ws1, cs1) /\ forall w, In w ws1 -> retTv (fst w) <> None).
  { unfold subRound. destruct ws as [|w0 ws0]; [exists [], cs; split; auto|]. destruct r as [[k i] j]. set (ws := w0 :: ws0) in *. unfold idx.
    assert (L : (0 < length ws)%nat) by (simpl; lia).
    destruct (nth_error ws (Nat.modulo k (length ws))) as [w|] eqn:N; [|apply nth_error_None in N; pose proof (Nat.mod_upper_bound k (length ws)); lia].
    cbn [unwrap rbind]. assert (Hw : retTv (fst w) <> None) by (apply W; eapply nth_error_In; eauto).
    destruct (helper_total u (fst w) (snd w) (SAMPLE_2 i j) m Hw Hb) as (hs & E). rewrite E. cbn [rbind]. eexists. eexists. split; [reflexivity|].
    intros x Hx. apply in_app_iff in Hx. destruct Hx as [Hx|Hx].
    - apply W. apply (Permutation_in _ (Run_Proofs.swap_remove_spec _ _ _ _ N)). now right.
    - apply in_map_iff in Hx. destruct Hx as (h & <- & Hh). apply helper_spec in E. destruct E as (F & _). rewrite Forall_forall in F.
      destruct (F h Hh) as (F1 & _). now apply step_tv in F1. }
  destruct S as (ws1 & cs1 & -> & W1). cbn [rbind]. apply IH; auto.
Qed.
Lemma chain_goal : forall m n g ev c, goalChain (believed m) n g ev c -> s_punct c = GOAL.
Proof. intros m n g ev c H. destruct H as [g ev c H|n g ev1 c1 ev c _ H]; now apply step_tv in H. Qed.

Theorem infer_total : forall u g t m r1 r2 rnd, gReach g -> (1 <= g_maxDepth g)%Z ->
  (forall e, stored g e -> (0 <= e_depth e)%Z /\ retTv (e_sentence e) <> None) ->
  (forall a b, believed m a b -> retTv b <> None) ->
  exists g', sampleAndInference u g t m r1 r2 rnd = Ok g'.
Proof.
  intros u g t m r1 r2 rnd R D He Hb. unfold sampleAndInference. destruct (sample_total g r1 r2 R D) as (r & Sm). rewrite Sm. cbn [rbind].
  destruct r as [[goal d]|]; [|eauto]. pose proof (sample_in _ _ _ _ _ Sm) as (e & i & At & <- & <-).
  destruct (He e) as (Dp & Tv); [left; eauto|].
  destruct (rounds_total u m (map rnd (seq 0 (Z.to_nat (g_rounds g)))) [(e_sentence e, e_depth e)] []) as ([ws cs] & Rd); auto.
  { intros w [<-|[]]. exact Tv. }
  rewrite Rd. cbn [rbind]. destruct (helper_total u (e_sentence e) (e_depth e) ALL_BELIEFS m Tv Hb) as (hs & Hp). rewrite Hp. cbn [rbind].
  assert (F : forall h, In h (cs ++ hs) -> s_punct (h_goal h) = GOAL /\ (0 <= h_depth h)%Z).
  { intros h Hh. assert (C : chained m (e_sentence e) (e_depth e) (h_goal h) (h_evi h) (h_depth h)).
    { apply in_app_iff in Hh. destruct Hh as [Hh|Hh].
      - destruct (rounds_spec u m (e_sentence e) (e_depth e) _ _ _ _ _ Rd) as (F & _); [intros w [<-|[]]; now left|constructor|].
        rewrite Forall_forall in F. auto.
      - apply helper_spec in Hp. destruct Hp as (F & _). rewrite Forall_forall in F. apply (extend m (e_sentence e) (e_depth e) (e_sentence e, e_depth e)); [now left|].
        simpl. auto. }
    destruct C as (n & C & ->). split; [eapply chain_goal; eauto|lia]. }
  revert F. generalize (cs ++ hs). assert (G := reach_ok _ R). clear -G D. intros l. revert g G D. induction l as [|h l IH]; intros g G D F; cbn [rfold]; [eauto|].
  destruct (F h) as (P & Dp); [now left|]. destruct (add_total g t (h_goal h) (h_evi h) (h_depth h) G D P Dp) as (g1 & E). rewrite E. cbn [rbind].
  apply IH; [eapply addEntry_inv; eauto| |intros; apply F; now right].
  apply addEntry_cases in E. destruct E as (_ & [[_ ->]|E]); auto. destruct (added_cfg _ _ _ E) as (_ & -> & _). auto.
Qed.
