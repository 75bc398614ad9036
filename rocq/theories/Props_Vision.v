(** C47: prototype classifiers. *)
From Coq Require Import List ZArith QArith Bool Lia Floats.SpecFloat.
From Verif Require Import Base F64_Model F64_Proofs Tv_Model Tv_Spec Map_Model Map_Spec Vision_Model Vision_Spec Vision_Proofs Vision2_Proofs VisionQ_Proofs.
From Verif Require Env_Proofs.
Import ListNotations.
Local Open Scope list_scope.
Local Open Scope nat_scope.

(** the answer is the first greatest similarity, and at least 0.5; none is given exactly if all are below *)
Theorem c47_max : forall sims, match classifyMax sims with
  | Some (i, s) => best f64_arith sims i s /\ fleb f05 s = true
  | None => noMatch f64_arith sims
  end.
Proof. exact classifyMax_f64. Qed.
(** one classification by truth values *)
Theorem c47_B : forall cls stim now add r cls', classifyB cls stim now add = Ok (r, cls') ->
  exists sims, Forall2 (fun p s => g_simB f64_arith stim p = Ok s) cls sims /\ outcome f64_arith (revisedB f64_arith) g_freshB cls sims stim now add r cls'.
Proof. exact classifyB_spec. Qed.
(** it panics exactly if a prototype has too few channels, or the one to be revised too many *)
Theorem c47_B_panic : forall cls stim now add, classifyB cls stim now add = Panic <->
  (exists p, In p cls /\ length (pb_ch p) < length stim) \/
  (add = true /\ exists sims i s p, Forall2 (fun p s => g_simB f64_arith stim p = Ok s) cls sims /\ classifyMax sims = Some (i, s) /\ nth_error cls i = Some p /\ length stim < length (pb_ch p)).
Proof. exact classifyB_panic. Qed.
(** one classification by real vectors *)
Theorem c47_D : forall expf cls stim now add r cls', Forall okD cls -> okStim stim -> classifyD expf cls stim now add = Ok (r, cls') ->
  exists sims, Forall2 (fun p s => simD expf stim p = Ok s) cls sims /\ outcome f64_arith revisedD freshD cls sims stim now add r cls'.
Proof. exact classifyD_spec. Qed.
(** in every outcome the index is one of the prototypes, at most one prototype is added, and nothing changes without [add] *)
Theorem c47_index : forall F P St (A : arith F) (revised : P -> St -> Z -> P -> Prop) (fresh : St -> Z -> P) cls sims stim now add r cls', length sims = length cls -> outcome A revised fresh cls sims stim now add r cls' ->
  length cls <= length cls' <= S (length cls) /\ (add = false -> cls' = cls) /\
  match r with Some i => i < length cls' /\ (i < length cls -> length cls' = length cls) | None => length cls' = length cls end.
Proof. intros F P St A revised fresh. exact (outcome_valid A fresh revised). Qed.
(** through any history prototypes stay in place *)
Theorem c47_history_B : forall steps cls cls', history classifyB steps cls = Ok cls' -> length cls <= length cls' /\
  forall i p, nth_error cls i = Some p -> exists p', nth_error cls' i = Some p' /\ length (pb_ch p') = length (pb_ch p).
Proof. exact historyB_keeps. Qed.
(** and if all stimuli have the same number of channels nothing panics *)
Theorem c47_no_panic_B : forall k steps cls, Forall (chansB k) cls -> (forall s n a, In (s, n, a) steps -> length s = k) -> exists cls', history classifyB steps cls = Ok cls' /\ Forall (chansB k) cls'.
Proof. exact historyB_runs. Qed.
Theorem c47_history_D : forall expf k steps cls, Forall (goodD k) cls -> (forall s n a, In (s, n, a) steps -> okStim s /\ length s = k) ->
  exists cls', history (classifyD expf) steps cls = Ok cls' /\ Forall (goodD k) cls' /\ length cls <= length cls' /\
    forall i p, nth_error cls i = Some p -> exists p', nth_error cls' i = Some p' /\ keepD p p'.
Proof. exact historyD. Qed.
(** every stimulus learned is evidence of exactly one prototype, so no count exceeds the number of calls *)
Fixpoint counts (cls : list protoD) : Z := match cls with [] => 0%Z | p :: l => (pd_count p + counts l)%Z end.
Definition learnedBy (steps : list (list (map2d f64) * Z * bool)) : nat := length (filter snd steps).
Lemma classify_cases : forall expf cls stim now add r cls', classifyD expf cls stim now add = Ok (r, cls') ->
  (if add then cls' = cls ++ [freshD stim now] \/ exists i p p', nth_error cls i = Some p /\ pd_count p' = (pd_count p + 1)%Z /\ cls' = put i p' cls else cls' = cls).
Proof.
  intros expf cls stim now add r cls' E. unfold classifyD, g_classify in E. destruct (g_calcSims _ stim cls) as [sims|]; cbn [rbind] in E; [|discriminate E]. destruct (g_classifyMax _ sims) as [[i x]|].
  - destruct add; [|injection E as <- <-; reflexivity]. destruct (idx cls i) as [p|] eqn:N; cbn [rbind] in E; [|discriminate E]. right.
    destruct (reviseD p stim now) as [p'|] eqn:R; cbn [rbind] in E; [|discriminate E]. injection E as <- <-. exists i, p, p'. split; [unfold idx in N; destruct (nth_error cls i); [now injection N as ->|discriminate N]|]. split; [|reflexivity].
    unfold reviseD in R. match type of R with rbind ?t _ = _ => destruct t; cbn [rbind] in R; [|discriminate R] end. injection R as <-. reflexivity.
  - destruct add; injection E as <- <-; auto.
Qed.
Theorem c47_evidence : forall expf steps cls cls', history (classifyD expf) steps cls = Ok cls' -> counts cls' = (counts cls + Z.of_nat (learnedBy steps))%Z.
Proof.
  intros expf steps. assert (Ap : forall l1 l2, counts (l1 ++ l2) = (counts l1 + counts l2)%Z) by (induction l1; intros; cbn [app counts]; auto; rewrite IHl1; lia).
  assert (Pu : forall l i p p', nth_error l i = Some p -> counts (put i p' l) = (counts l + pd_count p' - pd_count p)%Z).
  { induction l as [|a l IH]; intros [|i] p p' E; cbn in E; try discriminate E.
    - injection E as <-. cbn [put counts]. lia.
    - cbn [put counts]. rewrite (IH _ _ p' E). lia. }
  unfold history, learnedBy. induction steps as [|[[s now] add] steps IH]; intros cls cls' H; cbn [rfold filter snd length] in *; [injection H as <-; cbn; lia|].
  destruct (classifyD expf cls s now add) as [[r c]|] eqn:E; cbn [rbind] in H; [|discriminate H]. apply IH in H. rewrite H. clear H IH. apply classify_cases in E.
  destruct add; [|now subst c]. cbn [length]. destruct E as [->|(i & p & p' & N & C & ->)]; [rewrite Ap; cbn [counts freshD pd_count]; lia|]. rewrite (Pu _ _ _ _ N). lia.
Qed.
Theorem c47_evidence_each : forall expf steps cls p, history (classifyD expf) steps [] = Ok cls -> In p cls -> (1 <= pd_count p <= Z.of_nat (learnedBy steps))%Z.
Proof.
  intros expf steps cls p H I. assert (A : Forall (fun p => 1 <= pd_count p)%Z cls).
  { assert (G : forall c0, Forall (fun p => 1 <= pd_count p)%Z c0 -> history (classifyD expf) steps c0 = Ok cls -> Forall (fun p => 1 <= pd_count p)%Z cls); [|apply (G []); auto].
    clear H I. unfold history. induction steps as [|[[s now] add] steps IH]; intros c0 F H; cbn [rfold] in H; [injection H as <-; auto|].
    destruct (classifyD expf c0 s now add) as [[r c]|] eqn:E; cbn [rbind] in H; [|discriminate H]. apply (IH c); [|exact H]. clear H IH. apply classify_cases in E. destruct add; [|now subst c]. destruct E as [->|(i & q & q' & N & C & ->)].
    - apply Forall_app. split; auto. constructor; auto. cbn. lia.
    - rewrite Forall_forall in F. apply Forall_forall. intros z Hz. apply In_nth_error in Hz. destruct Hz as (k & Hk). destruct (Nat.eq_dec k i) as [-> | Ne].
      + rewrite Env_Proofs.put_same in Hk by (apply nth_error_Some; congruence). injection Hk as <-. apply nth_error_In in N. apply F in N. lia.
      + rewrite Env_Proofs.put_other in Hk by auto. apply nth_error_In in Hk. auto. }
  apply c47_evidence in H. cbn [counts] in H. rewrite Forall_forall in A. split; [now apply A|]. assert (B : forall l, (forall q, In q l -> 1 <= pd_count q)%Z -> (0 <= counts l)%Z /\ (In p l -> (pd_count p <= counts l)%Z)).
  { clear. induction l as [|a l IH]; intros A; cbn [counts]; [split; [lia|intros []]|]. destruct IH as (I1 & I2); [intros; apply A; now right|]. assert (X := A a (or_introl eq_refl)). split; [lia|]. intros [->|I]; [lia|]. apply I2 in I. lia. }
  destruct (B _ A) as (_ & B2). specialize (B2 I). lia.
Qed.
(** the similarities: in exact arithmetic the expectation of the pooled evidence of all comparisons; bit-exact from the squared distances *)
Theorem c47_sim_B : forall stim (p : protoB Q), Forall (Forall qInRange) stim -> Forall (Forall qInRange) (pb_ch p) -> length stim <= length (pb_ch p) ->
  exists s, g_simB Q_arith stim p = Ok s /\ let E := comparisons stim (pb_ch p) in (s == (positiveW E + (1 # 2)) / (totalW E + 1))%Q.
Proof. exact simB_spec. Qed.
Theorem c47_sim_D : forall expf stim p, okD p -> okStim stim -> length stim <= length (pd_ch p) ->
  simD expf stim p = Ok (expf (fmul (fold_left fadd (map (fun '(s, c) => distOf s c (f_of_Z (pd_count p))) (combine stim (pd_ch p))) f0) (fneg f05))).
Proof. exact simD_spec. Qed.
(** a stimulus that made a prototype is recognised as that prototype when shown again *)
Theorem c47_recognised_D : forall expf cls stim now cls' now', expf (S754_zero true) = f1 -> Forall finMap stim -> classifyD expf cls stim now true = Ok (Some (length cls), cls') ->
  classifyD expf cls' stim now' false = Ok (Some (length cls), cls').
Proof. exact recognisedD. Qed.
(** the same for truth values of frequency 0 or 1, in exact arithmetic *)
Theorem c47_recognised_B : forall cls stim now cls' now', Forall oneHot stim -> g_classifyB Q_arith cls stim now true = Ok (Some (length cls), cls') ->
  g_classifyB Q_arith cls' stim now' false = Ok (Some (length cls), cls').
Proof. exact recognisedB. Qed.
(** quantisation of brightness 0..1 *)
Theorem c47_quantise : forall v n, unit64 v -> (1 <= n <= 2 ^ 53)%Z -> (0 <= quantisize v n <= n - 1)%Z.
Proof. exact quantise_range. Qed.
Theorem c47_quantise_mono : forall v v' n, unit64 v -> unit64 v' -> (1 <= n <= 2 ^ 53)%Z -> fleb v v' = true -> (quantisize v n <= quantisize v' n)%Z.
Proof. exact quantise_mono. Qed.
Theorem c47_quantise_ends : forall n, (1 <= n <= 2 ^ 53)%Z -> quantisize f0 n = 0%Z /\ quantisize f1 n = (n - 1)%Z.
Proof. exact quantise_ends. Qed.
Theorem c47_vector : forall v n conf, unit64 v -> (1 <= n <= 2 ^ 53)%Z -> exists l, convToTvVec v n conf = Ok l /\ length l = Z.to_nat n /\
  forall i, (i < Z.to_nat n) -> nth_error l i = Some (mkTv (if (Z.of_nat i =? quantisize v n)%Z then f1 else f0) conf).
Proof. exact toTvVec_spec. Qed.
Theorem c47_image : forall m n conf, wfMap m -> (forall y x, within m y x -> unit64 (val f0 m y x)) -> (1 <= n <= 2 ^ 53)%Z ->
  exists l, convImgToTvVec m n conf = Ok l /\ length l = Z.to_nat (m_w m * m_h m) * Z.to_nat n.
Proof. exact imgToTvVec_spec. Qed.

Definition c9 : f64 := f_frac 9 10.
Definition after {P} (r : res (option nat * list P)) : list P := match r with Ok (_, c) => c | Panic => [] end.
Definition hot (a b : f64) : list (list tv) := [[mkTv a c9; mkTv b c9]].
(** findings: a stimulus of frequency one half is not recognised but learned again;
    a stimulus without channels counts as similar to the first prototype, and makes learning panic;
    a shorter stimulus shortens the prototype for good *)
Theorem c47_unrecognised_refuted : exists cls, classifyB [] (hot f05 f05) 0 true = Ok (Some 0, cls) /\ exists cls', classifyB cls (hot f05 f05) 1 true = Ok (Some 1, cls') /\ length cls' = 2.
Proof. eexists. split; [vm_compute; reflexivity|]. eexists. split; vm_compute; reflexivity. Qed.
Theorem c47_empty_refuted : exists cls, classifyB [] (hot f1 f0) 0 true = Ok (Some 0, cls) /\ classifyB cls [] 1 false = Ok (Some 0, cls) /\ classifyB cls [] 1 true = Panic.
Proof. eexists. split; [vm_compute; reflexivity|]. split; vm_compute; reflexivity. Qed.
Theorem c47_shorter_refuted : exists cls, classifyB [] (hot f1 f0) 0 true = Ok (Some 0, cls) /\ exists cls', classifyB cls [[mkTv f1 c9]] 1 true = Ok (Some 0, cls') /\
  map (fun p => map (@length tv) (pb_ch p)) cls = [[2]] /\ map (fun p => map (@length tv) (pb_ch p)) cls' = [[1]].
Proof.
  exists (after (classifyB [] (hot f1 f0) 0 true)). split; [vm_compute; reflexivity|].
  exists (after (classifyB (after (classifyB [] (hot f1 f0) 0 true)) [[mkTv f1 c9]] 1 true)). repeat split; vm_compute; reflexivity.
Qed.
(** brightness outside of 0..1 can panic; NaN counts as black *)
Example c47_quantise_ex : map (fun v => quantisize v 3) [f0; f_frac 49 100; f05; f_frac 99 100; f1; S754_nan] = [0; 0; 1; 1; 2; 0]%Z /\
  convToTvVec (f_frac 3 2) 3 c9 = Panic /\ convToTvVec (fneg f05) 3 c9 = Panic.
Proof. vm_compute. auto. Qed.
Example c47_B_ex : exists c1, classifyB [] (hot f1 f0) 0 true = Ok (Some 0, c1) /\ exists c2, classifyB c1 (hot f0 f1) 1 true = Ok (Some 1, c2) /\
  classifyB c2 (hot f1 f0) 2 false = Ok (Some 0, c2) /\ classifyB c2 (hot f0 f1) 3 false = Ok (Some 1, c2).
Proof.
  exists (after (classifyB [] (hot f1 f0) 0 true)). split; [vm_compute; reflexivity|].
  exists (after (classifyB (after (classifyB [] (hot f1 f0) 0 true)) (hot f0 f1) 1 true)). repeat split; vm_compute; reflexivity.
Qed.
(** with an [exp] that is 1 at 0 and small elsewhere *)
Definition expx (x : f64) : f64 := match x with S754_zero _ => f1 | _ => f_frac 1 10 end.
Example c47_D_ex : exists c1, classifyD expx [] [mkMap [f1; f0] 2 1] 0 true = Ok (Some 0, c1) /\ exists c2, classifyD expx c1 [mkMap [f0; f1] 2 1] 1 true = Ok (Some 1, c2) /\
  classifyD expx c2 [mkMap [f1; f0] 2 1] 2 false = Ok (Some 0, c2).
Proof.
  exists (after (classifyD expx [] [mkMap [f1; f0] 2 1] 0 true)). split; [vm_compute; reflexivity|].
  exists (after (classifyD expx (after (classifyD expx [] [mkMap [f1; f0] 2 1] 0 true)) [mkMap [f0; f1] 2 1] 1 true)). split; vm_compute; reflexivity.
Qed.

Example c47_evidence_ex : exists cls, history (classifyD expx) [([mkMap [f1; f0] 2 1], 0%Z, true); ([mkMap [f0; f1] 2 1], 1%Z, true); ([mkMap [f1; f0] 2 1], 2%Z, false); ([mkMap [f1; f0] 2 1], 3%Z, true)] [] = Ok cls /\
  map pd_count cls = [2%Z; 1%Z].
Proof. eexists. split; vm_compute; reflexivity. Qed.
Print Assumptions c47_max.
Print Assumptions c47_B.
Print Assumptions c47_B_panic.
Print Assumptions c47_D.
Print Assumptions c47_index.
Print Assumptions c47_history_B.
Print Assumptions c47_no_panic_B.
Print Assumptions c47_history_D.
Print Assumptions c47_sim_B.
Print Assumptions c47_sim_D.
Print Assumptions c47_recognised_D.
Print Assumptions c47_recognised_B.
Print Assumptions c47_quantise.
Print Assumptions c47_quantise_mono.
Print Assumptions c47_quantise_ends.
Print Assumptions c47_vector.
Print Assumptions c47_image.
Print Assumptions c47_unrecognised_refuted.
Print Assumptions c47_empty_refuted.
Print Assumptions c47_shorter_refuted.
Print Assumptions c47_evidence.
Print Assumptions c47_evidence_each.
