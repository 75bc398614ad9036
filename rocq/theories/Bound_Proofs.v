(** Proofs about what the program keeps in mind. *)
From Coq Require Import String Ascii ZArith Bool List Lia.
From Verif Require Import Base F64_Model Term_Model Stamp_Model Tv_Model Sentence_Model Mem_Model Cycle_Model Sched_Model
  PMem_Model Goal_Model Proc_Model ProcS_Model ProcX_Model Parser_Model Nar_Model Whole_Model
  Goal_Proofs ProcB_Proofs Whole3_Proofs Bound_Spec.
Import ListNotations.
Local Open Scope list_scope.
Local Open Scope Z_scope.

(** * Lists of predictions *)
(** the one with [k] others behind it ends at the latest [k] before [B] *)
Fixpoint spaced (B : Z) (l : list (nat * Z)) : Prop :=
  match l with [] => True | x :: l' => snd x <= B - Z.of_nat (length l') /\ spaced B l' end.
Lemma spaced_filter : forall B f l, spaced B l -> spaced B (filter f l) /\ (length (filter f l) <= length l)%nat.
Proof.
  intros B f. induction l as [|x l IH]; intros S; cbn [filter]; [split; [exact I|lia]|]. destruct S as (A & S). destruct (IH S) as (I1 & I2). destruct (f x); cbn [spaced length]; (split; [|lia]); auto. split; [lia|auto].
Qed.
Lemma spaced_snoc : forall B l x, spaced B l -> snd x <= B + 1 -> spaced (B + 1) (l ++ [x]).
Proof.
  intros B. induction l as [|y l IH]; intros x S H; cbn [app spaced length] in *; [split; [lia|exact I]|]. destruct S as (A & S). rewrite app_length. cbn [length]. split; [lia|auto].
Qed.
Lemma spaced_more : forall B B' l, B <= B' -> spaced B l -> spaced B' l.
Proof. intros B B'. induction l as [|y l IH]; intros L S; cbn [spaced] in *; [exact I|]. destruct S. split; [lia|auto]. Qed.
Lemma spaced_length : forall B t l, spaced B l -> (forall x, In x l -> t <= snd x) -> l <> [] -> Z.of_nat (length l) <= B - t + 1.
Proof. intros B t [|x l] S H N; [now elim N|]. destruct S as (A & _). assert (X := H x (or_introl eq_refl)). cbn [length]. lia. Qed.
Lemma confirm_sub : forall B n ant, confirm n = Ok ant -> spaced B (n_ant n) -> spaced B ant /\ incl ant (n_ant n).
Proof.
  intros B n ant H S. unfold confirm in H. refine (rfold_ind _ _ _ (fun l => spaced B l /\ incl l (n_ant n)) _ _ _ _ (conj S (incl_refl _)) H).
  intros l i l' (A & I) _ E. destruct (recent (n_trace n) i) as [e|]; [|injection E as <-; auto]. apply rfilter_ok in E. destruct E as (_ & ->). split; [now apply spaced_filter|].
  intros x Hx. apply I. apply filter_In in Hx. tauto.
Qed.

(** * One step of the procedural part *)
Lemma exec_ant : forall n n' o, execGoal n = Ok (n', o) -> n_cfg n' = n_cfg n /\ n_t n' = n_t n /\ n_table n' = n_table n /\ (n_ant n' = n_ant n \/ exists a z, In z (n_table n) /\ n_ant n' = n_ant n ++ [(a, n_t n + z)]).
Proof.
  intros n n' o H. unfold execGoal in H. destruct (pickGoal _ _) as [[[i e]|]|]; cbn [rbind] in H; [| |discriminate].
  - destruct (e_evi e) as [evi|]; [|injection H as <- <-; auto]. destruct (decodeOp _); [|injection H as <- <-; auto]. destruct (idxZ (n_table n) _) as [z|] eqn:Z; cbn [rbind] in H; [|discriminate].
    injection H as <- _. apply idxZ_ok in Z. destruct Z as (_ & Z). apply nth_error_In in Z. destruct (c_anticipate (n_cfg n)); cbn; (split; [reflexivity|]; split; [reflexivity|]; split; [reflexivity|]); [right; eauto|now left].
  - injection H as <- <-. auto.
Qed.
Lemma decide_ant : forall n d u b n', decide n d u b = Ok n' -> n_cfg n' = n_cfg n /\ n_t n' = n_t n /\ n_table n' = n_table n /\ n_ant n' = n_ant n /\ n_trace n' = n_trace n.
Proof.
  intros n d u b n' H. unfold decide in H. destruct b as [[sq exp [evi|]]|]; [|injection H as <-; auto|injection H as <-; auto]. destruct (fgtb exp _); [|injection H as <-; auto].
  repeat (match type of H with rbind ?x _ = _ => destruct x; cbn [rbind] in H; [|discriminate] end). injection H as <-. auto.
Qed.
Lemma action_ant : forall n o n', execAction n o = Ok n' -> n_cfg n' = n_cfg n /\ n_t n' = n_t n /\ n_table n' = n_table n /\ n_ant n' = n_ant n.
Proof.
  intros n o n' H. unfold execAction in H. destruct o as [t|]; [|injection H as <-; auto]. destruct (unwrap _) as [dec|]; cbn [rbind] in H; [|discriminate]. destruct (ret_op_by_name _ _); [|injection H as <-; auto].
  destruct (convTermToStr t); cbn [rbind] in H; [|discriminate]. injection H as <-. auto.
Qed.
Lemma step1_ant : forall n d r n', narStep1 n d r = Ok n' ->
  n_cfg n' = n_cfg n /\ n_t n' = n_t n + 1 /\ n_table n' = n_table n /\ (n_ant n' = n_ant n \/ exists a z, In z (n_table n) /\ n_ant n' = n_ant n ++ [(a, n_t n + z)]) /\ (length (n_trace n') <= 20)%nat.
Proof.
  intros n d r n' H. unfold narStep1 in H. destruct (bestByState n) as [b0|]; cbn [rbind] in H; [|discriminate]. destruct (planForward _ _ _ _) as [b1|]; cbn [rbind] in H; [|discriminate].
  destruct (decide n d (i_u r) b1) as [n1|] eqn:D; cbn [rbind] in H; [|discriminate]. apply decide_ant in D. destruct D as (D0 & D1 & D2 & D3 & _).
  destruct (execGoal n1) as [[n2 o]|] eqn:E; cbn [rbind] in H; [|discriminate]. apply exec_ant in E. destruct E as (E0 & E1 & E2 & E3). rewrite D0, D1, D2, D3 in *.
  destruct (babble n2 _ o) as [o'|]; cbn [rbind] in H; [|discriminate]. destruct (execAction n2 o') as [n3|] eqn:X; cbn [rbind] in H; [|discriminate]. apply action_ant in X. destruct X as (X0 & X1 & X2 & X3).
  cbv zeta in H. set (n4 := setTrace n3 (traceLimit (n_trace n3))) in *.
  assert (F4 : n_cfg n4 = n_cfg n /\ n_t n4 = n_t n /\ n_table n4 = n_table n /\ n_ant n4 = n_ant n2 /\ (length (n_trace n4) <= 20)%nat).
  { unfold n4. cbn [n_cfg n_t n_table n_ant n_trace setTrace]. split; [congruence|]. split; [congruence|]. split; [congruence|]. split; [congruence|]. unfold traceLimit. destruct (Nat.ltb_spec 20 (length (n_trace n3))); [rewrite skipn_length|]; lia. }
  clearbody n4. clear X0 X1 X2 X3.
  destruct (if Z.rem (n_t n4) 101 =? 1 then _ else _) as [n5|] eqn:Y; cbn [rbind] in H; [|discriminate].
  assert (F5 : n_cfg n5 = n_cfg n /\ n_t n5 = n_t n /\ n_table n5 = n_table n /\ n_ant n5 = n_ant n2 /\ (length (n_trace n5) <= 20)%nat).
  { destruct (Z.rem (n_t n4) 101 =? 1); [|injection Y as <-; exact F4]. destruct (pLimit _ _); cbn [rbind] in Y; [|discriminate]. injection Y as <-. exact F4. }
  clear Y F4. destruct (if Z.rem (n_t n5) 13 =? 1 then _ else _) as [n6|] eqn:Y; cbn [rbind] in H; [|discriminate].
  assert (F6 : n_cfg n6 = n_cfg n /\ n_t n6 = n_t n /\ n_table n6 = n_table n /\ n_ant n6 = n_ant n2 /\ (length (n_trace n6) <= 20)%nat).
  { destruct (Z.rem (n_t n5) 13 =? 1); [|injection Y as <-; exact F5]. destruct (enforce d); cbn [rbind] in Y; [|discriminate]. destruct (limitGoals _ _ _); cbn [rbind] in Y; [|discriminate]. injection Y as <-. exact F5. }
  clear Y F5. destruct (rfold _ _ _) as [g|]; cbn [rbind] in H; [|discriminate]. injection H as <-. destruct F6 as (K & A & B & C & L). cbn [n_cfg n_t n_table n_ant n_trace setTime setGoals]. split; [exact K|]. split; [lia|]. split; [exact B|]. rewrite C. split; [exact E3|exact L].
Qed.

Lemma rmapM_length : forall A B (f : A -> res B) l l', rmapM f l = Ok l' -> length l' = length l.
Proof.
  intros A B f. induction l as [|a l IH]; intros l' H; cbn [rmapM] in H; [injection H as <-; reflexivity|]. destruct (f a); cbn [rbind] in H; [|discriminate]. destruct (rmapM f l) as [l2|]; cbn [rbind] in H; [|discriminate]. injection H as <-. cbn [length]. now rewrite (IH l2).
Qed.
Lemma somes_length : forall A (l : list (option A)), (length (somes l) <= length l)%nat.
Proof.
  intros A. induction l as [|[x|] l IH]; [cbn; lia| |].
  - change (somes (Some x :: l)) with (x :: somes l). cbn [length]. lia.
  - change (somes (None :: l)) with (somes l). cbn [length]. lia.
Qed.
Lemma trace_msgs : forall n rs g ms, traceStep n rs = Ok (g, ms) -> (length ms <= c_samples (n_cfg n))%nat.
Proof.
  intros n rs g ms H. unfold traceStep in H. cbv zeta in H. destruct (Nat.leb _ _); [|injection H as _ <-; cbn; lia]. destruct (rmapM _ _) as [os|] eqn:E; cbn [rbind] in H; [|discriminate]. injection H as _ <-.
  apply rmapM_length in E. rewrite seq_length in E. rewrite map_length. assert (X := somes_length _ os). lia.
Qed.

(** * Whole program *)
Definition isStep (j : job) : bool := match j with JStep0 => true | JStep1 _ => true | _ => false end.
Definition noStep (l : list job) : Prop := Forall (fun j => isStep j = false) l.
(** the second half of a step comes next, or not *)
Inductive turn : list job -> bool -> Prop :=
| tn_whole : forall r, turn [JStep0; JStep1 r] false
| tn_half : forall r, turn [JStep1 r] true
| tn_none : forall l, noStep l -> turn l false.

Section Bounds.
Variable M : Z.
Variable K : nat.
Hypothesis M0 : 0 <= M.
Record pBound (d : bool) (y : psys) : Prop := mkPB {
  pb_cfg : c_samples (n_cfg (y_nar y)) = K;
  pb_tab : forall z, In z (n_table (y_nar y)) -> 1 <= z <= M;
  pb_sp : spaced (n_t (y_nar y) - 1 + M) (n_ant (y_nar y));
  pb_late : forall x, In x (n_ant (y_nar y)) -> n_t (y_nar y) + (if d then 1 else 0) <= snd x;
  pb_neg : match y_main y with MNeg l => Z.of_nat (length l) <= M | MSend l => (length l <= K)%nat | _ => True end;
  pb_chan : (length (y_chan y) <= 4)%nat
}.
(** what leaves the clock alone *)
Lemma act_bound : forall us d y a y', pBound d y -> a <> XStep0 -> (forall b r, a <> XStep1 b r) -> yact us y a = Ok (Some y') -> pBound d y'.
Proof.
  intros us d [n p c w] a y' P N0 N1 H. destruct P as [P1 P2 P3 P4 P5 P6]. cbn [y_nar y_main y_chan] in *. cbn [yact] in H.
  destruct a as [e|s|t id u draws| |b r|nB rs|draws]; try (now elim N0); try (now elim (N1 b r)).
  - destruct p; try discriminate. injection H as <-. constructor; auto.
  - destruct p; try discriminate. destruct (addEntry _ _ _ _ _); cbn [rbind] in H; [|discriminate]. injection H as <-. constructor; auto.
  - destruct p; try discriminate. destruct (matchandintro_var1_sentence _ _); cbn [rbind] in H; [|discriminate]. injection H as <-. constructor; auto.
  - destruct p as [|l|l|now l]; [discriminate|..]; destruct l as [|x l].
    + destruct (traceStep n rs) as [[g ms]|] eqn:T; cbn [rbind] in H; [|discriminate]. injection H as <-. apply trace_msgs in T. constructor; auto. cbn [y_main]. now rewrite <- P1.
    + destruct (negConfirm _ _); cbn [rbind] in H; [|discriminate]. injection H as <-. constructor; auto. cbn [y_main length] in *. lia.
    + injection H as <-. constructor; auto. exact I.
    + destruct (Nat.ltb_spec (length c) chanCap) as [L|L]; [|discriminate]. injection H as <-. constructor; auto; cbn [y_main y_chan length] in *; [lia|]. rewrite app_length. cbn [length]. unfold chanCap in L. lia.
    + injection H as <-. constructor; auto.
    + destruct (mem_add_evidence_internal _ _ _ _ _); cbn [rbind] in H; [|discriminate]. injection H as <-. constructor; auto.
  - assert (X : exists n' c' w', y' = mkPsys n' p c' w' /\ n_cfg n' = n_cfg n /\ n_table n' = n_table n /\ n_t n' = n_t n /\ n_ant n' = n_ant n /\ (length c' <= length c)%nat).
    { destruct w as [|s now l rv|now l].
      - destruct c as [|[s now] c]; [discriminate|]. destruct (mergeTargets _ _); cbn [rbind] in H; [|discriminate]. injection H as <-. do 3 eexists. split; [reflexivity|]. cbn [length]. repeat split. lia.
      - destruct l as [|x l]; [destruct rv|].
        + injection H as <-. do 3 eexists. split; [reflexivity|]. repeat split. lia.
        + destruct (matchandintro_var1_sentence _ _); cbn [rbind] in H; [|discriminate]. injection H as <-. do 3 eexists. split; [reflexivity|]. repeat split. lia.
        + destruct (mergeInto _ _ _) as [[h b]|]; cbn [rbind] in H; [|discriminate]. injection H as <-. do 3 eexists. split; [reflexivity|]. repeat split. lia.
      - destruct l as [|x l]; [injection H as <-|destruct (mem_add_evidence_internal _ _ _ _ _); cbn [rbind] in H; [|discriminate]; injection H as <-]; (do 3 eexists; split; [reflexivity|]; repeat split; lia). }
    destruct X as (n' & c' & w' & -> & E1 & E2 & E3 & E4 & L). constructor; cbn [y_nar y_main y_chan]; rewrite ?E1, ?E2, ?E3, ?E4; auto. lia.
Qed.
Lemma step0_bound : forall us y y', pBound false y -> yact us y XStep0 = Ok (Some y') -> pBound true y'.
Proof.
  intros us [n p c w] y' [P1 P2 P3 P4 P5 P6] H. cbn [y_nar y_main y_chan] in *. cbn [yact] in H. destruct p; try discriminate. destruct (confirm n) as [ant|] eqn:C; cbn [rbind] in H; [|discriminate]. injection H as <-.
  destruct (confirm_sub _ _ _ C P3) as (S & I0). constructor; cbn [y_nar y_main y_chan n_cfg n_table n_t n_ant setAnt]; auto.
  - now apply spaced_filter.
  - intros x Hx. apply filter_In in Hx. destruct Hx as (_ & Hx). apply Z.gtb_lt in Hx. lia.
  - set (l := filter (fun a => snd a <=? n_t n) ant). destruct l as [|x l'] eqn:E; [cbn; lia|]. rewrite <- E.
    assert (Z.of_nat (length l) <= n_t n - 1 + M - n_t n + 1); [|lia]. apply spaced_length; [now apply spaced_filter| |congruence].
    intros z Hz. unfold l in Hz. apply filter_In in Hz. destruct Hz as (Hz & _). apply I0, P4 in Hz. lia.
Qed.
Lemma step1_bound : forall us y b r y', pBound true y -> yact us y (XStep1 b r) = Ok (Some y') -> pBound false y'.
Proof.
  intros us [n p c w] b r y' [P1 P2 P3 P4 P5 P6] H. cbn [y_nar y_main y_chan] in *. cbn [yact] in H. destruct p; try discriminate. destruct (narStep1 n b r) as [n'|] eqn:E; cbn [rbind] in H; [|discriminate]. injection H as <-.
  apply step1_ant in E. destruct E as (E1 & E2 & E3 & E4 & _). constructor; cbn [y_nar y_main y_chan]; rewrite ?E1, ?E2, ?E3; auto.
  - replace (n_t n + 1 - 1 + M) with (n_t n - 1 + M + 1) by lia. destruct E4 as [->|(a & z & Hz & ->)]; [apply (spaced_more (n_t n - 1 + M)); [lia|auto]|]. apply P2 in Hz. apply spaced_snoc; auto. cbn. lia.
  - intros x Hx. destruct E4 as [E4|(a & z & Hz & E4)]; rewrite E4 in Hx; [apply P4 in Hx; lia|]. apply in_app_iff in Hx. destruct Hx as [Hx|[<-|[]]]; [apply P4 in Hx; lia|]. apply P2 in Hz. cbn. lia.
Qed.
Definition wBound (w : whole) : Prop :=
  exists d, turn (w_jobs w) d /\ pBound d (w_proc w) /\ (length (y_queue (w_decl w)) <= 4)%nat.
Lemma exec_queue : forall maxC nB c st st', exec maxC nB c st = Ok (Some st') -> (length (y_queue st) <= 4)%nat -> (length (y_queue st') <= 4)%nat.
Proof.
  intros maxC nB c st st' H L. destruct c as [i o|i|]; cbn [exec] in H.
  - destruct (nth_error _ i) as [[| |]|]; try discriminate. destruct (opStart _ _ _). injection H as <-. exact L.
  - destruct (nth_error _ i) as [p|]; [|discriminate]. destruct (cliStep p _ _) as [[[[[sh qu] ans] p']|]|] eqn:E; cbn [rbind] in H; try discriminate. injection H as <-. cbn [y_queue].
    assert (X : qu = y_queue st \/ (length (y_queue st) < 4)%nat /\ exists m, qu = y_queue st ++ [m]).
    { unfold cliStep in E. destruct p as [|x f|y f]; [discriminate| |].
      - destruct (addStep _ _ _) as [[? ?]|]; cbn [rbind] in E; [|discriminate]. injection E as _ <- _ _. now left.
      - destruct (cycStep y f _ _) as [[[[[sh1 qu1] ans1] f1]|]|] eqn:C; cbn [rbind] in E; try discriminate. injection E as _ <- _ _.
        destruct f; cbn [cycStep] in C; repeat match type of C with
          | rbind ?x _ = _ => destruct x; cbn [rbind] in C; try discriminate C
          | context [match ?x with _ => _ end] => let e := fresh in destruct x eqn:e; cbn [rbind] in C; try discriminate C
          end; try (injection C as _ <- _ _); auto.
        right. split; [apply Nat.ltb_lt; assumption|eauto]. }
    destruct X as [->|(X & m & ->)]; [exact L|]. rewrite app_length. cbn [length]. lia.
  - destruct (workStep _ _ _ _ _) as [[[[[sh qu] ans] p']|]|] eqn:E; cbn [rbind] in H; try discriminate. injection H as <-. cbn [y_queue].
    assert (X : (length qu <= length (y_queue st))%nat); [|lia]. unfold workStep in E. destruct (y_worker st) as [|m|m cs todo|m cs|m x f cs].
    + destruct (y_queue st); [discriminate|]. injection E as _ <- _ _. cbn [length]. lia.
    + destruct (derive _ _); cbn [rbind] in E; [|discriminate]. injection E as _ <- _ _. lia.
    + destruct todo as [|c todo]; [injection E as _ <- _ _; lia|]. destruct (punct_eqb _ _); [|injection E as _ <- _ _; lia]. destruct (qaTryQuestions _ _); cbn [rbind] in E; [|discriminate]. injection E as _ <- _ _. lia.
    + destruct cs; injection E as _ <- _ _; lia.
    + destruct (addStep _ _ _); cbn [rbind] in E; [|discriminate]. injection E as _ <- _ _. lia.
Qed.
Lemma decl_bound : forall maxC w c w' d, declStep maxC w c = Ok (Some w') -> pBound d (w_proc w) -> (length (y_queue (w_decl w)) <= 4)%nat ->
  w_jobs w' = w_jobs w /\ pBound d (w_proc w') /\ (length (y_queue (w_decl w')) <= 4)%nat.
Proof.
  intros maxC w c w' d H P L. apply decl_inv in H. destruct H as (s & E & ->). split; [reflexivity|]. split; [exact P|]. apply exec_queue in E; [exact E|]. destruct (seen_parts w) as (-> & _). exact L.
Qed.
Lemma proc_bound : forall w a w' d, procStep w a = Ok (Some w') -> a <> XStep0 -> (forall b r, a <> XStep1 b r) -> pBound d (w_proc w) -> (length (y_queue (w_decl w)) <= 4)%nat ->
  w_jobs w' = w_jobs w /\ pBound d (w_proc w') /\ (length (y_queue (w_decl w')) <= 4)%nat.
Proof.
  intros w a w' d H N0 N1 P L. apply proc_inv in H. destruct H as (y & E & ->). split; [reflexivity|]. split; [|exact L]. exact (act_bound _ d _ _ _ P N0 N1 E).
Qed.
Lemma put_bound : forall w t p v ev draws w' d, putIn w t p v ev draws = Ok (Some w') -> pBound d (w_proc w) -> (length (y_queue (w_decl w)) <= 4)%nat ->
  w_jobs w' = w_jobs w /\ pBound d (w_proc w') /\ (length (y_queue (w_decl w')) <= 4)%nat.
Proof.
  intros w t p v ev draws w' d H P L. unfold putIn in H. destruct (takeId _) as [[id u] sh]. set (w1 := wDecl w (withSh (w_decl w) sh)) in *.
  assert (J : w_jobs w1 = w_jobs w) by reflexivity. assert (P1 : pBound d (w_proc w1)) by exact P. assert (L1 : (length (y_queue (w_decl w1)) <= 4)%nat) by exact L. rewrite <- J. clearbody w1. clear J P L. cbv zeta in H.
  destruct (if w_verb w1 >=? 1 then _ else _) as [[]|]; [|discriminate]. cbn [rbind] in H.
  assert (S : Ok (Some w1) = Ok (Some w') -> w_jobs w' = w_jobs w1 /\ pBound d (w_proc w') /\ (length (y_queue (w_decl w')) <= 4)%nat) by (intros E; injection E as <-; auto).
  destruct ev; [destruct p|destruct (isTemporal t); destruct p]; try (apply S; exact H); try (apply (decl_bound _ _ _ _ d) in H; auto; fail); try (apply (proc_bound _ _ _ d) in H; auto; discriminate).
Qed.
Variable pf : text -> option f64.
(** every job but the two halves of a step *)
Lemma job_bound : forall w j w' d, isStep j = false -> startJob pf w j = Ok (Some w') -> pBound d (w_proc w) -> (length (y_queue (w_decl w)) <= 4)%nat ->
  w_jobs w' = w_jobs w /\ pBound d (w_proc w') /\ (length (y_queue (w_decl w')) <= 4)%nat.
Proof.
  intros w j w' d N H P L. assert (S : Ok (Some w) = Ok (Some w') -> w_jobs w' = w_jobs w /\ pBound d (w_proc w') /\ (length (y_queue (w_decl w')) <= 4)%nat) by (intros E; injection E as <-; auto).
  destruct j as [i draws| |r|t args|expf sel| |o|b| | |]; try discriminate N; cbn [startJob] in H.
  - destruct (parseNarsese pf i) as [[[[[t v] p] ev]|]|]; cbn [rbind] in H; [| |discriminate]; [|now apply S]. apply (put_bound _ _ _ _ _ _ _ d) in H; auto.
  - destruct args as [|x [|rel [|y l]]]; try (apply S; exact H). destruct (rewriteRel rel) as [rel'|]; [|discriminate]. cbn [rbind] in H. destruct (convTermToStr rel); [|discriminate]. cbn [rbind] in H. destruct (convTermToStr rel'); [|discriminate]. cbn [rbind] in H.
    destruct (takeId _) as [[id u] sh]. apply (decl_bound _ _ _ _ d) in H; auto.
  - apply (decl_bound _ _ _ _ d) in H; auto.
  - apply (decl_bound _ _ _ _ d) in H; auto.
  - destruct (w_proc w) as [n p c k] eqn:E. injection H as <-. split; [reflexivity|]. split; [|exact L]. destruct P. constructor; auto.
  - destruct (w_proc w) as [n p c k] eqn:E. injection H as <-. split; [reflexivity|]. split; [|exact L]. destruct P. constructor; auto.
  - destruct (debugEvidence _); [|discriminate]. cbn [rbind] in H. now apply S.
  - destruct (debugTasks _); [|discriminate]. cbn [rbind] in H. now apply S.
  - injection H as <-. split; [reflexivity|]. split; [exact P|exact L].
Qed.
Lemma line_turn : forall line r l, lineJobs line r = Ok l -> turn l false.
Proof.
  intros line r l H. assert (One : forall j, isStep j = false -> turn [j] false) by (intros j E; apply tn_none; constructor; auto; constructor). assert (No : turn [] false) by (apply tn_none; constructor).
  assert (Mp : forall A (f : A -> job) x, (forall a, isStep (f a) = false) -> turn (map f x) false).
  { intros A f x E. apply tn_none. apply Forall_forall. intros j Hj. apply in_map_iff in Hj. destruct Hj as (a & <- & _). apply E. }
  unfold lineJobs in H. cbv zeta in H. set (i := trimNewline line) in *. clearbody i.
  destruct (beginsWith (tx "//") i) as [[]|]; cbn [rbind] in H; [injection H as <-; exact No| |discriminate].
  destruct (beginsWith (tx "!sp") i) as [[]|]; cbn [rbind] in H; [injection H as <-; constructor| |discriminate].
  destruct (beginsWith (tx "!s") i) as [[]|]; cbn [rbind] in H; [| |discriminate].
  { destruct (if Nat.ltb 2 (length i) then _ else _) as [n|]; cbn [rbind] in H; [|discriminate]. injection H as <-. now apply Mp. }
  destruct (text_eqb i (tx "!dtf")); [injection H as <-; now apply One|].
  destruct (beginsWith (tx "!por ") i) as [[]|]; cbn [rbind] in H; [| |discriminate].
  { destruct (registered _) as [o|]; injection H as <-; [now apply One|exact No]. }
  destruct (text_eqb i (tx "!pse")); [injection H as <-; now apply One|].
  destruct (text_eqb i (tx "!peb 0")); [injection H as <-; now apply One|].
  destruct (text_eqb i (tx "!peb 1")); [injection H as <-; now apply One|].
  destruct (if Nat.ltb 6 (length i) then _ else _) as [[]|]; cbn [rbind] in H; [| |discriminate].
  { destruct (ln_net r _) as [ts|]; cbn [rbind] in H; [|discriminate]. injection H as <-. now apply Mp. }
  destruct (text_eqb i (tx "!dt")); [injection H as <-; now apply One|].
  destruct (text_eqb i (tx "!dmd")); [injection H as <-; exact No|].
  destruct (text_eqb i (tx "!QQ")); [injection H as <-; now apply One|].
  destruct (text_eqb i []); injection H as <-; [exact No|now apply One].
Qed.
Lemma step_bound : forall a w w', wBound w -> wstep pf a w = Ok (Some w') -> wBound w'.
Proof.
  intros a w w' (d & T & P & L) H.
  assert (Dc : forall c, declStep (w_maxC w) w c = Ok (Some w') -> wBound w').
  { intros c E. apply (decl_bound _ _ _ _ d) in E; auto. destruct E as (J & E). exists d. rewrite J. auto. }
  assert (Pr : forall x, x <> XStep0 -> (forall b r, x <> XStep1 b r) -> procStep w x = Ok (Some w') -> wBound w').
  { intros x N0 N1 E. apply (proc_bound _ _ _ d) in E; auto. destruct E as (J & E). exists d. rewrite J. auto. }
  destruct a as [line r|rs| |draws]; cbn [wstep] in H.
  - destruct (mainFree w); [|discriminate]. destruct (w_jobs w) as [|j l] eqn:J; [|discriminate]. destruct (w_quit w); [discriminate|]. destruct (lineJobs line r) as [l|] eqn:E; cbn [rbind] in H; [|discriminate]. injection H as <-.
    exists false. split; [now apply line_turn in E|]. split; [|exact L]. inversion T; subst; auto.
  - destruct (y_main (w_proc w)) eqn:Em; try (eapply Pr; [| |exact H]; discriminate). destruct (y_clients (w_decl w)) as [|[|x f|y p] cs]; try (eapply Dc; exact H).
    destruct (w_jobs w) as [|j l] eqn:J; [discriminate|]. inversion T as [r E1|r E1|l0 Ns E1]; subst.
    + cbn [startJob] in H. apply proc_inv in H. destruct H as (y & E & ->). exists true. split; [constructor|]. split; [|exact L]. cbn [w_proc wProc]. exact (step0_bound _ _ _ P E).
    + cbn [startJob] in H. destruct (nlpOf _ _) as [calls|]; cbn [rbind] in H; [|discriminate]. destruct (procStep _ _) as [[w1|]|] eqn:E; cbn [rbind] in H; try discriminate. injection H as <-.
      apply proc_inv in E. destruct E as (y & E & ->). exists false. split; [|split; [|exact L]].
      * apply tn_none. cbn [w_jobs wJobs wProc]. rewrite app_nil_r. apply Forall_forall. intros j Hj. apply in_map_iff in Hj. destruct Hj as (x & <- & _). reflexivity.
      * cbn [w_proc wProc wJobs]. exact (step1_bound _ _ _ _ _ P E).
    + inversion Ns as [|? ? Nj Nl]; subst. apply (job_bound _ _ _ false Nj) in H; auto. destruct H as (J' & H). exists false. rewrite J'. split; [now apply tn_none|exact H].
  - eapply Dc; exact H.
  - eapply Pr; [| |exact H]; discriminate.
Qed.
Lemma run_bound : forall acts w w', wBound w -> wrun pf acts w = Ok w' -> wBound w'.
Proof.
  induction acts as [|a acts IH]; intros w w' B H; cbn [wrun] in H; [injection H as <-; exact B|]. destruct (wstep pf a w) as [[w1|]|] eqn:S; cbn [rbind] in H; [| |discriminate].
  - apply (IH w1); auto. exact (step_bound _ _ _ B S).
  - exact (IH _ _ B H).
Qed.
End Bounds.
Lemma spaced_in : forall B l x, spaced B l -> In x l -> snd x <= B.
Proof. intros B. induction l as [|y l IH]; intros x S H; [destruct H|]. destruct S as (A & S). destruct H as [->|H]; [lia|auto]. Qed.
Lemma fresh_bound : forall M pf acts p verb nB maxC wired w, 0 <= M -> freshIntervals M p -> wrun pf acts (wholeMake p verb nB maxC wired) = Ok w -> wBound M (c_samples (n_cfg p)) w.
Proof.
  intros M pf acts p verb nB maxC wired w M0 (cfg & ops & tab & nMax & depth & -> & T) H. refine (run_bound M _ M0 pf acts _ w _ H).
  exists false. split; [apply tn_none; constructor|]. split; [|cbn; lia]. constructor; cbn; auto; try lia.
Qed.
Lemma waits : forall M pf acts p verb nB maxC wired w, 0 <= M -> freshIntervals M p -> wrun pf acts (wholeMake p verb nB maxC wired) = Ok w ->
  Z.of_nat (waitedFor w) <= M /\ (forall a d, In (a, d) (n_ant (y_nar (w_proc w))) -> n_t (y_nar (w_proc w)) <= d < n_t (y_nar (w_proc w)) + M) /\
  Z.of_nat (beingCounted w) <= M /\ (toSend w <= c_samples (n_cfg p))%nat /\ (toStorage w <= 4)%nat /\ (toDeriver w <= 4)%nat.
Proof.
  intros M pf acts p verb nB maxC wired w M0 F H. destruct (fresh_bound _ _ _ _ _ _ _ _ _ M0 F H) as (d & _ & [P1 P2 P3 P4 P5 P6] & L).
  assert (G : forall x, In x (n_ant (y_nar (w_proc w))) -> n_t (y_nar (w_proc w)) <= snd x) by (intros x Hx; apply P4 in Hx; destruct d; lia).
  split; [|split; [|split; [|split; [|split; [exact P6|exact L]]]]].
  - unfold waitedFor. destruct (n_ant (y_nar (w_proc w))) as [|x l] eqn:E; [cbn; lia|]. rewrite <- E in *. assert (X := spaced_length _ _ _ P3 G). rewrite E in X at 1. specialize (X ltac:(discriminate)). rewrite E in *. lia.
  - intros a z Hz. assert (X := spaced_in _ _ _ P3 Hz). assert (Y := G _ Hz). cbn [snd] in *. lia.
  - unfold beingCounted. destruct (y_main (w_proc w)); cbn; auto; try lia.
  - unfold toSend. destruct (y_main (w_proc w)); cbn; auto; try lia.
Qed.
