(** The epochs of the training of the language network. *)
From Coq Require Import ZArith Lia String Ascii List Bool.
From Verif Require Import Base F64_Model Tv_Model Parser_Model Nar_Model Ad_Model Nlp_Model Nlp_Spec Nlp_Proofs Nlp2_Proofs Nlp4_Proofs.
Import ListNotations.
Local Open Scope nat_scope.

Lemma genint_iff : forall sn v m r, rng_genint sn v m = Ok r <->
  0 < m /\ (draw sn v m r /\ ((0 <= 1383462957253 + v * 1337 + sn v)%Z \/ r = 0)).
Proof.
  intros sn v m r. unfold rng_genint, draw. destruct (Nat.eqb_spec m 0) as [->|M]; [split; [discriminate|lia]|].
  set (z := (1383462957253 + v * 1337 + sn v)%Z). clearbody z. set (M' := Z.of_nat m). assert (PM : (0 < M')%Z) by lia.
  destruct (Z_le_gt_dec 0 z) as [Hz|Hz].
  - assert (E : Z.rem z M' = (z mod M')%Z) by (apply Z.rem_mod_nonneg; lia). assert (B := Z.mod_pos_bound z M' PM). rewrite E.
    destruct (Z.ltb_spec (z mod M') 0); [lia|]. split; [intros [= <-]; lia|]. intros (_ & (_ & H1) & _). f_equal. lia.
  - assert (B : (Z.rem z M' <= 0)%Z) by (apply Z.rem_nonpos; lia). assert (Q := Z.quot_rem' z M').
    destruct (Z.ltb_spec (Z.rem z M') 0).
    + split; [discriminate|]. intros (_ & (H1 & H2) & [?| ->]); [lia|]. exfalso. apply eq_sym in H2. simpl in H2.
      apply Z.mod_divide in H2; [|lia]. destruct H2 as (q & ->). rewrite Z.rem_mul in H; lia.
    + assert (E : Z.rem z M' = 0%Z) by lia. rewrite E in *. assert (Md : (z mod M' = 0)%Z) by (rewrite Q, Z.add_0_r, Z.mul_comm; apply Z.mod_mul; lia).
      rewrite Md. simpl. split; [intros [= <-]; lia|]. intros (_ & (H1 & H2) & _). f_equal. lia.
Qed.
Lemma genint_draw : forall sn v m, bounded sn -> (0 <= v)%Z -> 0 < m -> exists r, rng_genint sn v m = Ok r /\ draw sn v m r.
Proof.
  intros sn v m B V M. destruct (genint_ok sn v m B V M) as (r & E & _). exists r. split; [exact E|]. apply genint_iff in E. apply E.
Qed.
Lemma genint_panic : forall sn v m, rng_genint sn v m = Panic <->
  m = 0 \/ ((1383462957253 + v * 1337 + sn v < 0)%Z /\ ((1383462957253 + v * 1337 + sn v) mod Z.of_nat m <> 0)%Z).
Proof.
  intros sn v m. split.
  - intros E. destruct (Nat.eq_dec m 0) as [|M]; [auto|right]. set (z := (1383462957253 + v * 1337 + sn v)%Z) in *.
    destruct (Z_le_gt_dec 0 z) as [Hz|Hz].
    + assert (B := Z.mod_pos_bound z (Z.of_nat m) ltac:(lia)). assert (K : rng_genint sn v m = Ok (Z.to_nat (z mod Z.of_nat m))).
      { apply genint_iff. fold z. split; [lia|]. split; [split; fold z; lia|now left]. } congruence.
    + split; [lia|]. intros Z0. assert (K : rng_genint sn v m = Ok 0). { apply genint_iff. fold z. split; [lia|]. split; [split; fold z; lia|now right]. } congruence.
  - intros H. destruct (rng_genint sn v m) as [r|] eqn:E; [|reflexivity]. apply genint_iff in E. destruct E as (M & (L & E) & H2). exfalso. destruct H2 as [H2| ->]; lia.
Qed.

Lemma epoch_at_ok : forall sn fr ts n i nn v lr, bounded sn -> trainingSamples = Ok ts -> shaped 9 15 nn -> v = (12568 + 5 * Z.of_nat i)%Z ->
  (if Nat.eqb i (n / 5) then fdiv (f_frac 1 100) (f_frac 10 1)
            else if Nat.eqb i (n / 2) then fdiv (f_frac 1 100) (f_frac 20 1) else lr) = rateOf n i ->
  exists nn', epoch sn fr ts n i (nn, v, lr) = Ok (nn', v + 5, rateOf n i)%Z /\ shaped 9 15 nn' /\ epochAt sn fr ts n i nn nn'.
Proof.
  intros sn fr ts n i nn v lr B T S V Rt. unfold epoch. rewrite Rt. destruct (samples_fit ts T) as (Ne & Ft). pose proof S as (l0 & l1 & E & E0 & E1 & W0 & W1).
  assert (Nn1 : nth_error nn 1 = Some l1) by now rewrite E.
  assert (Main : forall l layer neurons inputs, nth_error nn l = Some layer -> length layer = neurons -> 0 < neurons -> (forall x, In x layer -> length (w_weights x) = inputs) ->
    (fltb (f_frac 9 10) (fr v) = true /\ l = 1%nat /\ neurons = 15%nat /\ inputs = 9%nat \/
     fltb (f_frac 9 10) (fr v) = false /\ l = 0%nat /\ neurons = 9%nat /\ inputs = 408%nat) ->
    exists nn', (do layer <- idx nn l; do j <- rng_genint sn (v + 1) (length layer); do neuron <- idx layer j; do r <- rng_genint sn (v + 2) (length (w_weights neuron) + 1);
      let k := if Nat.ltb r (length (w_weights neuron)) then Some (length (w_weights neuron) - 1 - r) else None in
      do c <- rng_genint sn (v + 3) (length ts); do '(s, out) <- idx ts c; do l1 <- idx nn 1; do o <- rng_genint sn (v + 4) (length l1);
      do nn' <- trainStep f64_arith (f_frac 1 10) (f_frac 9 10) (rateOf n i) nn l j k s out o; Ok (nn', v + 5, rateOf n i)%Z) = Ok (nn', v + 5, rateOf n i)%Z /\
      shaped 9 15 nn' /\ epochAt sn fr ts n i nn nn').
  { intros l layer neurons inputs L Ln Pn Win Cs. unfold idx. rewrite L. cbn [unwrap rbind]. rewrite Ln. destruct (genint_draw sn (v + 1) neurons B ltac:(lia) Pn) as (j & -> & Dj). cbn [rbind].
    pose proof Dj as (Lj & _). destruct (nth_error layer j) as [neuron|] eqn:N; [|apply nth_error_None in N; lia]. cbn [unwrap rbind].
    rewrite (Win neuron) by (eapply nth_error_In; eauto).
    destruct (genint_draw sn (v + 2) (inputs + 1) B ltac:(lia) ltac:(lia)) as (r & -> & Dr). cbn [rbind]. set (k := if Nat.ltb r _ then _ else _).
    destruct (genint_draw sn (v + 3) (length ts) B ltac:(lia)) as (c & -> & Dc); [destruct ts; [contradiction|cbn; lia]|]. cbn [rbind].
    pose proof Dc as (Lc & _). destruct (nth_error ts c) as [[s out]|] eqn:C; [|apply nth_error_None in C; lia]. cbn [unwrap rbind].
    pose proof C as C'. apply nth_error_In in C. apply Ft in C. destruct C as (Fs & Lo). rewrite Nn1. cbn [unwrap rbind]. rewrite E1. destruct (genint_draw sn (v + 4) 15 B ltac:(lia) ltac:(lia)) as (o & -> & Do). cbn [rbind].
    assert (Hk : r = inputs /\ k = None \/ exists w, (w + r + 1 = inputs)%nat /\ k = Some w).
    { unfold k. pose proof Dr as (Lr & _). destruct (Nat.ltb_spec r inputs); [right; exists (inputs - 1 - r); split; [lia|reflexivity]|left; split; [lia|reflexivity]]. }
    assert (P : exists p, number nn l j k = Some p).
    { unfold number. rewrite L, N. destruct Hk as [(_ & ->)|(w & Lw & ->)]; [eauto|]. destruct (nth_error (w_weights neuron) w) eqn:Q; [eauto|]. apply nth_error_None in Q.
      rewrite (Win neuron) in Q by (eapply nth_error_In; eauto). lia. }
    clearbody k. destruct P as (p & P). destruct (step_ok f64_arith 9 15 (f_frac 1 10) (f_frac 9 10) (rateOf n i) nn l j k p s out o S P Fs Lo ltac:(apply Do)) as (nn1 & nn' & St & S' & U' & _). rewrite St. cbn [rbind]. exists nn'. split; [reflexivity|]. split; [auto|].
    econstructor; eauto. }
  assert (Gt : fgtb (fr v) (f_frac 9 10) = fltb (f_frac 9 10) (fr v)) by reflexivity. rewrite Gt. destruct (fltb (f_frac 9 10) (fr v)) eqn:Eb.
  - apply (Main 1 l1 15 9); auto; lia.
  - apply (Main 0 l0 9 408); auto; [now rewrite E|lia].
Qed.
Theorem epochs_ok : forall sn fr n ts, bounded sn -> 2 <= n -> trainingSamples = Ok ts ->
  exists f, f 0 = initNet fr /\ train sn fr n = Ok (f n) /\ forall i, i < n -> epochAt sn fr ts n i (f i) (f (i + 1)).
Proof.
  intros sn fr n ts B Ln T. unfold train. rewrite T. cbn [rbind].
  assert (Q5 : n / 5 < n / 2).
  { assert (A := Nat.div_mod n 5 ltac:(lia)). assert (A' := Nat.div_mod n 2 ltac:(lia)). assert (M := Nat.mod_upper_bound n 2 ltac:(lia)). lia. }
  assert (G : forall m i nn, shaped 9 15 nn -> i + m = n -> exists f, f i = nn /\
    (exists v lr, rfold (fun st i => epoch sn fr ts n i st) (seq i m) (nn, (12568 + 5 * Z.of_nat i)%Z, match i with 0 => f_frac 1 100 | S i' => rateOf n i' end) = Ok (f n, v, lr)) /\
    forall i', i <= i' -> i' < n -> epochAt sn fr ts n i' (f i') (f (i' + 1))).
  { induction m as [|m IH]; intros i nn S Hm.
    - exists (fun _ => nn). split; [reflexivity|]. split; [cbn; eauto|lia].
    - cbn [seq rfold]. destruct (epoch_at_ok sn fr ts n i nn (12568 + 5 * Z.of_nat i)%Z (match i with 0 => f_frac 1 100 | S i' => rateOf n i' end) B T S eq_refl) as (nn' & E & S' & A).
      { unfold rateOf. destruct (Nat.eqb_spec i (n / 5)) as [->|N5].
        - rewrite (proj2 (Nat.ltb_ge _ _) (Nat.le_refl _)), (proj2 (Nat.ltb_lt _ _) Q5). reflexivity.
        - destruct (Nat.eqb_spec i (n / 2)) as [->|N2].
          + rewrite (proj2 (Nat.ltb_ge _ _)), (proj2 (Nat.ltb_ge _ _)) by lia. reflexivity.
          + destruct i as [|i].
            * rewrite (proj2 (Nat.ltb_lt _ _)) by lia. reflexivity.
            * destruct (Nat.ltb_spec i (n / 5)), (Nat.ltb_spec (Datatypes.S i) (n / 5)); try lia; auto.
              destruct (Nat.ltb_spec i (n / 2)), (Nat.ltb_spec (Datatypes.S i) (n / 2)); try lia; auto. }
      rewrite E. cbn [rbind]. destruct (IH (Datatypes.S i) nn' S' ltac:(lia)) as (f & F0 & (v & lr & Fr) & Fa).
      exists (fun x => if Nat.eqb x i then nn else f x). rewrite Nat.eqb_refl. split; [reflexivity|]. split.
      + exists v, lr. rewrite (proj2 (Nat.eqb_neq n i)) by lia. rewrite <- Fr. do 3 f_equal. lia.
      + intros i' L1 L2. rewrite (proj2 (Nat.eqb_neq (i' + 1) i)) by lia. destruct (Nat.eqb_spec i' i) as [->|Ni].
        * rewrite Nat.add_1_r, F0. exact A.
        * apply Fa; lia. }
  destruct (init_ok fr) as (S & _). destruct (G n 0 (initNet fr) S ltac:(lia)) as (f & F0 & (v & lr & Fr) & Fa).
  exists f. split; [exact F0|]. split; [|intros i L; apply Fa; lia]. change (12568 + 5 * Z.of_nat 0)%Z with (8737 + 9 * 409 + 15 * 10)%Z in Fr. rewrite Fr. reflexivity.
Qed.
Lemma nth_seq : forall n k, nth_error (seq 0 n) k = if Nat.ltb k n then Some k else None.
Proof.
  intros n k. destruct (Nat.ltb_spec k n) as [L|L].
  - rewrite (nth_error_nth' _ 0) by (rewrite seq_length; lia). now rewrite seq_nth by lia.
  - apply nth_error_None. rewrite seq_length. lia.
Qed.
Lemma layer_number : forall fr v add n m j, nth_error (initLayer fr v add n m) j = if Nat.ltb j n then
  Some (mkWb (map (fun k => (fadd (fr (v + Z.of_nat (j * (m + 1)) + Z.of_nat k)%Z) add, f0)) (seq 0 m)) (fr (v + Z.of_nat (j * (m + 1)) + Z.of_nat m)%Z, f0)) else None.
Proof. intros fr v add n m j. unfold initLayer. rewrite nth_error_map, nth_seq. now destruct (Nat.ltb j n). Qed.
Theorem init_number : forall fr l j k, number (initNet fr) l j k = firstNumber fr l j k.
Proof.
  intros fr l j k. unfold initNet, number. destruct l as [|[|l]]; cbn [nth_error firstNumber]; [| |destruct l, k; reflexivity].
  - rewrite layer_number. destruct (Nat.ltb j 9); [|now destruct k]. destruct k as [k|]; cbn [w_weights w_bias andb].
    + rewrite nth_error_map, nth_seq. destruct (Nat.ltb k 408); [|reflexivity]. cbn [option_map]. do 4 f_equal. lia.
    + do 3 f_equal. lia.
  - rewrite layer_number. destruct (Nat.ltb j 15); [|now destruct k]. destruct k as [k|]; cbn [w_weights w_bias andb].
    + rewrite nth_error_map, nth_seq. destruct (Nat.ltb k 9); [|reflexivity]. cbn [option_map]. do 4 f_equal. lia.
    + do 3 f_equal. lia.
Qed.

(** * Words *)
Lemma isSpace_white : forall c, isSpace c = true <-> white c.
Proof.
  intros c. unfold isSpace, white, inRange. cbv zeta. rewrite orb_true_iff, andb_true_iff, Nat.eqb_eq, !Nat.leb_le. tauto.
Qed.
Lemma isSpace_not : forall c, isSpace c = false <-> ~ white c.
Proof. intros c. rewrite <- isSpace_white. destruct (isSpace c); split; try congruence; tauto. Qed.
Lemma words_word : forall w i, w <> [] -> (forall c, In c w -> isSpace c = false) -> match i with c :: _ => isSpace c = true | [] => True end ->
  words (w ++ i) = w :: words i.
Proof.
  induction w as [|c w IH]; intros i N W I; [congruence|]. cbn [app words]. rewrite (W c) by now left.
  destruct w as [|d w]; cbn [app].
  - destruct i as [|d i]; [reflexivity|]. now rewrite I.
  - rewrite (W d) by (right; now left). change (d :: w ++ i) with ((d :: w) ++ i). rewrite IH; [reflexivity|discriminate|intros x Hx; apply W; now right|exact I].
Qed.
Lemma in_words : forall i ws, wordsIn false i ws -> words i = ws.
Proof.
  intros i ws H. induction H as [|c i ws Hc _ IH|i ws A _ _|w i ws N W I _ IH]; [reflexivity| |discriminate|].
  - apply isSpace_white in Hc. cbn [words]. now rewrite Hc.
  - rewrite words_word, IH; auto.
    + intros c Hc. apply isSpace_not. now apply W.
    + destruct i; auto. destruct I as [I|[I _]]; [now apply isSpace_white|discriminate].
Qed.
Lemma words_exist : forall alone i, exists ws, wordsIn alone i ws.
Proof.
  intros alone. induction i as [|c i (ws & IH)]; [exists []; constructor|].
  destruct (isSpace c) eqn:S; [exists ws; apply wi_space; [now apply isSpace_white|auto]|]. apply isSpace_not in S.
  assert (Q : (alone = true /\ c = "?"%char) \/ (alone = true -> c <> "?"%char)).
  { destruct alone; [|right; discriminate]. destruct (ascii_dec c "?"); [left; auto|right; auto]. }
  destruct Q as [(A & ->)|Q]; [exists (["?"%char] :: ws); now apply wi_mark|].
  assert (One : match i with d :: _ => white d \/ alone = true /\ d = "?"%char | [] => True end -> exists ws, wordsIn alone (c :: i) ws).
  { intros B. exists ([c] :: ws). apply (wi_word alone [c] i ws); auto; [discriminate|]. intros x [<-|[]]. auto. }
  inversion IH as [E1 E2|d i0 ws0 Hd Hi E1 E2|i0 ws0 A Hi E1 E2|w i0 ws0 N W B Hi E1 E2]; subst.
  - apply One. exact I.
  - apply One. auto.
  - apply One. auto.
  - exists ((c :: w) :: ws0). apply (wi_word alone (c :: w) i0 ws0); auto; [discriminate|]. intros x [<-|Hx]; auto.
Qed.
Lemma words_iff : forall i ws, words i = ws <-> wordsIn false i ws.
Proof.
  intros i ws. split; [|apply in_words]. intros <-. destruct (words_exist false i) as (ws & H). now rewrite (in_words _ _ H).
Qed.
Lemma spread_word : forall w i, (forall c, In c w -> c <> "?"%char) -> spreadMarks (w ++ i) = w ++ spreadMarks i.
Proof.
  induction w as [|c w IH]; intros i H; [reflexivity|]. cbn [app]. unfold spreadMarks in *. cbn [flat_map].
  destruct (Ascii.eqb_spec c "?") as [E|E]; [elim (H c (or_introl eq_refl) E)|]. cbn [app]. f_equal. apply IH. intros x Hx. apply H. now right.
Qed.
Lemma spread_in : forall i ws, wordsIn true i ws -> wordsIn false (spreadMarks i) ws.
Proof.
  intros i ws H. induction H as [|c i ws Hc _ IH|i ws _ _ IH|w i ws N W I _ IH].
  - constructor.
  - unfold spreadMarks in *. cbn [flat_map]. destruct (Ascii.eqb_spec c "?") as [->|E].
    + exfalso. destruct Hc as [Hc|Hc]; vm_compute in Hc; [discriminate|lia].
    + now apply wi_space.
  - unfold spreadMarks in *. cbn [flat_map]. change (Ascii.eqb "?" "?") with true. cbn [app list_ascii_of_string tx].
    change (tx " ? " ++ flat_map (fun c => if Ascii.eqb c "?" then tx " ? " else [c]) i)
      with (" "%char :: ["?"%char] ++ " "%char :: flat_map (fun c => if Ascii.eqb c "?" then tx " ? " else [c]) i).
    assert (Sp : white " ") by (left; reflexivity). apply wi_space; [exact Sp|]. eapply (wi_word false ["?"%char] (" "%char :: _)); [discriminate| |now left|now apply wi_space].
    intros c [<-|[]]. split; [|discriminate]. intros [K|K]; vm_compute in K; [discriminate|lia].
  - rewrite spread_word by (intros c Hc; now apply (W c Hc)). apply wi_word; auto.
    + intros c Hc. split; [now apply W|discriminate].
    + destruct i as [|c i]; [exact Logic.I|]. unfold spreadMarks. cbn [flat_map]. destruct (Ascii.eqb_spec c "?") as [->|E]; [left; left; reflexivity|].
      cbn [app]. destruct I as [I|(_ & I)]; [now left|contradiction].
Qed.
Theorem spoken_iff : forall i ws, words (spreadMarks i) = ws <-> wordsIn true i ws.
Proof.
  intros i ws. split; [|intros H; now apply in_words, spread_in]. intros <-. destruct (words_exist true i) as (ws & H).
  now rewrite (in_words _ _ (spread_in _ _ H)).
Qed.
