(** Proofs about the number of calls of the parser. *)
From Coq Require Import String Ascii ZArith Bool Lia List.
From Verif Require Import Base Term_Model Parser_Model Parser_Spec Parser_Proofs Cost_Model Cost_Spec.
Import ListNotations.
Local Open Scope Z_scope.

(** * The same texts are read *)
Lemma orElse_fuel : forall (A : Type) (p q : pres A), orElse p q <> PFuel -> p <> PFuel /\ (p = PErr -> q <> PFuel).
Proof. intros A [a r| |] q H; cbn in H; (split; [try discriminate|]); auto; try (intros X; discriminate X). Qed.
Section Same.
Variable self : text -> outcome.
Variable par : text -> pres term.
Variable n : nat.
Hypothesis S : sound par.
Hypothesis A : forall j, (length j < n)%nat -> fst (self j) = restOf (par j).

Lemma more_same : forall sep, (1 <= length (tx sep))%nat -> forall f i, (length i <= n)%nat -> fst (tryMore self sep f i) = restOf (moreTerms par sep f i).
Proof.
  intros sep Hs. induction f as [|f IH]; intros i L; cbn [tryMore moreTerms]; [reflexivity|]. destruct (tagS sep i) as [u j| |] eqn:E; cbn [restOf]; [|reflexivity|reflexivity].
  apply tag_short in E. unfold andThen. rewrite (A j) by lia. destruct (par j) as [t k| |] eqn:P; cbn [restOf pbind]; [|reflexivity|reflexivity].
  assert (K := sound_short _ _ _ _ S P). cbn [fst]. rewrite IH by lia. destruct (moreTerms par sep f k); reflexivity.
Qed.
Lemma lit_same : forall s l i (B : Type) (p : unit -> text -> pres B), (length i <= n)%nat ->
  (forall j, (length j <= n)%nat -> length i = (length (tx s) + length j)%nat -> fst (tryItems self l j) = restOf (p tt j)) -> fst (tryItems self (Lit s :: l) i) = restOf (pbind (tagS s i) p).
Proof.
  intros s l i B p L H. cbn [tryItems tryItem]. unfold andThen. cbn [fst]. destruct (tagS s i) as [[] j| |] eqn:E; cbn [restOf pbind]; [|reflexivity|reflexivity]. apply tag_short in E. apply H; [lia|exact E].
Qed.
Lemma call_same : forall l i (B : Type) (p : term -> text -> pres B), (length i < n)%nat ->
  (forall t j, (length j < n)%nat -> fst (tryItems self l j) = restOf (p t j)) -> fst (tryItems self (Call :: l) i) = restOf (pbind (par i) p).
Proof.
  intros l i B p L H. cbn [tryItems tryItem]. unfold andThen. rewrite (A i L). destruct (par i) as [t j| |] eqn:E; cbn [restOf pbind]; [|reflexivity|reflexivity].
  assert (K := sound_short _ _ _ _ S E). apply H. lia.
Qed.
Lemma cop_same : forall l i (B : Type) (p : copula -> text -> pres B), (length i <= n)%nat ->
  (forall c j, (length j < n)%nat -> fst (tryItems self l j) = restOf (p c j)) -> fst (tryItems self (Cop :: l) i) = restOf (pbind (parseCopula i) p).
Proof.
  intros l i B p L H. cbn [tryItems tryItem]. unfold andThen. cbn [fst]. destruct (parseCopula i) as [t j| |] eqn:E; cbn [restOf pbind]; [|reflexivity|reflexivity].
  assert (K := cop_short _ _ _ E). apply H. lia.
Qed.
Lemma items_more : forall sep l i (B : Type) (p : list term -> text -> pres B), (1 <= length (tx sep))%nat -> (length i < n)%nat ->
  (forall ts j, (length j < n)%nat -> fst (tryItems self l j) = restOf (p ts j)) -> fst (tryItems self (More sep :: l) i) = restOf (pbind (moreTerms par sep (Datatypes.S (length i)) i) p).
Proof.
  intros sep l i B p Hs L H. cbn [tryItems tryItem]. unfold andThen. rewrite more_same by (auto; lia). destruct (moreTerms par sep (Datatypes.S (length i)) i) as [t j| |] eqn:E; cbn [restOf pbind]; [|reflexivity|reflexivity].
  apply H. apply (more_ok par sep S) in E. destruct E as (w & -> & _). rewrite app_length in L. lia.
Qed.
Lemma word_same : forall i (B : Type) (p : string -> text -> pres B), (forall s j, restOf (p s j) = Some j) -> fst (tryItems self [Word] i) = restOf (pbind (alpha2 i) p).
Proof. intros i B p H. cbn [tryItems tryItem]. unfold andThen. cbn [fst]. destruct (alpha2 i); cbn [restOf pbind]; [now rewrite H|reflexivity|reflexivity]. Qed.
Ltac same := repeat first
  [ reflexivity
  | apply lit_same; [lia|intros ? ? ?]
  | apply call_same; [cbn [tx list_ascii_of_string length] in *; lia|intros ? ? ?]
  | apply cop_same; [lia|intros ? ? ?]
  | apply items_more; [cbn; lia|lia|intros ? ? ?]
  | apply word_same; intros ? ?; reflexivity ].
Lemma or_same : forall l g i (B : Type) (p q : pres B), orElse p q <> PFuel -> fst (tryItems self l i) = restOf p -> (q <> PFuel -> fst (tryAll self g i) = restOf q) ->
  fst (tryAll self (l :: g) i) = restOf (orElse p q).
Proof.
  intros l g i B p q N L G. apply orElse_fuel in N. destruct N as (Np & Nq). cbn [tryAll]. cbv zeta. rewrite L. destruct p as [b r| |]; cbn [restOf orElse].
  - now rewrite L.
  - cbn [fst]. apply G. auto.
  - now elim Np.
Qed.
Lemma alt_same : forall i, (length i <= n)%nat -> alternatives par i <> PFuel -> fst (tryAll self grammar i) = restOf (alternatives par i).
Proof.
  intros i L N. unfold alternatives in *. unfold grammar, inParens. cbn [app].
  do 16 (apply or_same; [exact N| |clear N; intros N]; [unfold parseA, parseC, parseSeq, parseProd, parseList, parseIntInt2, parseExtInt2, parseImg0, parseImg1, parseConj2, parseTwo, parseConj3, parseConj4, parseNeg, parseStatement, parseQVar, parseDepVar, parseIndepVar; same|]).
  cbn [tryAll]. cbv zeta. assert (E : fst (tryItems self [Word] i) = restOf (parseB i)) by (unfold parseB; same). rewrite E. destruct (parseB i); cbn [restOf fst]; [exact E|reflexivity|reflexivity].
Qed.
End Same.
Lemma reading_same : forall f i, (length i < f)%nat -> fst (reading f i) = restOf (parseSubjOrPred f i).
Proof.
  induction f as [|f IH]; intros i L; [lia|]. cbn [reading parseSubjOrPred]. cbn [fst]. apply (alt_same _ _ f); [apply parse_sound| |lia|].
  - intros j Lj. now apply IH.
  - exact (parse_fuel (S f) i L).
Qed.

(** * Bounds *)
Lemma rest_short : forall f i r, (length i < f)%nat -> fst (reading f i) = Some r -> (length r < length i)%nat.
Proof. intros f i r L H. rewrite reading_same in H by auto. destruct (parseSubjOrPred f i) eqn:E; try discriminate. injection H as <-. eapply sound_short; [apply parse_sound|exact E]. Qed.
Lemma tag_le : forall s i r, restOf (tagS s i) = Some r -> (length i = length (tx s) + length r)%nat.
Proof. intros s i r H. destruct (tagS s i) eqn:E; try discriminate. injection H as <-. eapply tag_short; eauto. Qed.
Lemma word_le : forall i r, restOf (alpha2 i) = Some r -> (length r <= length i)%nat.
Proof. intros i r H. destruct (alpha2 i) eqn:E; try discriminate. injection H as <-. apply alpha_ok in E. destruct E as (w & _ & _ & ->). rewrite app_length. lia. Qed.
Lemma cop_le : forall i r, restOf (parseCopula i) = Some r -> (length r <= length i)%nat.
Proof. intros i r H. destruct (parseCopula i) eqn:E; try discriminate. injection H as <-. apply cop_short in E. lia. Qed.
Definition pw (n : nat) : Z := 11 ^ Z.of_nat n.
Lemma pw_pos : forall n, 1 <= pw n.
Proof. intros n. unfold pw. assert (0 < 11 ^ Z.of_nat n) by (apply Z.pow_pos_nonneg; lia). lia. Qed.
Lemma pw_S : forall n, pw (S n) = 11 * pw n.
Proof. intros n. unfold pw. rewrite Nat2Z.inj_succ, Z.pow_succ_r by lia. lia. Qed.
Lemma pw_le : forall m n, (m <= n)%nat -> pw m <= pw n.
Proof. intros m n L. unfold pw. apply Z.pow_le_mono_r; lia. Qed.
Section Upper.
Variable self : text -> outcome.
Variable n : nat.
Hypothesis Sh : forall j r, (length j < n)%nat -> fst (self j) = Some r -> (length r < length j)%nat.
Hypothesis Up : forall j, (length j < n)%nat -> 0 <= snd (self j) <= pw (length j).
(** an outcome on a text of length [m]: ten times the calls are paid for by what is read *)
Definition paid (m : nat) (x : outcome) : Prop :=
  0 <= snd x /\ match fst x with Some r => (length r <= m)%nat /\ 10 * snd x <= pw (S m) - pw (S (length r)) | None => 10 * snd x <= pw (S m) - 1 end.
Lemma paid_then : forall m x f, paid m x -> (forall r, fst x = Some r -> paid (length r) (f r)) -> paid m (andThen x f).
Proof.
  intros m x f (P0 & P) F. unfold andThen, paid. destruct (fst x) as [r|] eqn:E; cbn [fst snd].
  - destruct (F r eq_refl) as (Q0 & Q). destruct P as (L & P). split; [lia|]. destruct (fst (f r)) as [k|]; [|lia]. destruct Q. split; lia.
  - split; [lia|exact P].
Qed.
Lemma paid_free : forall m o, (forall r, o = Some r -> (length r <= m)%nat) -> paid m (o, 0).
Proof.
  intros m [r|] H; unfold paid; cbn [fst snd]; (split; [lia|]).
  - specialize (H r eq_refl). split; [exact H|]. assert (X := pw_le (S (length r)) (S m) ltac:(lia)). lia.
  - assert (X := pw_pos (S m)). lia.
Qed.
Lemma paid_le : forall m m' x, (m <= m')%nat -> paid m x -> paid m' x.
Proof.
  intros m m' x L (P0 & P). split; [exact P0|]. assert (X := pw_le (S m) (S m') ltac:(lia)). destruct (fst x) as [r|]; [|lia]. destruct P. split; lia.
Qed.
Lemma call_upper : forall i, (length i < n)%nat -> paid (length i) (self i).
Proof.
  intros i L. assert (U := Up i L). split; [lia|]. assert (X := pw_pos (length i)). rewrite pw_S. destruct (fst (self i)) as [r|] eqn:E; [|lia].
  apply Sh in E; [|exact L]. assert (Y := pw_le (S (length r)) (length i) E). split; lia.
Qed.
Lemma more_upper : forall sep f i, (length i < n)%nat -> paid (length i) (tryMore self sep f i).
Proof.
  intros sep. induction f as [|f IH]; intros i L; cbn [tryMore]; [now apply paid_free|]. destruct (restOf (tagS sep i)) as [j|] eqn:E.
  - apply tag_le in E. apply (paid_le (length j)); [lia|]. apply paid_then; [apply call_upper; lia|]. intros r H. apply Sh in H; [|lia]. apply IH. lia.
  - apply paid_free. intros r [= <-]. lia.
Qed.
Lemma items_upper : forall l i, (length i < n)%nat -> paid (length i) (tryItems self l i).
Proof.
  induction l as [|x l IH]; intros i L; cbn [tryItems]; [apply paid_free; intros r [= <-]; lia|].
  assert (P : paid (length i) (tryItem self x i)).
  { destruct x as [s| | | |sep]; cbn [tryItem]; [apply paid_free|apply paid_free|apply paid_free|now apply call_upper|now apply more_upper]; intros r H.
    - apply tag_le in H. lia.
    - now apply word_le.
    - now apply cop_le. }
  apply paid_then; [exact P|]. intros r H. destruct P as (_ & P). rewrite H in P. apply IH. lia.
Qed.
(** an alternative that begins with a sign *)
Lemma sign_upper : forall c s l d i, (length i < n)%nat -> 0 <= 10 * snd (tryItems self (Lit (String c s) :: l) (d :: i)) <= (if Ascii.eqb c d then pw (S (length i)) - 1 else 0).
Proof.
  intros c s l d i L. cbn [tryItems tryItem]. unfold andThen. cbn [fst snd]. change (tx (String c s)) with (c :: tx s). unfold tagS. change (tx (String c s)) with (c :: tx s). cbn [tag].
  destruct (Ascii.eqb c d); [|cbn; lia]. assert (X := pw_pos (S (length i))). destruct (restOf (tag (tx s) i)) as [r|] eqn:E; cbn [snd]; [|lia].
  apply (tag_le s) in E. destruct (items_upper l r ltac:(lia)) as (P0 & P). assert (Y := pw_le (S (length r)) (S (length i)) ltac:(lia)).
  destruct (fst (tryItems self l r)) as [k|]; [assert (W := pw_pos (S (length k)))|]; lia.
Qed.
Lemma word_free : forall i, snd (tryItems self [Word] i) = 0.
Proof. intros i. cbn [tryItems tryItem]. unfold andThen. cbn [fst snd]. destruct (restOf (alpha2 i)); reflexivity. Qed.
Lemma all_sum : forall g i, (forall l, In l g -> 0 <= snd (tryItems self l i)) -> 0 <= snd (tryAll self g i) <= fold_right (fun l z => snd (tryItems self l i) + z) 0 g.
Proof.
  induction g as [|l g IH]; intros i H; cbn [tryAll fold_right snd]; [lia|]. cbv zeta. assert (H0 := H l (or_introl eq_refl)). assert (I := IH i (fun x Hx => H x (or_intror Hx))).
  destruct (fst (tryItems self l i)); cbn [snd]; lia.
Qed.
Lemma signs_free : forall c s d i, snd (tryItems self [Lit (String c s); Word] (d :: i)) = 0.
Proof. intros c s d i. cbn [tryItems tryItem]. unfold andThen. cbn [fst snd]. destruct (restOf (tagS (String c s) (d :: i))) as [r|]; cbn [snd]; [|reflexivity]. destruct (restOf (alpha2 r)); reflexivity. Qed.
Lemma all_upper : forall d i, (length i < n)%nat -> 0 <= snd (tryAll self grammar (d :: i)) <= pw (S (length i)) - 1.
Proof.
  intros d i L. assert (Sg := fun c s l => sign_upper c s l d i L). assert (P := pw_pos (S (length i))).
  assert (NN : forall l, In l grammar -> 0 <= snd (tryItems self l (d :: i))).
  { intros l Hl. unfold grammar, inParens in Hl. cbn [app] in Hl. repeat (destruct Hl as [<-|Hl]; [first [rewrite word_free; lia | match goal with |- 0 <= snd (tryItems _ (Lit (String ?c ?s) :: ?l) _) => specialize (Sg c s l); lia end]|]). destruct Hl. }
  assert (X := all_sum grammar (d :: i) NN). split; [lia|]. destruct X as (_ & X). eapply Z.le_trans; [exact X|]. clear X NN.
  unfold grammar, inParens. cbn [app fold_right]. rewrite !signs_free, word_free.
  set (B := pw (S (length i)) - 1) in *. assert (B0 : 0 <= B) by lia. clearbody B.
  match goal with |- ?x1 + (?x2 + (?x3 + (?x4 + (?x5 + (?x6 + (?x7 + (?x8 + (?x9 + (?x10 + (?x11 + (?x12 + (?x13 + _)))))))))))) <= _ =>
    assert (K : 10 * x1 <= (if Ascii.eqb "{" d then B else 0) /\ 10 * x5 <= (if Ascii.eqb "[" d then B else 0) /\ 10 * x13 <= (if Ascii.eqb "<" d then B else 0) /\
      (10 * x2 <= (if Ascii.eqb "(" d then B else 0) /\ 10 * x3 <= (if Ascii.eqb "(" d then B else 0) /\ 10 * x4 <= (if Ascii.eqb "(" d then B else 0) /\ 10 * x6 <= (if Ascii.eqb "(" d then B else 0) /\
       10 * x7 <= (if Ascii.eqb "(" d then B else 0)) /\ (10 * x8 <= (if Ascii.eqb "(" d then B else 0) /\ 10 * x9 <= (if Ascii.eqb "(" d then B else 0) /\ 10 * x10 <= (if Ascii.eqb "(" d then B else 0) /\
       10 * x11 <= (if Ascii.eqb "(" d then B else 0) /\ 10 * x12 <= (if Ascii.eqb "(" d then B else 0)))
      by (split; [apply Sg|]; split; [apply Sg|]; split; [apply Sg|]; split; (split; [apply Sg|]; split; [apply Sg|]; split; [apply Sg|]; split; apply Sg));
    generalize dependent x1; generalize dependent x2; generalize dependent x3; generalize dependent x4; generalize dependent x5; generalize dependent x6; generalize dependent x7;
    generalize dependent x8; generalize dependent x9; generalize dependent x10; generalize dependent x11; generalize dependent x12; generalize dependent x13 end.
  clear Sg. intros. destruct (Ascii.eqb_spec "(" d) as [<-|N1]; [cbn [Ascii.eqb Bool.eqb] in K; lia|]. destruct (Ascii.eqb_spec "{" d) as [<-|N2]; [cbn [Ascii.eqb Bool.eqb] in K; lia|].
  destruct (Ascii.eqb_spec "[" d) as [<-|N3]; [cbn [Ascii.eqb Bool.eqb] in K; lia|]. destruct (Ascii.eqb "<" d); lia.
Qed.
End Upper.
Theorem calls_upper : forall f i, (length i < f)%nat -> 0 <= snd (reading f i) <= pw (length i).
Proof.
  induction f as [|f IH]; intros i L; [lia|]. cbn [reading]. cbn [snd]. destruct i as [|d i].
  - cbn. lia.
  - cbn [length] in *. assert (X := all_upper (reading f) (S (length i)) (fun j r Lj => rest_short f j r ltac:(lia)) (fun j Lj => IH j ltac:(lia)) d i ltac:(lia)). lia.
Qed.
(** * Without parentheses *)
Definition cheap (m : nat) (x : outcome) : Prop :=
  match fst x with Some r => noParen r /\ (length r <= m)%nat /\ snd x <= Z.of_nat m - Z.of_nat (length r) | None => snd x <= Z.of_nat m + 1 end.
Lemma cheap_then : forall m x f, cheap m x -> (forall r, fst x = Some r -> noParen r -> (length r <= m)%nat -> cheap (length r) (f r)) -> cheap m (andThen x f).
Proof.
  intros m x f P F. unfold andThen, cheap in *. destruct (fst x) as [r|] eqn:E; cbn [fst snd].
  - destruct P as (N & L & P). specialize (F r eq_refl N L). destruct (fst (f r)) as [k|]; [|lia]. destruct F as (N' & L' & Q). split; [exact N'|]. split; lia.
  - exact P.
Qed.
Lemma cheap_free : forall m o, (forall r, o = Some r -> noParen r /\ (length r <= m)%nat) -> cheap m (o, 0).
Proof. intros m [r|] H; unfold cheap; cbn [fst snd]; [|lia]. destruct (H r eq_refl). split; [auto|]. split; lia. Qed.
Lemma cheap_le : forall m m' x, (m <= m')%nat -> cheap m x -> cheap m' x.
Proof. intros m m' x L P. unfold cheap in *. destruct (fst x); [|lia]. destruct P as (N & ? & ?). split; [auto|]. split; lia. Qed.
Lemma noParen_app : forall w r, noParen (w ++ r) -> noParen r.
Proof. intros w r H X. apply H. apply in_or_app. now right. Qed.
Lemma tag_np : forall s i r, noParen i -> restOf (tagS s i) = Some r -> noParen r.
Proof. intros s i r N H. destruct (tagS s i) as [u k| |] eqn:E; try discriminate. injection H as <-. unfold tagS in E. apply tag_ok in E. subst. eapply noParen_app; eauto. Qed.
Lemma word_np : forall i r, noParen i -> restOf (alpha2 i) = Some r -> noParen r.
Proof. intros i r N H. destruct (alpha2 i) as [u k| |] eqn:E; try discriminate. injection H as <-. apply alpha_ok in E. destruct E as (w & _ & _ & ->). eapply noParen_app; eauto. Qed.
Lemma cop_np : forall i r, noParen i -> restOf (parseCopula i) = Some r -> noParen r.
Proof. intros i r N H. destruct (parseCopula i) as [u k| |] eqn:E; try discriminate. injection H as <-. apply cop_ok in E. subst. eapply noParen_app; eauto. Qed.
Section Cheap.
Variable self : text -> outcome.
Variable n : nat.
Hypothesis Ch : forall j, (length j < n)%nat -> noParen j -> cheap (length j) (self j).
Lemma items_cheap : forall l i, (forall sep, ~ In (More sep) l) -> (length i < n)%nat -> noParen i -> cheap (length i) (tryItems self l i).
Proof.
  induction l as [|x l IH]; intros i Nm L N; cbn [tryItems]; [apply cheap_free; intros r [= <-]; split; [auto|lia]|].
  apply cheap_then; [|intros r H Nr Lr; apply IH; [intros sep H'; apply (Nm sep); now right|lia|auto]].
  destruct x as [s| | | |sep]; cbn [tryItem]; [| | |now apply Ch|elim (Nm sep); now left]; apply cheap_free; intros r H.
  - split; [eapply tag_np; eauto|]. apply tag_le in H. lia.
  - split; [eapply word_np; eauto|]. now apply word_le.
  - split; [eapply cop_np; eauto|]. now apply cop_le.
Qed.
Lemma other_sign : forall c s l d i, c <> d -> tryItems self (Lit (String c s) :: l) (d :: i) = (None, 0).
Proof.
  intros c s l d i H. cbn [tryItems tryItem]. unfold tagS. change (tx (String c s)) with (c :: tx s). cbn [tag]. destruct (Ascii.eqb_spec c d); [contradiction|]. reflexivity.
Qed.
Lemma word_sign : forall d i, isValidSign d = false -> tryItems self [Word] (d :: i) = (None, 0).
Proof. intros d i H. cbn [tryItems tryItem]. unfold alpha2. change 512%nat with (S 511). cbn [takeSigns]. rewrite H. reflexivity. Qed.
(** the calls of one alternative, the sign read first *)
Lemma sign_cheap : forall c l i, (forall sep, ~ In (More sep) l) -> (length i < n)%nat -> noParen i -> tryItems self (Lit (String c EmptyString) :: l) (c :: i) = tryItems self l i /\ cheap (length i) (tryItems self l i).
Proof.
  intros c l i Nm L N. split; [|now apply items_cheap]. cbn [tryItems tryItem]. unfold tagS. change (tx (String c "")) with [c]. cbn [tag]. rewrite Ascii.eqb_refl. unfold andThen. cbn [restOf fst snd]. rewrite Z.add_0_l. now rewrite <- surjective_pairing.
Qed.
Lemma skip_alt : forall l g i, tryItems self l i = (None, 0) -> tryAll self (l :: g) i = tryAll self g i.
Proof. intros l g i H. cbn [tryAll]. cbv zeta. rewrite H. cbn [fst snd]. rewrite Z.add_0_l. now rewrite <- surjective_pairing. Qed.
Definition plus1 (x : outcome) : outcome := (fst x, 1 + snd x).
Lemma all_cheap : forall d i, (length i < n)%nat -> noParen (d :: i) -> cheap (S (length i)) (plus1 (tryAll self grammar (d :: i))).
Proof.
  intros d i L N. assert (Np : "("%char <> d) by (intros E; apply N; subst d; now left). assert (Ni : noParen i) by (intros X; apply N; now right).
  assert (Free : forall x : outcome, snd x = 0 -> (forall r, fst x = Some r -> noParen r /\ (length r <= length i)%nat) -> cheap (S (length i)) (plus1 x)).
  { intros x Z0 H. unfold cheap, plus1. cbn [fst snd]. destruct (fst x) as [r|]; [|lia]. destruct (H r eq_refl). split; [auto|]. split; lia. }
  assert (One : forall x : outcome, cheap (length i) x -> cheap (S (length i)) (plus1 x)).
  { intros x H. unfold cheap, plus1 in *. cbn [fst snd]. destruct (fst x) as [r|]; [|lia]. destruct H as (? & ? & ?). split; [auto|]. split; lia. }
  assert (Sk : forall c s l g, c <> d -> tryAll self ((Lit (String c s) :: l) :: g) (d :: i) = tryAll self g (d :: i)) by (intros c s l g H; apply skip_alt; now apply other_sign).
  assert (Sg : forall c l g, (forall sep, ~ In (More sep) l) -> c = d -> (forall r, fst (tryAll self g (d :: i)) = Some r -> False) -> snd (tryAll self g (d :: i)) = 0 -> cheap (S (length i)) (plus1 (tryAll self ((Lit (String c EmptyString) :: l) :: g) (d :: i)))).
  { intros c l g Nm <- Ng Zg. destruct (sign_cheap c l i Nm L Ni) as (E & C). apply One. cbn [tryAll]. cbv zeta. rewrite E. unfold cheap in *. destruct (fst (tryItems self l i)) as [r|] eqn:F; [rewrite F; exact C|]. cbn [fst snd]. rewrite Zg.
    destruct (fst (tryAll self g (c :: i))) as [r|]; [elim (Ng r eq_refl)|lia]. }
  unfold grammar, inParens. cbn [app].
  destruct (Ascii.eqb_spec "{" d) as [E1|N1].
  { assert (T : tryAll self (tl grammar) (d :: i) = (None, 0)) by (unfold grammar, inParens; cbn [app tl]; subst d; rewrite !Sk by discriminate; apply skip_alt, word_sign; reflexivity).
    unfold grammar, inParens in T; cbn [app tl] in T. apply Sg; [cbn; intuition discriminate|exact E1|rewrite T; discriminate|now rewrite T]. }
  rewrite (Sk "{"%char) by exact N1. rewrite !(Sk "("%char) by exact Np. destruct (Ascii.eqb_spec "[" d) as [E2|N2].
  { assert (T : tryAll self (skipn 5 grammar) (d :: i) = (None, 0)) by (unfold grammar, inParens; cbn [app skipn]; subst d; rewrite !Sk by discriminate; apply skip_alt, word_sign; reflexivity).
    unfold grammar, inParens in T; cbn [app skipn] in T. apply Sg; [cbn; intuition discriminate|exact E2|rewrite T; discriminate|now rewrite T]. }
  rewrite (Sk "["%char) by exact N2. rewrite !(Sk "("%char) by exact Np. destruct (Ascii.eqb_spec "<" d) as [E3|N3].
  { assert (T : tryAll self (skipn 13 grammar) (d :: i) = (None, 0)) by (unfold grammar, inParens; cbn [app skipn]; subst d; rewrite !Sk by discriminate; apply skip_alt, word_sign; reflexivity).
    unfold grammar, inParens in T; cbn [app skipn] in T. apply Sg; [cbn; intuition discriminate|exact E3|rewrite T; discriminate|now rewrite T]. }
  rewrite (Sk "<"%char) by exact N3.
  assert (Sv : forall c, snd (tryItems self [Lit (String c EmptyString); Word] (d :: i)) = 0 /\ forall r, fst (tryItems self [Lit (String c EmptyString); Word] (d :: i)) = Some r -> noParen r /\ (length r <= length i)%nat).
  { intros c. split; [apply signs_free|]. intros r H. cbn [tryItems tryItem] in H. unfold andThen in H. cbn [fst snd] in H. destruct (restOf (tagS (String c "") (d :: i))) as [j|] eqn:E; [|discriminate].
    assert (E' := tag_np _ _ _ N E). apply tag_le in E. cbn in E. cbn [fst] in H. destruct (restOf (alpha2 j)) as [k|] eqn:K; [|discriminate]. injection H as <-. split; [eapply word_np; eauto|]. apply word_le in K. lia. }
  assert (Wv : forall r, fst (tryItems self [Word] (d :: i)) = Some r -> noParen r /\ (length r <= length i)%nat).
  { intros r H. cbn [tryItems tryItem] in H. unfold andThen in H. cbn [fst snd] in H. destruct (restOf (alpha2 (d :: i))) as [j|] eqn:E; [|discriminate]. injection H as <-. split; [exact (word_np _ _ N E)|].
    destruct (alpha2 (d :: i)) as [w k| |] eqn:E'; try discriminate. injection E as ->. apply alpha_ok in E'. destruct E' as (v & (Lv & _) & _ & E'). apply (f_equal (@length ascii)) in E'. rewrite app_length in E'. cbn [length] in E'. destruct v; [now elim Lv|]. cbn [length] in E'. lia. }
  assert (Z4 := word_free self (d :: i)). cbn [tryAll]. cbv zeta.
  destruct (Sv "?"%char) as (Z1 & F1). destruct (Sv "#"%char) as (Z2 & F2). destruct (Sv "$"%char) as (Z3 & F3).
  destruct (tryItems self [Lit "?"; Word] (d :: i)) as [[r1|] c1]; cbn [fst snd] in *; [apply Free; cbn [fst snd]; [lia|auto]|].
  destruct (tryItems self [Lit "#"; Word] (d :: i)) as [[r2|] c2]; cbn [fst snd] in *; [apply Free; cbn [fst snd]; [lia|auto]|].
  destruct (tryItems self [Lit "$"; Word] (d :: i)) as [[r3|] c3]; cbn [fst snd] in *; [apply Free; cbn [fst snd]; [lia|auto]|].
  destruct (tryItems self [Word] (d :: i)) as [[r4|] c4]; cbn [fst snd] in *; apply Free; cbn [fst snd]; [lia|auto|lia|discriminate].
Qed.
End Cheap.
Theorem calls_cheap : forall f i, (length i < f)%nat -> noParen i -> cheap (length i) (reading f i).
Proof.
  induction f as [|f IH]; intros i L N; [lia|]. cbn [reading]. destruct i as [|d i]; [unfold cheap; cbn; lia|]. cbn [length] in L.
  exact (all_cheap (reading f) (S (length i)) (fun j Lj Nj => IH j ltac:(lia) Nj) d i ltac:(lia) N).
Qed.

(** * Opening parentheses *)
Lemma paren_sign : forall self l i, tryItems self (Lit "(" :: l) ("("%char :: i) = tryItems self l i.
Proof. intros self l i. cbn [tryItems tryItem]. unfold andThen. cbn [tagS tx list_ascii_of_string tag Ascii.eqb Bool.eqb restOf fst snd]. rewrite Z.add_0_l. now rewrite <- surjective_pairing. Qed.
Lemma opens : forall n f, (n < f)%nat -> fst (reading f (repeat "("%char n)) = None /\ 8 * snd (reading f (repeat "("%char n)) + 1 = 9 ^ (Z.of_nat n + 1).
Proof.
  induction n as [|n IH]; intros f L; (destruct f as [|f]; [lia|]); [split; reflexivity|]. destruct (IH f ltac:(lia)) as (A & B).
  assert (E : reading (S f) (repeat "("%char (S n)) = (None, 1 + 9 * snd (reading f (repeat "("%char n)))).
  { set (c := snd (reading f (repeat "("%char n))) in *. assert (C : forall l, tryItems (reading f) (Call :: l) (repeat "("%char n) = (None, c)) by (intros l; cbn [tryItems tryItem]; unfold andThen; now rewrite A).
    assert (St : forall l g k, tryAll (reading f) g ("("%char :: repeat "("%char n) = (None, k) -> tryAll (reading f) ((Lit "(" :: Call :: l) :: g) ("("%char :: repeat "("%char n) = (None, c + k)).
    { intros l g k H. cbn [tryAll]. cbv zeta. rewrite paren_sign, C, H. reflexivity. }
    assert (Sk : forall d s l g, d <> "("%char -> tryAll (reading f) ((Lit (String d s) :: l) :: g) ("("%char :: repeat "("%char n) = tryAll (reading f) g ("("%char :: repeat "("%char n)) by (intros d s l g H; apply skip_alt; now apply other_sign).
    assert (Sn : forall g, tryAll (reading f) ([Lit "(!"; Call; Lit ")"] :: g) ("("%char :: repeat "("%char n) = tryAll (reading f) g ("("%char :: repeat "("%char n)) by (intros g; apply skip_alt; destruct n; reflexivity).
    assert (T : tryAll (reading f) grammar ("("%char :: repeat "("%char n) = (None, c + (c + (c + (c + (c + (c + (c + (c + (c + 0)))))))))).
    { unfold grammar, inParens. cbn [app]. rewrite Sk by discriminate. apply St, St, St. rewrite Sk by discriminate. rewrite Sn. apply St, St, St, St, St, St. rewrite !Sk by discriminate. apply skip_alt, word_sign. reflexivity. }
    cbn [reading repeat]. rewrite T. cbn [fst snd]. f_equal. lia. }
  rewrite E. cbn [fst snd]. split; [reflexivity|]. replace (Z.of_nat (S n) + 1) with (Z.succ (Z.of_nat n + 1)) by lia. rewrite Z.pow_succ_r by lia. lia.
Qed.

(** * Nested products *)
Lemma nested_length : forall n, length (nested n) = (4 * n + 1)%nat.
Proof. induction n as [|n IH]; [reflexivity|]. cbn [nested length]. rewrite app_length, IH. cbn. lia. Qed.
Lemma nested_calls : forall n f r, (length (nested n ++ r) < f)%nat -> stopsName r ->
  fst (reading f (nested n ++ r)) = Some r /\ 3 * snd (reading f (nested n ++ r)) + 2 = 5 * 4 ^ Z.of_nat n.
Proof.
  induction n as [|n IH]; intros f r L St; (destruct f as [|f]; [lia|]).
  - cbn [nested app] in *. assert (T : tryAll (reading f) grammar ("a"%char :: r) = (Some r, 0)).
    { unfold grammar, inParens. cbn [app]. rewrite !(fun c s l g (H : c <> "a"%char) => skip_alt (reading f) _ g _ (other_sign (reading f) c s l "a"%char r H)) by discriminate.
      assert (A := alpha_name ["a"%char] r ltac:(split; [discriminate|split; [cbn; lia|intros c [<-|[]]; now apply sign_iff]]) St). cbn [app] in A. cbn [tryAll tryItems tryItem]. unfold andThen. rewrite A. reflexivity. }
    cbn [reading]. rewrite T. split; reflexivity.
  - cbn [nested] in *. change (list_ascii_of_string "*b)") with (tx "*b)") in *. set (j := nested n ++ tx "*b)" ++ r) in *. replace (("("%char :: nested n ++ tx "*b)") ++ r) with ("("%char :: j) in * by (unfold j; cbn [app]; now rewrite <- app_assoc).
    assert (Lj : (length j < f)%nat) by (cbn [length] in L; lia). destruct (IH f (tx "*b)" ++ r) Lj ltac:(now apply stops_dec)) as (A & B). fold j in A, B. set (c := snd (reading f j)) in *.
    assert (C : forall s l g, tagS s (tx "*b)" ++ r) = PErr -> tryAll (reading f) ((Lit "(" :: Call :: Lit s :: l) :: g) ("("%char :: j) = (fst (tryAll (reading f) g ("("%char :: j)), c + snd (tryAll (reading f) g ("("%char :: j)))).
    { intros s l g H. cbn [tryAll]. cbv zeta. rewrite paren_sign. assert (E : tryItems (reading f) (Call :: Lit s :: l) j = (None, c + 0)).
      { cbn [tryItems tryItem]. unfold andThen. rewrite A. cbn [fst snd]. rewrite H. cbn [restOf fst snd]. reflexivity. }
      rewrite E. cbn [fst snd]. f_equal. lia. }
    assert (Sk : forall d s l g, d <> "("%char -> tryAll (reading f) ((Lit (String d s) :: l) :: g) ("("%char :: j) = tryAll (reading f) g ("("%char :: j)) by (intros d s l g H; apply skip_alt; now apply other_sign).
    assert (Nb : forall k, tagS "!" (nested n ++ k) = PErr) by (destruct n; reflexivity).
    assert (Sn : forall g, tryAll (reading f) ([Lit "(!"; Call; Lit ")"] :: g) ("("%char :: j) = tryAll (reading f) g ("("%char :: j)).
    { intros g. apply skip_alt. cbn [tryItems tryItem]. assert (E : tagS "(!" ("("%char :: j) = PErr) by (change (tagS "(!" ("("%char :: j)) with (tagS "!" j); apply Nb). rewrite E. reflexivity. }
    assert (Bb : reading f (tx "b)" ++ r) = (Some (tx ")" ++ r), 1)).
    { destruct f as [|f]; [lia|]. change (tx "b)" ++ r) with ("b"%char :: tx ")" ++ r). cbn [reading].
      assert (T : tryAll (reading f) grammar ("b"%char :: tx ")" ++ r) = (Some (tx ")" ++ r), 0)).
      { unfold grammar, inParens. cbn [app]. rewrite !(fun c s l g (H : c <> "b"%char) => skip_alt (reading f) _ g _ (other_sign (reading f) c s l "b"%char (tx ")" ++ r) H)) by discriminate.
        assert (A' := alpha_name ["b"%char] (tx ")" ++ r) ltac:(split; [discriminate|split; [cbn; lia|intros d [<-|[]]; now apply sign_iff]]) ltac:(now apply stops_dec)). cbn [app] in A'. cbn [tryAll tryItems tryItem]. unfold andThen. rewrite A'. reflexivity. }
      rewrite T. reflexivity. }
    assert (Pr : forall g, tryAll (reading f) ((Lit "(" :: [Call; Lit "*"; Call; More "*"] ++ [Lit ")"]) :: g) ("("%char :: j) = (Some r, c + 1)).
    { intros g. cbn [tryAll]. cbv zeta. rewrite paren_sign. assert (E : tryItems (reading f) ([Call; Lit "*"; Call; More "*"] ++ [Lit ")"]) j = (Some r, c + 1)).
      { cbn [app tryItems tryItem]. assert (Go : forall x (F : text -> outcome) k m o, fst x = Some k -> F k = (o, m) -> andThen x F = (o, snd x + m)) by (intros x F k m o H1 H2; unfold andThen; now rewrite H1, H2).
        rewrite (Go (reading f j) _ _ 1 (Some r) A); [reflexivity|]. rewrite (Go (restOf (tagS "*" (tx "*b)" ++ r)), 0) _ (tx "b)" ++ r) 1 (Some r)); [reflexivity|reflexivity|].
        rewrite (Go (reading f (tx "b)" ++ r)) _ (tx ")" ++ r) 0 (Some r)); [now rewrite Bb|now rewrite Bb|]. reflexivity. }
      rewrite E. reflexivity. }
    assert (T : tryAll (reading f) grammar ("("%char :: j) = (Some r, c + (c + (c + (c + 1))))).
    { unfold grammar. rewrite Sk by discriminate. unfold inParens at 1 2 3. cbn [app].
      assert (C' : forall s l g o k, tagS s (tx "*b)" ++ r) = PErr -> tryAll (reading f) g ("("%char :: j) = (o, k) -> tryAll (reading f) ((Lit "(" :: Call :: Lit s :: l) :: g) ("("%char :: j) = (o, c + k)) by (intros s l g o k H1 H2; rewrite C by exact H1; now rewrite H2).
      apply C'; [reflexivity|]. apply C'; [reflexivity|]. apply C'; [reflexivity|]. rewrite Sk by discriminate. rewrite Sn. apply Pr. }
    cbn [reading]. rewrite T. cbn [fst snd]. split; [reflexivity|]. rewrite Nat2Z.inj_succ, Z.pow_succ_r by lia. lia.
Qed.
(** the text is read as the nested product *)
Lemma nested_writes : forall n, writes (nestedTerm n) (nested n).
Proof.
  assert (Nm : forall c, isValidSign c = true -> nameText [c]) by (intros c H; split; [discriminate|split; [cbn; lia|intros d [<-|[]]; now apply sign_iff]]).
  induction n as [|n IH]; cbn [nested nestedTerm]; [apply (w_name ["a"%char]), Nm; reflexivity|].
  assert (X := w_prod [nestedTerm n; Name "b"] (nested n ++ ascii_text "*" ++ ["b"%char]) (le_n 2) (wa_more _ _ _ _ _ IH (wa_one _ _ _ (w_name ["b"%char] (Nm "b"%char eq_refl))))).
  rewrite <- app_assoc in X. exact X.
Qed.
Theorem calls_nested : forall n, 3 * callsFor (nested n) + 2 = 5 * 4 ^ Z.of_nat n.
Proof. intros n. destruct (nested_calls n (S (length (nested n))) [] ltac:(rewrite app_nil_r; lia) I) as (_ & H). rewrite app_nil_r in H. exact H. Qed.
(** no power of the length is enough *)
Lemma square_pow : forall k : nat, Z.of_nat k * Z.of_nat k + 6 * Z.of_nat k + 8 <= 2 ^ (Z.of_nat k + 4).
Proof.
  induction k as [|k IH]; [cbn; lia|]. rewrite Nat2Z.inj_succ. replace (Z.succ (Z.of_nat k) + 4) with (Z.succ (Z.of_nat k + 4)) by lia. rewrite Z.pow_succ_r by lia. nia.
Qed.
Theorem calls_no_power : forall k : nat, exists n, Z.of_nat (length (nested n)) ^ Z.of_nat k < callsFor (nested n).
Proof.
  intros k. exists (2 ^ (k + 3))%nat. set (n := (2 ^ (k + 3))%nat). assert (C := calls_nested n). rewrite nested_length. assert (En : Z.of_nat n = 2 ^ (Z.of_nat k + 3)) by (unfold n; rewrite Nat2Z.inj_pow, Nat2Z.inj_add; reflexivity).
  assert (P : 1 <= 2 ^ (Z.of_nat k + 3)) by (assert (0 < 2 ^ (Z.of_nat k + 3)) by (apply Z.pow_pos_nonneg; lia); lia).
  assert (A : Z.of_nat (4 * n + 1) <= 2 ^ (Z.of_nat k + 6)).
  { replace (Z.of_nat k + 6) with (3 + (Z.of_nat k + 3)) by lia. rewrite Z.pow_add_r by lia. rewrite <- En in *. change (2 ^ 3) with 8. lia. }
  assert (B : Z.of_nat (4 * n + 1) ^ Z.of_nat k <= 2 ^ ((Z.of_nat k + 6) * Z.of_nat k)) by (rewrite Z.pow_mul_r by lia; apply Z.pow_le_mono_l; lia).
  assert (D : 4 ^ Z.of_nat n = 2 ^ (2 ^ (Z.of_nat k + 4))).
  { replace (Z.of_nat k + 4) with (Z.succ (Z.of_nat k + 3)) by lia. rewrite Z.pow_succ_r by lia. rewrite <- En. change 4 with (2 ^ 2). rewrite <- Z.pow_mul_r by lia. reflexivity. }
  assert (F : 2 ^ ((Z.of_nat k + 6) * Z.of_nat k) < 4 ^ Z.of_nat n) by (rewrite D; apply Z.pow_lt_mono_r; [lia|lia|assert (X := square_pow k); nia]).
  lia.
Qed.

(** * The fuel does not matter *)
Section Fuel.
Variables s1 s2 : text -> outcome.
Variable n : nat.
Hypothesis Sh : forall j r, (length j < n)%nat -> fst (s1 j) = Some r -> (length r < length j)%nat.
Hypothesis Eq : forall j, (length j < n)%nat -> s1 j = s2 j.
Lemma then_ext : forall x (f g : text -> outcome), (forall r, fst x = Some r -> f r = g r) -> andThen x f = andThen x g.
Proof. intros x f g H. unfold andThen. destruct (fst x) as [r|]; [now rewrite (H r eq_refl)|reflexivity]. Qed.
Lemma more_ext : forall sep f i, (length i < n)%nat -> tryMore s1 sep f i = tryMore s2 sep f i /\ forall r, fst (tryMore s1 sep f i) = Some r -> (length r <= length i)%nat.
Proof.
  intros sep. induction f as [|f IH]; intros i L; cbn [tryMore]; [split; [reflexivity|discriminate]|]. destruct (restOf (tagS sep i)) as [j|] eqn:E.
  - apply tag_le in E. rewrite <- (Eq j) by lia. split.
    + apply then_ext. intros r H. apply Sh in H; [|lia]. apply IH. lia.
    + intros r H. unfold andThen in H. destruct (fst (s1 j)) as [k|] eqn:K; [|discriminate]. apply Sh in K; [|lia]. cbn [fst] in H. apply IH in H; lia.
  - split; [reflexivity|]. intros r [= <-]. lia.
Qed.
Lemma items_ext : forall l i, (length i < n)%nat -> tryItems s1 l i = tryItems s2 l i.
Proof.
  induction l as [|x l IH]; intros i L; cbn [tryItems]; [reflexivity|].
  assert (E : tryItem s1 x i = tryItem s2 x i /\ forall r, fst (tryItem s1 x i) = Some r -> (length r <= length i)%nat).
  { destruct x as [s| | | |sep]; cbn [tryItem fst].
    - split; [reflexivity|]. intros r H. apply tag_le in H. lia.
    - split; [reflexivity|]. intros r H. now apply word_le.
    - split; [reflexivity|]. intros r H. now apply cop_le.
    - split; [now apply Eq|]. intros r H. apply Sh in H; lia.
    - now apply more_ext. }
  destruct E as (<- & E). apply then_ext. intros r H. apply IH. specialize (E r H). lia.
Qed.
Lemma sign_ext : forall c s l i, (length i <= n)%nat -> tryItems s1 (Lit (String c s) :: l) i = tryItems s2 (Lit (String c s) :: l) i.
Proof. intros c s l i L. cbn [tryItems tryItem]. apply then_ext. cbn [fst]. intros r H. apply tag_le in H. cbn in H. apply items_ext. lia. Qed.
Lemma all_ext : forall i, (length i <= n)%nat -> tryAll s1 grammar i = tryAll s2 grammar i.
Proof.
  intros i L. assert (H : forall l, In l grammar -> tryItems s1 l i = tryItems s2 l i).
  { intros l Hl. unfold grammar, inParens in Hl. cbn [app] in Hl. repeat (destruct Hl as [<-|Hl]; [first [reflexivity | now apply sign_ext]|]). destruct Hl. }
  clear L. induction grammar as [|l g IH]; [reflexivity|]. cbn [tryAll]. cbv zeta. rewrite (H l (or_introl eq_refl)). rewrite IH; [reflexivity|]. intros x Hx. apply H. now right.
Qed.
End Fuel.
Lemma reading_fuel : forall f g i, (length i < f)%nat -> (length i < g)%nat -> reading f i = reading g i.
Proof.
  induction f as [|f IH]; intros g i L K; [lia|]. destruct g as [|g]; [lia|]. cbn [reading]. rewrite (all_ext (reading f) (reading g) (length i)); [reflexivity| | |auto].
  - intros j r Lj. apply rest_short. lia.
  - intros j Lj. apply IH; lia.
Qed.
Theorem calls_fuel : forall f i, (length i < f)%nat -> snd (reading f i) = callsFor i.
Proof. intros f i L. unfold callsFor. now rewrite (reading_fuel f (S (length i)) i) by lia. Qed.

(** * Nested calls *)
Lemma alt_first : forall par i, alternatives par i = orElse (parseA par i) (alternatives par i).
Proof. intros par i. unfold alternatives. destruct (parseA par i); reflexivity. Qed.
Lemma sets_writes : forall n, writes (setsTerm n) (sets n).
Proof.
  induction n as [|n IH]; cbn [sets setsTerm]; [|apply (w_setext _ _ IH)].
  apply (w_name ["a"%char]). split; [discriminate|split; [cbn; lia|intros d [<-|[]]; now apply sign_iff]].
Qed.
Lemma sets_depth : forall n f r, stopsName r -> parseSubjOrPred f (sets n ++ r) = if (n <? f)%nat then POk (setsTerm n) r else PFuel.
Proof.
  induction n as [|n IH]; intros f r St; (destruct f as [|f]; [reflexivity|]).
  - cbn [parseSubjOrPred sets app Nat.ltb Nat.leb]. apply (altName (parseSubjOrPred f) ["a"%char] r); [|exact St]. split; [discriminate|split; [cbn; lia|intros d [<-|[]]; now apply sign_iff]].
  - cbn [parseSubjOrPred sets app]. rewrite <- app_assoc. rewrite alt_first. unfold parseA. change (tagS "{" ("{"%char :: sets n ++ ["}"%char] ++ r)) with (POk tt (sets n ++ ["}"%char] ++ r)). cbn [pbind].
    rewrite (IH f (["}"%char] ++ r)) by now apply stops_dec. change (S n <? S f)%nat with (n <? f)%nat. destruct (n <? f)%nat; [|reflexivity].
    cbn [pbind]. change (tagS "}" (["}"%char] ++ r)) with (POk tt r). reflexivity.
Qed.
