(** The parser against the grammar: soundness, termination, completeness. *)
From Coq Require Import String Ascii Arith Bool Lia List.
From Verif Require Import Base Term_Model Sentence_Model Parser_Model Parser_Spec.
Import ListNotations.
Local Open Scope list_scope.

(** ** characters and tags *)
Lemma sign_iff : forall c, isValidSign c = true <-> nameChar c.
Proof.
  assert (E : forall c, isValidSign c = existsb (Ascii.eqb c) (ascii_text "0123456789ABCDEFGHIJKLMNOPQRSTUVWXYZabcdefghijklmnopqrstuvwxyz-_^")).
  { intros [[|] [|] [|] [|] [|] [|] [|] [|]]; vm_compute; reflexivity. }
  intros c. rewrite E, existsb_exists. unfold nameChar. split.
  - intros (x & Hx & Q). apply Ascii.eqb_eq in Q. now subst.
  - intros H. exists c. split; auto. apply Ascii.eqb_refl.
Qed.
Lemma tag_app : forall w r, tag w (w ++ r) = POk tt r.
Proof. induction w as [|c w IH]; intros r; simpl; [reflexivity|]. now rewrite Ascii.eqb_refl. Qed.
Lemma tag_ok : forall w i u r, tag w i = POk u r -> i = w ++ r.
Proof.
  induction w as [|c w IH]; intros i u r H; simpl in H; [now injection H|]. destruct i as [|d i]; [discriminate|].
  destruct (Ascii.eqb c d) eqn:E; [|discriminate]. apply Ascii.eqb_eq in E. subst d. simpl. f_equal. eauto.
Qed.
Lemma tag_nofuel : forall w i, tag w i <> PFuel.
Proof. induction w as [|c w IH]; intros i; simpl; [discriminate|]. destruct i; [discriminate|]. destruct (Ascii.eqb c a); [auto|discriminate]. Qed.
Lemma take_ok : forall n i w r, takeSigns n i = (w, r) -> i = w ++ r /\ length w <= n /\ (forall c, In c w -> nameChar c) /\ (length w < n -> stopsName r).
Proof.
  induction n as [|n IH]; intros i w r H; simpl in H.
  - injection H as <- <-. repeat split; auto; [intros c []|simpl; lia].
  - destruct i as [|c i]; [injection H as <- <-; repeat split; auto; [simpl; lia|intros c []]|].
    destruct (isValidSign c) eqn:E.
    + destruct (takeSigns n i) as [w' r'] eqn:T. injection H as <- <-. apply IH in T. destruct T as (A & B & C & D). subst i. simpl. repeat split; auto; try lia.
      * intros x [<-|Hx]; [now apply sign_iff|auto].
      * intros L. apply D. lia.
    + injection H as <- <-. repeat split; auto; [simpl; lia|intros x []|]. intros _. simpl. intros X. apply sign_iff in X. congruence.
Qed.
Lemma take_all : forall n w r, length w <= n -> (forall c, In c w -> nameChar c) -> stopsName r -> takeSigns n (w ++ r) = (w, r).
Proof.
  induction n as [|n IH]; intros w r L C St.
  - destruct w; [|simpl in L; lia]. reflexivity.
  - destruct w as [|c w]; simpl.
    + destruct r as [|d r]; auto. destruct (isValidSign d) eqn:E; auto. apply sign_iff in E. simpl in St. contradiction.
    + assert (E : isValidSign c = true) by (apply sign_iff, C; now left). rewrite E. rewrite IH; auto; [simpl in L; lia|]. intros x Hx. apply C. now right.
Qed.
Lemma alpha_ok : forall i n r, alpha2 i = POk n r -> exists w, nameText w /\ n = string_of_list_ascii w /\ i = w ++ r.
Proof.
  intros i n r H. unfold alpha2 in H. destruct (takeSigns 512 i) as [w r'] eqn:E. apply take_ok in E. destruct E as (A & B & C & D).
  destruct w as [|c w]; [discriminate|]. exists (c :: w). injection H as <- <-. repeat split; auto. discriminate.
Qed.
Lemma alpha_nofuel : forall i, alpha2 i <> PFuel.
Proof. intros i. unfold alpha2. destruct (takeSigns 512 i) as [[|] ?]; discriminate. Qed.
Lemma alpha_name : forall w r, nameText w -> stopsName r -> alpha2 (w ++ r) = POk (string_of_list_ascii w) r.
Proof. intros w r (N & L & C) St. unfold alpha2. rewrite take_all; auto. destruct w; [contradiction|reflexivity]. Qed.
Lemma cop_ok : forall i c r, parseCopula i = POk c r -> i = copText c ++ r.
Proof.
  intros i c r H. unfold parseCopula in H.
  repeat match type of H with
  | orElse (pbind (tagS ?s i) _) _ = _ => destruct (tagS s i) as [u rr| |] eqn:?; cbn [pbind orElse] in H; [|clear - H|discriminate]
  | pbind (tagS ?s i) _ = _ => destruct (tagS s i) as [u rr| |] eqn:?; cbn [pbind orElse] in H; [|discriminate|discriminate]
  end; injection H as <- <-;
  match goal with E : tagS _ i = POk _ _ |- _ => apply tag_ok in E; exact E end.
Qed.
Lemma cop_nofuel : forall i, parseCopula i <> PFuel.
Proof.
  intros i H. unfold parseCopula in H.
  repeat match type of H with
  | orElse (pbind (tagS ?s i) _) _ = _ => destruct (tagS s i) as [u rr| |] eqn:E; cbn [pbind orElse] in H; [discriminate| |apply tag_nofuel in E; auto]; clear E
  | pbind (tagS ?s i) _ = _ => destruct (tagS s i) as [u rr| |] eqn:E; cbn [pbind orElse] in H; [discriminate|discriminate|apply tag_nofuel in E; auto]
  end.
Qed.
Lemma cop_text : forall c r, parseCopula (copText c ++ r) = POk c r.
Proof. intros [] r; reflexivity. Qed.

(** ** soundness *)
Ltac pinv H := match type of H with
  | pbind ?x _ = POk _ _ => let E := fresh "E" in destruct x eqn:E; cbn [pbind] in H; [|discriminate H|discriminate H]; try (apply tag_ok in E); try (apply cop_ok in E)
  end.
Definition sound (self : text -> pres term) : Prop := forall i t r, self i = POk t r -> exists w, writes t w /\ i = w ++ r.
Ltac selfs S := repeat match goal with E : ?self _ = POk _ _ |- _ => apply S in E; destruct E as (? & ? & ?) end.
Lemma more_ok : forall self sep, sound self -> forall f i ts r, moreTerms self sep f i = POk ts r ->
  exists w, i = w ++ r /\ match ts with [] => w = [] | _ => exists v, w = ascii_text sep ++ v /\ writesAll sep ts v end.
Proof.
  intros self sep Sd. induction f as [|f IH]; intros i ts r H; cbn [moreTerms] in H; [discriminate|].
  destruct (tagS sep i) as [u i2| |] eqn:E; [|injection H as <- <-; now exists []|injection H as <- <-; now exists []].
  apply tag_ok in E. destruct (self i2) as [t i3| |] eqn:E2; cbn [pbind] in H; try discriminate.
  destruct (moreTerms self sep f i3) as [ts' r'| |] eqn:E3; cbn [pbind] in H; try discriminate. injection H as <- <-.
  apply Sd in E2. destruct E2 as (w & Hw & ->). apply IH in E3. destruct E3 as (w' & -> & M). subst i.
  exists (ascii_text sep ++ w ++ w'). split; [now rewrite <- !app_assoc|]. exists (w ++ w'). split; auto.
  destruct ts' as [|t' ts']; [subst w'; rewrite app_nil_r; now constructor|]. destruct M as (v & -> & M). now constructor.
Qed.
Lemma list_ok : forall self sep mk i t r, sound self -> parseList self sep mk i = POk t r ->
  exists l w, 2 <= length l /\ writesAll sep l w /\ t = mk l /\ i = ascii_text "(" ++ w ++ ascii_text ")" ++ r.
Proof.
  intros self sep mk i t r Sd H. unfold parseList in H.
  pinv H. pinv H. pinv H. pinv H. pinv H. pinv H. injection H as <- <-. selfs Sd. apply (more_ok self sep Sd) in E3. destruct E3 as (w & E3 & M). subst.
  exists (a0 :: a2 :: a3). 
  match goal with W0 : writes a0 ?x0, W2 : writes a2 ?x2 |- _ => exists (x0 ++ ascii_text sep ++ x2 ++ w) end.
  split; [simpl; lia|]. split; [|split; [reflexivity|]].
  - destruct a3 as [|b l]; [subst w; rewrite app_nil_r; constructor; [assumption|now constructor]|]. destruct M as (v & -> & M). constructor; auto. now constructor.
  - unfold tx, ascii_text. rewrite <- !app_assoc. reflexivity.
Qed.
Lemma two_ok : forall self sep mk i t r, sound self -> parseTwo self sep mk i = POk t r ->
  exists a w b v, writes a w /\ writes b v /\ t = mk a b /\ i = ascii_text "(" ++ w ++ ascii_text sep ++ v ++ ascii_text ")" ++ r.
Proof.
  intros self sep mk i t r Sd H. unfold parseTwo in H. pinv H. pinv H. pinv H. pinv H. pinv H. injection H as <- <-. selfs Sd. subst.
  match goal with W0 : writes a0 ?x0, W2 : writes a2 ?x2 |- _ => exists a0, x0, a2, x2 end. split; [assumption|]. split; [assumption|]. split; reflexivity.
Qed.
Lemma alt_sound : forall self, sound self -> sound (alternatives self).
Proof.
  intros self Sd i t r H. unfold alternatives in H.
  Ltac alt H := match type of H with orElse ?x _ = _ => let E := fresh "E" in destruct x eqn:E; cbn [orElse] in H; [injection H as -> ->|clear E|discriminate H] end.
  Ltac fin w := exists w; split; [constructor; auto|unfold tx, ascii_text; rewrite <- ?app_assoc; reflexivity].
  alt H. { unfold parseA in E. pinv E. pinv E. pinv E. injection E as <- <-. selfs Sd. subst. eexists. split; [apply w_setext; eassumption|]. rewrite <- !app_assoc. reflexivity. }
  alt H. { apply list_ok in E; auto. destruct E as (l & w & L & W & -> & ->). exists (ascii_text "(" ++ w ++ ascii_text ")"). split; [now apply w_seq|]. now rewrite <- !app_assoc. }
  alt H. { apply two_ok in E; auto. destruct E as (a & w & b & v & A & B & -> & ->). exists (ascii_text "(" ++ (w ++ ascii_text "|" ++ v) ++ ascii_text ")").
           split; [apply w_intint; auto; constructor; auto; now constructor|]. now rewrite <- !app_assoc. }
  alt H. { apply two_ok in E; auto. destruct E as (a & w & b & v & A & B & -> & ->). exists (ascii_text "(" ++ (w ++ ascii_text "&" ++ v) ++ ascii_text ")").
           split; [apply w_extint; auto; constructor; auto; now constructor|]. now rewrite <- !app_assoc. }
  alt H. { unfold parseC in E. pinv E. pinv E. pinv E. injection E as <- <-. selfs Sd. subst. eexists. split; [apply w_setint; eassumption|]. rewrite <- !app_assoc. reflexivity. }
  alt H. { unfold parseNeg in E. pinv E. pinv E. pinv E. injection E as <- <-. selfs Sd. subst. eexists. split; [apply w_neg; eassumption|]. rewrite <- !app_assoc. reflexivity. }
  alt H. { apply list_ok in E; auto. destruct E as (l & w & L & W & -> & ->). exists (ascii_text "(" ++ w ++ ascii_text ")"). split; [now apply w_prod|]. now rewrite <- !app_assoc. }
  alt H. { apply two_ok in E; auto. destruct E as (a & w & b & v & A & B & -> & ->). exists (ascii_text "(" ++ w ++ ascii_text " /1 " ++ v ++ ascii_text ")").
           split; [now apply w_img0|]. now rewrite <- !app_assoc. }
  alt H. { apply two_ok in E; auto. destruct E as (a & w & b & v & A & B & -> & ->). exists (ascii_text "(" ++ w ++ ascii_text " /2 " ++ v ++ ascii_text ")").
           split; [now apply w_img1|]. now rewrite <- !app_assoc. }
  alt H. { apply two_ok in E; auto. destruct E as (a & w & b & v & A & B & -> & ->). exists (ascii_text "(" ++ (w ++ ascii_text "&&" ++ v) ++ ascii_text ")").
           split; [apply w_conj; [simpl; lia|constructor; auto; now constructor]|]. now rewrite <- !app_assoc. }
  alt H. { unfold parseConj3 in E. pinv E. pinv E. pinv E. pinv E. pinv E. pinv E. pinv E. injection E as <- <-. selfs Sd. subst.
           eexists. split; [apply w_conj with (l := [_; _; _]); [simpl; lia|constructor; [eassumption|constructor; [eassumption|constructor; eassumption]]]|].
           unfold tx, ascii_text. rewrite <- !app_assoc. reflexivity. }
  alt H. { unfold parseConj4 in E. pinv E. pinv E. pinv E. pinv E. pinv E. pinv E. pinv E. pinv E. pinv E. injection E as <- <-. selfs Sd. subst.
           eexists. split; [apply w_conj with (l := [_; _; _; _]); [simpl; lia|constructor; [eassumption|constructor; [eassumption|constructor; [eassumption|constructor; eassumption]]]]|].
           unfold tx, ascii_text. rewrite <- !app_assoc. reflexivity. }
  alt H. { unfold parseStatement in E. pinv E. pinv E. pinv E. pinv E. pinv E. injection E as <- <-. selfs Sd. subst.
           eexists. split; [apply w_stmt; eassumption|]. rewrite <- !app_assoc. reflexivity. }
  alt H. { unfold parseQVar in E. pinv E. pinv E. injection E as <- <-. apply alpha_ok in E1. destruct E1 as (w & N & -> & ->). subst i. exists (ascii_text "?" ++ w). split; [now apply w_qvar|reflexivity]. }
  alt H. { unfold parseDepVar in E. pinv E. pinv E. injection E as <- <-. apply alpha_ok in E1. destruct E1 as (w & N & -> & ->). subst i. exists (ascii_text "#" ++ w). split; [now apply w_depvar|reflexivity]. }
  alt H. { unfold parseIndepVar in E. pinv E. pinv E. injection E as <- <-. apply alpha_ok in E1. destruct E1 as (w & N & -> & ->). subst i. exists (ascii_text "$" ++ w). split; [now apply w_indepvar|reflexivity]. }
  unfold parseB in H. pinv H. injection H as <- <-. apply alpha_ok in E. destruct E as (w & N & -> & ->). exists w. split; [now apply w_name|reflexivity].
Qed.
Theorem parse_sound : forall f, sound (parseSubjOrPred f).
Proof. induction f as [|f IH]; [intros i t r H; discriminate|]. now apply alt_sound. Qed.

(** ** termination *)
Lemma writes_nonempty : forall t w, writes t w -> w <> [].
Proof. intros t w H. destruct H; try (intros X; discriminate X). exact (proj1 H). Qed.
Lemma sound_short : forall self i t r, sound self -> self i = POk t r -> length r < length i.
Proof. intros self i t r Sd H. apply Sd in H. destruct H as (w & W & ->). apply writes_nonempty in W. destruct w; [congruence|]. rewrite app_length. simpl. lia. Qed.
Lemma tag_short : forall s i u r, tagS s i = POk u r -> length i = length (tx s) + length r.
Proof. intros s i u r H. apply tag_ok in H. subst i. apply app_length. Qed.
Lemma cop_short : forall i c r, parseCopula i = POk c r -> length r < length i.
Proof. intros i c r H. apply cop_ok in H. subst i. rewrite app_length. destruct c; simpl; lia. Qed.
Definition fuelled (n : nat) (self : text -> pres term) : Prop := forall i, length i < n -> self i <> PFuel.
Ltac finv H Sd := match type of H with
  | pbind ?x _ = PFuel => let E := fresh "E" in destruct x eqn:E; cbn [pbind] in H;
      [|discriminate H|first [now apply tag_nofuel in E | now apply alpha_nofuel in E | now apply cop_nofuel in E | idtac]];
      try (apply tag_short in E; cbn [length tx list_ascii_of_string] in E); try (apply cop_short in E); try (apply (sound_short _ _ _ _ Sd) in E)
  end.
Lemma more_fuel : forall self sep, sound self -> 1 <= length (tx sep) -> forall f i, length i < f -> fuelled (length i) self -> moreTerms self sep f i <> PFuel.
Proof.
  intros self sep Sd Ls. induction f as [|f IH]; intros i L F H; [lia|]. cbn [moreTerms] in H. destruct (tagS sep i) as [u i2| |] eqn:E; try discriminate.
  apply tag_short in E. destruct (self i2) as [t i3| |] eqn:E2; cbn [pbind] in H; [|discriminate|apply (F i2); auto; lia].
  apply (sound_short _ _ _ _ Sd) in E2. destruct (moreTerms self sep f i3) eqn:E3; cbn [pbind] in H; try discriminate.
  apply (IH i3); auto; [lia|]. intros j Lj. apply F. lia.
Qed.
Lemma alt_fuel : forall self i, sound self -> fuelled (length i) self -> alternatives self i <> PFuel.
Proof.
  intros self i Sd F H. unfold alternatives in H.
  assert (List2 : forall sep mk, 1 <= length (tx sep) -> parseList self sep mk i <> PFuel).
  { intros sep mk Ls X. unfold parseList in X. finv X Sd. finv X Sd; [|apply (F rest); auto; lia]. finv X Sd. finv X Sd; [|apply (F rest1); auto; lia].
    destruct (moreTerms self sep (S (length rest2)) rest2) eqn:M; cbn [pbind] in X; [|discriminate|].
    - finv X Sd. discriminate.
    - apply (more_fuel self sep Sd Ls) in M; auto. intros j Lj. apply F. lia. }
  assert (Two : forall sep mk, parseTwo self sep mk i <> PFuel).
  { intros sep mk X. unfold parseTwo in X. finv X Sd. finv X Sd; [|apply (F rest); auto; lia]. finv X Sd. finv X Sd; [|apply (F rest1); auto; lia].
    finv X Sd. discriminate. }
  Ltac alf H := match type of H with orElse ?x _ = PFuel => let E := fresh "X" in destruct x eqn:E; cbn [orElse] in H; [discriminate H|clear E|clear H] end.
  alf H; [|unfold parseA in X; finv X Sd; finv X Sd; [|apply (F rest); auto; lia]; finv X Sd; discriminate].
  alf H; [|now apply List2 in X; simpl; auto].
  alf H; [|now apply Two in X].
  alf H; [|now apply Two in X].
  alf H; [|unfold parseC in X; finv X Sd; finv X Sd; [|apply (F rest); auto; lia]; finv X Sd; discriminate].
  alf H; [|unfold parseNeg in X; finv X Sd; finv X Sd; [|apply (F rest); auto; lia]; finv X Sd; discriminate].
  alf H; [|now apply List2 in X; simpl; auto].
  alf H; [|now apply Two in X].
  alf H; [|now apply Two in X].
  alf H; [|now apply Two in X].
  alf H; [|unfold parseConj3 in X; finv X Sd; finv X Sd; [|apply (F rest); auto; lia]; finv X Sd; finv X Sd; [|apply (F rest1); auto; lia]; finv X Sd; finv X Sd; [|apply (F rest3); auto; lia]; finv X Sd; discriminate].
  alf H; [|unfold parseConj4 in X; finv X Sd; finv X Sd; [|apply (F rest); auto; lia]; finv X Sd; finv X Sd; [|apply (F rest1); auto; lia]; finv X Sd; finv X Sd; [|apply (F rest3); auto; lia]; finv X Sd; finv X Sd; [|apply (F rest5); auto; lia]; finv X Sd; discriminate].
  alf H; [|unfold parseStatement in X; finv X Sd; finv X Sd; [|apply (F rest); auto; lia]; finv X Sd; finv X Sd; [|apply (F rest1); auto; lia]; finv X Sd; discriminate].
  alf H; [|unfold parseQVar in X; finv X Sd; finv X Sd; discriminate].
  alf H; [|unfold parseDepVar in X; finv X Sd; finv X Sd; discriminate].
  alf H; [|unfold parseIndepVar in X; finv X Sd; finv X Sd; discriminate].
  unfold parseB in H. finv H Sd. discriminate.
Qed.
Theorem parse_fuel : forall f i, length i < f -> parseSubjOrPred f i <> PFuel.
Proof.
  induction f as [|f IH]; intros i L; [lia|]. apply alt_fuel; [apply parse_sound|]. intros j Lj. apply IH. lia.
Qed.

(** ** completeness *)
Scheme writes_ind2 := Induction for writes Sort Prop with writesAll_ind2 := Induction for writesAll Sort Prop.
Section Complete.
Variable self : text -> pres term.
Hypothesis Hbang : forall k, self ("!"%char :: k) = PErr.
Hypothesis Hamp : forall k, self ("&"%char :: k) = PErr.
Lemma listF : forall sep mk j a j', self j = POk a j' -> tagS sep j' = PErr -> parseList self sep mk ("("%char :: j) = PErr.
Proof. intros sep mk j a j' H T. unfold parseList, tagS, tx. cbn [list_ascii_of_string tag]. rewrite Ascii.eqb_refl. cbn [pbind]. rewrite H. cbn [pbind]. unfold tagS, tx in T. now rewrite T. Qed.
Lemma listF0 : forall sep mk j, self j = PErr -> parseList self sep mk ("("%char :: j) = PErr.
Proof. intros sep mk j H. unfold parseList, tagS, tx. cbn [list_ascii_of_string tag]. rewrite Ascii.eqb_refl. cbn [pbind]. now rewrite H. Qed.
Lemma twoF : forall sep mk j a j', self j = POk a j' -> tagS sep j' = PErr -> parseTwo self sep mk ("("%char :: j) = PErr.
Proof. intros sep mk j a j' H T. unfold parseTwo, tagS, tx. cbn [list_ascii_of_string tag]. rewrite Ascii.eqb_refl. cbn [pbind]. rewrite H. cbn [pbind]. unfold tagS, tx in T. now rewrite T. Qed.
Lemma twoF0 : forall sep mk j, self j = PErr -> parseTwo self sep mk ("("%char :: j) = PErr.
Proof. intros sep mk j H. unfold parseTwo, tagS, tx. cbn [list_ascii_of_string tag]. rewrite Ascii.eqb_refl. cbn [pbind]. now rewrite H. Qed.
Lemma twoF2 : forall sep mk j a k, self j = POk a (tx sep ++ k) -> self k = PErr -> parseTwo self sep mk ("("%char :: j) = PErr.
Proof. intros sep mk j a k H T. unfold parseTwo, tagS. cbn [tx list_ascii_of_string tag]. rewrite Ascii.eqb_refl. cbn [pbind]. rewrite H. cbn [pbind]. rewrite tag_app. cbn [pbind]. now rewrite T. Qed.
Lemma twoF3 : forall sep mk j a k b k', self j = POk a (tx sep ++ k) -> self k = POk b k' -> tagS ")" k' = PErr -> parseTwo self sep mk ("("%char :: j) = PErr.
Proof. intros sep mk j a k b k' H T G. unfold parseTwo, tagS. cbn [tx list_ascii_of_string tag]. rewrite Ascii.eqb_refl. cbn [pbind]. rewrite H. cbn [pbind]. rewrite tag_app. cbn [pbind]. rewrite T. cbn [pbind]. unfold tagS in G. cbn [tx list_ascii_of_string tag] in G. now rewrite G. Qed.
Lemma twoOK : forall sep mk j a k b r, self j = POk a (tx sep ++ k) -> self k = POk b (tx ")" ++ r) -> parseTwo self sep mk ("("%char :: j) = POk (mk a b) r.
Proof. intros sep mk j a k b r H T. unfold parseTwo, tagS. cbn [tx list_ascii_of_string tag]. rewrite Ascii.eqb_refl. cbn [pbind]. rewrite H. cbn [pbind]. rewrite tag_app. cbn [pbind]. rewrite T. cbn [pbind]. cbn [tx list_ascii_of_string app tag]. rewrite Ascii.eqb_refl. reflexivity. Qed.
Lemma negF : forall j a j', self j = POk a j' -> parseNeg self ("("%char :: j) = PErr.
Proof.
  intros j a j' H. unfold parseNeg, tagS. cbn [tx list_ascii_of_string tag]. rewrite Ascii.eqb_refl. destruct j as [|c j]; [reflexivity|].
  destruct (Ascii.eqb "!" c) eqn:E; [|reflexivity]. apply Ascii.eqb_eq in E. subst c. rewrite Hbang in H. discriminate.
Qed.
(** terms joined by a separator, each read by [self] *)
Fixpoint chain (sep : string) (l : list term) (i r : text) : Prop :=
  match l with
  | [] => i = r
  | t :: l' => exists i', self i = POk t i' /\ match l' with [] => i' = r | _ => exists k, i' = tx sep ++ k /\ chain sep l' k r end
  end.
Lemma moreOK : forall sep l t i r f, chain sep (t :: l) i r -> length i < f -> sound self -> (forall a x, tagS sep r = POk a x -> False) -> exists i', self i = POk t i' /\ moreTerms self sep f i' = POk l r.
Proof.
  intros sep l. induction l as [|t' l IH]; intros t i r f C L Sd N; simpl in C; destruct C as (i' & H & C); exists i'; split; auto; destruct f as [|f]; try lia; cbn [moreTerms].
  - subst i'. destruct (tagS sep r) eqn:E; auto. exfalso. eauto.
  - destruct C as (k & -> & C). unfold tagS. rewrite tag_app. apply sound_short in H; auto. rewrite app_length in H.
    destruct (IH t' k r f C ltac:(lia) Sd N) as (i'' & H' & M). rewrite H'. cbn [pbind]. now rewrite M.
Qed.
Lemma listOK : forall sep mk j l r, sound self -> 2 <= length l -> chain sep l j (tx ")" ++ r) -> (forall x, tagS sep (tx ")" ++ x) = PErr) ->
  parseList self sep mk ("("%char :: j) = POk (mk l) r.
Proof.
  intros sep mk j l r Sd L C N. destruct l as [|a [|b l]]; simpl in L; try lia. cbn [chain] in C. destruct C as (i1 & H1 & k & -> & C).
  unfold parseList, tagS. cbn [tx list_ascii_of_string tag]. rewrite Ascii.eqb_refl. cbn [pbind]. rewrite H1. cbn [pbind]. rewrite tag_app. cbn [pbind].
  destruct C as (i2 & H2 & C). rewrite H2. cbn [pbind].
  assert (M : moreTerms self sep (S (length i2)) i2 = POk l (tx ")" ++ r)).
  { destruct l as [|t l].
    - subst i2. cbn [moreTerms]. rewrite N. reflexivity.
    - destruct C as (k2 & -> & C). cbn [moreTerms]. unfold tagS. rewrite tag_app.
      destruct (moreOK sep l t k2 (tx ")" ++ r) (S (length k2)) C ltac:(lia) Sd) as (i3 & H3 & M3); [intros a0 x X; rewrite N in X; discriminate|].
      rewrite H3. cbn [pbind]. 
      assert (Mono : forall f i ts x f', moreTerms self sep f i = POk ts x -> f <= f' -> moreTerms self sep f' i = POk ts x).
      { clear. induction f as [|f IH]; intros i ts x f' H L; [discriminate|]. destruct f' as [|f']; [lia|]. cbn [moreTerms] in *. destruct (tagS sep i); auto.
        destruct (self rest) as [t y| |]; cbn [pbind] in *; auto. destruct (moreTerms self sep f y) eqn:E; cbn [pbind] in H; try discriminate. rewrite (IH _ _ _ f' E ltac:(lia)). exact H. }
      destruct (le_lt_dec (S (length k2)) (length (tx sep ++ k2))) as [Q|Q].
      + rewrite (Mono _ _ _ _ (length (tx sep ++ k2)) M3 Q). reflexivity.
      + exfalso. assert (S0 : tx sep = []) by (rewrite app_length in Q; destruct (tx sep); [reflexivity|simpl in Q; lia]).
        specialize (N []). unfold tagS in N. rewrite S0 in N. discriminate. }
  rewrite M. cbn [pbind tx list_ascii_of_string app tag]. rewrite Ascii.eqb_refl. reflexivity.
Qed.
Lemma conj3F : forall j a j', self j = POk a j' -> tagS "&&" j' = PErr -> parseConj3 self ("("%char :: j) = PErr.
Proof. intros j a j' H T. unfold parseConj3, tagS. cbn [tx list_ascii_of_string tag]. rewrite Ascii.eqb_refl. cbn [pbind]. rewrite H. cbn [pbind]. unfold tagS, tx in T. cbn [list_ascii_of_string tag] in T. now rewrite T. Qed.
Lemma conj3F3 : forall j a k b k2 c k', self j = POk a (tx "&&" ++ k) -> self k = POk b (tx "&&" ++ k2) -> self k2 = POk c k' -> tagS ")" k' = PErr -> parseConj3 self ("("%char :: j) = PErr.
Proof.
  intros j a k b k2 c k' H1 H2 H3 G. unfold parseConj3, tagS. cbn [tx list_ascii_of_string app tag] in *. rewrite Ascii.eqb_refl. cbn [pbind]. rewrite H1. cbn [pbind]. rewrite !Ascii.eqb_refl. cbn [pbind].
  rewrite H2. cbn [pbind]. rewrite !Ascii.eqb_refl. cbn [pbind]. rewrite H3. cbn [pbind]. unfold tagS, tx in G. cbn [list_ascii_of_string tag] in G. now rewrite G.
Qed.
Lemma conj3OK : forall j a k b k2 c r, self j = POk a (tx "&&" ++ k) -> self k = POk b (tx "&&" ++ k2) -> self k2 = POk c (tx ")" ++ r) -> parseConj3 self ("("%char :: j) = POk (Conj [a; b; c]) r.
Proof.
  intros j a k b k2 c r H1 H2 H3. unfold parseConj3, tagS. cbn [tx list_ascii_of_string app tag] in *. rewrite Ascii.eqb_refl. cbn [pbind]. rewrite H1. cbn [pbind]. rewrite !Ascii.eqb_refl. cbn [pbind].
  rewrite H2. cbn [pbind]. rewrite !Ascii.eqb_refl. cbn [pbind]. rewrite H3. cbn [pbind]. rewrite Ascii.eqb_refl. reflexivity.
Qed.
Lemma conj4OK : forall j a k b k2 c k3 d r, self j = POk a (tx "&&" ++ k) -> self k = POk b (tx "&&" ++ k2) -> self k2 = POk c (tx "&&" ++ k3) -> self k3 = POk d (tx ")" ++ r) ->
  parseConj4 self ("("%char :: j) = POk (Conj [a; b; c; d]) r.
Proof.
  intros j a k b k2 c k3 d r H1 H2 H3 H4. unfold parseConj4, tagS. cbn [tx list_ascii_of_string app tag] in *. rewrite Ascii.eqb_refl. cbn [pbind]. rewrite H1. cbn [pbind]. rewrite !Ascii.eqb_refl. cbn [pbind].
  rewrite H2. cbn [pbind]. rewrite !Ascii.eqb_refl. cbn [pbind]. rewrite H3. cbn [pbind]. rewrite !Ascii.eqb_refl. cbn [pbind]. rewrite H4. cbn [pbind]. rewrite Ascii.eqb_refl. reflexivity.
Qed.
Lemma conj4F : forall j a j', self j = POk a j' -> tagS "&&" j' = PErr -> parseConj4 self ("("%char :: j) = PErr.
Proof. intros j a j' H T. unfold parseConj4, tagS. cbn [tx list_ascii_of_string tag]. rewrite Ascii.eqb_refl. cbn [pbind]. rewrite H. cbn [pbind]. unfold tagS, tx in T. cbn [list_ascii_of_string tag] in T. now rewrite T. Qed.

Definition tries := alternatives.
Hypothesis Sd : sound self.
Lemma altSeq : forall l j r, 2 <= length l -> chain "," l j (tx ")" ++ r) -> alternatives self ("("%char :: j) = POk (Seq l) r.
Proof. intros l j r L C. unfold alternatives. change (parseA self ("("%char :: j)) with (@PErr term). cbn [orElse]. unfold parseSeq. rewrite (listOK "," Seq j l r Sd L C) by reflexivity. reflexivity. Qed.
Lemma altProd : forall l j r, 2 <= length l -> chain "*" l j (tx ")" ++ r) -> alternatives self ("("%char :: j) = POk (Prod l) r.
Proof.
  intros l j r L C. unfold alternatives, parseSeq, parseIntInt2, parseExtInt2. change (parseA self ("("%char :: j)) with (@PErr term). cbn [orElse].
  assert (exists a k, self j = POk a ("*"%char :: k)) as (a & k & H). { destruct l as [|a [|b l]]; simpl in L; try lia. destruct C as (i & H & k & -> & _). exists a, k. exact H. }
  rewrite (listF _ _ _ _ _ H) by reflexivity. cbn [orElse]. rewrite (twoF _ _ _ _ _ H) by reflexivity. cbn [orElse]. rewrite (twoF _ _ _ _ _ H) by reflexivity. cbn [orElse].
  change (parseC self ("("%char :: j)) with (@PErr term). cbn [orElse]. rewrite (negF _ _ _ H). cbn [orElse]. unfold parseProd. rewrite (listOK "*" Prod j l r Sd L C) by reflexivity. reflexivity.
Qed.
Lemma altIntInt : forall a b j r, chain "|" [a; b] j (tx ")" ++ r) -> alternatives self ("("%char :: j) = POk (IntInt [a; b]) r.
Proof.
  intros a b j r (i & H & k & -> & i2 & H2 & ->). unfold alternatives, parseSeq, parseIntInt2. change (parseA self ("("%char :: j)) with (@PErr term). cbn [orElse].
  rewrite (listF _ _ _ _ _ H) by reflexivity. cbn [orElse]. rewrite (twoOK _ _ _ _ _ _ _ H H2). reflexivity.
Qed.
Lemma altExtInt : forall a b j r, chain "&" [a; b] j (tx ")" ++ r) -> alternatives self ("("%char :: j) = POk (ExtInt [a; b]) r.
Proof.
  intros a b j r (i & H & k & -> & i2 & H2 & ->). unfold alternatives, parseSeq, parseIntInt2, parseExtInt2. change (parseA self ("("%char :: j)) with (@PErr term). cbn [orElse].
  rewrite (listF _ _ _ _ _ H) by reflexivity. cbn [orElse]. rewrite (twoF _ _ _ _ _ H) by reflexivity. cbn [orElse]. rewrite (twoOK _ _ _ _ _ _ _ H H2). reflexivity.
Qed.
Lemma altConj : forall l j r, 2 <= length l <= 4 -> chain "&&" l j (tx ")" ++ r) -> alternatives self ("("%char :: j) = POk (Conj l) r.
Proof.
  intros l j r L C. unfold alternatives, parseSeq, parseIntInt2, parseExtInt2, parseProd, parseImg0, parseImg1, parseConj2. change (parseA self ("("%char :: j)) with (@PErr term). cbn [orElse].
  destruct l as [|a [|b l]]; simpl in L; try lia. destruct C as (i & H & k & -> & C).
  rewrite (listF _ _ _ _ _ H) by reflexivity. cbn [orElse]. rewrite (twoF _ _ _ _ _ H) by reflexivity. cbn [orElse].
  rewrite (twoF2 "&" _ j a ("&"%char :: k) H) by apply Hamp. cbn [orElse]. change (parseC self ("("%char :: j)) with (@PErr term). cbn [orElse].
  rewrite (negF _ _ _ H). cbn [orElse]. rewrite (listF _ _ _ _ _ H) by reflexivity. cbn [orElse]. do 2 (rewrite (twoF _ _ _ _ _ H) by reflexivity; cbn [orElse]).
  destruct C as (i2 & H2 & C). destruct l as [|c l]; [subst i2; rewrite (twoOK _ _ _ _ _ _ _ H H2); reflexivity|].
  destruct C as (k2 & -> & C). rewrite (twoF3 "&&" _ _ _ _ _ _ H H2) by reflexivity. cbn [orElse]. destruct C as (i3 & H3 & C).
  destruct l as [|d l]; [subst i3; rewrite (conj3OK _ _ _ _ _ _ _ H H2 H3); reflexivity|].
  destruct C as (k3 & -> & C). rewrite (conj3F3 _ _ _ _ _ _ _ H H2 H3) by reflexivity. cbn [orElse]. destruct C as (i4 & H4 & C).
  destruct l as [|e l]; [subst i4; rewrite (conj4OK _ _ _ _ _ _ _ _ _ H H2 H3 H4); reflexivity|]. simpl in L. lia.
Qed.
Lemma altImg0 : forall a b j r k, self j = POk a (tx " /1 " ++ k) -> self k = POk b (tx ")" ++ r) -> alternatives self ("("%char :: j) = POk (Img a 0 [b]) r.
Proof.
  intros a b j r k H H2. unfold alternatives, parseSeq, parseIntInt2, parseExtInt2, parseProd, parseImg0. change (parseA self ("("%char :: j)) with (@PErr term). cbn [orElse].
  rewrite (listF _ _ _ _ _ H) by reflexivity. cbn [orElse]. do 2 (rewrite (twoF _ _ _ _ _ H) by reflexivity; cbn [orElse]). change (parseC self ("("%char :: j)) with (@PErr term). cbn [orElse].
  rewrite (negF _ _ _ H). cbn [orElse]. rewrite (listF _ _ _ _ _ H) by reflexivity. cbn [orElse]. rewrite (twoOK _ _ _ _ _ _ _ H H2). reflexivity.
Qed.
Lemma altImg1 : forall a b j r k, self j = POk a (tx " /2 " ++ k) -> self k = POk b (tx ")" ++ r) -> alternatives self ("("%char :: j) = POk (Img a 1 [b]) r.
Proof.
  intros a b j r k H H2. unfold alternatives, parseSeq, parseIntInt2, parseExtInt2, parseProd, parseImg0, parseImg1. change (parseA self ("("%char :: j)) with (@PErr term). cbn [orElse].
  rewrite (listF _ _ _ _ _ H) by reflexivity. cbn [orElse]. do 2 (rewrite (twoF _ _ _ _ _ H) by reflexivity; cbn [orElse]). change (parseC self ("("%char :: j)) with (@PErr term). cbn [orElse].
  rewrite (negF _ _ _ H). cbn [orElse]. rewrite (listF _ _ _ _ _ H) by reflexivity. cbn [orElse]. rewrite (twoF _ _ _ _ _ H) by reflexivity. cbn [orElse]. rewrite (twoOK _ _ _ _ _ _ _ H H2). reflexivity.
Qed.
Lemma altNeg : forall t j r, self j = POk t (tx ")" ++ r) -> alternatives self (tx "(!" ++ j) = POk (Neg t) r.
Proof.
  intros t j r H. cbn [tx list_ascii_of_string app]. unfold alternatives, parseSeq, parseIntInt2, parseExtInt2. change (parseA self ("("%char :: "!"%char :: j)) with (@PErr term). cbn [orElse].
  rewrite listF0 by apply Hbang. cbn [orElse]. do 2 (rewrite twoF0 by apply Hbang; cbn [orElse]). change (parseC self ("("%char :: "!"%char :: j)) with (@PErr term). cbn [orElse].
  unfold parseNeg, tagS. cbn [tx list_ascii_of_string tag]. rewrite !Ascii.eqb_refl. cbn [pbind]. rewrite H. cbn [pbind tx list_ascii_of_string app tag]. rewrite Ascii.eqb_refl. reflexivity.
Qed.
Lemma altExt : forall t j r, self j = POk t (tx "}" ++ r) -> alternatives self (tx "{" ++ j) = POk (SetExt [t]) r.
Proof. intros t j r H. cbn [tx list_ascii_of_string app]. unfold alternatives, parseA, tagS. cbn [tx list_ascii_of_string tag]. rewrite Ascii.eqb_refl. cbn [pbind]. rewrite H. cbn [pbind tx list_ascii_of_string app tag]. rewrite Ascii.eqb_refl. reflexivity. Qed.
Lemma altInt : forall t j r, self j = POk t (tx "]" ++ r) -> alternatives self (tx "[" ++ j) = POk (SetInt [t]) r.
Proof.
  intros t j r H. cbn [tx list_ascii_of_string app]. unfold alternatives. change (parseA self ("["%char :: j)) with (@PErr term). change (parseSeq self ("["%char :: j)) with (@PErr term).
  change (parseIntInt2 self ("["%char :: j)) with (@PErr term). change (parseExtInt2 self ("["%char :: j)) with (@PErr term). cbn [orElse].
  unfold parseC, tagS. cbn [tx list_ascii_of_string tag]. rewrite Ascii.eqb_refl. cbn [pbind]. rewrite H. cbn [pbind tx list_ascii_of_string app tag]. rewrite Ascii.eqb_refl. reflexivity.
Qed.
Ltac none x i := change (parseA self i) with (@PErr term); change (parseSeq self i) with (@PErr term);
  change (parseIntInt2 self i) with (@PErr term); change (parseExtInt2 self i) with (@PErr term); change (parseC self i) with (@PErr term);
  change (parseNeg self i) with (@PErr term); change (parseProd self i) with (@PErr term); change (parseImg0 self i) with (@PErr term); change (parseImg1 self i) with (@PErr term);
  change (parseConj2 self i) with (@PErr term); change (parseConj3 self i) with (@PErr term); change (parseConj4 self i) with (@PErr term).
Lemma altStmt : forall c s p j k r, self j = POk s (copText c ++ k) -> self k = POk p (tx ">" ++ r) -> alternatives self (tx "<" ++ j) = POk (Stmt c s p) r.
Proof.
  intros c s p j k r H H2. cbn [tx list_ascii_of_string app]. unfold alternatives. none self ("<"%char :: j). cbn [orElse].
  unfold parseStatement, tagS. cbn [tx list_ascii_of_string tag]. rewrite Ascii.eqb_refl. cbn [pbind]. rewrite H. cbn [pbind]. rewrite cop_text. cbn [pbind]. rewrite H2.
  cbn [pbind tx list_ascii_of_string app tag]. rewrite Ascii.eqb_refl. reflexivity.
Qed.
Lemma altVar : forall w r, nameText w -> stopsName r ->
  alternatives self ("?"%char :: w ++ r) = POk (QVar (string_of_list_ascii w)) r /\
  alternatives self ("#"%char :: w ++ r) = POk (DepVar (string_of_list_ascii w)) r /\
  alternatives self ("$"%char :: w ++ r) = POk (IndepVar (string_of_list_ascii w)) r.
Proof.
  intros w r N St. split; [|split]; unfold alternatives; [none self ("?"%char :: w ++ r)|none self ("#"%char :: w ++ r)|none self ("$"%char :: w ++ r)]; cbn [orElse].
  - change (parseStatement self ("?"%char :: w ++ r)) with (@PErr term). cbn [orElse]. unfold parseQVar, tagS. cbn [tx list_ascii_of_string tag]. rewrite Ascii.eqb_refl. cbn [pbind]. rewrite alpha_name by assumption. reflexivity.
  - change (parseStatement self ("#"%char :: w ++ r)) with (@PErr term). change (parseQVar ("#"%char :: w ++ r)) with (@PErr term). cbn [orElse]. unfold parseDepVar, tagS. cbn [tx list_ascii_of_string tag]. rewrite Ascii.eqb_refl. cbn [pbind]. rewrite alpha_name by assumption. reflexivity.
  - change (parseStatement self ("$"%char :: w ++ r)) with (@PErr term). change (parseQVar ("$"%char :: w ++ r)) with (@PErr term). change (parseDepVar ("$"%char :: w ++ r)) with (@PErr term). cbn [orElse]. unfold parseIndepVar, tagS. cbn [tx list_ascii_of_string tag]. rewrite Ascii.eqb_refl. cbn [pbind]. rewrite alpha_name by assumption. reflexivity.
Qed.
Lemma tag1_err : forall c d w i, c <> d -> tag (c :: w) (d :: i) = PErr.
Proof. intros c d w i N. cbn [tag]. destruct (Ascii.eqb c d) eqn:E; auto. apply Ascii.eqb_eq in E. contradiction. Qed.
Lemma altName : forall w r, nameText w -> stopsName r -> alternatives self (w ++ r) = POk (Name (string_of_list_ascii w)) r.
Proof.
  intros w r N St. destruct w as [|c w]; [destruct N; contradiction|]. assert (Hc : nameChar c) by (apply N; now left).
  assert (Bad : forall d s, d :: s = tx (String d (str s)) -> ~ nameChar d -> forall x, tagS (String d (str s)) (c :: x) = PErr).
  { intros d s E Nd x. unfold tagS. rewrite <- E. apply tag1_err. intros ->. contradiction. }
  assert (G : forall s, In s ["{"; "("; "["; "(!"; "<"; "?"; "#"; "$"]%string -> forall x, tagS s (c :: x) = PErr).
  { assert (ND : forall d, In d (ascii_text "{([<?#$") -> ~ nameChar d).
    { intros d Hd X. apply sign_iff in X. cbn in Hd. intuition subst; vm_compute in X; discriminate. }
    intros s Hs x. cbn in Hs. unfold tagS. intuition subst; cbn [tx list_ascii_of_string]; apply tag1_err; intros <-; revert Hc; apply ND; cbn; tauto. }
  unfold alternatives. cbn [app].
  unfold parseA, parseSeq, parseIntInt2, parseExtInt2, parseC, parseNeg, parseProd, parseImg0, parseImg1, parseConj2, parseConj3, parseConj4, parseStatement, parseQVar, parseDepVar, parseIndepVar, parseList, parseTwo.
  rewrite !G by (cbn; tauto). cbn [pbind orElse]. unfold parseB. change (c :: w ++ r) with ((c :: w) ++ r). rewrite alpha_name by assumption. reflexivity.
Qed.
End Complete.
Lemma bang_err : forall f k, parseSubjOrPred (S f) ("!"%char :: k) = PErr.
Proof. intros f k. reflexivity. Qed.
Lemma amp_err : forall f k, parseSubjOrPred (S f) ("&"%char :: k) = PErr.
Proof. intros f k. reflexivity. Qed.
Definition sepOk (sep : string) : Prop := forall r, stopsName (tx sep ++ r).
Lemma stops_dec : forall c i, isValidSign c = false -> stopsName (c :: i).
Proof. intros c i H X. apply sign_iff in X. congruence. Qed.
Lemma may_stop : forall t r, stopsName r -> mayFollow t r.
Proof. intros t r H. destruct t; simpl; auto. Qed.
Theorem parse_complete : forall t w, writes t w -> forall r f, mayFollow t r -> length (w ++ r) < f -> parseSubjOrPred f (w ++ r) = POk t r.
Proof.
  assert (H : forall t w, writes t w -> forall r f, mayFollow t r -> length (w ++ r) < f -> parseSubjOrPred f (w ++ r) = POk t r); [|exact H].
  apply (writes_ind2 (fun t w _ => forall r f, mayFollow t r -> length (w ++ r) < f -> parseSubjOrPred f (w ++ r) = POk t r)
    (fun sep l w _ => sepOk sep -> forall r f, stopsName r -> length (w ++ r) < f -> chain (parseSubjOrPred f) sep l (w ++ r) r));
  unfold ascii_text; intros.
  Ltac fuel L f := destruct f as [|f]; [lia|];
    assert (BANG : 0 < f -> forall k, parseSubjOrPred f ("!"%char :: k) = PErr) by (intros Pf k; destruct f; [lia|apply bang_err]);
    assert (AMP : 0 < f -> forall k, parseSubjOrPred f ("&"%char :: k) = PErr) by (intros Pf k; destruct f; [lia|apply amp_err]);
    cbn [parseSubjOrPred].
  Ltac len := rewrite ?app_length in *; simpl in *; lia.
  1: { fuel H0 f; now apply altName. }
  1-3: fuel H0 f; destruct (altVar (parseSubjOrPred f) w r n H) as (A & B & C); assumption.
  (* sets, negation *)
  1: { fuel H1 f. rewrite <- !app_assoc in *. apply altExt. apply H; [now apply may_stop, stops_dec|]. rewrite ?app_length in *. simpl in *. lia. }
  1: { fuel H1 f. rewrite <- !app_assoc in *. apply altInt. apply H; [now apply may_stop, stops_dec|]. rewrite ?app_length in *. simpl in *. lia. }
  1: { fuel H1 f. rewrite <- !app_assoc in *. apply altNeg; [apply BANG; len|]. apply H; [now apply may_stop, stops_dec|]. rewrite ?app_length in *. simpl in *. lia. }
  Ltac para := rewrite <- !app_assoc in *; cbn [list_ascii_of_string app].
  Ltac go IH := apply IH; [intros x; now apply stops_dec|now apply stops_dec|rewrite ?app_length in *; simpl in *; lia].
  1: { fuel H1 f. para. apply altSeq; [apply parse_sound|assumption|]. go H. }
  1: { fuel H1 f. para. apply altProd; [apply BANG; len|apply parse_sound|assumption|]. go H. }
  1: { fuel H1 f. para. destruct l as [|a [|b [|]]]; try discriminate. apply altIntInt. go H. }
  1: { fuel H1 f. para. destruct l as [|a [|b [|]]]; try discriminate. apply altExtInt. go H. }
  1: { fuel H1 f. para. apply altConj; [apply BANG; len|apply AMP; len|assumption|]. go H. }
  1: { fuel H2 f. para. eapply altImg0; [apply BANG; len| |].
       - apply (H (list_ascii_of_string " /1 " ++ v ++ list_ascii_of_string ")" ++ r0)); [now apply may_stop, stops_dec|]. rewrite ?app_length in *. simpl in *. lia.
       - apply H0; [now apply may_stop, stops_dec|]. rewrite ?app_length in *. simpl in *. lia. }
  1: { fuel H2 f. para. eapply altImg1; [apply BANG; len| |].
       - apply (H (list_ascii_of_string " /2 " ++ v ++ list_ascii_of_string ")" ++ r0)); [now apply may_stop, stops_dec|]. rewrite ?app_length in *. simpl in *. lia.
       - apply H0; [now apply may_stop, stops_dec|]. rewrite ?app_length in *. simpl in *. lia. }
  1: { fuel H2 f. rewrite <- !app_assoc in *. apply altStmt with (k := v ++ list_ascii_of_string ">" ++ r).
       - apply H; [apply may_stop; destruct c; now apply stops_dec|]. rewrite ?app_length in *. simpl in *. lia.
       - apply H0; [now apply may_stop, stops_dec|]. rewrite ?app_length in *. simpl in *. lia. }
  1: { cbn [chain]. exists r. split; auto. apply H; auto. now apply may_stop. }
  rewrite <- !app_assoc in *. cbn [chain]. exists (tx sep ++ v ++ r). split.
  - apply H; [apply may_stop, H1|]. rewrite ?app_length in *. unfold tx. lia.
  - destruct l as [|t' l]; [inversion w1|]. exists (v ++ r). split; auto. apply H0; auto. rewrite ?app_length in *. lia.
Qed.
