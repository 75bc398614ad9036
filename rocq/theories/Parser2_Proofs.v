(** Consequences for whole texts: exactness, the printer, and sentences. *)
From Coq Require Import String Ascii Arith Bool Lia List.
From Verif Require Import Base F64_Model Tv_Model Term_Model Sentence_Model Parser_Model Parser_Spec Parser_Proofs.
Import ListNotations.
Local Open Scope list_scope.

(** ** fuel does not matter *)
Section Ext.
Variables self self' : text -> pres term.
Hypothesis Sd : sound self.
Ltac step := match goal with
  | |- pbind (tagS ?s ?i) _ = pbind (tagS ?s ?i) _ => let E := fresh "E" in destruct (tagS s i) eqn:E; cbn [pbind]; [apply tag_short in E; cbn [length tx list_ascii_of_string] in E|reflexivity|reflexivity]
  | |- pbind (parseCopula ?i) _ = _ => let E := fresh "E" in destruct (parseCopula i) eqn:E; cbn [pbind]; [apply cop_short in E|reflexivity|reflexivity]
  | H : forall j, length j < _ -> self j = self' j |- pbind (self ?i) _ = pbind (self' ?i) _ =>
      rewrite <- (H i) by lia; let E := fresh "E" in destruct (self i) eqn:E; cbn [pbind]; [apply (sound_short _ _ _ _ Sd) in E|reflexivity|reflexivity]
  end.
Lemma more_ext : forall sep f i n, (forall j, length j < n -> self j = self' j) -> length i <= n -> 1 <= length (tx sep) -> moreTerms self sep f i = moreTerms self' sep f i.
Proof.
  induction f as [|f IH]; intros i n H L Ls; [reflexivity|]. cbn [moreTerms]. destruct (tagS sep i) eqn:E; auto. apply tag_short in E.
  rewrite <- (H rest) by lia. destruct (self rest) eqn:E2; cbn [pbind]; auto. apply (sound_short _ _ _ _ Sd) in E2. rewrite (IH rest0 n); auto. lia.
Qed.
Lemma alt_ext : forall i, (forall j, length j < length i -> self j = self' j) -> alternatives self i = alternatives self' i.
Proof.
  intros i H.
  assert (L : forall sep mk, 1 <= length (tx sep) -> parseList self sep mk i = parseList self' sep mk i).
  { intros sep mk Ls. unfold parseList. repeat step. rewrite (more_ext sep _ rest2 (length i)); auto; lia. }
  assert (T : forall sep mk, parseTwo self sep mk i = parseTwo self' sep mk i).
  { intros sep mk. unfold parseTwo. repeat step. reflexivity. }
  unfold alternatives, parseSeq, parseProd, parseIntInt2, parseExtInt2, parseImg0, parseImg1, parseConj2.
  rewrite !L by (simpl; lia). rewrite !T.
  replace (parseA self i) with (parseA self' i) by (symmetry; unfold parseA; repeat step; reflexivity).
  replace (parseC self i) with (parseC self' i) by (symmetry; unfold parseC; repeat step; reflexivity).
  replace (parseNeg self i) with (parseNeg self' i) by (symmetry; unfold parseNeg; repeat step; reflexivity).
  replace (parseConj3 self i) with (parseConj3 self' i) by (symmetry; unfold parseConj3; repeat step; reflexivity).
  replace (parseConj4 self i) with (parseConj4 self' i) by (symmetry; unfold parseConj4; repeat step; reflexivity).
  replace (parseStatement self i) with (parseStatement self' i) by (symmetry; unfold parseStatement; repeat step; reflexivity).
  reflexivity.
Qed.
End Ext.
Theorem entry_fuel : forall f i, length i < f -> parseSubjOrPred f i = parseEntry i.
Proof.
  assert (G : forall f g i, length i < f -> length i < g -> parseSubjOrPred f i = parseSubjOrPred g i).
  { induction f as [|f IH]; intros g i L L'; [lia|]. destruct g as [|g]; [lia|]. cbn [parseSubjOrPred]. apply alt_ext; [apply parse_sound|].
    intros j Lj. apply IH; lia. }
  intros f i L. apply G; lia.
Qed.
Theorem entry_total : forall i, parseEntry i <> PFuel.
Proof. intros i. apply parse_fuel. lia. Qed.
Theorem entry_complete : forall t w r, writes t w -> mayFollow t r -> parseEntry (w ++ r) = POk t r.
Proof. intros t w r W M. apply parse_complete; auto. Qed.
Theorem entry_sound : forall i t r, parseEntry i = POk t r -> exists w, writes t w /\ i = w ++ r.
Proof. intros i t r H. exact (parse_sound _ _ _ _ H). Qed.
Lemma may_nil : forall t, mayFollow t [].
Proof. intros []; exact Logic.I. Qed.
Theorem unambiguous : forall t t' w, writes t w -> writes t' w -> t = t'.
Proof.
  intros t t' w W W'. apply (entry_complete _ _ []) in W; [|apply may_nil]. apply (entry_complete _ _ []) in W'; [|apply may_nil]. congruence.
Qed.
(** an error exactly if no beginning of the text is a term *)
Lemma take_some : forall n c x, nameChar c -> exists w y, takeSigns (S n) (c :: x) = (c :: w, y).
Proof. intros n c x H. apply sign_iff in H. simpl. rewrite H. destruct (takeSigns n x) as [w y]. eauto. Qed.
Lemma alpha_some : forall c x, nameChar c -> exists n y, alpha2 (c :: x) = POk n y.
Proof. intros c x H. unfold alpha2. destruct (take_some 511 c x H) as (w & y & E). rewrite E. eauto. Qed.
Lemma alt_var : forall self c x, nameChar c ->
  (exists t y, alternatives self ("?"%char :: c :: x) = POk t y) /\ (exists t y, alternatives self ("#"%char :: c :: x) = POk t y) /\ (exists t y, alternatives self ("$"%char :: c :: x) = POk t y).
Proof.
  intros self c x H. destruct (alpha_some c x H) as (n & y & E).
  split; [|split]; [exists (QVar n), y|exists (DepVar n), y|exists (IndepVar n), y].
  - change (alternatives self ("?"%char :: c :: x)) with (orElse (pbind (alpha2 (c :: x)) (fun n r => POk (QVar n) r)) PErr). now rewrite E.
  - change (alternatives self ("#"%char :: c :: x)) with (orElse (pbind (alpha2 (c :: x)) (fun n r => POk (DepVar n) r)) PErr). now rewrite E.
  - change (alternatives self ("$"%char :: c :: x)) with (orElse (pbind (alpha2 (c :: x)) (fun n r => POk (IndepVar n) r)) PErr). now rewrite E.
Qed.
Lemma alt_name : forall self c x, nameChar c -> exists t y, alternatives self (c :: x) = POk t y.
Proof.
  intros self c x Hc. destruct (alpha_some c x Hc) as (n & y & E). exists (Name n), y.
  assert (G : forall s, In s ["{"; "("; "["; "(!"; "<"; "?"; "#"; "$"]%string -> tagS s (c :: x) = PErr).
  { assert (ND : forall d, In d (ascii_text "{([<?#$") -> ~ nameChar d).
    { intros d Hd X. apply sign_iff in X. cbn in Hd. intuition subst; vm_compute in X; discriminate. }
    intros s Hs. cbn in Hs. unfold tagS. intuition subst; cbn [tx list_ascii_of_string]; apply tag1_err; intros <-; revert Hc; apply ND; cbn; tauto. }
  unfold alternatives, parseA, parseSeq, parseIntInt2, parseExtInt2, parseC, parseNeg, parseProd, parseImg0, parseImg1, parseConj2, parseConj3, parseConj4, parseStatement, parseQVar, parseDepVar, parseIndepVar, parseList, parseTwo.
  rewrite !G by (cbn; tauto). cbn [pbind orElse]. unfold parseB. now rewrite E.
Qed.
Theorem entry_err : forall i, parseEntry i = PErr <-> ~ exists t w r, writes t w /\ i = w ++ r.
Proof.
  intros i. split.
  - intros E (t & w & r & W & ->). unfold parseEntry in E. cbn [parseSubjOrPred] in E. remember (length (w ++ r)) as f eqn:Ef.
    assert (Cons : forall v, nameText v -> exists c v', v = c :: v' /\ nameChar c).
    { intros v (N & _ & C). destruct v as [|c v]; [contradiction|]. exists c, v. split; auto. apply C. now left. }
    assert (Q : mayFollow t r -> False).
    { intros M. pose proof (entry_complete _ _ _ W M) as P. unfold parseEntry in P. rewrite <- Ef in P. cbn [parseSubjOrPred] in P. congruence. }
    destruct W; try (exfalso; apply Q; exact Logic.I); clear Q.
    + destruct (Cons w H) as (c & v & -> & Hc). destruct (alt_name (parseSubjOrPred f) c (v ++ r) Hc) as (t & y & X). cbn [app] in E. congruence.
    + destruct (Cons w H) as (c & v & -> & Hc). destruct (alt_var (parseSubjOrPred f) c (v ++ r) Hc) as ((t & y & X) & _). cbn [app ascii_text list_ascii_of_string] in E. congruence.
    + destruct (Cons w H) as (c & v & -> & Hc). destruct (alt_var (parseSubjOrPred f) c (v ++ r) Hc) as (_ & (t & y & X) & _). cbn [app ascii_text list_ascii_of_string] in E. congruence.
    + destruct (Cons w H) as (c & v & -> & Hc). destruct (alt_var (parseSubjOrPred f) c (v ++ r) Hc) as (_ & _ & (t & y & X)). cbn [app ascii_text list_ascii_of_string] in E. congruence.
  - intros N. destruct (parseEntry i) as [t r| |] eqn:E; auto; [|now apply entry_total in E].
    exfalso. apply N. destruct (entry_sound _ _ _ E) as (w & W & ->). eauto.
Qed.

(** ** printer *)
Lemma lst_app : forall a b, list_ascii_of_string (a ++ b) = list_ascii_of_string a ++ list_ascii_of_string b.
Proof. induction a; intros b; simpl; [reflexivity|]. now rewrite IHa. Qed.
Lemma lst_str : forall w, list_ascii_of_string (string_of_list_ascii w) = w.
Proof. exact list_ascii_of_string_of_list_ascii. Qed.
Theorem print_plain : forall t, plain t -> exists s, convTermToStr t = Ok s /\ writes t (list_ascii_of_string s).
Proof.
  intros t H. induction H.
  - exists (string_of_list_ascii w). split; auto. rewrite lst_str. now constructor.
  - exists ("?" ++ string_of_list_ascii w)%string. split; auto. rewrite lst_app, lst_str. now constructor.
  - exists ("#" ++ string_of_list_ascii w)%string. split; auto. rewrite lst_app, lst_str. now constructor.
  - exists ("$" ++ string_of_list_ascii w)%string. split; auto. rewrite lst_app, lst_str. now constructor.
  - destruct IHplain as (s & E & W). exists ("{" ++ s ++ "}")%string. cbn [convTermToStr map joinWith]. rewrite E. cbn [rbind rfold]. split; auto. rewrite !lst_app. now apply (w_setext t).
  - destruct IHplain as (s & E & W). exists ("[" ++ s ++ "]")%string. cbn [convTermToStr map joinWith]. rewrite E. cbn [rbind rfold]. split; auto. rewrite !lst_app. now apply (w_setint t).
  - destruct IHplain1 as (a & E1 & W1). destruct IHplain2 as (b & E2 & W2). cbn [convTermToStr]. rewrite E1, E2. cbn [rbind]. eexists. split; [reflexivity|].
    rewrite !lst_app.
    assert (W := w_stmt c s _ p _ W1 W2). replace (copText c) with (list_ascii_of_string " " ++ list_ascii_of_string (copula_str c) ++ list_ascii_of_string " ") in W by now destruct c.
    rewrite <- !app_assoc in W. exact W.
Qed.
(** a printed compound with round brackets is not readable *)
Lemma writes_first : forall t w, ~ writes t (" "%char :: w).
Proof.
  intros t w H. remember (" "%char :: w) as v eqn:Ev. destruct H; try discriminate Ev. subst w0. destruct H as (_ & _ & C).
  specialize (C " "%char (or_introl eq_refl)). apply sign_iff in C. vm_compute in C. discriminate.
Qed.
Lemma all_first : forall sep l w, writesAll sep l (" "%char :: w) -> False.
Proof.
  intros sep l w H. remember (" "%char :: w) as v eqn:Ev. revert w Ev. destruct H; intros v' Ev; subst.
  - eapply writes_first; eauto.
  - destruct w as [|c w]; [apply writes_nonempty in H; contradiction|]. injection Ev as -> _. eapply writes_first; eauto.
Qed.
Theorem readable_plain : forall t w, writes t w -> forall s x y, convTermToStr t = Ok s -> list_ascii_of_string s ++ x = w ++ y -> plain t /\ list_ascii_of_string s = w.
Proof.
  assert (Round1 : forall l w v x y z sep, writesAll sep l w -> list_ascii_of_string ("( " ++ v) ++ x = (ascii_text "(" ++ w ++ y) ++ z -> False).
  { intros l w v x y z sep W E. cbn in E. injection E as E.
    destruct w as [|c w]; [inversion W; subst; [eapply writes_nonempty; eauto|]; destruct w; [eapply writes_nonempty; eauto|discriminate]|].
    injection E as <- _. eapply all_first; eauto. }
  assert (Round2 : forall (t : term) w v x y z, writes t w -> list_ascii_of_string ("( " ++ v) ++ x = (ascii_text "(" ++ w ++ y) ++ z -> False).
  { intros t w v x y z W E. cbn in E. injection E as E.
    destruct w as [|c w]; [eapply writes_nonempty; eauto|]. injection E as <- _. eapply writes_first; eauto. }
  intros t w H. induction H; intros str0 x y E Es.
  - cbn in E. injection E as <-. rewrite lst_str. split; [now constructor|reflexivity].
  - cbn [convTermToStr] in E. injection E as <-. split; [now constructor|]. cbn. now rewrite lst_str.
  - cbn [convTermToStr] in E. injection E as <-. split; [now constructor|]. cbn. now rewrite lst_str.
  - cbn [convTermToStr] in E. injection E as <-. split; [now constructor|]. cbn. now rewrite lst_str.
  - cbn [convTermToStr map joinWith] in E. destruct (convTermToStr t) as [s|] eqn:Et; [|discriminate]. cbn [rbind rfold] in E. injection E as <-.
    cbn [append list_ascii_of_string] in Es |- *. rewrite lst_app in Es |- *. injection Es as Es. rewrite <- !app_assoc in Es.
    destruct (IHwrites s _ _ eq_refl Es) as (P & Q). split; [now constructor|]. now rewrite Q.
  - cbn [convTermToStr map joinWith] in E. destruct (convTermToStr t) as [s|] eqn:Et; [|discriminate]. cbn [rbind rfold] in E. injection E as <-.
    cbn [append list_ascii_of_string] in Es |- *. rewrite lst_app in Es |- *. injection Es as Es. rewrite <- !app_assoc in Es.
    destruct (IHwrites s _ _ eq_refl Es) as (P & Q). split; [now constructor|]. now rewrite Q.
  - exfalso. cbn [convTermToStr] in E. destruct (convTermToStr t) as [s|]; [|discriminate]. cbn [rbind] in E. injection E as <-. cbn in Es. injection Es as Es.
    destruct w as [|c w]; [eapply writes_nonempty; eauto|]. injection Es as <- _. eapply writes_first; eauto.
  - exfalso. cbn [convTermToStr] in E. destruct (joinWith _ _); [|discriminate]. cbn [rbind] in E. injection E as <-. match goal with W : writesAll _ _ _ |- _ => exact (Round1 _ _ _ _ _ _ _ W Es) end.
  - exfalso. cbn [convTermToStr] in E. destruct (joinWith _ _); [|discriminate]. cbn [rbind] in E. injection E as <-. match goal with W : writesAll _ _ _ |- _ => exact (Round1 _ _ _ _ _ _ _ W Es) end.
  - exfalso. cbn [convTermToStr] in E. destruct (joinWith _ _); [|discriminate]. cbn [rbind] in E. injection E as <-. match goal with W : writesAll _ _ _ |- _ => exact (Round1 _ _ _ _ _ _ _ W Es) end.
  - exfalso. cbn [convTermToStr] in E. destruct (joinWith _ _); [|discriminate]. cbn [rbind] in E. injection E as <-. match goal with W : writesAll _ _ _ |- _ => exact (Round1 _ _ _ _ _ _ _ W Es) end.
  - exfalso. cbn [convTermToStr] in E. destruct (joinWith _ _); [|discriminate]. cbn [rbind] in E. injection E as <-. match goal with W : writesAll _ _ _ |- _ => exact (Round1 _ _ _ _ _ _ _ W Es) end.
  - exfalso. cbn [convTermToStr] in E. destruct (joinWith _ _); [|discriminate]. cbn [rbind] in E. destruct (convTermToStr r); [|discriminate]. cbn [rbind] in E. injection E as <-. exact (Round2 r _ _ _ _ _ H Es).
  - exfalso. cbn [convTermToStr] in E. destruct (joinWith _ _); [|discriminate]. cbn [rbind] in E. destruct (convTermToStr r); [|discriminate]. cbn [rbind] in E. injection E as <-. exact (Round2 r _ _ _ _ _ H Es).
  - cbn [convTermToStr] in E. destruct (convTermToStr s) as [a|] eqn:Ea; [|discriminate]. destruct (convTermToStr p) as [b|] eqn:Eb; [|discriminate]. cbn [rbind] in E. injection E as <-.
    assert (C : list_ascii_of_string ("<" ++ a ++ " " ++ copula_str c ++ " " ++ b ++ ">") = "<"%char :: list_ascii_of_string a ++ copText c ++ list_ascii_of_string b ++ [">"%char]).
    { rewrite !lst_app. destruct c; reflexivity. }
    match type of Es with ?l ++ _ = _ => change l with (list_ascii_of_string ("<" ++ a ++ " " ++ copula_str c ++ " " ++ b ++ ">")) in * end.
    rewrite C in Es |- *. cbn [ascii_text list_ascii_of_string app] in Es. injection Es as Es. rewrite <- !app_assoc in Es.
    destruct (IHwrites1 a _ _ eq_refl Es) as (P1 & Q1). rewrite Q1 in Es. apply app_inv_head in Es. apply app_inv_head in Es.
    destruct (IHwrites2 b _ _ eq_refl Es) as (P2 & Q2). split; [now constructor|]. now rewrite Q1, Q2.
Qed.
(** a printed term can be read back exactly if it is plain *)
Theorem print_read : forall t s, convTermToStr t = Ok s -> (parseEntry (tx s) = POk t [] <-> plain t).
Proof.
  intros t s E. split.
  - intros P. apply entry_sound in P. destruct P as (w & W & Q). rewrite app_nil_r in Q. eapply (readable_plain t w W s [] []); auto. now rewrite <- Q.
  - intros P. destruct (print_plain t P) as (s' & E' & W). assert (s' = s) by congruence. subst s'.
    pose proof (entry_complete _ _ [] W (may_nil t)) as X. now rewrite app_nil_r in X.
Qed.
