(** Whole sentences. *)
From Coq Require Import String Ascii Arith Bool Lia List.
From Verif Require Import Base F64_Model Tv_Model Term_Model Sentence_Model Parser_Model Parser_Spec Parser_Proofs Parser2_Proofs.
Import ListNotations.
Local Open Scope list_scope.

(** ** removing spaces around stars *)
Lemma replace_eq : forall a b x y i, replace2 a b (x :: y :: i) = if Ascii.eqb x a && Ascii.eqb y b then "*"%char :: replace2 a b i else x :: replace2 a b (y :: i).
Proof. reflexivity. Qed.
Lemma replace_len : forall a b i, length (replace2 a b i) <= length i.
Proof.
  intros a b. assert (H : forall n i, length i <= n -> length (replace2 a b i) <= length i).
  { induction n as [|n IH]; intros i L; [destruct i; [auto|simpl in L; lia]|].
    destruct i as [|x [|y i]]; auto. rewrite replace_eq. simpl in L. destruct (Ascii.eqb x a && Ascii.eqb y b).
    - cbn [length]. specialize (IH i). lia.
    - specialize (IH (y :: i)). cbn [length] in *. lia. }
  intros i. now apply (H (length i)).
Qed.
Lemma replace_shrinks : forall a b i, contains2 a b i = true -> length (replace2 a b i) < length i.
Proof.
  intros a b. induction i as [|x i IH]; intros H; [discriminate|]. destruct i as [|y i]; [discriminate|]. cbn [contains2] in H. rewrite replace_eq.
  destruct (Ascii.eqb x a && Ascii.eqb y b) eqn:E.
  - cbn [length]. pose proof (replace_len a b i). lia.
  - cbn [orb] in H. apply IH in H. cbn [length] in *. lia.
Qed.
Lemma squeeze_done : forall a b f i, length i <= f -> contains2 a b (squeeze f a b i) = false.
Proof.
  intros a b. induction f as [|f IH]; intros i L; [destruct i; [reflexivity|simpl in L; lia]|]. cbn [squeeze].
  destruct (contains2 a b i) eqn:E; auto. apply IH. apply replace_shrinks in E. lia.
Qed.
Lemma squeeze_id : forall a b f i, contains2 a b i = false -> squeeze f a b i = i.
Proof. intros a b [|f] i H; [reflexivity|]. cbn [squeeze]. now rewrite H. Qed.
Definition letters (i : text) : text := filter (fun c => negb (Ascii.eqb c " ")) i.
Lemma replace_letters : forall a b i, (a = "*"%char /\ b = " "%char) \/ (a = " "%char /\ b = "*"%char) -> letters (replace2 a b i) = letters i.
Proof.
  intros a b i Hab. assert (H : forall n i, length i <= n -> letters (replace2 a b i) = letters i).
  { induction n as [|n IH]; intros j L; [destruct j; [auto|simpl in L; lia]|]. destruct j as [|x [|y j]]; auto. rewrite replace_eq. simpl in L.
    destruct (Ascii.eqb x a && Ascii.eqb y b) eqn:E.
    - apply andb_true_iff in E. destruct E as (E1 & E2). apply Ascii.eqb_eq in E1, E2. subst x y.
      destruct Hab as [(-> & ->)|(-> & ->)]; cbn [letters filter Ascii.eqb Bool.eqb negb andb]; fold (letters (replace2 "*" " " j)); unfold letters in *; rewrite IH by lia; reflexivity.
    - unfold letters in *. cbn [filter]. rewrite IH by (simpl; lia). reflexivity. }
  now apply (H (length i)).
Qed.
Lemma squeeze_letters : forall a b f i, (a = "*"%char /\ b = " "%char) \/ (a = " "%char /\ b = "*"%char) -> letters (squeeze f a b i) = letters i.
Proof. intros a b. induction f as [|f IH]; intros i H; [reflexivity|]. cbn [squeeze]. destruct (contains2 a b i); auto. rewrite IH by assumption. now apply replace_letters. Qed.
Lemma contains_cons : forall a b x i, contains2 a b (x :: i) = false <-> contains2 a b i = false /\ match i with [] => True | y :: _ => ~ (x = a /\ y = b) end.
Proof.
  intros a b x i. destruct i as [|y i]; [cbn; tauto|]. cbn [contains2]. rewrite orb_false_iff, andb_false_iff. rewrite !Ascii.eqb_neq.
  destruct (ascii_dec x a) as [->|]; destruct (ascii_dec y b) as [->|]; tauto.
Qed.
Lemma replace_head : forall a b i, match replace2 a b i with [] => i = [] | c :: _ => c = "*"%char \/ exists i', i = c :: i' end.
Proof. intros a b [|x [|y i]]; cbn; eauto. destruct (Ascii.eqb x a && Ascii.eqb y b); eauto. Qed.
Lemma replace_keeps : forall i, contains2 "*" " " i = false -> contains2 "*" " " (replace2 " " "*" i) = false.
Proof.
  intros i. assert (H : forall n i, length i <= n -> contains2 "*" " " i = false -> contains2 "*" " " (replace2 " " "*" i) = false).
  { induction n as [|n IH]; intros j L C; [destruct j; [auto|simpl in L; lia]|]. destruct j as [|x [|y j]]; auto. simpl in L. rewrite replace_eq.
    apply contains_cons in C. destruct C as (C & C0). apply contains_cons in C as C'. destruct C' as (C1 & C2).
    destruct (Ascii.eqb x " " && Ascii.eqb y "*") eqn:E.
    - apply andb_true_iff in E. destruct E as (E1 & E2). apply Ascii.eqb_eq in E1, E2. subst x y. apply contains_cons. split; [apply IH; auto; lia|].
      pose proof (replace_head " " "*" j) as R. destruct (replace2 " " "*" j) as [|c l]; auto. intros (_ & ->). destruct R as [R|(i' & R)]; [discriminate|]. subst j. tauto.
    - apply contains_cons. split; [apply IH; auto; simpl; lia|]. pose proof (replace_head " " "*" (y :: j)) as R. destruct (replace2 " " "*" (y :: j)) as [|c l]; auto.
      intros (-> & ->). destruct R as [R|(i' & R)]; [discriminate|]. injection R as -> _. tauto. }
  now apply (H (length i)).
Qed.
Lemma squeeze_keeps : forall f i, contains2 "*" " " i = false -> contains2 "*" " " (squeeze f " " "*" i) = false.
Proof. induction f as [|f IH]; intros i H; auto. cbn [squeeze]. destruct (contains2 " " "*" i); auto. apply IH. now apply replace_keeps. Qed.
Definition tidy (i : text) : Prop := contains2 "*" " " i = false /\ contains2 " " "*" i = false.
Theorem squeeze_spec : forall i, tidy (squeezeStars i) /\ letters (squeezeStars i) = letters i /\ (tidy i -> squeezeStars i = i).
Proof.
  intros i. unfold squeezeStars. split; [split|split].
  - apply squeeze_keeps. now apply squeeze_done.
  - now apply squeeze_done.
  - rewrite squeeze_letters by auto. rewrite squeeze_letters by auto. reflexivity.
  - intros (A & B). rewrite (squeeze_id "*" " ") by assumption. now apply squeeze_id.
Qed.

(** ** the end of the text *)
Lemma cut_some : forall w i, cutEnd w (i ++ w) = Some i.
Proof. intros w i. unfold cutEnd. rewrite rev_app_distr, tag_app. now rewrite rev_involutive. Qed.
Lemma cut_ok : forall w i r, cutEnd w i = Some r -> i = r ++ w.
Proof.
  intros w i r H. unfold cutEnd in H. destruct (tag (List.rev w) (List.rev i)) as [u x| |] eqn:E; try discriminate. injection H as <-. apply tag_ok in E.
  rewrite <- (rev_involutive i), E, rev_app_distr, rev_involutive. reflexivity.
Qed.
Lemma cut_none : forall i c, c <> ":"%char -> cutEnd (tx " :|:") (i ++ [c]) = None.
Proof.
  intros i c N. destruct (cutEnd (tx " :|:") (i ++ [c])) as [r|] eqn:E; auto. exfalso. apply cut_ok in E.
  change (tx " :|:") with (tx " :|" ++ [":"%char]) in E. rewrite app_assoc in E. apply app_inj_tail in E. destruct E. contradiction.
Qed.
Lemma trim_keep : forall i c, isSpace c = false -> trimEnd (i ++ [c]) = i ++ [c].
Proof. intros i c H. unfold trimEnd. rewrite rev_app_distr. cbn [List.rev app dropSpaces]. rewrite H. cbn [List.rev]. now rewrite rev_involutive. Qed.
Lemma trim_space : forall i, trimEnd (i ++ [" "%char]) = trimEnd i.
Proof. intros i. unfold trimEnd. rewrite rev_app_distr. reflexivity. Qed.

(** ** the truth value *)
Lemma find_ok : forall i k m, findBrace i k = Some m -> 1 <= m <= k /\ nth_error i m = Some "{"%char /\ forall j, m < j <= k -> nth_error i j <> Some "{"%char.
Proof.
  intros i. induction k as [|k IH]; intros m H; [discriminate|]. cbn [findBrace] in H.
  assert (Rec : findBrace i k = Some m -> nth_error i (S k) <> Some "{"%char -> 1 <= m <= S k /\ nth_error i m = Some "{"%char /\ forall j, m < j <= S k -> nth_error i j <> Some "{"%char).
  { intros R N. apply IH in R. destruct R as (A & B & C). split; [lia|]. split; auto. intros j L. destruct (Nat.eq_dec j (S k)) as [->|]; auto. apply C. lia. }
  destruct (nth_error i (S k)) as [c|] eqn:E; [|apply Rec; auto; discriminate]. destruct (Ascii.eqb c "{") eqn:Q.
  - injection H as <-. apply Ascii.eqb_eq in Q. subst c. split; [lia|]. split; auto. intros j L. lia.
  - apply Rec; auto. intros X. injection X as ->. discriminate.
Qed.
Lemma find_none : forall i k, findBrace i k = None -> forall j, 1 <= j <= k -> nth_error i j <> Some "{"%char.
Proof.
  intros i. induction k as [|k IH]; intros H j L; [lia|]. cbn [findBrace] in H. destruct (nth_error i (S k)) as [c|] eqn:E.
  - destruct (Ascii.eqb c "{") eqn:Q; [discriminate|]. destruct (Nat.eq_dec j (S k)) as [->|]; [|apply IH; auto; lia]. rewrite E. intros X. injection X as ->. discriminate.
  - destruct (Nat.eq_dec j (S k)) as [->|]; [rewrite E; discriminate|apply IH; auto; lia].
Qed.
Lemma split_none : forall a, (forall c, In c a -> c <> " "%char) -> splitSpace a = [a].
Proof.
  induction a as [|c a IH]; intros H; [reflexivity|]. cbn [splitSpace]. destruct (Ascii.eqb c " ") eqn:E; [apply Ascii.eqb_eq in E; exfalso; apply (H c); [now left|assumption]|].
  rewrite IH; auto. intros d Hd. apply H. now right.
Qed.
Lemma split_two : forall a b, (forall c, In c (a ++ b) -> c <> " "%char) -> splitSpace (a ++ [" "%char] ++ b) = [a; b].
Proof.
  induction a as [|c a IH]; intros b H.
  - cbn [app splitSpace]. change (Ascii.eqb " " " ") with true. cbn iota. rewrite split_none; auto.
  - cbn [app splitSpace] in *. destruct (Ascii.eqb c " ") eqn:E; [apply Ascii.eqb_eq in E; exfalso; apply (H c); [now left|assumption]|].
    rewrite IH; auto. intros d Hd. apply H. now right.
Qed.
Lemma split_nonempty : forall i, splitSpace i <> [].
Proof. destruct i as [|c i]; [discriminate|]. cbn [splitSpace]. destruct (Ascii.eqb c " "); [discriminate|]. destruct (splitSpace i); discriminate. Qed.
Lemma split_one_inv : forall i a, splitSpace i = [a] -> i = a /\ forall c, In c i -> c <> " "%char.
Proof.
  induction i as [|c i IH]; intros a H; cbn [splitSpace] in H; [injection H as <-; split; auto; intros c []|].
  destruct (Ascii.eqb c " ") eqn:E; [injection H as _ H; now apply split_nonempty in H|].
  destruct (splitSpace i) as [|w ws] eqn:S0; [now apply split_nonempty in S0|]. injection H as <- ->. destruct (IH w eq_refl) as (-> & N). split; auto.
  intros d [<-|Hd]; auto. intros ->. discriminate.
Qed.
Lemma split_two_inv : forall i a b, splitSpace i = [a; b] -> i = a ++ [" "%char] ++ b /\ forall c, In c (a ++ b) -> c <> " "%char.
Proof.
  induction i as [|c i IH]; intros a b H; cbn [splitSpace] in H; [discriminate|]. destruct (Ascii.eqb c " ") eqn:E.
  - injection H as <- H. apply Ascii.eqb_eq in E. subst c. apply split_one_inv in H. destruct H as (-> & N). split; auto.
  - destruct (splitSpace i) as [|w ws] eqn:S0; [now apply split_nonempty in S0|]. injection H as <- ->. destruct (IH w b eq_refl) as (-> & N). split; auto.
    cbn [app]. intros d [<-|Hd]; auto. intros ->. discriminate.
Qed.
Lemma last_app : forall (i : text) c d, last (i ++ [c]) d = c.
Proof. induction i as [|x i IH]; intros c d; [reflexivity|]. cbn [app last]. rewrite IH. now destruct (i ++ [c]) eqn:E; [destruct i|]. Qed.
Lemma brace_unique : forall (pre x : text) k, (forall c, In c x -> c <> "{"%char) -> nth_error (pre ++ ["{"%char] ++ x) k = Some "{"%char ->
  (forall j, k < j < length (pre ++ ["{"%char] ++ x) -> nth_error (pre ++ ["{"%char] ++ x) j <> Some "{"%char) -> k = length pre.
Proof.
  intros pre x k N H J. destruct (Nat.lt_trichotomy k (length pre)) as [L|[L|L]]; auto.
  - exfalso. apply (J (length pre)); [rewrite !app_length; simpl; lia|]. rewrite nth_error_app2 by lia. now rewrite Nat.sub_diag.
  - exfalso. rewrite nth_error_app2 in H by lia. destruct (k - length pre) as [|m] eqn:E; [lia|]. cbn [app nth_error] in H. apply nth_error_In in H. now apply N in H.
Qed.
Theorem tv_present : forall pf pre a b, pre <> [] -> (forall c, In c (a ++ b) -> c <> " "%char /\ c <> "{"%char) ->
  let i := pre ++ ["{"%char] ++ a ++ [" "%char] ++ b ++ ["}"%char] in
  forallb isAscii i = true ->
  parseNarseseRetTv pf i = match pf a, pf b with Some f, Some c => Ok (pre, mkTv f c) | _, _ => Panic end.
Proof.
  intros pf pre a b Np N i As. unfold parseNarseseRetTv. destruct i as [|c0 i0] eqn:Ei; [destruct pre; discriminate|]. rewrite <- Ei in *. rewrite As. cbn [negb].
  assert (Sh : i = (pre ++ ["{"%char] ++ a ++ [" "%char] ++ b) ++ ["}"%char]) by (subst i; now rewrite <- !app_assoc).
  rewrite Sh at 1. rewrite last_app. change (Ascii.eqb "}" "}") with true. cbn iota.
  assert (Li : length i = length pre + length a + length b + 3) by (subst i; rewrite !app_length; simpl; lia).
  assert (X : forall c, In c (a ++ [" "%char] ++ b ++ ["}"%char]) -> c <> "{"%char).
  { intros c Hc. rewrite !in_app_iff in Hc. destruct Hc as [Hc|[[<-|[]]|[Hc|[<-|[]]]]]; try discriminate; apply N; rewrite in_app_iff; auto. }
  destruct (findBrace i (length i - 1)) as [k|] eqn:F.
  - apply find_ok in F. destruct F as (Lk & Hk & J). 
    assert (k = length pre) as ->.
    { subst i. apply (brace_unique pre (a ++ [" "%char] ++ b ++ ["}"%char])); auto. intros j Lj. apply J. lia. }
    assert (Sk : skipn (length pre + 1) i = (a ++ [" "%char] ++ b) ++ ["}"%char]).
    { rewrite Ei in *. subst i. rewrite <- Ei. rewrite skipn_app. rewrite skipn_all2 by lia. replace (length pre + 1 - length pre) with 1 by lia. cbn [app skipn]. now rewrite <- !app_assoc. }
    rewrite Sk. replace (length i - 1 - (length pre + 1)) with (length (a ++ [" "%char] ++ b)) by (rewrite !app_length; simpl; lia).
    rewrite firstn_app, firstn_all, Nat.sub_diag, firstn_O, app_nil_r. rewrite split_two by (intros c Hc; now apply N).
    assert (Fi : firstn (length pre) i = pre) by (subst i; rewrite firstn_app, firstn_all, Nat.sub_diag, firstn_O, app_nil_r; reflexivity).
    rewrite Fi. destruct (pf a); cbn [unwrap rbind]; auto. destruct (pf b); cbn [unwrap rbind]; auto.
  - exfalso. apply (find_none _ _ F (length pre)); [|subst i; rewrite nth_error_app2 by lia; now rewrite Nat.sub_diag].
    destruct pre; [contradiction|]. simpl. simpl in Li. lia.
Qed.

(** ** the exact condition of a panic *)
Theorem ret_panic : forall pf i, parseNarseseRetTv pf i = Panic <-> (exists c, In c i /\ isAscii c = false) \/ badTv pf i.
Proof.
  intros pf i. split.
  - intros H. destruct (forallb isAscii i) eqn:As.
    + right. unfold parseNarseseRetTv in H. destruct i as [|c0 i0] eqn:Ei; [discriminate|]. rewrite <- Ei in *. rewrite As in H. cbn [negb] in H.
      destruct (Ascii.eqb (last i "000"%char) "}") eqn:La; [|discriminate]. destruct (findBrace i (length i - 1)) as [k|] eqn:F; [|discriminate].
      apply find_ok in F. destruct F as (Lk & Hk & J). apply Ascii.eqb_eq in La.
      assert (Ne : i <> []) by (rewrite Ei; discriminate). pose proof (app_removelast_last "000"%char Ne) as Sp. rewrite La in Sp.
      set (m := removelast i) in *. assert (Lm : length i = length m + 1) by (rewrite Sp, app_length; simpl; lia).
      destruct (Nat.eq_dec k (length m)) as [->|Nk].
      { rewrite Sp, nth_error_app2, Nat.sub_diag in Hk by lia. discriminate. }
      assert (Hm : nth_error m k = Some "{"%char) by (rewrite Sp, nth_error_app1 in Hk by lia; assumption).
      apply nth_error_split in Hm. destruct Hm as (pre & x & Em & Lp).
      assert (Ex : firstn (length i - 1 - (k + 1)) (skipn (k + 1) i) = x).
      { rewrite Lm, Sp, Em, <- Lp, app_length. cbn [length]. rewrite <- app_assoc, skipn_app, skipn_all2 by lia. replace (length pre + 1 - length pre) with 1 by lia. cbn [app skipn].
        replace (length pre + S (length x) + 1 - 1 - (length pre + 1)) with (length x) by lia. now rewrite firstn_app, firstn_all, Nat.sub_diag, firstn_O, app_nil_r. }
      rewrite Ex in H. destruct (splitSpace x) as [|a [|b [|]]] eqn:Sx; try discriminate. apply split_two_inv in Sx. destruct Sx as (-> & Nsp).
      exists pre, a, b. split; [rewrite Sp, Em, <- !app_assoc; cbn [app]; now rewrite <- app_assoc|]. split; [intros ->; simpl in Lp; lia|]. split.
      * intros c Hc. split; [now apply Nsp|]. intros ->. assert (Hx : In "{"%char (a ++ [" "%char] ++ b)) by (rewrite !in_app_iff in *; tauto).
        apply In_nth_error in Hx. destruct Hx as (j & Hj). assert (j < length (a ++ [" "%char] ++ b)) by (apply nth_error_Some; congruence).
        apply (J (length pre + 1 + j)); [rewrite Em, app_length in Lm; cbn [length] in Lm; lia|].
        rewrite Sp, Em, <- app_assoc, nth_error_app2 by lia. replace (length pre + 1 + j - length pre) with (S j) by lia. cbn [app nth_error]. cbn [app] in *. rewrite nth_error_app1 by assumption. assumption.
      * destruct (pf a); auto. destruct (pf b); auto. discriminate.
    + left. apply Bool.not_true_iff_false in As. rewrite forallb_forall in As. clear H. induction i as [|c i IH]; [exfalso; apply As; intros x []|].
      destruct (isAscii c) eqn:E; [|exists c; split; [now left|assumption]].
      destruct IH as (d & Hd & Ed); [intros K; apply As; intros x [<-|Hx]; auto|]. exists d. split; [now right|assumption].
  - intros H. destruct (forallb isAscii i) eqn:As.
    + destruct H as [(c & Hc & E)|(pre & a & b & -> & Np & N & Bad)]; [rewrite forallb_forall in As; rewrite As in E; [discriminate|assumption]|].
      rewrite tv_present by assumption. destruct Bad as [B|B]; rewrite B; auto. now destruct (pf a).
    + unfold parseNarseseRetTv. destruct i; [discriminate|]. now rewrite As.
Qed.
(** the text whose end is looked at for a truth value *)
Definition body (i : text) : text := match cutEnd (tx " :|:") (squeezeStars i) with Some i' => i' | None => squeezeStars i end.
Theorem narsese_panic : forall pf i, parseNarsese pf i = Panic <-> (exists c, In c i /\ isAscii c = false) \/ badTv pf (body i).
Proof.
  intros pf i. assert (A : (exists c, In c i /\ isAscii c = false) <-> (exists c, In c (body i) /\ isAscii c = false)).
  { destruct (squeeze_spec i) as (_ & L & _). 
    assert (E : forall c, isAscii c = false -> (In c i <-> In c (squeezeStars i))).
    { intros c Hc. assert (Q : forall j, In c j <-> In c (letters j)).
      { intros j. unfold letters. rewrite filter_In. split; [|tauto]. intros H. split; auto. destruct (Ascii.eqb c " ") eqn:Q; auto. apply Ascii.eqb_eq in Q. subst c. discriminate. }
      rewrite (Q i), (Q (squeezeStars i)). now rewrite L. }
    unfold body. destruct (cutEnd (tx " :|:") (squeezeStars i)) as [j|] eqn:C.
    - apply cut_ok in C. rewrite C in E. split; intros (c & Hc & Q); exists c; split; auto.
      + apply E in Hc; auto. apply in_app_iff in Hc. destruct Hc as [Hc|Hc]; auto. exfalso. cbn in Hc. repeat (destruct Hc as [<-|Hc]; [discriminate|]). destruct Hc.
      + apply E; auto. apply in_app_iff. now left.
    - split; intros (c & Hc & Q); exists c; split; auto; now apply E. }
  rewrite A, <- ret_panic. unfold parseNarsese, body. 
  assert (Rest : forall (j : text) (ev : bool), (do '(i, v) <- parseNarseseRetTv pf j;
    match trimEnd i with [] => Ok None | _ => match punctOf (last (trimEnd i) "000"%char) with None => Ok None | Some p => match parseEntry (removelast (trimEnd i)) with POk t _ => Ok (Some (t, v, p, ev)) | _ => Ok None end end end) = Panic
    <-> parseNarseseRetTv pf j = Panic).
  { intros j ev. destruct (parseNarseseRetTv pf j) as [(k & v)|]; [|cbn; tauto]. cbn [rbind]. split; [|discriminate].
    destruct (trimEnd k) eqn:T; [discriminate|]. destruct (punctOf _); [|discriminate]. destruct (parseEntry _); discriminate. }
  destruct (cutEnd (tx " :|:") (squeezeStars i)) as [j|]; apply Rest.
Qed.

(** ** terms are tidy *)
Definition inner (c : ascii) : Prop := c <> "*"%char /\ c <> " "%char.
Definition startsIn (i : text) : Prop := match i with [] => True | c :: _ => inner c end.
Definition endsIn (i : text) : Prop := startsIn (List.rev i).
Lemma contains_app : forall a b x y, contains2 a b x = false -> contains2 a b y = false ->
  (forall c d x' y', x = x' ++ [c] -> y = d :: y' -> ~ (c = a /\ d = b)) -> contains2 a b (x ++ y) = false.
Proof.
  intros a b. induction x as [|c x IH]; intros y Hx Hy J; auto. cbn [app]. apply contains_cons in Hx. destruct Hx as (Hx & Hc). apply contains_cons. split.
  - apply IH; auto. intros c0 d x' y' -> ->. apply (J c0 d (c :: x') y'); auto.
  - destruct x as [|c1 x]; [|exact Hc]. cbn [app]. destruct y as [|d y]; auto. apply (J c d [] y); auto.
Qed.
Lemma tidy_app : forall x y, tidy x -> tidy y -> endsIn x \/ startsIn y -> tidy (x ++ y).
Proof.
  intros x y (A & B) (C & D) E. split; apply contains_app; auto; intros c d x' y' -> -> (-> & ->);
    unfold endsIn in E; rewrite rev_app_distr in E; cbn [List.rev app startsIn] in E; unfold inner in E; intuition congruence.
Qed.
Lemma starts_app : forall x y, x <> [] -> startsIn x -> startsIn (x ++ y).
Proof. intros [|c x] y N H; [contradiction|exact H]. Qed.
Lemma ends_app : forall x y, y <> [] -> endsIn y -> endsIn (x ++ y).
Proof. intros x y N H. unfold endsIn. rewrite rev_app_distr. apply starts_app; auto. intros E. apply N. rewrite <- (rev_involutive y), E. reflexivity. Qed.
Definition neat (w : text) : Prop := tidy w /\ startsIn w /\ endsIn w /\ forallb isAscii w = true /\ w <> [].
Lemma tidy_name : forall w, (forall c, In c w -> inner c) -> tidy w.
Proof.
  intros w H. split; induction w as [|c w IH]; auto; apply contains_cons; (split; [apply IH; intros d Hd; apply H; now right|]); destruct w as [|d w]; auto; intros (-> & ->).
  - destruct (H "*"%char (or_introl eq_refl)) as (X & _). now apply X.
  - destruct (H " "%char (or_introl eq_refl)) as (_ & X). now apply X.
Qed.
Lemma neat_name : forall w, w <> [] -> (forall c, In c w -> inner c /\ isAscii c = true) -> neat w.
Proof.
  intros w N H. split; [apply tidy_name; intros c Hc; now apply H|]. split; [destruct w as [|c w]; [contradiction|apply H; now left]|]. split; [|split; auto].
  - unfold endsIn. destruct (List.rev w) as [|c v] eqn:E; [exact Logic.I|]. apply H. apply in_rev. rewrite E. now left.
  - apply forallb_forall. intros c Hc. now apply H.
Qed.
Lemma neat_app : forall x y, neat x -> neat y -> neat (x ++ y).
Proof.
  intros x y (A & B & C & D & E) (A' & B' & C' & D' & E'). split; [apply tidy_app; auto|]. split; [now apply starts_app|]. split; [now apply ends_app|].
  split; [rewrite forallb_app, D, D'; reflexivity|]. destruct x; [contradiction|discriminate].
Qed.
(** a separator that may begin and end with a space *)
Lemma neat_mid : forall x m y, neat x -> tidy m -> forallb isAscii m = true -> neat y -> neat (x ++ m ++ y).
Proof.
  intros x m y (A & B & C & D & E) Tm Am (A' & B' & C' & D' & E'). split; [|split; [now apply starts_app|split; [rewrite app_assoc; now apply ends_app|split]]].
  - apply tidy_app; auto. apply tidy_app; auto.
  - rewrite !forallb_app, D, D', Am. reflexivity.
  - destruct x; [contradiction|discriminate].
Qed.
Ltac neatc := split; [split; reflexivity|split; [now split|split; [now split|split; [reflexivity|discriminate]]]].
Lemma name_inner : forall c, nameChar c -> inner c /\ isAscii c = true.
Proof.
  intros c H. unfold nameChar in H. cbn in H. unfold inner. repeat (destruct H as [<-|H]; [repeat split; (reflexivity || discriminate)|]). destruct H.
Qed.
Theorem writes_neat : forall t w, writes t w -> neat w.
Proof.
  assert (Nm : forall w, nameText w -> neat w) by (intros w (A & _ & B); apply neat_name; auto; intros c Hc; now apply name_inner, B).
  assert (Br : forall a w b, neat (ascii_text a) -> neat w -> neat (ascii_text b) -> neat (ascii_text a ++ w ++ ascii_text b)) by (intros; repeat apply neat_app; auto).
  assert (G : forall t w, writes t w -> neat w); [|exact G].
  apply (writes_ind2 (fun t w _ => neat w) (fun sep l w _ => tidy (ascii_text sep) /\ forallb isAscii (ascii_text sep) = true -> neat w)); intros.
  1: { now apply Nm. }
  1-3: (apply neat_app; [neatc|now apply Nm]).
  1-3: (apply Br; [neatc|assumption|neatc]).
  1-5: (apply Br; [neatc|match goal with X : _ -> neat _ |- _ => apply X; split; [split|]; reflexivity end|neatc]).
  - apply neat_app; [neatc|]. apply neat_mid; auto; [split; reflexivity|]. apply neat_app; auto. neatc.
  - apply neat_app; [neatc|]. apply neat_mid; auto; [split; reflexivity|]. apply neat_app; auto. neatc.
  - apply neat_app; [neatc|]. apply neat_mid; auto; [destruct c; split; reflexivity|destruct c; reflexivity|]. apply neat_app; auto. neatc.
  - assumption.
  - match goal with X : _ /\ _ |- _ => destruct X end. apply neat_mid; auto.
Qed.

(** ** whole sentences *)
Lemma punct_char : forall p, punctOf (punctChar p) = Some p /\ neat [punctChar p] /\ isSpace (punctChar p) = false /\ punctChar p <> ":"%char /\ punctChar p <> "}"%char.
Proof. intros []; (split; [reflexivity|split; [neatc|split; [reflexivity|split; discriminate]]]). Qed.
Definition tvText (v : option (text * text)) : text := match v with Some (a, b) => tx " {" ++ a ++ tx " " ++ b ++ tx "}" | None => [] end.
Lemma num_tidy : forall a, numText a -> (forall c, In c a -> inner c) /\ forallb isAscii a = true.
Proof.
  intros a H. split; [intros c Hc; destruct (H c Hc) as (_ & A & _ & B); now split|]. apply forallb_forall. intros c Hc. destruct (H c Hc) as (A & _).
  unfold isAscii. now apply Nat.ltb_lt.
Qed.
Lemma tidy_tv : forall x v, neat x -> match v with Some (a, b) => numText a /\ numText b | None => True end -> neat (x ++ tvText v).
Proof.
  intros x [(a & b)|] N H; cbn [tvText]; [|now rewrite app_nil_r]. destruct H as (Ha & Hb). apply num_tidy in Ha, Hb. destruct Ha as (Ia & Aa), Hb as (Ib & Ab).
  assert (Ta : tidy a) by now apply tidy_name. assert (Tb : tidy b) by now apply tidy_name.
  replace (tx " {" ++ a ++ tx " " ++ b ++ tx "}") with ((tx " {" ++ a ++ tx " " ++ b) ++ tx "}") by now rewrite <- !app_assoc.
  apply neat_mid; auto; [|rewrite !forallb_app, Aa, Ab; reflexivity|neatc]. apply tidy_app; [split; reflexivity| |left; now split].
  apply tidy_app; auto; [|left; unfold endsIn; destruct (List.rev a) as [|c v] eqn:E; [exact Logic.I|]; apply Ia; apply in_rev; rewrite E; now left].
  apply tidy_app; auto; [split; reflexivity|]. right. destruct b as [|c b]; [exact Logic.I|]. apply Ib. now left.
Qed.
Definition reading (w : text) (v : tv) (p : punct) (ev : bool) : option (term * tv * punct * bool) :=
  match parseEntry w with POk t _ => Some (t, v, p, ev) | _ => None end.
(** a neat text, whether it is a term or not *)
Theorem sentence_neat : forall pf w p v ev, neat w -> match v with Some (a, b) => numText a /\ numText b | None => True end ->
  parseNarsese pf (sentenceText w p v ev) =
  match v with
  | None => Ok (reading w defaultTv p ev)
  | Some (a, b) => match pf a, pf b with Some f, Some c => Ok (reading w (mkTv f c) p ev) | _, _ => Panic end
  end.
Proof.
  intros pf w p v ev Nw V. destruct (punct_char p) as (P1 & P2 & P3 & P4 & P5).
  set (core := w ++ [punctChar p]). assert (Nc : neat core) by now apply neat_app.
  assert (Sh : sentenceText w p v ev = (core ++ tvText v) ++ (if ev then tx " :|:" else [])).
  { unfold sentenceText, core, tvText. rewrite <- !app_assoc. reflexivity. }
  assert (Nb : neat (core ++ tvText v)) by now apply tidy_tv.
  assert (T : tidy (sentenceText w p v ev)).
  { rewrite Sh. apply tidy_app; [apply Nb|destruct ev; split; reflexivity|left; apply Nb]. }
  destruct (squeeze_spec (sentenceText w p v ev)) as (_ & _ & Id). specialize (Id T).
  assert (End : exists i c, core ++ tvText v = i ++ [c] /\ c <> ":"%char).
  { destruct v as [(a & b)|]; cbn [tvText].
    - exists (core ++ tx " {" ++ a ++ tx " " ++ b), "}"%char. split; [now rewrite <- !app_assoc|discriminate].
    - exists w, (punctChar p). rewrite app_nil_r. split; auto. }
  assert (Cut : (match cutEnd (tx " :|:") (sentenceText w p v ev) with Some i' => (i', true) | None => (sentenceText w p v ev, false) end) = (core ++ tvText v, ev)).
  { rewrite Sh. destruct ev; [now rewrite cut_some|]. rewrite app_nil_r. destruct End as (i & c & -> & Nc0). now rewrite cut_none. }
  unfold parseNarsese. rewrite Id. cbn zeta.
  match goal with |- (let (i, e) := ?X in @?G i e) = _ => assert (CutX : X = (core ++ tvText v, ev)) by exact Cut; rewrite CutX end. cbn beta iota.
  assert (Fin : forall s (tvv : tv), (s = core \/ s = core ++ [" "%char]) ->
    match trimEnd s with [] => Ok None | _ => match punctOf (last (trimEnd s) "000"%char) with None => Ok None | Some p => match parseEntry (removelast (trimEnd s)) with POk t _ => Ok (Some (t, tvv, p, ev)) | _ => Ok None end end end = Ok (reading w tvv p ev)).
  { intros s tvv Hs. assert (Tr : trimEnd s = core) by (destruct Hs as [-> | ->]; [|rewrite trim_space]; now apply trim_keep).
    rewrite Tr. unfold core. destruct (w ++ [punctChar p]) eqn:Q; [destruct w; discriminate|]. rewrite <- Q. rewrite last_app, P1, removelast_last.
    unfold reading. now destruct (parseEntry w). }
  destruct v as [(a & b)|].
  - cbn [tvText]. 
    replace (core ++ tx " {" ++ a ++ tx " " ++ b ++ tx "}") with ((core ++ [" "%char]) ++ ["{"%char] ++ a ++ [" "%char] ++ b ++ ["}"%char]) by (rewrite <- !app_assoc; reflexivity).
    destruct V as (Va & Vb). rewrite tv_present.
    + destruct (pf a); [|reflexivity]. destruct (pf b); [|reflexivity]. cbn [rbind]. apply Fin. now right.
    + destruct core; discriminate.
    + intros c Hc. apply in_app_iff in Hc. destruct Hc as [Hc|Hc]; [destruct (Va c Hc)|destruct (Vb c Hc)]; tauto.
    + destruct Nb as (_ & _ & _ & A & _). cbn [tvText] in A. refine (eq_trans _ A). rewrite <- !app_assoc. reflexivity.
  - cbn [tvText] in *. rewrite app_nil_r in *. unfold parseNarseseRetTv. destruct Nc as (_ & _ & _ & A & Ne). destruct core as [|c0 k] eqn:Ec; [contradiction|]. rewrite <- Ec in *. rewrite A. cbn [negb].
    assert (L : Ascii.eqb (last core "000"%char) "}" = false). { apply Ascii.eqb_neq. unfold core. now rewrite last_app. }
    rewrite L. cbn [rbind]. apply Fin. now left.
Qed.
Theorem sentence_read : forall pf t w p v ev, writes t w -> match v with Some (a, b) => numText a /\ numText b | None => True end ->
  parseNarsese pf (sentenceText w p v ev) =
  match v with
  | None => Ok (Some (t, defaultTv, p, ev))
  | Some (a, b) => match pf a, pf b with Some f, Some c => Ok (Some (t, mkTv f c, p, ev)) | _, _ => Panic end
  end.
Proof.
  intros pf t w p v ev W V. rewrite sentence_neat by (auto; exact (writes_neat _ _ W)). unfold reading.
  pose proof (entry_complete _ _ [] W (may_nil t)) as X. rewrite app_nil_r in X. now rewrite X.
Qed.
(** whatever is read was written by the grammar, up to the text behind the term *)
Theorem sentence_sound : forall pf i t v p ev, parseNarsese pf i = Ok (Some (t, v, p, ev)) ->
  exists w r, writes t w /\ exists tail, body i = w ++ r ++ [punctChar p] ++ tail.
Proof.
  intros pf i t v p ev H. unfold parseNarsese in H. 
  assert (Hb : exists ev', (match cutEnd (tx " :|:") (squeezeStars i) with Some i' => (i', true) | None => (squeezeStars i, false) end) = (body i, ev')) by (unfold body; destruct (cutEnd _ _); eauto).
  destruct Hb as (ev' & Hb). 
  match type of H with (let (i, e) := ?X in @?G i e) = _ => assert (HbX : X = (body i, ev')) by exact Hb; rewrite HbX in H end. cbn beta iota in H. destruct (parseNarseseRetTv pf (body i)) as [(j & tvv)|] eqn:R; [|discriminate]. cbn [rbind] in H.
  assert (Pre : exists x, body i = j ++ x).
  { unfold parseNarseseRetTv in R. destruct (body i) as [|c0 i0] eqn:E; [injection R as <- _; now exists []|]. rewrite <- E in *. destruct (negb _); [discriminate|].
    destruct (Ascii.eqb _ _); [|injection R as <- _; exists []; now rewrite app_nil_r]. destruct (findBrace _ _) as [k|]; [|injection R as <- _; exists []; now rewrite app_nil_r].
    destruct (splitSpace _) as [|a [|b [|]]]; try (injection R as <- _; exists []; now rewrite app_nil_r). destruct (pf a); [|discriminate]. destruct (pf b); [|discriminate]. cbn [unwrap rbind] in R.
    injection R as <- _. exists (skipn k (body i)). symmetry. apply firstn_skipn. }
  assert (Tr : exists y, j = trimEnd j ++ y).
  { unfold trimEnd. assert (D : forall l, exists z, l = z ++ dropSpaces l) by (induction l as [|c l (z & E)]; [now exists []|cbn [dropSpaces]; destruct (isSpace c); [exists (c :: z); cbn; now rewrite <- E|now exists []]]).
    destruct (D (List.rev j)) as (z & E). exists (List.rev z). rewrite <- rev_app_distr, <- E. now rewrite rev_involutive. }
  destruct (trimEnd j) as [|c k] eqn:T; [discriminate|]. rewrite <- T in *. assert (Ne : trimEnd j <> []) by (rewrite T; discriminate).
  destruct (punctOf (last (trimEnd j) "000"%char)) as [p'|] eqn:P; [|discriminate]. destruct (parseEntry (removelast (trimEnd j))) as [t' r| |] eqn:E; try discriminate.
  injection H as -> _ -> _. apply entry_sound in E. destruct E as (w & W & E). exists w, r. split; auto.
  destruct Pre as (x & Hx), Tr as (y & Hy). exists (y ++ x). rewrite Hx, Hy at 1. rewrite (app_removelast_last "000"%char Ne) at 1. rewrite E, <- !app_assoc. repeat f_equal.
  unfold punctOf in P. destruct (Ascii.eqb (last (trimEnd j) "000"%char) ".") eqn:A1; [injection P as <-; apply Ascii.eqb_eq in A1; now rewrite A1|].
  destruct (Ascii.eqb (last (trimEnd j) "000"%char) "!") eqn:A2; [injection P as <-; apply Ascii.eqb_eq in A2; now rewrite A2|].
  destruct (Ascii.eqb (last (trimEnd j) "000"%char) "?") eqn:A3; [injection P as <-; apply Ascii.eqb_eq in A3; now rewrite A3|discriminate].
Qed.
