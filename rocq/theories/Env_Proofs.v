(** Proofs for Env_Model. *)
From Coq Require Import String Ascii List ZArith Bool Lia.
From Verif Require Import Base Env_Model Env_Spec.
Import ListNotations.
Local Open Scope char_scope.
Local Open Scope list_scope.
Local Open Scope nat_scope.

(** * Tic-tac-toe *)
Lemma put_length : forall A i (x : A) l, length (put i x l) = length l.
Proof. intros A i x l. revert i. induction l as [|a l IH]; intros [|i]; cbn; auto. Qed.
Lemma put_same : forall A i (x : A) l, i < length l -> nth_error (put i x l) i = Some x.
Proof. intros A i x l. revert i. induction l as [|a l IH]; intros [|i] H; cbn in *; auto; try lia. apply IH. lia. Qed.
Lemma put_other : forall A i j (x : A) l, j <> i -> nth_error (put i x l) j = nth_error l j.
Proof. intros A i j x l. revert i j. induction l as [|a l IH]; intros [|i] [|j] H; cbn; auto; try congruence. Qed.
Lemma put_marks : forall i p q l, nth_error l i = Some q -> p <> q ->
  forall c, count_occ ascii_dec (put i p l) c = if ascii_dec p c then S (count_occ ascii_dec l c) else if ascii_dec q c then pred (count_occ ascii_dec l c) else count_occ ascii_dec l c.
Proof.
  intros i p q l. revert i. induction l as [|a l IH]; intros [|i] H N c; cbn [nth_error] in H; try discriminate.
  - injection H as ->. cbn. destruct (ascii_dec p c), (ascii_dec q c); cbn; auto; try congruence.
  - cbn. rewrite (IH i H N c). assert (K : forall c, q = c -> 0 < count_occ ascii_dec l c) by (intros ? <-; apply count_occ_In, (nth_error_In _ i H)).
    destruct (ascii_dec a c), (ascii_dec p c), (ascii_dec q c); auto. specialize (K c e0). lia.
Qed.

Lemma nth_error_ext : forall A (l l' : list A), (forall i, nth_error l i = nth_error l' i) -> l = l'.
Proof.
  induction l as [|a l IH]; intros [|b l'] H; auto; try (specialize (H 0); discriminate). assert (E := H 0). cbn in E. injection E as <-. f_equal. apply IH. intros i. exact (H (S i)).
Qed.
Definition owned (p : ascii) (f : list ascii) (l : nat * nat * nat) : Prop :=
  let '(i, j, k) := l in nth_error f i = Some p /\ nth_error f j = Some p /\ nth_error f k = Some p.
Definition lines8 : list (nat * nat * nat) := [(0, 1, 2); (3, 4, 5); (6, 7, 8); (0, 3, 6); (1, 4, 7); (2, 5, 8); (0, 4, 8); (2, 4, 6)].
Lemma wins_lines : forall p f, wins p f <-> p <> " " /\ exists l, In l lines8 /\ owned p f l.
Proof.
  intros p f. unfold wins, at_. split.
  - intros (N & H). split; auto. destruct H as [(r & L & H)|[(c & L & H)|[H|H]]].
    + assert (H0 := H 0 ltac:(lia)). assert (H1 := H 1 ltac:(lia)). assert (H2 := H 2 ltac:(lia)). exists (3 * r, 3 * r + 1, 3 * r + 2). split.
      * destruct r as [|[|[|r]]]; [cbn; tauto..|lia].
      * rewrite Nat.add_0_r in H0. cbn [owned]. auto.
    + assert (H0 := H 0 ltac:(lia)). assert (H1 := H 1 ltac:(lia)). assert (H2 := H 2 ltac:(lia)). exists (c, 3 + c, 6 + c). split.
      * destruct c as [|[|[|c]]]; [cbn; tauto..|lia].
      * cbn [owned]. auto.
    + exists (0, 4, 8). split; [cbn; tauto|]. exact (conj (H 0 ltac:(lia)) (conj (H 1 ltac:(lia)) (H 2 ltac:(lia)))).
    + exists (2, 4, 6). split; [cbn; tauto|]. exact (conj (H 0 ltac:(lia)) (conj (H 1 ltac:(lia)) (H 2 ltac:(lia)))).
  - intros (N & l & L & O). split; auto. cbn in L.
    destruct L as [<-|[<-|[<-|[<-|[<-|[<-|[<-|[<-|[]]]]]]]]]; destruct O as (O1 & O2 & O3).
    + left. exists 0. split; [lia|]. intros [|[|[|c]]] Lc; auto; lia.
    + left. exists 1. split; [lia|]. intros [|[|[|c]]] Lc; auto; lia.
    + left. exists 2. split; [lia|]. intros [|[|[|c]]] Lc; auto; lia.
    + right. left. exists 0. split; [lia|]. intros [|[|[|c]]] Lc; auto; lia.
    + right. left. exists 1. split; [lia|]. intros [|[|[|c]]] Lc; auto; lia.
    + right. left. exists 2. split; [lia|]. intros [|[|[|c]]] Lc; auto; lia.
    + right. right. left. intros [|[|[|c]]] Lc; auto; lia.
    + right. right. right. intros [|[|[|c]]] Lc; auto; lia.
Qed.
Lemma three_spec : forall f i j k, i < length f -> j < length f -> k < length f ->
  exists w, three f i j k = Ok w /\ forall p, w = Some p <-> p <> " " /\ owned p f (i, j, k).
Proof.
  intros f i j k Li Lj Lk. apply nth_error_Some in Li, Lj, Lk. unfold three, idx, owned.
  destruct (nth_error f i) as [a|]; [|congruence]. destruct (nth_error f j) as [b|]; [|congruence]. destruct (nth_error f k) as [c|]; [|congruence]. cbn [unwrap rbind].
  destruct (Ascii.eqb_spec a " "); [exists None; split; auto; intros p; split; [discriminate|intros (N & Q & _); congruence]|].
  destruct (Ascii.eqb_spec a b); cbn [negb]; [|exists None; split; auto; intros p; split; [discriminate|intros (_ & Q1 & Q2 & _); congruence]].
  destruct (Ascii.eqb_spec b c); cbn [negb]; [|exists None; split; auto; intros p; split; [discriminate|intros (_ & Q1 & Q2 & Q3); congruence]].
  exists (Some a). split; auto. intros p. split; [intros E; injection E as <-; subst; auto|intros (_ & E & _); congruence].
Qed.
Lemma firstHit_spec : forall f l, (forall i j k, In (i, j, k) l -> i < length f /\ j < length f /\ k < length f) ->
  exists w, firstHit f l = Ok w /\ (forall p, w = Some p -> p <> " " /\ exists x, In x l /\ owned p f x) /\ (w = None -> forall p x, p <> " " -> In x l -> ~ owned p f x).
Proof.
  intros f. induction l as [|[[i j] k] l IH]; intros H; cbn [firstHit].
  - exists None. split; auto. split; [discriminate|intros _ p x _ []].
  - destruct (H i j k (or_introl eq_refl)) as (Li & Lj & Lk). destruct (three_spec f i j k Li Lj Lk) as (w & E & W). rewrite E. cbn [rbind].
    destruct w as [p|].
    + exists (Some p). split; auto. split; [|discriminate]. intros q Q. apply W in Q. destruct Q as (N & O). split; auto. exists (i, j, k). split; [now left|exact O].
    + destruct IH as (w & E2 & W1 & W2); [intros i' j' k' Hi; apply H; now right|]. exists w. split; auto. split.
      * intros p Hp. apply W1 in Hp. destruct Hp as (N & x & Hx & O). split; auto. exists x. split; [now right|auto].
      * intros Hw p x N [<-|Hx]; [|now apply W2]. intros O. assert (Q : None = Some p) by (apply W; auto). discriminate.
Qed.
Theorem winner_spec : forall f, length f = 9 -> exists w, winner f = Ok w /\ (forall p, w = Some p -> wins p f) /\ (w = None -> forall p, ~ wins p f).
Proof.
  intros f L. unfold winner.
  destruct (firstHit_spec f [(0, 1, 2); (3, 4, 5); (6, 7, 8)]) as (r & Er & R1 & R2); [intros i j k Hi; rewrite L; cbn in Hi; destruct Hi as [E|[E|[E|[]]]]; injection E as <- <- <-; lia|].
  destruct (firstHit_spec f [(0, 3, 6); (1, 4, 7); (2, 5, 8)]) as (c & Ec & C1 & C2); [intros i j k Hi; rewrite L; cbn in Hi; destruct Hi as [E|[E|[E|[]]]]; injection E as <- <- <-; lia|].
  destruct (three_spec f 0 4 8) as (d1 & E1 & D1); [lia..|]. destruct (three_spec f 2 4 6) as (d2 & E2 & D2); [lia..|].
  rewrite Er. cbn [rbind]. rewrite Ec. cbn [rbind]. rewrite E1. cbn [rbind]. rewrite E2. cbn [rbind]. eexists. split; [reflexivity|].
  assert (In1 : forall x, In x [(0, 1, 2); (3, 4, 5); (6, 7, 8)] -> In x lines8) by (intros x Hx; cbn in *; tauto).
  assert (In2 : forall x, In x [(0, 3, 6); (1, 4, 7); (2, 5, 8)] -> In x lines8) by (intros x Hx; cbn in *; tauto).
  split.
  - intros p Hp. apply wins_lines. destruct d2 as [q|]; cbn [orElse] in Hp.
    { injection Hp as ->. destruct (proj1 (D2 p) eq_refl) as (N & O). split; auto. exists (2, 4, 6). split; [cbn; tauto|exact O]. }
    destruct d1 as [q|]; cbn [orElse] in Hp.
    { injection Hp as ->. destruct (proj1 (D1 p) eq_refl) as (N & O). split; auto. exists (0, 4, 8). split; [cbn; tauto|exact O]. }
    destruct c as [q|]; cbn [orElse] in Hp.
    { injection Hp as ->. destruct (C1 p eq_refl) as (N & x & Hx & O). split; auto. exists x. auto. }
    destruct (R1 p Hp) as (N & x & Hx & O). split; auto. exists x. auto.
  - intros Hn p W. apply wins_lines in W. destruct W as (N & x & Hx & O).
    destruct d2; [discriminate|]. destruct d1; [discriminate|]. destruct c; [discriminate|]. cbn [orElse] in Hn. subst r.
    cbn in Hx. destruct Hx as [<-|[<-|[<-|[<-|[<-|[<-|[<-|[<-|[]]]]]]]]];
      try (eapply (R2 eq_refl p); [exact N| |exact O]; cbn; tauto); try (eapply (C2 eq_refl p); [exact N| |exact O]; cbn; tauto).
    + assert (Q : None = Some p) by (apply D1; auto). discriminate.
    + assert (Q : None = Some p) by (apply D2; auto). discriminate.
Qed.

Lemma sign_nb : forall b : bool, (if b then "a" else "b") <> " ".
Proof. intros []; discriminate. Qed.
Lemma legal_inv : forall g, legal g -> length (g_field g) = 9 /\ (forall c, In c (g_field g) -> c = "a" \/ c = "b" \/ c = " ") /\
  marks "a" (g_field g) = marks "b" (g_field g) + (if g_player g then 0 else 1).
Proof.
  intros g H. induction H as [|f p i f' _ (L & C & M) _ Li B L' S K].
  - repeat split. intros c Hc. apply repeat_spec in Hc. auto.
  - cbn [g_field g_player] in *. split; [lia|]. split.
    + intros c Hc. apply In_nth_error in Hc. destruct Hc as [j Hj]. destruct (Nat.eq_dec j i) as [->|Nj].
      * rewrite S in Hj. injection Hj as <-. destruct p; auto.
      * rewrite K in Hj by auto. apply C. eapply nth_error_In; eauto.
    + assert (E : f' = put i (if p then "a" else "b") f).
      { apply nth_error_ext. intros j. destruct (Nat.eq_dec j i) as [->|Nj]; [rewrite put_same by lia; auto|rewrite put_other by auto; auto]. }
      unfold marks in *. rewrite E. rewrite !(put_marks i _ _ f B (sign_nb p)). destruct p; cbn in *; lia.
Qed.
Theorem legal_winner : forall g, legal g -> forall q, wins q (g_field g) -> q = (if g_player g then "b" else "a").
Proof.
  intros g H q W. destruct H as [|f p i f' H N Li B L' S K].
  - apply wins_lines in W. destruct W as (Nb & l & Hl & O). cbn [newGame g_field] in O. destruct l as [[i j] k]. destruct O as (O & _). apply nth_error_In, repeat_spec in O. congruence.
  - cbn [g_field g_player] in *. destruct (ascii_dec q (if p then "a" else "b")) as [->|D]; [destruct p; reflexivity|]. exfalso.
    apply wins_lines in W. destruct W as (Nb & l & Hl & O). apply (N q), wins_lines. split; auto. exists l. split; auto. destruct l as [[a b] c]. destruct O as (O1 & O2 & O3).
    assert (T : forall j, nth_error f' j = Some q -> nth_error f j = Some q).
    { intros j Hj. destruct (Nat.eq_dec j i) as [->|Nj]; [rewrite S in Hj; congruence|rewrite <- K; auto]. }
    repeat split; auto.
Qed.
Theorem tryMove_spec : forall g i, length (g_field g) = 9 ->
  match tryMove g i with
  | Panic => (i < 0 \/ 9 <= i)%Z
  | Ok (g', ok) => (0 <= i < 9)%Z /\ g_player g' = g_player g /\ length (g_field g') = 9 /\
      (forall j, Z.of_nat j <> i -> nth_error (g_field g') j = nth_error (g_field g) j) /\
      if ok then nth_error (g_field g) (Z.to_nat i) = Some " " /\ nth_error (g_field g') (Z.to_nat i) = Some (if g_player g then "a" else "b")
      else g' = g /\ exists c, nth_error (g_field g) (Z.to_nat i) = Some c /\ c <> " "
  end.
Proof.
  intros [f p] i L. cbn [g_field g_player] in *. unfold tryMove, cell, idx. cbn [g_field g_player]. destruct (Z.ltb_spec i 0) as [B|B]; [cbn [rbind]; lia|].
  destruct (nth_error f (Z.to_nat i)) as [c|] eqn:E; cbn [unwrap rbind].
  - assert (Li : Z.to_nat i < length f) by (apply nth_error_Some; congruence). destruct (Ascii.eqb_spec c " "); cbn [negb].
    + subst c. cbn [g_field g_player]. split; [lia|]. split; auto. split; [rewrite put_length; auto|]. split; [intros j Hj; apply put_other; lia|]. split; auto. apply put_same. auto.
    + cbn [g_field g_player]. split; [lia|]. split; auto. split; auto. split; auto. split; auto. exists c. auto.
  - apply nth_error_None in E. lia.
Qed.
Lemma draw_iff : forall f, (forall c, In c f -> c <> "S") -> (isDraw f = true <-> full f).
Proof.
  intros f S. unfold isDraw, full, retFieldAsString. rewrite negb_true_iff. split.
  - intros H I. assert (T : existsb (Ascii.eqb "S") (map (fun c => if (c =? " ")%char then "S" else c) f) = true); [|congruence].
    apply existsb_exists. exists "S". split; [|reflexivity]. apply in_map_iff. exists " ". auto.
  - intros H. apply not_true_iff_false. intros T. apply existsb_exists in T. destruct T as (c & Hc & E). apply Ascii.eqb_eq in E. subst c.
    apply in_map_iff in Hc. destruct Hc as (c & E & Hc). destruct (Ascii.eqb_spec c " "); [congruence|]. apply (S c Hc). exact E.
Qed.
Lemma legal_S : forall g, legal g -> forall c, In c (g_field g) -> c <> "S".
Proof. intros g H c Hc E. apply legal_inv in H. destruct H as (_ & H & _). destruct (H c Hc) as [K|[K|K]]; subst c; discriminate. Qed.

(** the state while a game is going on *)
Definition going (g : gamestate) : Prop := legal g /\ (forall q, ~ wins q (g_field g)) /\ ~ full (g_field g).
Lemma going_new : going newGame.
Proof.
  split; [apply lg_new|]. split; [|intros F; apply F; left; reflexivity]. intros q W. apply wins_lines in W. destruct W as (N & [[i j] k] & _ & O & _). apply nth_error_In, repeat_spec in O. congruence.
Qed.
Definition over (o : outcome) : Prop :=
  match o with
  | Won c g => legal (mkGame (g_field g) (negb (g_player g))) /\ wins c (g_field g) /\ c = (if g_player g then "a" else "b") /\ forall q, wins q (g_field g) -> q = c
  | Drawn g => legal (mkGame (g_field g) (negb (g_player g))) /\ (forall q, ~ wins q (g_field g)) /\ full (g_field g)
  | Running g => going g
  end.
(** one attempt at a move *)
Lemma move_cases : forall g m, going g ->
  (tryMove g m = Panic /\ (m < 0 \/ 9 <= m)%Z) \/
  (tryMove g m = Ok (g, false) /\ (0 <= m < 9)%Z /\ nth_error (g_field g) (Z.to_nat m) <> Some " ") \/
  (exists f', tryMove g m = Ok (mkGame f' (g_player g), true) /\ (0 <= m < 9)%Z /\ nth_error (g_field g) (Z.to_nat m) = Some " " /\ legal (mkGame f' (negb (g_player g))) /\ marks " " (g_field g) = S (marks " " f') /\
    exists w, winner f' = Ok w /\ match w with
      | Some c => over (Won c (mkGame f' (g_player g)))
      | None => if isDraw f' then over (Drawn (mkGame f' (g_player g))) else going (mkGame f' (negb (g_player g)))
      end).
Proof.
  intros g m (Lg & Nw & Nf). destruct (legal_inv _ Lg) as (L & C & M). assert (T := tryMove_spec g m L). destruct (tryMove g m) as [[g' ok]|] eqn:E; [|auto].
  destruct T as (Rm & Pl & L' & K & T). destruct ok.
  - right. right. destruct T as (B & Sg). exists (g_field g'). split; [assert (Eg : g' = mkGame (g_field g') (g_player g')) by (destruct g'; reflexivity); congruence|]. split; auto. split; auto.
    assert (Lg' : legal (mkGame (g_field g') (negb (g_player g)))).
    { destruct g as [f p]. cbn [g_field g_player] in *. eapply lg_move with (i := Z.to_nat m); eauto; [lia|lia|]. intros j Hj. apply K. lia. }
    split; auto. split.
    { assert (Ef : g_field g' = put (Z.to_nat m) (if g_player g then "a" else "b") (g_field g)).
      { apply nth_error_ext. intros j. destruct (Nat.eq_dec j (Z.to_nat m)) as [->|Nj]; [rewrite put_same by lia; auto|rewrite put_other by auto; apply K; lia]. }
      unfold marks. rewrite Ef, (put_marks _ _ _ _ B (sign_nb _)). destruct (ascii_dec (if g_player g then "a" else "b") " ") as [Q|Q]; [now destruct (sign_nb (g_player g))|].
      destruct (ascii_dec " " " ") as [_|Q2]; [|congruence]. assert (0 < count_occ ascii_dec (g_field g) " ") by (apply count_occ_In; eapply nth_error_In; eauto). lia. }
    destruct (winner_spec _ L') as (w & Ew & W1 & W2). exists w. split; auto. destruct w as [c|].
    + cbn [over g_field g_player]. split; auto. assert (Wc := W1 c eq_refl). assert (Q := legal_winner _ Lg' c). cbn [g_field g_player] in Q.
      assert (Ec : c = (if g_player g then "a" else "b")) by (rewrite (Q Wc); destruct (g_player g); reflexivity). split; auto. split; auto.
      intros q Wq. apply (legal_winner _ Lg') in Wq. cbn [g_player] in Wq. rewrite Wq, Ec. destruct (g_player g); reflexivity.
    + assert (D := draw_iff (g_field g') (legal_S _ Lg')). destruct (isDraw (g_field g')).
      * cbn [over g_field g_player]. split; auto. split; [now apply W2|]. now apply D.
      * split; auto. split; [now apply W2|]. cbn [g_field]. intros F. apply D in F. discriminate.
  - right. left. destruct T as (-> & c & Ec & Nc). split; auto. split; auto. congruence.
Qed.
Theorem play_spec : forall moves g o, going g -> play g moves = Ok o -> over o.
Proof.
  induction moves as [|m ms IH]; intros g o G H; cbn [play] in H; [injection H as <-; exact G|].
  destruct (move_cases g m G) as [(E & _)|[(E & _)|(f' & E & _ & _ & Lg & _ & w & Ew & W)]]; rewrite E in H; cbn [rbind negb] in H; [discriminate|now apply (IH _ _ G) in H|].
  cbn [g_field g_player] in H. rewrite Ew in H. cbn [rbind] in H. destruct w as [c|]; [injection H as <-; exact W|].
  destruct (isDraw f'); [injection H as <-; exact W|now apply (IH _ _ W) in H].
Qed.
Theorem play_panic : forall moves g, going g -> play g moves = Panic -> exists m, In m moves /\ (m < 0 \/ 9 <= m)%Z.
Proof.
  induction moves as [|m ms IH]; intros g G H; cbn [play] in H; [discriminate|].
  destruct (move_cases g m G) as [(E & B)|[(E & _)|(f' & E & _ & _ & Lg & _ & w & Ew & W)]]; rewrite E in H; cbn [rbind negb] in H.
  - exists m. split; [now left|auto].
  - destruct (IH _ G H) as (x & Hx & B). exists x. split; [now right|auto].
  - cbn [g_field g_player] in H. rewrite Ew in H. cbn [rbind] in H. destruct w as [c|]; [discriminate|]. destruct (isDraw f'); [discriminate|].
    destruct (IH _ W H) as (x & Hx & B). exists x. split; [now right|auto].
Qed.
(** a round of attempts that covers every cell either ends the game or fills a cell *)
Lemma round : forall ms rest g, going g -> (forall i, i < 9 -> nth_error (g_field g) i = Some " " -> In (Z.of_nat i) ms) -> (forall m, In m (ms ++ rest) -> (0 <= m < 9)%Z) ->
  match play g (ms ++ rest) with
  | Ok (Running _) => exists g1 rest1, going g1 /\ marks " " (g_field g) = S (marks " " (g_field g1)) /\ play g (ms ++ rest) = play g1 (rest1 ++ rest) /\ (forall m, In m (rest1 ++ rest) -> In m (ms ++ rest))
  | Ok _ => True
  | Panic => False
  end.
Proof.
  induction ms as [|m ms IH]; intros rest g G Cov Rg.
  - exfalso. destruct G as (Lg & _ & Nf). apply Nf. intros B. apply In_nth_error in B. destruct B as [i Hi]. destruct (legal_inv _ Lg) as (L & _).
    assert (Li : i < length (g_field g)) by (apply nth_error_Some; congruence). destruct (Cov i ltac:(lia) Hi).
  - cbn [app play]. destruct (move_cases g m G) as [(E & B)|[(E & Rm & Nb)|(f' & E & Rm & B & Lg & Mk & w & Ew & W)]]; rewrite E; cbn [rbind negb].
    + specialize (Rg m (or_introl eq_refl)). lia.
    + specialize (IH rest g G). assert (P1 : forall i, i < 9 -> nth_error (g_field g) i = Some " " -> In (Z.of_nat i) ms).
      { intros i Li Hi. destruct (Cov i Li Hi) as [K|K]; auto. subst m. rewrite Nat2Z.id in Nb. contradiction. }
      specialize (IH P1 (fun x Hx => Rg x (or_intror Hx))). destruct (play g (ms ++ rest)) as [[c g'|g'|g']|]; auto.
      destruct IH as (g1 & r1 & G1 & M1 & E1 & I1). exists g1, r1. split; [exact G1|]. split; [exact M1|]. split; [exact E1|]. intros x Hx. right. auto.
    + cbn [g_field g_player]. rewrite Ew. cbn [rbind]. destruct w as [c|]; auto. destruct (isDraw f'); auto.
      destruct (play (mkGame f' (negb (g_player g))) (ms ++ rest)) as [[c g'|g'|g']|] eqn:P; auto.
      * exists (mkGame f' (negb (g_player g))), ms. cbn [g_field]. split; [exact W|]. split; [exact Mk|]. split; [now rewrite P|]. intros x Hx. now right.
      * apply (play_panic _ _ W) in P. destruct P as (x & Hx & Bx). specialize (Rg x (or_intror Hx)). lia.
Qed.
Definition covers (ms : list Z) : Prop := forall i, (0 <= i < 9)%Z -> In i ms.
Theorem play_ends : forall rounds g, going g -> marks " " (g_field g) <= length rounds -> Forall covers rounds ->
  (forall m, In m (concat rounds) -> (0 <= m < 9)%Z) -> match play g (concat rounds) with Ok (Running _) => False | Ok _ => True | Panic => False end.
Proof.
  intros rounds g. assert (G : forall rounds pre g, going g -> marks " " (g_field g) <= length rounds -> Forall covers rounds ->
    (forall m, In m (pre ++ concat rounds) -> (0 <= m < 9)%Z) -> match play g (pre ++ concat rounds) with Ok (Running _) => False | Ok _ => True | Panic => False end).
  2:{ intros G1 M F Rg. exact (G rounds [] g G1 M F Rg). }
  clear. induction rounds as [|r rounds IH]; intros pre g G M F Rg.
  - exfalso. destruct G as (_ & _ & Nf). apply Nf. intros B. apply (count_occ_In ascii_dec) in B. unfold marks in M. cbn in M. lia.
  - cbn [concat] in *. rewrite app_assoc in *. inversion F as [|? ? Cr F']; subst.
    assert (R := round (pre ++ r) (concat rounds) g G). specialize (R ltac:(intros i Li _; apply in_app_iff; right; apply Cr; lia) Rg).
    destruct (play g ((pre ++ r) ++ concat rounds)) as [[c g'|g'|g']|] eqn:P; auto.
    destruct R as (g1 & r1 & G1 & M1 & E1 & I1). cbn [length] in M. assert (Q := IH r1 g1 G1 ltac:(lia) F' ltac:(intros m Hm; apply Rg; auto)).
    rewrite <- E1 in Q. exact Q.
Qed.
Theorem stimulus_inj : forall f g, (forall c, In c f -> c <> "S") -> (forall c, In c g -> c <> "S") -> retFieldAsString f = retFieldAsString g -> f = g.
Proof.
  induction f as [|a f IH]; intros [|b g] Hf Hg H; try discriminate; auto. cbn in H. injection H as E H. f_equal; [|apply IH; auto; intros c Hc; [apply Hf|apply Hg]; now right].
  specialize (Hf a (or_introl eq_refl)). specialize (Hg b (or_introl eq_refl)). destruct (Ascii.eqb_spec a " "), (Ascii.eqb_spec b " "); congruence.
Qed.

(** * Pong *)
Local Open Scope Z_scope.
(** every field the step does not move *)
Lemma sim_fixed : forall e r e', simStep e r = Ok e' -> szX e' = szX e /\ szY e' = szY e /\ batVX e' = batVX e /\ batWidth e' = batWidth e /\ mulVX e' = mulVX e /\ time e' = time e + 1.
Proof.
  intros e r e' H. unfold simStep in H.
  match type of H with (if ?b then _ else _) = _ => destruct b end.
  - destruct (range _ (d_y r)); [|discriminate]. cbn [rbind] in H. destruct (range _ (d_x r)); [|discriminate]. cbn [rbind] in H. destruct (range _ (d_dir r)); [|discriminate]. cbn [rbind] in H. injection H as <-. cbn. auto 10.
  - injection H as <-. cbn. auto 10.
Qed.
Lemma range_in : forall hi x y, range hi x = Ok y -> y = x /\ 0 <= x < hi.
Proof. intros hi x y H. unfold range in H. destruct (Z.leb_spec 0 x); [|discriminate]. destruct (Z.ltb_spec x hi); [|discriminate]. injection H as <-. lia. Qed.
(** where the ball is after a step *)
Record stepped (e : pong) (r : draws) (e' : pong) : Prop := {
  st_bat : batX e' = Z.max (batWidth e * 2) (Z.min (szX e - 1 + batWidth e) (batX e + Z.quot (batVX e * batWidth e) 2));
  st_move : exists vx vy bx by_,
    vx = (if ballX e >=? szX e - 1 then -1 else if ballX e <=? 0 then 1 else vX e) /\
    vy = (if ballY e >=? szY e - 1 then -1 else if ballY e <=? 0 then 1 else vY e) /\
    bx = (if Z.rem (time e + 1) 2 =? 1 then ballX e + vx else ballX e) + vx * mulVX e /\ by_ = ballY e + vy /\ vY e' = vy /\
    hits e' = (if (by_ =? 0) && (Z.abs (bx - batX e) <=? batWidth e) then hits e + 1 else hits e) /\
    misses e' = (if (by_ =? 0) && negb (Z.abs (bx - batX e) <=? batWidth e) then misses e + 1 else misses e) /\
    ((spawned e' = true /\ (by_ = 0 \/ bx = 0 \/ szX e - 1 <= bx) /\ 0 <= ballX e' < szX e /\ Z.quot (szY e) 2 <= ballY e' < Z.quot (szY e) 2 * 2 /\ (vX e' = 1 \/ vX e' = -1)) \/
     (spawned e' = false /\ by_ <> 0 /\ bx <> 0 /\ bx < szX e - 1 /\ ballX e' = bx /\ ballY e' = by_ /\ vX e' = vx))
}.
Lemma sim_stepped : forall e r e', simStep e r = Ok e' -> stepped e r e'.
Proof.
  intros e r e' H. unfold simStep in H.
  set (vx := if ballX e >=? szX e - 1 then -1 else if ballX e <=? 0 then 1 else vX e) in *.
  set (vy := if ballY e >=? szY e - 1 then -1 else if ballY e <=? 0 then 1 else vY e) in *.
  set (bx := (if Z.rem (time e + 1) 2 =? 1 then ballX e + vx else ballX e) + vx * mulVX e) in *.
  destruct ((ballY e + vy =? 0) || (bx =? 0) || (bx >=? szX e - 1)) eqn:B.
  - destruct (range (Z.quot (szY e) 2) (d_y r)) as [y|] eqn:Y; [|discriminate]. cbn [rbind] in H. destruct (range _ (d_x r)) as [x|] eqn:X; [|discriminate]. cbn [rbind] in H.
    destruct (range 2 (d_dir r)) as [dir|] eqn:D; [|discriminate]. cbn [rbind] in H. injection H as <-. apply range_in in Y, X, D. destruct Y as (-> & Y), X as (-> & X).
    split; [reflexivity|]. exists vx, vy, bx, (ballY e + vy). cbn [vY hits misses spawned ballX ballY vX]. do 7 (split; [reflexivity|]). left. split; [reflexivity|]. split; [|split; [lia|split; [lia|]]].
    + apply orb_true_iff in B. destruct B as [B|B]; [apply orb_true_iff in B; destruct B as [B|B]; apply Z.eqb_eq in B; auto|]. right. right. rewrite Z.geb_leb in B. now apply Z.leb_le in B.
    + destruct (dir =? 0); auto.
  - injection H as <-. apply orb_false_iff in B. destruct B as (B & B3). apply orb_false_iff in B. destruct B as (B1 & B2). apply Z.eqb_neq in B1, B2. rewrite Z.geb_leb in B3. apply Z.leb_gt in B3.
    split; [reflexivity|]. exists vx, vy, bx, (ballY e + vy). cbn [vY hits misses spawned ballX ballY vX]. do 7 (split; [reflexivity|]). right. repeat split; auto.
Qed.
(** the ball stays inside *)
Record inside (e : pong) : Prop := { in_szX : 2 <= szX e; in_szY : 2 <= szY e; in_mul : mulVX e = 0; in_x : 0 <= ballX e < szX e; in_y : 1 <= ballY e < szY e; in_vx : vX e = 1 \/ vX e = -1; in_vy : vY e = 1 \/ vY e = -1 }.
Lemma quot2 : forall z, 2 <= z -> 1 <= Z.quot z 2 /\ Z.quot z 2 * 2 <= z.
Proof. intros z H. rewrite Z.quot_div_nonneg by lia. assert (A := Z.div_mod z 2). assert (B := Z.mod_pos_bound z 2). lia. Qed.
Lemma inside_step : forall e r e', inside e -> simStep e r = Ok e' -> inside e'.
Proof.
  intros e r e' I H. assert (F := sim_fixed _ _ _ H). destruct F as (F1 & F2 & F3 & F4 & F5 & F6). destruct I as [I1 I2 I3 I4 I5 I6 I7].
  destruct (sim_stepped _ _ _ H) as [_ (vx & vy & bx & by_ & Vx & Vy & Bx & By & Ey & _ & _ & C)]. rewrite I3 in Bx. rewrite Z.geb_leb in Vx, Vy.
  assert (Wx : vx = 1 \/ vx = -1) by (subst vx; destruct (szX e - 1 <=? ballX e); auto; destruct (ballX e <=? 0); auto).
  assert (Wy : vy = 1 \/ vy = -1) by (subst vy; destruct (szY e - 1 <=? ballY e); auto; destruct (ballY e <=? 0); auto).
  assert (Qy := quot2 _ I2). split; try congruence; try lia.
  - destruct C as [(_ & _ & C & _)|(_ & _ & _ & C1 & C2 & _)]; [lia|]. rewrite F1, C2. split; [|lia].
    assert (Q : ballX e = 0 -> vx = 1) by (intros Q; subst vx; destruct (Z.leb_spec (szX e - 1) (ballX e)); [lia|]; destruct (Z.leb_spec (ballX e) 0); auto; lia).
    destruct (Z.rem (time e + 1) 2 =? 1); lia.
  - rewrite F2. destruct C as [(_ & _ & _ & C & _)|(_ & C0 & _ & _ & _ & C & _)]; [lia|]. rewrite C.
    assert (Q : ballY e = szY e - 1 -> vy = -1) by (intros Q; subst vy; destruct (Z.leb_spec (szY e - 1) (ballY e)); [auto|lia]). lia.
Qed.
Lemma inside_op : forall o e, inside e -> inside (callPong o e).
Proof. intros o e [I1 I2 I3 I4 I5 I6 I7]. split; auto. Qed.
Theorem run_inside : forall e0 e, inside e0 -> pongRun e0 e -> inside e.
Proof. intros e0 e I H. induction H; auto; [now apply inside_op|eapply inside_step; eauto]. Qed.
Lemma make_inside : inside makePong.
Proof. split; cbn; lia. Qed.

(** no panic while the ranges are respected *)
Theorem sim_total : forall e r, 0 <= d_y r < Z.quot (szY e) 2 -> 0 <= d_x r < szX e -> 0 <= d_dir r < 2 -> exists e', simStep e r = Ok e'.
Proof.
  intros e r Hy Hx Hd. unfold simStep. match goal with |- exists _, (if ?b then _ else _) = _ => destruct b end; eauto.
  assert (R : forall hi x, 0 <= x < hi -> range hi x = Ok x).
  { intros hi x L. unfold range. destruct (Z.leb_spec 0 x); [|lia]. destruct (Z.ltb_spec x hi); [reflexivity|lia]. }
  rewrite (R _ _ Hy). cbn [rbind]. rewrite (R _ _ Hx). cbn [rbind]. rewrite (R _ _ Hd). cbn [rbind]. eauto.
Qed.

(** the bat *)
Theorem run_bat : forall e0 e, batWidth e0 * 2 <= batX e0 <= Z.max (batWidth e0 * 2) (szX e0 - 1 + batWidth e0) -> pongRun e0 e ->
  batWidth e = batWidth e0 /\ szX e = szX e0 /\ batWidth e * 2 <= batX e <= Z.max (batWidth e * 2) (szX e - 1 + batWidth e).
Proof.
  intros e0 e B H. induction H as [|e o H (E1 & E2 & IH)|e r e' H (E1 & E2 & IH) S]; auto.
  assert (F := sim_fixed _ _ _ S). destruct F as (F1 & _ & _ & F4 & _). apply sim_stepped in S. destruct S as [S _]. rewrite F4, F1, S. split; auto. split; auto. lia.
Qed.
Theorem step_speed : forall e r e', simStep e r = Ok e' -> 0 <= batWidth e -> (batVX e = 1 \/ batVX e = -1 \/ batVX e = 0) -> batWidth e * 2 <= batX e <= Z.max (batWidth e * 2) (szX e - 1 + batWidth e) ->
  Z.abs (batX e' - batX e) <= Z.quot (batWidth e) 2.
Proof.
  intros e r e' S W V B. apply sim_stepped in S. destruct S as [S _]. rewrite S.
  assert (Q : 0 <= Z.quot (batWidth e) 2) by (apply Z.quot_pos; lia).
  assert (Q2 : Z.quot (batVX e * batWidth e) 2 = batVX e * Z.quot (batWidth e) 2).
  { destruct V as [->|[->| ->]]; rewrite ?Z.mul_1_l; auto. replace (-1 * batWidth e) with (- batWidth e) by ring. rewrite Z.quot_opp_l by lia. ring. }
  rewrite Q2. destruct V as [->|[->| ->]]; lia.
Qed.

(** the score *)
Theorem step_score : forall e r e', simStep e r = Ok e' ->
  (hits e' = hits e /\ misses e' = misses e) \/ (spawned e' = true /\ ((hits e' = hits e + 1 /\ misses e' = misses e) \/ (hits e' = hits e /\ misses e' = misses e + 1))).
Proof.
  intros e r e' S. apply sim_stepped in S. destruct S as [_ (vx & vy & bx & by_ & _ & _ & _ & _ & _ & H & M & C)]. rewrite H, M.
  destruct (by_ =? 0) eqn:B; cbn [andb]; [|auto]. right. apply Z.eqb_eq in B. split; [|destruct (_ <=? batWidth e); auto].
  destruct C as [(C & _)|(_ & C & _)]; [auto|contradiction].
Qed.
Theorem run_counters : forall e0 e, pongRun e0 e -> hits e0 <= hits e /\ misses e0 <= misses e /\ time e0 <= time e.
Proof.
  intros e0 e H. induction H as [|e o H IH|e r e' H IH S]; [lia|exact IH|]. assert (F := sim_fixed _ _ _ S). destruct F as (_ & _ & _ & _ & _ & F). apply step_score in S. lia.
Qed.
(** landings take time *)
Record paced (e : pong) : Prop := {
  pc_all : Z.quot (szY e) 2 * (hits e + misses e) <= time e;
  pc_down : vY e = -1 -> Z.quot (szY e) 2 * (hits e + misses e) + Z.quot (szY e) 2 - ballY e <= time e;
  pc_up : vY e = 1 -> hits e + misses e = 0
}.
Lemma paced_step : forall e r e', inside e -> 0 <= time e -> paced e -> simStep e r = Ok e' -> paced e'.
Proof.
  intros e r e' I T [P1 P2 P3] S. assert (I' := inside_step _ _ _ I S). assert (F := sim_fixed _ _ _ S). destruct F as (F1 & F2 & F3 & F4 & F5 & F6).
  assert (Sc := step_score _ _ _ S). apply sim_stepped in S. destruct S as [_ (vx & vy & bx & by_ & Vx & Vy & Bx & By & Ey & Hh & Hm & C)].
  destruct I as [I1 I2 I3 I4 I5 I6 I7]. assert (Qy := quot2 _ I2). set (q := Z.quot (szY e) 2) in *. rewrite Z.geb_leb in Vy.
  assert (Wy : vy = 1 \/ vy = -1) by (subst vy; destruct (szY e - 1 <=? ballY e); auto; destruct (ballY e <=? 0); auto).
  assert (Up : vy = 1 -> vY e = 1 /\ by_ <> 0).
  { intros U. subst vy. destruct (szY e - 1 <=? ballY e); [lia|]. destruct (Z.leb_spec (ballY e) 0); [lia|]. lia. }
  assert (Turn : vy = -1 -> vY e = 1 -> ballY e = szY e - 1).
  { intros U U2. subst vy. destruct (Z.leb_spec (szY e - 1) (ballY e)); [lia|]. destruct (Z.leb_spec (ballY e) 0); lia. }
  assert (Cnt : by_ = 0 -> hits e' + misses e' = hits e + misses e + 1).
  { intros B. rewrite Hh, Hm, B. cbn [Z.eqb andb]. destruct (_ <=? batWidth e); cbn [negb]; lia. }
  assert (Cnt0 : by_ <> 0 -> hits e' + misses e' = hits e + misses e).
  { intros B. apply Z.eqb_neq in B. rewrite Hh, Hm, B. reflexivity. }
  assert (All : q * (hits e' + misses e') <= time e').
  { rewrite F6. destruct (Z.eq_dec by_ 0) as [B|B]; [rewrite (Cnt B)|rewrite (Cnt0 B); lia].
    assert (D : vy = -1) by lia. destruct I7 as [U|U]; [|specialize (P2 U); lia].
    specialize (Turn D U). specialize (P3 U). assert (q = 1) by lia. rewrite P3. lia. }
  split; [rewrite F2; exact All| |]; rewrite Ey; intros U.
  - rewrite F2. fold q. destruct C as [(_ & _ & _ & C & _)|(_ & C0 & _ & _ & _ & C & _)]; [lia|]. rewrite C, (Cnt0 C0), F6, By.
    destruct I7 as [W|W]; [specialize (Turn U W); rewrite (P3 W) in *; lia|specialize (P2 W); lia].
  - destruct (Up U) as (U1 & U2). rewrite (Cnt0 U2). auto.
Qed.
Theorem run_paced : forall e, pongRun makePong e -> 10 * (hits e + misses e) <= time e.
Proof.
  intros e H. assert (A : inside e /\ 0 <= time e /\ paced e /\ szY e = 20).
  { induction H as [|e o H (I & T & [P1 P2 P3] & Y)|e r e' H (I & T & P & Y) S].
    - split; [apply make_inside|]. split; [cbn; lia|]. split; [split; cbn; lia|reflexivity].
    - split; [now apply inside_op|]. split; auto. split; auto. split; auto.
    - assert (F := sim_fixed _ _ _ S). destruct F as (_ & F2 & _ & _ & _ & F6). split; [eapply inside_step; eauto|]. split; [lia|]. split; [eapply paced_step; eauto|congruence]. }
  destruct A as (_ & _ & [P _ _] & Y). rewrite Y in P. exact P.
Qed.
(** landing too far to the left is always a miss *)
Theorem left_missed : forall e r e', pongRun makePong e -> simStep e r = Ok e' -> ballX e <= 4 -> hits e' = hits e.
Proof.
  intros e r e' H S X. assert (I := run_inside _ _ make_inside H). assert (B := run_bat makePong e ltac:(cbn; lia) H). destruct B as (W & _ & B & _). cbn in W. rewrite W in B.
  apply sim_stepped in S. destruct S as [_ (vx & vy & bx & by_ & Vx & _ & Bx & _ & _ & Hh & _ & _)]. rewrite Hh. destruct (by_ =? 0); [|reflexivity]. cbn [andb]. destruct I as [I1 I2 I3 I4 I5 I6 I7].
  assert (Wx : vx = 1 \/ vx = -1) by (subst vx; destruct (ballX e >=? szX e - 1); auto; destruct (ballX e <=? 0); auto).
  assert (bx <= 5) by (rewrite Bx, I3; destruct (Z.rem (time e + 1) 2 =? 1); lia).
  destruct (Z.leb_spec (Z.abs (bx - batX e)) (batWidth e)); [lia|reflexivity].
Qed.

(** * The way of the ball *)
Lemma rem_odd : forall t, 0 <= t -> (Z.rem t 2 =? 1) = Z.odd t.
Proof.
  intros t H. rewrite Z.rem_mod_nonneg by lia. rewrite Zmod_odd. destruct (Z.odd t); reflexivity.
Qed.
Lemma oddTimes_S : forall t k, oddTimes t (S k) = oddTimes t k + (if Z.odd (t + Z.of_nat (S k)) then 1 else 0).
Proof.
  intros t k. unfold oddTimes. rewrite seq_S, filter_app, app_length. cbn [filter Nat.add]. destruct (Z.odd (t + Z.of_nat (S k))); cbn [length]; lia.
Qed.
Lemma flight_run : forall e0 e k, flight e0 k e -> pongRun e0 e.
Proof. intros e0 e k H. induction H; [constructor|now constructor|econstructor; eauto]. Qed.
Lemma run_app : forall e0 e1 e2, pongRun e0 e1 -> pongRun e1 e2 -> pongRun e0 e2.
Proof. intros e0 e1 e2 R H. induction H; [exact R|now constructor|econstructor; eauto]. Qed.
Lemma run_size : forall e, pongRun makePong e -> szX e = 50 /\ szY e = 20 /\ 0 <= time e.
Proof.
  intros e H. induction H as [|e o H IH|e r e' H IH S]; [cbn; lia|exact IH|]. destruct (sim_fixed _ _ _ S) as (F1 & F2 & _ & _ & _ & F6). lia.
Qed.
Theorem flight_spec : forall e k e', pongRun makePong e -> 1 <= ballX e <= 48 -> flight e k e' ->
  (vY e = -1 /\ ballY e <= 18 \/ vY e = 1 /\ ballY e + Z.of_nat k <= 19) ->
  time e' = time e + Z.of_nat k /\ vX e' = vX e /\ vY e' = vY e /\ ballY e' = ballY e + Z.of_nat k * vY e /\ ballX e' = ballX e + oddTimes (time e) k * vX e /\ 1 <= ballX e' <= 48 /\ ballY e' <= 19 /\ (vY e = -1 -> ballY e' <= 18).
Proof.
  intros e k e' R X F. induction F as [|k e1 o F IH|k e1 r e2 F IH S Sp]; intros Y.
  - change (oddTimes (time e) 0) with 0. cbn [Z.of_nat]. lia.
  - cbn [callPong time vX vY ballX ballY]. apply IH. exact Y.
  - assert (R1 := run_app _ _ _ R (flight_run _ _ _ F)). assert (I := run_inside _ _ make_inside R1). destruct I as [I1 I2 I3 I4 I5 I6 I7]. destruct (run_size _ R1) as (Z1 & Z2 & Z3).
    destruct IH as (T & Vx & Vy & By & Bx & Rg & Rg2 & Rg3); [lia|]. destruct (sim_fixed _ _ _ S) as (_ & _ & _ & _ & _ & F6).
    apply sim_stepped in S. destruct S as [_ (vx & vy & bx & by_ & Ex & Ey & Eb & Eby & EvY & _ & _ & C)]. rewrite Sp in C.
    destruct C as [(C & _)|(_ & C1 & C2 & C3 & C4 & C5 & C6)]; [discriminate C|]. rewrite Z1, Z2, Z.geb_leb in *. rewrite I3 in Eb. rewrite rem_odd in Eb by lia.
    assert (vx = vX e) by (rewrite Ex; destruct (Z.leb_spec (50 - 1) (ballX e1)); [lia|]; destruct (Z.leb_spec (ballX e1) 0); [lia|exact Vx]).
    assert (vy = vY e) by (rewrite Ey; destruct (Z.leb_spec (20 - 1) (ballY e1)); [lia|]; destruct (Z.leb_spec (ballY e1) 0); [lia|exact Vy]).
    rewrite oddTimes_S. replace (time e + Z.of_nat (S k)) with (time e1 + 1) by lia. split; [lia|]. split; [congruence|]. split; [congruence|]. split; [lia|].
    split; [rewrite C4, Eb, H, Bx; destruct (Z.odd (time e1 + 1)); lia|]. split; [|lia].
    rewrite C4. assert (1 <= bx); [|lia]. rewrite Eb, H, Bx in *. destruct (Z.odd (time e1 + 1)); lia.
Qed.
(** where the ball is put back into play *)
Lemma spawn_spec : forall e r e', simStep e r = Ok e' -> spawned e' = true -> ballX e' = d_x r /\ ballY e' = Z.quot (szY e) 2 + d_y r /\ vX e' = (if d_dir r =? 0 then 1 else -1).
Proof.
  intros e r e' H Sp. unfold simStep in H. match type of H with (if ?b then _ else _) = _ => destruct b end.
  - destruct (range _ (d_y r)) as [y|] eqn:Y; [|discriminate]. cbn [rbind] in H. destruct (range _ (d_x r)) as [x|] eqn:X; [|discriminate]. cbn [rbind] in H.
    destruct (range _ (d_dir r)) as [q|] eqn:D; [|discriminate]. cbn [rbind] in H. apply range_in in Y, X, D. destruct Y as (-> & _), X as (-> & _), D as (-> & _). injection H as <-. cbn. auto.
  - injection H as <-. cbn in Sp. discriminate Sp.
Qed.
