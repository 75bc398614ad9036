(** Input, winner and run of the language network. *)
From Coq Require Import ZArith Lia String Ascii List Bool.
From Verif Require Import Base F64_Model Tv_Model Parser_Model Nar_Model Sort_Proofs Goal_Proofs Vision_Proofs Nlp_Model Nlp_Spec.
Import ListNotations.
Local Open Scope list_scope. Local Open Scope nat_scope.

(** ** input *)
Section Input.
  Context {F : Type} (A : arith F).
  Definition place (s : list nat) (cs : list nat) (i : nat) : res (list nat) :=
    let back := (length s - 1 - i)%nat in
    if Nat.ltb (length cs - 1) back then Panic
    else do c <- idx s i; Ok (replace_at (length cs - 1 - back)%nat c cs).
  Definition hot (c : nat) : res (list (F * F)) := do v <- encode_onehot A c 34; Ok (map (fun x => (x, A0 A)) v).
  Lemma conv_eq : forall s, conv_seq_to_nninput A s =
    do codes <- rfold (place s) (seq 0 (length s)) (repeat 33 12); do bs <- rmapM hot codes; Ok (concat bs).
  Proof. reflexivity. Qed.

  Lemma replace_mid : forall X (a : list X) x y b, replace_at (length a) y (a ++ x :: b) = a ++ y :: b.
  Proof. induction a as [|z a IH]; intros; [reflexivity|]. cbn [length app replace_at]. now rewrite IH. Qed.
  Lemma repeat_snoc : forall X (x : X) n, repeat x (S n) = repeat x n ++ [x].
  Proof. induction n as [|n IH]; [reflexivity|]. cbn [repeat app]. now rewrite <- IH. Qed.
  Lemma place_rest : forall s m i, length s <= 12 -> i + m = length s ->
    rfold (place s) (seq i m) (repeat 33 (12 - length s) ++ firstn i s ++ repeat 33 m) = Ok (repeat 33 (12 - length s) ++ s).
  Proof.
    intros s. induction m as [|m IH]; intros i L E.
    - cbn [seq rfold repeat]. rewrite app_nil_r, firstn_all2 by lia. reflexivity.
    - cbn [seq rfold]. unfold place at 1. rewrite !app_length, !repeat_length, firstn_length, Nat.min_l by lia.
      destruct (Nat.ltb_spec (12 - length s + (i + S m) - 1) (length s - 1 - i)); [lia|].
      destruct (nth_error s i) as [c|] eqn:N; [|apply nth_error_None in N; lia].
      unfold idx. rewrite N. cbn [unwrap rbind].
      replace (12 - length s + (i + S m) - 1 - (length s - 1 - i)) with (length (repeat 33 (12 - length s) ++ firstn i s)) by (rewrite app_length, repeat_length, firstn_length; lia).
      rewrite app_assoc. cbn [repeat]. rewrite replace_mid. rewrite <- (IH (S i)) by lia. f_equal.
      rewrite <- !app_assoc. f_equal. assert (X : firstn (S i) s = firstn i s ++ [c]).
      { clear - N. revert s N. induction i as [|i IH]; intros [|x s] N; try discriminate; cbn in N; [injection N as ->; reflexivity|]. cbn [firstn app]. f_equal. now apply IH. }
      rewrite X, <- app_assoc. reflexivity.
  Qed.
  Lemma place_all : forall s, rfold (place s) (seq 0 (length s)) (repeat 33 12) =
    if Nat.leb (length s) 12 then Ok (repeat 33 (12 - length s) ++ s) else Panic.
  Proof.
    intros s. destruct (Nat.leb_spec (length s) 12) as [L|L].
    - rewrite <- (place_rest s (length s) 0) by lia. f_equal. cbn [firstn app]. rewrite <- repeat_app. f_equal. lia.
    - destruct (length s) as [|m] eqn:E; [lia|]. cbn [seq rfold]. unfold place at 1. rewrite repeat_length, E.
      destruct (Nat.ltb_spec (12 - 1) (S m - 1 - 0)); [reflexivity|lia].
  Qed.

  Definition block (c : nat) : list (F * F) := map (fun x => (x, A0 A)) (replace_at c (A1 A) (repeat (A0 A) 34)).
  Lemma hot_eq : forall c, hot c = if Nat.ltb c 34 then Ok (block c) else Panic.
  Proof. intros. unfold hot, encode_onehot, block. destruct (Nat.ltb c 34); reflexivity. Qed.
  Lemma block_length : forall c, length (block c) = 34.
  Proof. intros. unfold block. now rewrite map_length, replace_at_length, repeat_length. Qed.
  Lemma block_nth : forall c i, c < 34 -> i < 34 -> nth_error (block c) i = Some (if Nat.eqb i c then A1 A else A0 A, A0 A).
  Proof.
    intros c i Hc Hi. unfold block. rewrite nth_error_map. assert (nth_error (replace_at c (A1 A) (repeat (A0 A) 34)) i = Some (if Nat.eqb i c then A1 A else A0 A)) as ->; [|reflexivity].
    revert c i Hc Hi. generalize 34. induction n as [|n IH]; intros c i Hc Hi; [lia|]. destruct c as [|c], i as [|i]; cbn [repeat replace_at nth_error Nat.eqb]; auto; [|apply IH; lia].
    clear - Hi. assert (i < n) by lia. clear Hi. revert i H. induction n as [|n IH]; intros [|i] L; cbn; try lia; auto. apply IH. lia.
  Qed.
  Lemma hots : forall l, rmapM hot l = if forallb (fun c => Nat.ltb c 34) l then Ok (map block l) else Panic.
  Proof.
    induction l as [|c l IH]; [reflexivity|]. cbn [rmapM forallb map]. rewrite hot_eq. destruct (Nat.ltb c 34); [|reflexivity]. cbn [rbind andb]. rewrite IH.
    destruct (forallb _ l); reflexivity.
  Qed.
  Definition codesOf (s : list nat) : list nat := repeat 33 (12 - length s) ++ s.
  Lemma conv_ok : forall s, fits s -> conv_seq_to_nninput A s = Ok (concat (map block (codesOf s))).
  Proof.
    intros s (L & C). rewrite conv_eq, place_all. destruct (Nat.leb_spec (length s) 12); [|lia]. cbn [rbind]. rewrite hots.
    replace (forallb _ _) with true; [reflexivity|]. symmetry. apply forallb_forall. intros c Hc. apply Nat.ltb_lt. apply in_app_iff in Hc. destruct Hc as [Hc|Hc]; [apply repeat_spec in Hc; lia|auto].
  Qed.
  Lemma conv_panic : forall s, conv_seq_to_nninput A s = Panic <-> ~ fits s.
  Proof.
    intros s. split.
    - intros H Ft. rewrite conv_ok in H by assumption. discriminate.
    - intros H. rewrite conv_eq, place_all. destruct (Nat.leb_spec (length s) 12); [|reflexivity]. cbn [rbind]. rewrite hots.
      destruct (forallb _ _) eqn:E; [|reflexivity]. exfalso. apply H. split; [lia|]. intros c Hc. rewrite forallb_forall in E. apply Nat.ltb_lt, E, in_app_iff. now right.
  Qed.
  Lemma concat_nth : forall (bs : list (list (F * F))) k c, (forall b, In b bs -> length b = 34) -> c < 34 ->
    nth_error (concat bs) (34 * k + c) = match nth_error bs k with Some b => nth_error b c | None => None end.
  Proof.
    induction bs as [|b bs IH]; intros k c H Hc.
    - cbn [concat]. rewrite (proj2 (nth_error_None _ _)) by (cbn; lia). now destruct k.
    - cbn [concat]. assert (Lb : length b = 34) by (apply H; now left). destruct k as [|k]; cbn [nth_error].
      + rewrite nth_error_app1 by lia. now rewrite Nat.mul_0_r.
      + rewrite nth_error_app2 by lia. rewrite <- IH; [f_equal; lia| |assumption]. intros b' Hb. apply H. now right.
  Qed.
  Lemma concat_len : forall (bs : list (list (F * F))), (forall b, In b bs -> length b = 34) -> length (concat bs) = 34 * length bs.
  Proof. induction bs as [|b bs IH]; intros H; [reflexivity|]. cbn [concat length]. rewrite app_length, IH by (intros; apply H; now right). rewrite (H b) by now left. lia. Qed.
  Lemma codes_len : forall s, length s <= 12 -> length (codesOf s) = 12.
  Proof. intros. unfold codesOf. rewrite app_length, repeat_length. lia. Qed.
  Lemma conv_input : forall s, fits s -> isInput (A0 A) (A1 A) s (concat (map block (codesOf s))).
  Proof.
    intros s Ft. assert (B : forall b, In b (map block (codesOf s)) -> length b = 34) by (intros b Hb; apply in_map_iff in Hb; destruct Hb as (c & <- & _); apply block_length).
    split; [exact Ft|]. destruct Ft as (L & C). split; [rewrite concat_len, map_length, codes_len by assumption; reflexivity|]. intros k c Hk Hc. rewrite concat_nth by assumption. rewrite nth_error_map.
    unfold signAt. fold (codesOf s). destruct (nth_error (codesOf s) k) as [x|] eqn:E; [|apply nth_error_None in E; rewrite codes_len in E by assumption; lia].
    cbn [option_map]. apply block_nth; auto. apply nth_error_In in E. apply in_app_iff in E. destruct E as [E|E]; [apply repeat_spec in E; lia|auto].
  Qed.
  Lemma nth_ext' : forall X (a b : list X), length a = length b -> (forall i, i < length a -> nth_error a i = nth_error b i) -> a = b.
  Proof.
    induction a as [|x a IH]; intros [|y b] L H; try discriminate; auto. pose proof (H 0 ltac:(cbn; lia)) as E. cbn in E. injection E as ->. f_equal. apply IH; [now injection L|].
    intros i Hi. apply (H (S i)). cbn. lia.
  Qed.
  Lemma input_unique : forall s v v', isInput (A0 A) (A1 A) s v -> isInput (A0 A) (A1 A) s v' -> v = v'.
  Proof.
    intros s v v' (_ & L & H) (_ & L' & H'). apply nth_ext'; [congruence|]. intros i Hi. pose proof (Nat.div_mod_eq i 34) as D. pose proof (Nat.mod_upper_bound i 34 ltac:(lia)) as M.
    rewrite D, H, H'; auto; apply Nat.div_lt_upper_bound; lia.
  Qed.
  Theorem conv_iff : forall s v, conv_seq_to_nninput A s = Ok v <-> isInput (A0 A) (A1 A) s v.
  Proof.
    intros s v. split.
    - intros H. destruct (conv_seq_to_nninput A s) as [u|] eqn:E; [|discriminate]. injection H as ->. assert (Ft : fits s).
      { destruct (le_dec (length s) 12) as [L|L]; [|exfalso; assert (P : conv_seq_to_nninput A s = Panic) by (apply conv_panic; intros (X & _); lia); congruence].
        split; auto. intros c Hc. destruct (lt_dec c 34); auto. exfalso. assert (P : conv_seq_to_nninput A s = Panic) by (apply conv_panic; intros (_ & X); now apply X in Hc). congruence. }
      rewrite conv_ok in E by assumption. injection E as <-. now apply conv_input.
    - intros H. rewrite conv_ok by apply H. f_equal. eapply input_unique; [|exact H]. apply conv_input, H.
  Qed.

  (** ** forward *)
  Lemma dot_fold_total : forall (a b : list (F * F)) is acc, (forall i, In i is -> i < length a /\ i < length b) ->
    exists r, rfold (fun acc i => do x <- idx a i; do y <- idx b i; Ok (p_add A acc (p_mul A x y))) is acc = Ok r.
  Proof.
    induction is as [|i is IH]; intros acc H; [now exists acc|]. cbn [rfold]. destruct (H i (or_introl eq_refl)) as (Ha & Hb).
    unfold idx at 1. destruct (nth_error a i) as [x|] eqn:Ea; [|apply nth_error_None in Ea; lia]. cbn [unwrap rbind]. unfold idx at 1. destruct (nth_error b i) as [y|] eqn:Eb; [|apply nth_error_None in Eb; lia].
    cbn [unwrap rbind]. apply IH. intros j Hj. apply H. now right.
  Qed.
  Lemma dot_panic : forall a b, p_dot A a b = Panic <-> length a <> length b.
  Proof.
    intros a b. unfold p_dot. destruct (Nat.eqb_spec (length a) (length b)) as [E|E]; [|tauto]. split; [|contradiction]. intros H.
    destruct (dot_fold_total a b (seq 0 (length b)) (A0 A, A0 A)) as (r & Hr); [intros i Hi; apply in_seq in Hi; lia|]. congruence.
  Qed.
  Lemma fire_panic : forall v n, fire A v n = Panic <-> length v <> length (w_weights n).
  Proof.
    intros v n. unfold fire. rewrite <- dot_panic. destruct (p_dot A v (w_weights n)); cbn [rbind]; split; auto; discriminate.
  Qed.
  Lemma rmapM_len : forall X Y (f : X -> res Y) l r, rmapM f l = Ok r -> length r = length l.
  Proof. intros X Y f l r H. apply rmapM_spec in H. induction H; cbn; auto. Qed.
  Theorem forward_panic : forall nn v, forward A nn v = Panic <->
    length nn < 2 \/ (exists l0 l1 rest, nn = l0 :: l1 :: rest /\
      ((exists n, In n l0 /\ length (w_weights n) <> length v) \/ (exists n, In n l1 /\ length (w_weights n) <> length l0))).
  Proof.
    intros nn v. unfold forward. destruct nn as [|l0 [|l1 rest]]; cbn [idx nth_error unwrap rbind].
    - split; [left; cbn; lia|reflexivity].
    - split; [left; cbn; lia|]. intros _. now destruct (rmapM _ _).
    - destruct (rmapM (fire A v) l0) as [o0|] eqn:E; cbn [rbind].
      + pose proof (rmapM_len _ _ _ _ _ E) as Lo. rewrite rmapM_panic. split.
        * intros (n & Hn & P). apply fire_panic in P. right. exists l0, l1, rest. split; auto. right. exists n. split; auto. lia.
        * intros [P|(a & b & r & Q & [(n & Hn & P)|(n & Hn & P)])]; [cbn in P; lia| |].
          { exfalso. injection Q as <- <- <-. assert (X : rmapM (fire A v) l0 = Panic) by (apply rmapM_panic; exists n; split; auto; apply fire_panic; lia). congruence. }
          { injection Q as <- <- <-. exists n. split; auto. apply fire_panic. lia. }
      + split; [|reflexivity]. intros _. apply rmapM_panic in E. destruct E as (n & Hn & P). apply fire_panic in P. right. exists l0, l1, rest. split; auto. left. exists n. split; auto.
  Qed.
  Theorem forward_shaped : forall n0 n1 nn v, shaped n0 n1 nn -> length v = 12 * 34 -> exists out, forward A nn v = Ok out /\ length out = n1.
  Proof.
    intros n0 n1 nn v (l0 & l1 & -> & L0 & L1 & W0 & W1) Lv. destruct (forward A [l0; l1] v) as [out|] eqn:E.
    - exists out. split; auto. unfold forward in E. cbn [idx nth_error unwrap rbind] in E. destruct (rmapM (fire A v) l0); [|discriminate]. cbn [rbind] in E. apply rmapM_len in E. congruence.
    - exfalso. apply forward_panic in E. destruct E as [E|(a & b & r & Q & [(n & Hn & P)|(n & Hn & P)])]; [cbn in E; lia| |]; injection Q as <- <- <-; [rewrite W0 in P|rewrite W1 in P]; auto; lia.
  Qed.
End Input.

(** ** winner *)
Lemma lt_f01 : fltb f0 f1 = true. Proof. reflexivity. Qed.
Lemma clamp_pos : forall x, fltb f0 (fclamp f0 f1 x) = true <-> fltb f0 x = true.
Proof.
  intros x. unfold fclamp. destruct (fltb x f0) eqn:E.
  - rewrite fltb_irrefl. split; [discriminate|]. intros H. exfalso. pose proof (fltb_leb _ _ H) as L. pose proof (fleb_ltb_trans _ _ _ L E) as X. rewrite fltb_irrefl in X. discriminate.
  - rewrite fgtb_flip. destruct (fltb f1 x) eqn:G; [|reflexivity]. split; [|reflexivity]. intros _. apply fltb_leb_trans with f1; [apply lt_f01|now apply fltb_leb].
Qed.
Lemma not_lt_le : forall x y, fis_nan x = false -> fis_nan y = false -> fltb x y = false -> fleb y x = true.
Proof. intros x y Hx Hy H. rewrite fleb_not_lt by assumption. now rewrite H. Qed.
Lemma not_le_lt : forall x y, fis_nan x = false -> fis_nan y = false -> fleb x y <> true -> fltb y x = true.
Proof. intros x y Hx Hy H. rewrite fleb_not_lt in H by assumption. destruct (fltb y x); auto. Qed.
(** comparison of two clamped numbers, the first of them positive *)
Lemma clamp_le : forall x y, fltb f0 x = true -> fleb x y = true \/ fleb f1 y = true -> fleb (fclamp f0 f1 x) (fclamp f0 f1 y) = true.
Proof.
  intros x y P H. assert (Nx : fis_nan x = false) by (apply fltb_nan_l in P; tauto). assert (Ny : fis_nan y = false) by (destruct H as [H|H]; apply fleb_nan_l in H; tauto).
  assert (X0 : fltb x f0 = false). { destruct (fltb x f0) eqn:E; auto. pose proof (fleb_ltb_trans _ _ _ (fltb_leb _ _ P) E) as Q. now rewrite fltb_irrefl in Q. }
  assert (Py : fltb f0 y = true). { destruct H as [H|H]; [exact (fltb_leb_trans _ _ _ P H)|exact (fltb_leb_trans _ _ _ lt_f01 H)]. }
  assert (Y0 : fltb y f0 = false). { destruct (fltb y f0) eqn:E; auto. pose proof (fleb_ltb_trans _ _ _ (fltb_leb _ _ Py) E) as Q. now rewrite fltb_irrefl in Q. }
  unfold fclamp. rewrite X0, Y0, !fgtb_flip. destruct (fltb f1 x) eqn:X1, (fltb f1 y) eqn:Y1.
  - reflexivity.
  - destruct H as [H|H]; auto. exact (fleb_trans _ _ _ (fltb_leb _ _ X1) H).
  - apply not_lt_le; auto.
  - destruct H as [H|H]; auto. apply fleb_trans with f1; auto. apply not_lt_le; auto.
Qed.
Lemma clamp_lt : forall x y, fltb f0 x = true -> fltb x y = true -> fltb x f1 = true -> fltb (fclamp f0 f1 x) (fclamp f0 f1 y) = true.
Proof.
  intros x y P H L.
  assert (X0 : fltb x f0 = false). { destruct (fltb x f0) eqn:E; auto. pose proof (fleb_ltb_trans _ _ _ (fltb_leb _ _ P) E) as Q. now rewrite fltb_irrefl in Q. }
  assert (Py : fltb f0 y = true) by exact (fltb_leb_trans _ _ _ P (fltb_leb _ _ H)).
  assert (Y0 : fltb y f0 = false). { destruct (fltb y f0) eqn:E; auto. pose proof (fleb_ltb_trans _ _ _ (fltb_leb _ _ Py) E) as Q. now rewrite fltb_irrefl in Q. }
  assert (X1 : fltb f1 x = false). { destruct (fltb f1 x) eqn:E; auto. pose proof (fleb_ltb_trans _ _ _ (fltb_leb _ _ L) E) as Q. now rewrite fltb_irrefl in Q. }
  unfold fclamp. rewrite X0, Y0, !fgtb_flip, X1. destruct (fltb f1 y); auto.
Qed.
Definition maxStep (st : nat * f64) (p : nat * (f64 * f64)) : nat * f64 :=
  let x := fclamp f0 f1 (fst (snd p)) in if fgtb x (snd st) then (fst p, x) else st.
Definition maxInv (done : list (f64 * f64)) (st : nat * f64) : Prop :=
  (st = (0, f0) /\ forall x, In x done -> fltb f0 (fclamp f0 f1 (fst x)) = false) \/
  (exists x, nth_error done (fst st) = Some x /\ snd st = fclamp f0 f1 (fst x) /\ fltb f0 (snd st) = true /\
     (forall i y, i < fst st -> nth_error done i = Some y -> fleb (snd st) (fclamp f0 f1 (fst y)) <> true) /\
     (forall y, In y done -> fltb (snd st) (fclamp f0 f1 (fst y)) = false)).
Lemma max_fold : forall v done st, maxInv done st -> maxInv (done ++ v) (fold_left maxStep (combine (seq (length done) (length v)) v) st).
Proof.
  induction v as [|x v IH]; intros done st H; [now rewrite app_nil_r|]. cbn [length seq combine fold_left].
  replace (done ++ x :: v) with ((done ++ [x]) ++ v) by now rewrite <- app_assoc.
  replace (S (length done)) with (length (done ++ [x])) by (rewrite app_length; cbn; lia). apply IH. unfold maxStep. cbn [fst snd]. rewrite fgtb_flip.
  assert (Lt : forall i y, i < length done -> nth_error (done ++ [x]) i = Some y -> In y done).
  { intros i y L E. rewrite nth_error_app1 in E by assumption. eapply nth_error_In, E. }
  destruct (fltb (snd st) (fclamp f0 f1 (fst x))) eqn:G.
  - right. cbn [fst snd]. exists x. rewrite nth_error_app2, Nat.sub_diag by lia. split; auto. split; auto.
    assert (P : fltb f0 (fclamp f0 f1 (fst x)) = true /\ forall y, In y done -> fltb (snd st) (fclamp f0 f1 (fst y)) = false).
    { destruct H as [(-> & N)|(z & _ & _ & P & _ & N)]; [now split|]. split; auto. exact (fltb_leb_trans _ _ _ P (fltb_leb _ _ G)). }
    destruct P as (P & N). split; auto. split.
    + intros i y L E Q. pose proof (Lt i y L E) as Hy. specialize (N y Hy). pose proof (fltb_leb_trans _ _ _ G Q). congruence.
    + intros y Hy. apply in_app_iff in Hy. destruct Hy as [Hy|[<-|[]]]; [|apply fltb_irrefl]. destruct (fltb (fclamp f0 f1 (fst x)) (fclamp f0 f1 (fst y))) eqn:Q; auto.
      specialize (N y Hy). pose proof (fltb_leb_trans _ _ _ G (fltb_leb _ _ Q)). congruence.
  - destruct H as [(-> & N)|(z & E & Ev & P & B & N)].
    + left. split; auto. intros y Hy. apply in_app_iff in Hy. destruct Hy as [Hy|[<-|[]]]; auto.
    + right. exists z. assert (Lz : fst st < length done) by (apply nth_error_Some; congruence). split; [now rewrite nth_error_app1|]. split; auto. split; auto. split.
      * intros i y L Ei. rewrite nth_error_app1 in Ei by lia. eapply B; eauto.
      * intros y Hy. apply in_app_iff in Hy. destruct Hy as [Hy|[<-|[]]]; auto.
Qed.
Lemma calc_max_inv : forall v, exists x, maxInv v (calc_max_onehot_idx v, x).
Proof.
  intros v. unfold calc_max_onehot_idx. pose proof (max_fold v [] (0, f0)) as H. cbn [length app] in H.
  change (fun (st : nat * f64) (p : nat * (f64 * f64)) => _) with maxStep.
  destruct (fold_left maxStep _ _) as (i, x). exists x. apply H. left. split; auto. intros y [].
Qed.
Theorem calc_wins : forall v, wins (map fst v) (calc_max_onehot_idx v).
Proof.
  intros v. destruct (calc_max_inv v) as (m & [(E & N)|(x & E & Ev & P & B & N)]).
  - left. injection E as -> _. split; auto. intros y Hy. apply in_map_iff in Hy. destruct Hy as (p & <- & Hp). unfold lt64. rewrite <- clamp_pos, N by assumption. discriminate.
  - right. cbn [fst snd] in *. exists (fst x). split; [rewrite nth_error_map, E; reflexivity|]. rewrite Ev in P. assert (Px : fltb f0 (fst x) = true) by now apply clamp_pos. split; [exact Px|]. subst m. split.
    + intros i y L Ei. rewrite nth_error_map in Ei. destruct (nth_error v i) as [p|] eqn:Ep; [|discriminate]. injection Ei as <-. specialize (B i p L Ep).
      split; intros Q; apply B; apply clamp_le; auto.
    + intros y Hy (A & C). apply in_map_iff in Hy. destruct Hy as (p & <- & Hp). specialize (N p Hp). unfold lt64 in *. rewrite clamp_lt in N by assumption. discriminate.
Qed.
Theorem wins_unique : forall v a b, wins v a -> wins v b -> a = b.
Proof.
  assert (G : forall v a b x y, nth_error v a = Some x -> nth_error v b = Some y -> lt64 f0 x -> lt64 f0 y ->
    (forall i y0, i < b -> nth_error v i = Some y0 -> ~ le64 y y0 /\ ~ le64 f1 y0) -> (forall y0, In y0 v -> ~ (lt64 x y0 /\ lt64 x f1)) -> a < b -> False).
  { intros v a b x y Ea Eb Px Py B N L. destruct (B a x L Ea) as (B1 & B2). apply (N y); [eapply nth_error_In, Eb|]. unfold lt64, le64 in *.
    assert (fis_nan x = false) by (apply fltb_nan_l in Px; tauto). assert (fis_nan y = false) by (apply fltb_nan_l in Py; tauto). split; apply not_le_lt; auto. }
  intros v a b [(Na & ->)|(x & Ea & Px & Ba & Na)] [(Nb & ->)|(y & Eb & Py & Bb & Nb)]; auto.
  - exfalso. apply (Na y); auto. eapply nth_error_In, Eb.
  - exfalso. apply (Nb x); auto. eapply nth_error_In, Ea.
  - destruct (Nat.lt_trichotomy a b) as [L|[L|L]]; auto; exfalso; [eapply (G v a b)|eapply (G v b a)]; eauto.
Qed.
Theorem calc_iff : forall v w, calc_max_onehot_idx v = w <-> wins (map fst v) w.
Proof. intros v w. split; [intros <-; apply calc_wins|]. intros H. eapply wins_unique; [apply calc_wins|exact H]. Qed.
Lemma wins_lt : forall v w, wins v w -> w = 0 \/ w < length v.
Proof. intros v w [(_ & ->)|(x & E & _)]; [now left|right]. apply nth_error_Some. congruence. Qed.

(** ** words *)
Lemma text_eqb_eq : forall a b, text_eqb a b = true <-> a = b.
Proof. intros. unfold text_eqb. destruct (list_eq_dec ascii_dec a b); split; auto; discriminate. Qed.
Lemma lookup_in : forall B w (l : list (text * B)) b, lookup w l = Some b -> In (w, b) l.
Proof.
  induction l as [|(k, c) l IH]; intros b H; [discriminate|]. cbn [lookup] in H. destruct (text_eqb w k) eqn:E; [apply text_eqb_eq in E; subst; injection H as ->; now left|]. right. auto.
Qed.
Definition wordSign (w : text) : res nat := do p <- unwrap (lookup w wordPos); unwrap (lookup p posCodes).
Lemma wordSign_iff : forall w c, wordSign w = Ok c <-> exists s k, w = tx s /\ isKind s k /\ c = kindSign k.
Proof.
  intros w c. split.
  - unfold wordSign. intros H. destruct (lookup w wordPos) as [p|] eqn:E; [|discriminate]. cbn [unwrap rbind] in H. apply lookup_in in E.
    cbn [wordPos In] in E. 
    repeat (destruct E as [E|E]; [injection E as <- <-; vm_compute in H; injection H as <-;
      match goal with |- exists s k, ?t = _ /\ _ => exists (string_of_list_ascii t) end; eexists; split; [reflexivity|]; split; [cbn; first [constructor; cbn; tauto|constructor]|reflexivity]|]). destruct E.
  - intros (s & k & -> & K & ->). destruct K as [x H|x H|x H| | | | | | | | | | |]; try reflexivity; cbn in H; repeat (destruct H as [<-|H]; [reflexivity|]); destruct H.
Qed.
Lemma wordSign_panic : forall w, wordSign w = Panic <-> ~ known w.
Proof.
  intros w. split.
  - intros H (s & k & E & K). assert (X : wordSign w = Ok (kindSign k)) by (apply wordSign_iff; eauto). congruence.
  - intros H. destruct (wordSign w) as [c|] eqn:E; auto. exfalso. apply H. apply wordSign_iff in E. destruct E as (s & k & E & K & _). now exists s, k.
Qed.
Lemma signs_eq : forall w, (do pos <- conv_tokens_to_poss w; prot_pos0 pos) = do cs <- rmapM wordSign w; Ok (cs ++ [7]).
Proof.
  intros w. unfold prot_pos0, conv_tokens_to_poss. 
  assert (G : forall w, (do pos <- rmapM (fun x => unwrap (lookup x wordPos)) w; rmapM (fun c => unwrap (lookup c posCodes)) pos) = rmapM wordSign w).
  { clear w. induction w as [|x w IH]; [reflexivity|]. cbn [rmapM]. rewrite <- IH. unfold wordSign at 1. 
    destruct (unwrap (lookup x wordPos)) as [p|] eqn:E; [|reflexivity]. cbn [rbind].
    destruct (unwrap (lookup p posCodes)) as [c|] eqn:Ec; cbn [rbind].
    - destruct (rmapM (fun x => unwrap (lookup x wordPos)) w) as [ps|]; [|reflexivity]. cbn [rbind rmapM]. rewrite Ec. reflexivity.
    - exfalso. destruct (lookup x wordPos) as [q|] eqn:L; [|discriminate]. cbn in E. injection E as ->. apply lookup_in in L. cbn [wordPos In] in L.
      repeat (destruct L as [L|L]; [injection L as _ <-; vm_compute in Ec; discriminate|]). destruct L. }
  rewrite <- (G w). now destruct (rmapM (fun x => unwrap (lookup x wordPos)) w).
Qed.
Theorem signs_iff : forall w base, (do pos <- conv_tokens_to_poss w; prot_pos0 pos) = Ok base <-> signsOf w base.
Proof.
  intros w base. rewrite signs_eq. unfold signsOf. split.
  - destruct (rmapM wordSign w) as [cs|] eqn:E; [|discriminate]. cbn [rbind]. intros H. injection H as <-. exists cs. split; auto. apply rmapM_spec in E.
    induction E; constructor; auto. now apply wordSign_iff.
  - intros (cs & -> & H). assert (E : rmapM wordSign w = Ok cs). { apply rmapM_spec. induction H; constructor; auto. now apply wordSign_iff. } now rewrite E.
Qed.
Theorem signs_panic : forall w, (do pos <- conv_tokens_to_poss w; prot_pos0 pos) = Panic <-> exists x, In x w /\ ~ known x.
Proof.
  intros w. rewrite signs_eq. destruct (rmapM wordSign w) as [cs|] eqn:E; cbn [rbind].
  - split; [discriminate|]. intros (x & Hx & N). exfalso. apply wordSign_panic in N. assert (P : rmapM wordSign w = Panic) by (apply rmapM_panic; eauto). congruence.
  - split; auto. intros _. apply rmapM_panic in E. destruct E as (x & Hx & P). exists x. split; auto. now apply wordSign_panic.
Qed.
