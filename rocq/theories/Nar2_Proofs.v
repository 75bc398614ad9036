(** Proofs for Nar_Model: lines of input. *)
From Coq Require Import String Ascii ZArith Bool Lia List.
From Verif Require Import Base F64_Model Term_Model Stamp_Model Tv_Model Sentence_Model Mem_Model Cycle_Model PMem_Model Goal_Model Proc_Model Term_Spec Cycle_Spec Mem_Proofs Cycle_Proofs Task_Proofs Select_Proofs Run_Proofs Term_Proofs
  Parser_Model Parser_Spec Parser3_Proofs Nar_Model Nar_Spec Nar_Proofs.
Import ListNotations.
Local Open Scope list_scope.
Local Open Scope nat_scope.

(** * Bytes and prefixes *)
Lemma isCont_iff : forall c, isCont c = true <-> contByte c.
Proof. intros c. unfold isCont, inRange, contByte. rewrite andb_true_iff, !Nat.leb_le. tauto. Qed.
Lemma text_eqb_iff : forall a b, text_eqb a b = true <-> a = b.
Proof. intros a b. unfold text_eqb. destruct (list_eq_dec ascii_dec a b); split; auto; discriminate. Qed.
Lemma utf8_head : forall i c r, utf8 i -> i = c :: r -> ~ contByte c.
Proof.
  intros i c r H. destruct H as [|c' i' L H|c' cs i' L K F H]; intros E; [discriminate| |]; injection E as -> _; unfold contByte; lia.
Qed.
Lemma utf8_tail : forall c i, utf8 (c :: i) -> nat_of_ascii c < 128 -> utf8 i.
Proof.
  intros c i H L. remember (c :: i) as j eqn:E. destruct H as [|c' i' L' H|c' cs i' L' K F H]; [discriminate| |]; injection E as -> E; [congruence|lia].
Qed.
Lemma utf8_rest : forall w r, utf8 (w ++ r) -> asciiText w -> utf8 r.
Proof. induction w as [|c w IH]; intros r H A; auto. inversion A; subst. apply IH; auto. eapply utf8_tail; eauto. Qed.
Lemma utf8_whole : forall w r, utf8 (w ++ r) -> asciiText w -> ~ splits (w ++ r) (length w).
Proof.
  intros w r H A (c & E & C). rewrite nth_error_app2, Nat.sub_diag in E by lia. apply utf8_rest in H; auto. destruct r as [|d r]; [discriminate|].
  injection E as ->. eapply utf8_head; eauto.
Qed.
Lemma bw_starts : forall w i, ~ splits i (length w) -> starts w i -> beginsWith w i = Ok true.
Proof.
  intros w i N (r & ->). unfold beginsWith. replace (Nat.leb (length w) (length (w ++ r))) with true by (symmetry; apply Nat.leb_le; rewrite app_length; lia).
  assert (P : prefix (length w) (w ++ r) = Ok w).
  { unfold prefix. destruct (nth_error (w ++ r) (length w)) as [c|] eqn:E.
    - destruct (isCont c) eqn:C; [destruct N; exists c; split; auto; now apply isCont_iff|]. now rewrite firstn_app, firstn_all, Nat.sub_diag, firstn_O, app_nil_r.
    - apply nth_error_None in E. rewrite app_length in *. destruct r; [|simpl in *; lia]. rewrite app_nil_r. cbn [length]. now rewrite Nat.add_0_r, Nat.eqb_refl. }
  rewrite P. cbn [rbind]. f_equal. now apply text_eqb_iff.
Qed.
Lemma bw_not : forall w i, ~ splits i (length w) -> ~ starts w i -> beginsWith w i = Ok false.
Proof.
  intros w i N S. unfold beginsWith. destruct (Nat.leb_spec (length w) (length i)) as [L|L]; auto. unfold prefix.
  assert (Q : text_eqb (firstn (length w) i) w = false).
  { destruct (text_eqb _ w) eqn:E; auto. apply text_eqb_iff in E. destruct S. exists (skipn (length w) i). rewrite <- E at 1. now rewrite firstn_skipn. }
  destruct (nth_error i (length w)) as [c|] eqn:E.
  - destruct (isCont c) eqn:C; [destruct N; exists c; split; auto; now apply isCont_iff|]. cbn [rbind]. now rewrite Q.
  - apply nth_error_None in E. replace (Nat.eqb (length i) (length w)) with true by (symmetry; apply Nat.eqb_eq; lia). cbn [rbind].
    rewrite firstn_all2 in Q by lia. now rewrite Q.
Qed.
Lemma bw_splits : forall w i, splits i (length w) -> beginsWith w i = Panic.
Proof.
  intros w i (c & E & C). unfold beginsWith. assert (length w < length i) by (apply nth_error_Some; congruence).
  replace (Nat.leb (length w) (length i)) with true by (symmetry; apply Nat.leb_le; lia). unfold prefix. rewrite E. apply isCont_iff in C. now rewrite C.
Qed.
Lemma bw_true : forall w i, beginsWith w i = Ok true -> starts w i.
Proof.
  intros w i H. unfold beginsWith in H. destruct (Nat.leb _ _); [|discriminate]. unfold prefix in H. destruct (nth_error i (length w)) as [c|] eqn:E.
  - destruct (isCont c); [discriminate|]. cbn [rbind] in H. injection H as H. apply text_eqb_iff in H. exists (skipn (length w) i). rewrite <- H at 1. now rewrite firstn_skipn.
  - destruct (Nat.eqb _ _); [|discriminate]. cbn [rbind] in H. injection H as H. apply text_eqb_iff in H. exists []. now rewrite app_nil_r.
Qed.

(** * Line ends *)
Lemma bw_false : forall w i, beginsWith w i = Ok false -> ~ starts w i.
Proof.
  intros w i H S. rewrite bw_starts in H; [discriminate| |exact S]. intros K. rewrite bw_splits in H; [discriminate|exact K].
Qed.
Lemma nl_iff : forall c, (Ascii.eqb c "010" || Ascii.eqb c "013")%char = true <-> newline c.
Proof. intros c. unfold newline. rewrite orb_true_iff, !Ascii.eqb_eq. tauto. Qed.
Lemma dropNl_spec : forall i, exists e, i = e ++ dropNl i /\ Forall newline e /\ forall c r, dropNl i = c :: r -> ~ newline c.
Proof.
  induction i as [|c i (e & E & F & G)]; [exists []; split; auto; split; [constructor|intros; discriminate]|]. cbn [dropNl].
  destruct (Ascii.eqb c "010" || Ascii.eqb c "013")%char eqn:N.
  - exists (c :: e). split; [cbn; now rewrite <- E|]. split; auto. constructor; auto. now apply nl_iff.
  - exists []. split; auto. split; [constructor|]. intros d r Q. injection Q as <- _. intros K. apply nl_iff in K. congruence.
Qed.
Theorem trim_spec : forall line, trimmed line (trimNewline line).
Proof.
  intros line. destruct (dropNl_spec (List.rev line)) as (e & E & F & G). exists (List.rev e). unfold trimNewline. split; [|split].
  - rewrite <- rev_app_distr, <- E. now rewrite rev_involutive.
  - apply Forall_rev. exact F.
  - intros i' c Q. apply (f_equal (@List.rev _)) in Q. rewrite rev_involutive, rev_app_distr in Q. cbn in Q. eapply G; eauto.
Qed.
Lemma trimmed_fun : forall line a b, trimmed line a -> trimmed line b -> a = b.
Proof.
  assert (K : forall (x y e f : text), x ++ e = y ++ f -> Forall newline e -> Forall newline f -> length x <= length y ->
     (forall i c, y = i ++ [c] -> ~ newline c) -> x = y).
  { intros x y e f E Fe Ff L Ny. assert (X : exists z, y = x ++ z).
    { exists (skipn (length x) y). assert (firstn (length x) (x ++ e) = firstn (length x) (y ++ f)) by congruence.
      rewrite firstn_app, firstn_all, Nat.sub_diag, firstn_O, app_nil_r in H. rewrite firstn_app in H. replace (length x - length y) with 0 in H by lia.
      rewrite firstn_O, app_nil_r in H. rewrite H at 1. now rewrite firstn_skipn. }
    destruct X as [z ->]. destruct z as [|c z _] using rev_ind; [now rewrite app_nil_r|]. exfalso.
    rewrite <- app_assoc in E. apply app_inv_head in E. assert (newline c).
    { rewrite Forall_forall in Fe. apply Fe. rewrite E. apply in_or_app. left. apply in_or_app. right. now left. }
    apply (Ny (x ++ z) c); auto. now rewrite app_assoc. }
  intros line a b (e & E & Fe & Na) (f & F & Ff & Nb). rewrite E in F. destruct (Nat.le_ge_cases (length a) (length b)).
  - eapply K; eauto.
  - symmetry. eapply K; [symmetry|..]; eauto.
Qed.
Lemma trim_eq : forall line i, trimmed line i -> trimNewline line = i.
Proof. intros line i H. eapply trimmed_fun; [apply trim_spec|exact H]. Qed.
Lemma trim_id : forall i, (forall i' c, i = i' ++ [c] -> ~ newline c) -> trimNewline i = i.
Proof. intros i H. apply trim_eq. exists []. rewrite app_nil_r. auto. Qed.
Lemma trim_idem : forall line, trimNewline (trimNewline line) = trimNewline line.
Proof. intros line. apply trim_id. destruct (trim_spec line) as (e & _ & _ & H). exact H. Qed.

(** * Numbers *)
Lemma digit_iff : forall c z, digit c = Some z <-> exists d, d < 10 /\ c = ascii_of_nat (48 + d) /\ z = Z.of_nat d.
Proof.
  intros c z. unfold digit, inRange. split.
  - destruct (Nat.leb_spec 48 (nat_of_ascii c)); [|discriminate]. destruct (Nat.leb_spec (nat_of_ascii c) 57); [|discriminate]. cbn [andb]. intros Q.
    exists (nat_of_ascii c - 48). split; [lia|]. split; [|injection Q as <-; lia]. replace (48 + (nat_of_ascii c - 48)) with (nat_of_ascii c) by lia. now rewrite ascii_nat_embedding.
  - intros (d & L & -> & ->). rewrite nat_ascii_embedding by lia. destruct (Nat.leb_spec 48 (48 + d)); [|lia]. destruct (Nat.leb_spec (48 + d) 57); [|lia]. cbn [andb]. f_equal. lia.
Qed.
Lemma digits_iff : forall i acc z, digits acc i = Some z <->
  exists ds, Forall (fun d => d < 10) ds /\ i = map (fun d => ascii_of_nat (48 + d)) ds /\ z = decimal acc ds.
Proof.
  induction i as [|c i IH]; intros acc z; cbn [digits].
  - split.
    + intros Q. injection Q as <-. exists []. repeat split. constructor.
    + intros (ds & _ & E & ->). destruct ds; [reflexivity|discriminate].
  - split.
    + destruct (digit c) as [x|] eqn:D; [|discriminate]. intros Q. apply IH in Q. destruct Q as (ds & F & -> & ->). apply digit_iff in D. destruct D as (d & L & -> & ->).
      exists (d :: ds). split; [now constructor|]. split; reflexivity.
    + intros (ds & F & E & ->). destruct ds as [|d ds]; [discriminate|]. inversion F; subst. injection E as -> E. 
      assert (D : digit (ascii_of_nat (48 + d)) = Some (Z.of_nat d)) by (apply digit_iff; eauto). cbn [Nat.add] in D. rewrite D. apply IH. exists ds. auto.
Qed.
Lemma digit_sign : forall ds r, Forall (fun d => d < 10) ds -> map (fun d => ascii_of_nat (48 + d)) ds = "+"%char :: r \/ map (fun d => ascii_of_nat (48 + d)) ds = "-"%char :: r -> False.
Proof.
  intros ds r F E. destruct ds as [|d ds]; [destruct E; discriminate|]. inversion F; subst.
  assert (N : nat_of_ascii (ascii_of_nat (48 + d)) = 48 + d) by (apply nat_ascii_embedding; lia).
  destruct E as [E|E]; injection E as E _; cbn [Nat.add] in N; rewrite E in N; cbn in N; lia.
Qed.
Theorem parseI64_iff : forall i z, parseI64 i = Some z <-> numeral i z /\ (- 2 ^ 63 <= z < 2 ^ 63)%Z.
Proof.
  intros i z. unfold parseI64.
  assert (Core : forall (sign : Z) j, (match j with [] => None | _ => match digits 0 j with
         | Some z => let z := (sign * z)%Z in if ((-(2^63) <=? z) && (z <? 2^63))%Z then Some z else None | None => None end end) = Some z <->
      exists ds, ds <> [] /\ Forall (fun d => d < 10) ds /\ j = map (fun d => ascii_of_nat (48 + d)) ds /\ z = (sign * decimal 0 ds)%Z /\ (- 2 ^ 63 <= z < 2 ^ 63)%Z).
  { intros sign j. split.
    - intros Q. destruct j as [|c j']; [discriminate|]. destruct (digits 0 (c :: j')) as [y|] eqn:D; [|discriminate]. apply digits_iff in D. destruct D as (ds & F & E & ->). cbv zeta in Q.
      destruct (_ && _) eqn:B; [|discriminate]. apply andb_true_iff in B. destruct B as [B1 B2]. apply Z.leb_le in B1. apply Z.ltb_lt in B2. injection Q as <-.
      exists ds. split; [intros ->; discriminate|]. auto.
    - intros (ds & N & F & E & -> & B). destruct j as [|c j']; [destruct ds; [contradiction|discriminate]|].
      replace (digits 0 (c :: j')) with (Some (decimal 0 ds)) by (symmetry; apply digits_iff; eauto). cbv zeta.
      destruct (Z.leb_spec (-2^63) (sign * decimal 0 ds)); [|lia]. destruct (Z.ltb_spec (sign * decimal 0 ds) (2^63)); [reflexivity|lia]. }
  unfold numeral. split.
  - intros Q. destruct i as [|c i].
    + discriminate.
    + destruct (Ascii.eqb_spec c "-"%char) as [->|N1]; [apply (Core (-1)%Z i) in Q|destruct (Ascii.eqb_spec c "+"%char) as [->|N2]; [apply (Core 1%Z i) in Q|apply (Core 1%Z (c :: i)) in Q]]; destruct Q as (ds & N & F & E & V & B); split; auto.
      * exists ["-"%char], ds. split; [auto|]. split; [auto|]. split; [right; right; split; [reflexivity|lia]|now rewrite E].
      * exists ["+"%char], ds. split; [auto|]. split; [auto|]. split; [right; left; split; [reflexivity|lia]|now rewrite E].
      * exists [], ds. split; [auto|]. split; [auto|]. split; [left; split; [reflexivity|lia]|auto].
  - intros ((sg & ds & N & F & K & ->) & B). destruct K as [[-> V]|[[-> V]|[-> V]]]; cbn [app].
    + destruct (map (fun d => ascii_of_nat (48 + d)) ds) as [|c i] eqn:E; [destruct ds; [contradiction|discriminate]|].
      destruct (Ascii.eqb_spec c "-"%char) as [->|N1]; [exfalso; eapply digit_sign; eauto|]. destruct (Ascii.eqb_spec c "+"%char) as [->|N2]; [exfalso; eapply digit_sign; eauto|].
      apply (Core 1%Z (c :: i)). exists ds. repeat split; auto; lia.
    + apply (Core 1%Z). exists ds. repeat split; auto; lia.
    + apply (Core (-1)%Z). exists ds. repeat split; auto; lia.
Qed.

(** * The facade *)
Section Facade.
Variables (pf : text -> option f64).
Lemma facade_eq : forall n line r, facade pf n line r =
  (let i := trimNewline line in
  do b <- beginsWith (tx "//") i;
  if b then Ok (n, false, INone) else
  do b <- beginsWith (tx "!sp") i;
  if b then do n1 <- procStep0 n (ln_smp r); do n2 <- procStep1 n1 (ln_step r); Ok (n2, false, INone) else
  if text_eqb i (tx "!spA") then do n1 <- procStep0 n (ln_smp r); Ok (n1, false, INone) else
  if text_eqb i (tx "!spB") then do n1 <- procStep1 n (ln_step r); Ok (n1, false, INone) else
  do b <- beginsWith (tx "!s") i;
  if b then
    do k <- (if Nat.ltb 2 (length i) then unwrap (parseI64 (skipn 2 i)) else Ok 1%Z);
    do n' <- cycles (Z.to_nat k) r n; Ok (n', false, INone)
  else
  if text_eqb i (tx "!dtf") then Ok (withDecl n (flushTasks (nr_decl n)), false, INone) else
  do b <- beginsWith (tx "!por ") i;
  if b then
    Ok (match registered (words (skipn 5 i)) with
        | Some o => withProc n (setOps (nr_proc n) (n_ops (nr_proc n) ++ [o]))
        | None => n
        end, false, INone)
  else
  if text_eqb i (tx "!pse") then do _ <- debugEvidence (n_mem (nr_proc n)); Ok (n, false, INone) else
  if text_eqb i (tx "!peb 0") then Ok (withProc n (setBabble (nr_proc n) false), false, INone) else
  if text_eqb i (tx "!peb 1") then Ok (withProc n (setBabble (nr_proc n) true), false, INone) else
  do b <- (if Nat.ltb 6 (length i) then beginsWith (tx "!.nlp ") i else Ok false);
  if b then do n' <- nlpProcess pf n (skipn 6 i) r; Ok (n', false, INone) else
  if text_eqb i (tx "!dt") then do k <- debugTasks (nr_decl n); Ok (n, false, ITasks k) else
  if text_eqb i (tx "!dmd") then Ok (n, false, IConcepts (length (memory (nr_decl n)))) else
  if text_eqb i (tx "!QQ") then Ok (n, true, INone) else
  if text_eqb i [] then Ok (n, false, INone) else
  do x <- inputN pf n i (ln_draws r O); Ok (fst x, false, INone)).
Proof. reflexivity. Qed.

Theorem facade_did : forall n line r n' q x, facade pf n line r = Ok (n', q, x) -> did pf n (trimNewline line) r n' q x.
Proof.
  intros n line r n' q x. rewrite facade_eq. cbv zeta. set (i := trimNewline line). clearbody i.
  destruct (beginsWith (tx "//") i) as [b|] eqn:B1; [|discriminate]. cbn [rbind].
  destruct b; [intros Q; injection Q as <- <- <-; apply did_comment; now apply bw_true|].
  destruct (beginsWith (tx "!sp") i) as [b|] eqn:B2; [|discriminate]. cbn [rbind].
  destruct b.
  { destruct (procStep0 n (ln_smp r)) as [n1|] eqn:S0; [|discriminate]. cbn [rbind]. destruct (procStep1 n1 (ln_step r)) as [n2|] eqn:S1; [|discriminate]. cbn [rbind].
    intros Q. injection Q as <- <- <-. eapply did_steps; eauto. now apply bw_true. }
  destruct (text_eqb i (tx "!spA")) eqn:T1.
  { apply text_eqb_iff in T1. subst i. vm_compute in B2. discriminate. }
  destruct (text_eqb i (tx "!spB")) eqn:T2.
  { apply text_eqb_iff in T2. subst i. vm_compute in B2. discriminate. }
  destruct (beginsWith (tx "!s") i) as [b|] eqn:B3; [|discriminate]. cbn [rbind].
  destruct b.
  { apply bw_true in B3. destruct B3 as (w & ->). change (skipn 2 (tx "!s" ++ w)) with w. destruct w as [|c w].
    - cbn [length tx list_ascii_of_string app Nat.ltb Nat.leb rbind]. destruct (cycles _ r n) as [n2|] eqn:C; [|discriminate]. cbn [rbind]. intros Q. injection Q as <- <- <-.
      apply did_cycle; auto.
    - replace (Nat.ltb 2 (length (tx "!s" ++ c :: w))) with true by reflexivity. destruct (parseI64 (c :: w)) as [z|] eqn:P; [|discriminate]. cbn [unwrap rbind].
      destruct (cycles (Z.to_nat z) r n) as [n2|] eqn:C; [|discriminate]. cbn [rbind]. intros Q. injection Q as <- <- <-.
      apply parseI64_iff in P. destruct P. eapply did_cycles; eauto. }
  destruct (text_eqb i (tx "!dtf")) eqn:T3; [apply text_eqb_iff in T3; intros Q; injection Q as <- <- <-; now apply did_flush|].
  destruct (beginsWith (tx "!por ") i) as [b|] eqn:B4; [|discriminate]. cbn [rbind].
  destruct b.
  { apply bw_true in B4. destruct B4 as (w & ->). change (skipn 5 (tx "!por " ++ w)) with w. destruct (registered (words w)) as [o|] eqn:R; intros Q; injection Q as <- <- <-.
    - eapply did_reg; eauto.
    - eapply did_noreg; eauto. }
  destruct (text_eqb i (tx "!pse")) eqn:T4.
  { apply text_eqb_iff in T4. destruct (debugEvidence _); [|discriminate]. cbn [rbind]. intros Q; injection Q as <- <- <-. now apply did_show. }
  destruct (text_eqb i (tx "!peb 0")) eqn:T5; [apply text_eqb_iff in T5; intros Q; injection Q as <- <- <-; now apply did_babble0|].
  destruct (text_eqb i (tx "!peb 1")) eqn:T6; [apply text_eqb_iff in T6; intros Q; injection Q as <- <- <-; now apply did_babble1|].
  destruct (if Nat.ltb 6 (length i) then beginsWith (tx "!.nlp ") i else Ok false) as [b|] eqn:B5; [|discriminate]. cbn [rbind].
  destruct b.
  { destruct (Nat.ltb_spec 6 (length i)) as [L|L]; [|discriminate]. apply bw_true in B5. destruct B5 as (w & ->). change (skipn 6 (tx "!.nlp " ++ w)) with w.
    destruct (nlpProcess pf n w r) as [n2|] eqn:C; [|discriminate]. cbn [rbind]. intros Q. injection Q as <- <- <-. eapply did_nlp; eauto. intros ->. cbn in L. lia. }
  destruct (text_eqb i (tx "!dt")) eqn:T7.
  { apply text_eqb_iff in T7. unfold debugTasks. destruct (rmapM _ _); [|discriminate]. cbn [rbind]. intros Q; injection Q as <- <- <-. now apply did_tasks. }
  destruct (text_eqb i (tx "!dmd")) eqn:T8; [apply text_eqb_iff in T8; intros Q; injection Q as <- <- <-; now apply did_concepts|].
  destruct (text_eqb i (tx "!QQ")) eqn:T9; [apply text_eqb_iff in T9; intros Q; injection Q as <- <- <-; now apply did_quit|].
  destruct (text_eqb i []) eqn:T10; [apply text_eqb_iff in T10; intros Q; injection Q as <- <- <-; now apply did_empty|].
  destruct (inputN pf n i (ln_draws r 0)) as [[n2 b]|] eqn:C; [|discriminate]. cbn [rbind fst]. intros Q; injection Q as <- <- <-. eapply did_narsese; eauto.
  - intros E. apply (proj2 (text_eqb_iff i [])) in E. congruence.
  - assert (F : forall w, text_eqb i w = false -> i <> w) by (intros w Ew E; apply (proj2 (text_eqb_iff i w)) in E; congruence).
    intros [K|[K|[K|[(c & w & K)|K]]]]; [exact (bw_false _ _ B1 K)|exact (bw_false _ _ B3 K)|exact (bw_false _ _ B4 K)| |].
    + subst i. change (beginsWith (tx "!.nlp ") (tx "!.nlp " ++ c :: w) = Ok false) in B5. apply (bw_false _ _ B5). now exists (c :: w).
    + cbn [In map] in K. repeat (destruct K as [K|K]; [symmetry in K; revert K; apply F; assumption|]). destruct K.
Qed.

(** ** Lines keep the session *)
Lemma inputN_session : forall log n i draws n' b, session log n -> inputN pf n i draws = Ok (n', b) ->
  exists l, session (log ++ l) n' /\ (b = false -> n' = n /\ l = []) /\ (b = true -> length l = 1).
Proof.
  intros log n i draws n' b R H. unfold inputN in H. destruct (parseNarsese pf i) as [[[[[t v] p] ev]|]|]; [| |discriminate]; cbn [rbind] in H.
  - destruct (inputT2 n t p v ev draws) as [n2|] eqn:E; [|discriminate]. cbn [rbind] in H. injection H as <- <-.
    exists [mkInput t p v ev false]. split; [eapply ss_input; eauto|]. split; [discriminate|reflexivity].
  - injection H as <- <-. exists []. rewrite app_nil_r. split; auto. split; [auto|discriminate].
Qed.
Lemma cycles_session : forall k r log n n', session log n -> cycles k r n = Ok n' -> session log n'.
Proof.
  induction k as [|k IH]; intros r log n n' R H; cbn [cycles] in H; [congruence|]. destruct (cycle _ _ n) as [n1|] eqn:E; [|discriminate]. cbn [rbind] in H.
  eapply IH; [|exact H]. eapply ss_cycle; eauto.
Qed.
Lemma nlp_session : forall log n i r n', session log n -> nlpProcess pf n i r = Ok n' -> exists l ts, session (log ++ l) n' /\ ln_net r i = Ok ts /\ length l <= length ts.
Proof.
  intros log n i r n' R H. unfold nlpProcess in H. destruct (ln_net r i) as [ts|]; [|discriminate]. cbn [rbind] in H.
  destruct (rfold _ ts (n, 0)) as [[m k]|] eqn:E; [|discriminate]. cbn [rbind] in H. injection H as <-.
  assert (X : exists l, session (log ++ l) m /\ length l <= length ts); [|destruct X as (l & A & B); exists l, ts; auto].
  revert log n R E. generalize 0 as c. induction ts as [|j js IH]; intros c log n R E; cbn [rfold] in E.
  - injection E as <- _. exists []. rewrite app_nil_r. auto.
  - destruct (inputN pf (fst (n, c)) j (ln_draws r (snd (n, c)))) as [[n1 b]|] eqn:J; [|discriminate]. cbn [rbind fst snd] in *.
    destruct (inputN_session _ _ _ _ _ _ R J) as (l1 & R1 & F & T). destruct (IH _ _ _ R1 E) as (l2 & R2 & L). exists (l1 ++ l2). rewrite app_assoc. split; auto.
    rewrite app_length. cbn [length]. destruct b; [rewrite T by auto; lia|]. assert (l1 = []) by (apply F; auto). subst l1. cbn. lia.
Qed.
Lemma step1_session : forall log n r n', session log n -> procStep1 n r = Ok n' -> exists l, session (log ++ l) n'.
Proof.
  intros log n r n' R H. destruct (nlpOf (nr_proc n) r) as [calls|] eqn:E; [|unfold procStep1 in H; rewrite E in H; discriminate].
  exists (relInputs calls). eapply ss_step1; eauto.
Qed.
Theorem facade_session : forall log n line r n' q x, session log n -> facade pf n line r = Ok (n', q, x) -> exists l, session (log ++ l) n'.
Proof.
  intros log n line r n' q x R H. apply facade_did in H.
  assert (N : exists l, session (log ++ l) n) by (exists []; now rewrite app_nil_r).
  destruct H as [|n1 n2 _ S0 S1|n' _ C|z w n' _ _ _ C| |w o| | | | |w n' _ _ P| | | | |n' b _ _ P]; auto.
  - eapply step1_session; [|exact S1]. eapply ss_step0; eauto.
  - exists []. rewrite app_nil_r. eapply cycles_session; eauto.
  - exists []. rewrite app_nil_r. eapply cycles_session; eauto.
  - exists []. rewrite app_nil_r. now apply ss_flush.
  - exists []. rewrite app_nil_r. now apply ss_ops.
  - exists []. rewrite app_nil_r. now apply ss_babble.
  - exists []. rewrite app_nil_r. now apply ss_babble.
  - destruct (nlp_session _ _ _ _ _ R P) as (l & ts & Q & _). eauto.
  - destruct (inputN_session _ _ _ _ _ _ R P) as (l & Q & _). eauto.
Qed.

(** ** Single commands *)
Theorem facade_quit : forall n line r n' q x, facade pf n line r = Ok (n', q, x) -> (q = true <-> trimmed line (tx "!QQ")).
Proof.
  intros n line r n' q x H. split.
  - intros ->. apply facade_did in H. remember (trimNewline line) as i eqn:E. remember true as b eqn:Eb.
    destruct H; try discriminate. rewrite <- H. rewrite E. apply trim_spec.
  - intros T. apply trim_eq in T. assert (E : facade pf n line r = Ok (n, true, INone)) by (rewrite facade_eq, T; reflexivity). congruence.
Qed.
Lemma tx_ascii : forall w, forallb (fun c => Nat.ltb (nat_of_ascii c) 128) (tx w) = true -> asciiText (tx w).
Proof. intros w H. apply Forall_forall. intros c Hc. rewrite forallb_forall in H. apply H in Hc. now apply Nat.ltb_lt. Qed.
Theorem facade_comment : forall n line r i, trimmed line i -> utf8 i -> starts (tx "//") i -> facade pf n line r = Ok (n, false, INone).
Proof.
  intros n line r i T U S. apply trim_eq in T. rewrite facade_eq, T. cbv zeta. rewrite bw_starts; auto.
  destruct S as (w & ->). apply utf8_whole; auto. now apply tx_ascii.
Qed.
Theorem facade_empty : forall n line r, Forall newline line -> facade pf n line r = Ok (n, false, INone).
Proof.
  intros n line r F. assert (T : trimNewline line = []).
  { apply trim_eq. exists line. split; auto. split; auto. intros [|] c; discriminate. }
  rewrite facade_eq, T. reflexivity.
Qed.
Lemma no_start : forall w c i, (exists d w', w = d :: w' /\ d <> c) -> ~ starts w (c :: i).
Proof. intros w c i (d & w' & -> & N) (r & E). injection E as E _. congruence. Qed.
Theorem facade_cycles : forall n line r w z, trimmed line (tx "!s" ++ w) -> numeral w z -> (- 2 ^ 63 <= z < 2 ^ 63)%Z ->
  facade pf n line r = (do n' <- cycles (Z.to_nat z) r n; Ok (n', false, INone)).
Proof.
  intros n line r w z T N B. apply trim_eq in T. rewrite facade_eq, T. cbv zeta.
  assert (H : exists c w', w = c :: w' /\ (nat_of_ascii c = 43 \/ nat_of_ascii c = 45 \/ 48 <= nat_of_ascii c <= 57)).
  { destruct N as (sg & ds & ND & F & K & ->). destruct ds as [|d ds]; [contradiction|]. inversion F; subst.
    destruct K as [[-> _]|[[-> _]|[-> _]]]; eexists; eexists; (split; [reflexivity|]); [|auto|auto]. right. right. 
    change (map (fun d => ascii_of_nat (48 + d)) (d :: ds)) with (ascii_of_nat (48 + d) :: map (fun d => ascii_of_nat (48 + d)) ds).
    rewrite nat_ascii_embedding; lia. }
  destruct H as (c & w' & -> & C).
  assert (X2 : ~ splits (tx "!s" ++ c :: w') 2). { intros (d & E & K). injection E as ->. unfold contByte in K. lia. }
  rewrite (bw_not (tx "//")); [|exact X2|apply no_start; exists "/"%char, ["/"%char]; split; [reflexivity|discriminate]]. cbn [rbind].
  assert (P : exists b, parseI64 (c :: w') = Some b /\ b = z) by (exists z; split; auto; apply parseI64_iff; auto). destruct P as (b & P & ->).
  assert (S3 : beginsWith (tx "!sp") (tx "!s" ++ c :: w') = Ok false).
  { apply bw_not.
    - (* the byte after the first character of the number *)
      intros (d & E & K). destruct N as (sg & ds & ND & F & KK & EE).
      assert (D : asciiText (c :: w')).
      { rewrite EE. apply Forall_app. split.
        - destruct KK as [[-> _]|[[-> _]|[-> _]]]; repeat constructor.
        - apply Forall_forall. intros y Hy. apply in_map_iff in Hy. destruct Hy as (e & <- & He). rewrite Forall_forall in F. apply F in He. rewrite nat_ascii_embedding; lia. }
      change (nth_error w' 0 = Some d) in E. inversion D as [|? ? _ D']. destruct w' as [|e w']; [discriminate|]. injection E as ->. inversion D'. subst. unfold contByte in K. lia.
    - intros (x & E). injection E as -> E. exfalso. revert C. vm_compute. lia. }
  rewrite S3. cbn [rbind].
  destruct (text_eqb (tx "!s" ++ c :: w') (tx "!spA")) eqn:TT; [apply text_eqb_iff in TT; injection TT as -> _; exfalso; revert C; vm_compute; lia|]. clear TT.
  destruct (text_eqb (tx "!s" ++ c :: w') (tx "!spB")) eqn:TT; [apply text_eqb_iff in TT; injection TT as -> _; exfalso; revert C; vm_compute; lia|]. clear TT.
  rewrite (bw_starts (tx "!s")); [|exact X2|eexists; reflexivity]. cbn [rbind].
  replace (Nat.ltb 2 (length (tx "!s" ++ c :: w'))) with true by reflexivity. change (skipn 2 (tx "!s" ++ c :: w')) with (c :: w'). rewrite P. reflexivity.
Qed.
Theorem facade_bad_number : forall n line r c w, trimmed line (tx "!s" ++ c :: w) -> c <> "p"%char ->
  (forall z, numeral (c :: w) z -> ~ (- 2 ^ 63 <= z < 2 ^ 63)%Z) -> facade pf n line r = Panic.
Proof.
  intros n line r c w T Np Nz. destruct (facade pf n line r) as [[[n' q] x]|] eqn:E; auto. exfalso. revert E. apply trim_eq in T. rewrite facade_eq, T. cbv zeta.
  assert (S1 : ~ starts (tx "//") (tx "!s" ++ c :: w)) by (apply no_start; exists "/"%char, ["/"%char]; split; [reflexivity|discriminate]).
  destruct (beginsWith (tx "//") (tx "!s" ++ c :: w)) as [b|] eqn:B1; [|discriminate]. destruct b; [apply bw_true in B1; contradiction|]. cbn [rbind].
  assert (S2 : ~ starts (tx "!sp") (tx "!s" ++ c :: w)) by (intros (y & E); injection E as E _; congruence).
  destruct (beginsWith (tx "!sp") (tx "!s" ++ c :: w)) as [b|] eqn:B2; [|discriminate]. destruct b; [apply bw_true in B2; contradiction|]. cbn [rbind].
  destruct (text_eqb (tx "!s" ++ c :: w) (tx "!spA")) eqn:TT; [apply text_eqb_iff in TT; injection TT as -> _; congruence|]. clear TT.
  destruct (text_eqb (tx "!s" ++ c :: w) (tx "!spB")) eqn:TT; [apply text_eqb_iff in TT; injection TT as -> _; congruence|]. clear TT.
  destruct (beginsWith (tx "!s") (tx "!s" ++ c :: w)) as [b|] eqn:B3; [|discriminate].
  assert (b = true). { unfold beginsWith in B3. replace (Nat.leb (length (tx "!s")) (length (tx "!s" ++ c :: w))) with true in B3 by reflexivity.
    unfold prefix in B3. change (nth_error (tx "!s" ++ c :: w) (length (tx "!s"))) with (Some c) in B3. cbv iota beta in B3. destruct (isCont c); [discriminate B3|]. cbn [rbind] in B3. injection B3 as <-. reflexivity. }
  subst b. cbn [rbind]. replace (Nat.ltb 2 (length (tx "!s" ++ c :: w))) with true by reflexivity. change (skipn 2 (tx "!s" ++ c :: w)) with (c :: w).
  destruct (parseI64 (c :: w)) as [z|] eqn:P; [|discriminate]. apply parseI64_iff in P. destruct P as [P1 P2]. destruct (Nz _ P1 P2).
Qed.
(** a line that is not a command is Narsese *)
Theorem facade_narsese : forall n line r c i, trimmed line (c :: i) -> c <> "!"%char -> ~ starts (tx "//") (c :: i) ->
  ~ splits (c :: i) 2 -> ~ splits (c :: i) 3 -> ~ splits (c :: i) 5 -> (length (c :: i) <= 6 \/ ~ splits (c :: i) 6) ->
  facade pf n line r = (do x <- inputN pf n (c :: i) (ln_draws r 0); Ok (fst x, false, INone)).
Proof.
  intros n line r c i T Nb Nc S2 S3 S5 S6. apply trim_eq in T. rewrite facade_eq, T. cbv zeta.
  assert (K : forall w, ~ starts ("!"%char :: w) (c :: i)) by (intros w (y & E); injection E as E _; congruence).
  assert (T' : forall w, text_eqb (c :: i) ("!"%char :: w) = false).
  { intros w. destruct (text_eqb _ _) eqn:E; auto. apply text_eqb_iff in E. injection E as E _. congruence. }
  rewrite (bw_not (tx "//")) by auto. cbn [rbind]. rewrite (bw_not (tx "!sp")) by (auto; apply K). cbn [rbind].
  change (tx "!spA") with ("!"%char :: tx "spA"). change (tx "!spB") with ("!"%char :: tx "spB"). rewrite !T'.
  rewrite (bw_not (tx "!s")) by (auto; apply K). cbn [rbind]. change (tx "!dtf") with ("!"%char :: tx "dtf"). rewrite T'.
  rewrite (bw_not (tx "!por ")) by (auto; apply K). cbn [rbind].
  change (tx "!pse") with ("!"%char :: tx "pse"). change (tx "!peb 0") with ("!"%char :: tx "peb 0"). change (tx "!peb 1") with ("!"%char :: tx "peb 1"). rewrite !T'.
  replace (if Nat.ltb 6 (length (c :: i)) then beginsWith (tx "!.nlp ") (c :: i) else Ok false) with (Ok false : res bool).
  2:{ destruct (Nat.ltb_spec 6 (length (c :: i))); auto. destruct S6 as [S6|S6]; [lia|]. rewrite (bw_not (tx "!.nlp ")); auto. apply K. }
  cbn [rbind]. change (tx "!dt") with ("!"%char :: tx "dt"). change (tx "!dmd") with ("!"%char :: tx "dmd"). change (tx "!QQ") with ("!"%char :: tx "QQ"). rewrite !T'. reflexivity.
Qed.
(** a character that starts in the first bytes and is still open there *)
Theorem facade_splits : forall n line r i, trimmed line i -> ~ starts (tx "//") i -> splits i 2 \/ (splits i 3 /\ ~ starts (tx "!s") i) -> facade pf n line r = Panic.
Proof.
  intros n line r i T Nc S. apply trim_eq in T. rewrite facade_eq, T. cbv zeta. destruct S as [S|[S Ns]].
  - rewrite bw_splits; auto.
  - destruct (beginsWith (tx "//") i) as [b|] eqn:B1; auto. destruct b; [apply bw_true in B1; contradiction|]. cbn [rbind]. rewrite bw_splits; auto.
Qed.
Theorem facade_foreign : forall n line r c i, trimmed line (c :: i) -> c <> "!"%char -> ~ starts (tx "//") (c :: i) -> ~ asciiText (c :: i) ->
  facade pf n line r = Panic.
Proof.
  intros n line r c i T N1 N2 A. destruct (facade pf n line r) as [[[n' q] x]|] eqn:E; auto. exfalso. apply facade_did in E. apply trim_eq in T. rewrite T in E.
  assert (K : forall w, c :: i = "!"%char :: w -> False) by (intros w Q; injection Q as Q _; contradiction).
  assert (P : forall n2 b, inputN pf n (c :: i) (ln_draws r 0) = Ok (n2, b) -> False).
  { intros n2 b Q. unfold inputN in Q. assert (Z : parseNarsese pf (c :: i) = Panic).
    { apply narsese_panic. left. apply Exists_exists. destruct (Exists_dec (fun c => isAscii c = false) (c :: i)) as [D|D]; auto.
      - intros y. destruct (isAscii y); [right; discriminate|left; reflexivity].
      - destruct A. apply Forall_forall. intros y Hy. destruct (isAscii y) eqn:Ey; [|destruct D; apply Exists_exists; eauto]. unfold isAscii in Ey. now apply Nat.ltb_lt in Ey. }
    rewrite Z in Q. discriminate. }
  remember (c :: i) as j eqn:Ej.
  destruct E as [S|n1 n2 (w & S)|n2 S|z w n2 S|S|w o S|w S|S|S|S|w n2 S|S|S|S|S|n2 b _ _ I]; try (subst j; eapply K; exact S); try (subst j; eapply K; cbn in S; exact S).
  - contradiction.
  - congruence.
  - eapply P; eauto.
Qed.
Theorem cycles_time : forall k r log n n', session log n -> cycles k r n = Ok n' -> nr_time n' = (nr_time n + Z.of_nat k)%Z /\ cycleCtr (nr_decl n') = (cycleCtr (nr_decl n) + Z.of_nat k)%Z.
Proof.
  induction k as [|k IH]; intros r log n n' R H; cbn [cycles] in H; [injection H as <-; lia|]. destruct (cycle _ _ n) as [n1|] eqn:E; [|discriminate]. cbn [rbind] in H.
  apply (IH _ log) in H; [|eapply ss_cycle; eauto]. destruct (session_run _ _ R) as ((_ & Rn) & _).
  assert (T : tasksOk 64 (linked n)).
  { apply session_tasks in R. destruct R as (T & _). unfold linked. destruct (nr_wired n); [|exact T]. apply (tasksOk_eq _ (nr_decl n)); auto using sameTasks_refl. }
  assert (L : cycleCtr (linked n) = cycleCtr (nr_decl n)) by (unfold linked; destruct (nr_wired n); reflexivity).
  unfold cycle in E. destruct (reasonCycle _ _ _ _) as [[[[d now] ans] m]|] eqn:Q; [|discriminate]. cbn [rbind] in E. injection E as <-.
  apply (reasonCycle_ok _ _ _ _ _ _ _ _ _ T) in Q. cbn [nr_time nr_decl withDq withTime withDecl] in H. destruct Q as (_ & _ & _ & _ & C & N & _). lia.
Qed.
Theorem facade_unreachable : forall n line r, trimmed line (tx "!spA") \/ trimmed line (tx "!spB") ->
  facade pf n line r = (do n1 <- procStep0 n (ln_smp r); do n2 <- procStep1 n1 (ln_step r); Ok (n2, false, INone)).
Proof. intros n line r [T|T]; apply trim_eq in T; rewrite facade_eq, T; reflexivity. Qed.

(** * The interactive loop *)
Theorem interactive_repeat : forall n last line r, Forall newline line -> interactive pf n last line r =
  (do '(n', q, _) <- facade pf n last r; Ok (n', last, q)).
Proof.
  intros n last line r F. unfold interactive. assert (T : trimNewline line = []).
  { apply trim_eq. exists line. split; auto. split; auto. intros [|] c; discriminate. }
  rewrite T. reflexivity.
Qed.
Theorem interactive_new : forall n last line r c i, trimmed line (c :: i) -> interactive pf n last line r =
  (do '(n', q, _) <- facade pf n (c :: i) r; Ok (n', c :: i, q)).
Proof. intros n last line r c i T. unfold interactive. apply trim_eq in T. rewrite T. reflexivity. Qed.
(** [loop lines]: rounds of the loop up to the first that asks to quit; the
    result says whether it asked *)
Fixpoint loop (n : nar) (last : text) (lines : list (text * lineRnd)) : res (nar * text * bool) :=
  match lines with
  | [] => Ok (n, last, false)
  | (l, r) :: ls =>
      do '(n', last', q) <- interactive pf n last l r;
      if q then Ok (n', last', true) else loop n' last' ls
  end.
Theorem loop_eof : forall rs n last n' last' q, ~ trimmed last (tx "!QQ") ->
  loop n last (map (fun r => ([], r)) rs) = Ok (n', last', q) -> q = false /\ last' = last.
Proof.
  induction rs as [|r rs IH]; intros n last n' last' q N H; cbn [loop map] in H; [injection H as <- <- <-; auto|].
  rewrite interactive_repeat in H by constructor. destruct (facade pf n last r) as [[[n1 q1] x]|] eqn:E; [|discriminate]. cbn [rbind] in H.
  assert (q1 = false). { destruct q1; auto. destruct N. now apply (facade_quit _ _ _ _ _ _ E). }
  subst q1. eapply IH; eauto.
Qed.
End Facade.

(** * The operator for relations *)
Theorem rewrite_spec : forall rel r, rewriteRel rel = Ok r ->
  match rel with
  | Stmt INH (Prod (a :: b :: _)) p => r = Stmt INH (Prod [a; b]) p \/
      exists x y, b = Seq [x; Name "and"; y] /\ r = Stmt INH (Prod [a; ExtInt [x; y]]) p
  | _ => r = rel
  end.
Proof.
  intros rel r H. unfold rewriteRel in H. destruct rel as [c s p| | | | | | | | | | | | | |]; try (injection H as <-; reflexivity).
  destruct c; try (injection H as <-; reflexivity). destruct s; try (injection H as <-; reflexivity).
  destruct l as [|a [|b rest]]; try discriminate. cbn [idx nth_error unwrap rbind] in H.
  assert (D : r = Stmt INH (Prod [a; b]) p \/ exists x z y, b = Seq [x; z; y] /\ checkEqTerm z (Name "and") = true /\ r = Stmt INH (Prod [a; ExtInt [x; y]]) p).
  { destruct b as [| | | | | | | | | | | | | |]; try (injection H as <-; auto; fail).
    match goal with |- context [Seq ?l] => destruct l as [|x [|z [|y [|]]]] end; try (injection H as <-; auto; fail). destruct (checkEqTerm z (Name "and")) eqn:E; injection H as <-; auto. right. exists x, z, y. auto. }
  destruct D as [D|(x & z & y & -> & E & ->)]; [auto|]. right. apply checkEqTerm_eq in E. subst z. eauto.
Qed.
Theorem rewrite_panic : forall rel, rewriteRel rel = Panic <-> exists l p, rel = Stmt INH (Prod l) p /\ length l < 2.
Proof.
  intros rel. split.
  - intros H. unfold rewriteRel in H. destruct rel as [c s p| | | | | | | | | | | | | |]; try discriminate. destruct c; try discriminate. destruct s; try discriminate.
    destruct l as [|a [|b rest]]; [exists [], p; split; auto; cbn; lia|exists [a], p; split; auto; cbn; lia|]. cbn [idx nth_error unwrap rbind] in H. discriminate.
  - intros (l & p & -> & L). destruct l as [|a [|b l2]]; [reflexivity|reflexivity|cbn in L; lia].
Qed.

(** * Questions about time *)
Lemma tryAll_from : forall cs q q' ans x, qaTryAll q cs = Ok (q', ans) -> In x ans -> fst x = s_term (q_s q) /\ In (snd x) cs.
Proof.
  intros cs q q' ans x H Hx. unfold qaTryAll in H.
  assert (G : forall cs q0 acc q' ans, rfold (fun st c => do r <- qaTryAnswer (fst st) c; Ok (fst r, snd st ++ snd r)) cs (q0, acc) = Ok (q', ans) ->
     forall x, In x ans -> In x acc \/ (fst x = s_term (q_s q0) /\ In (snd x) cs)).
  { clear. induction cs as [|c cs IH]; intros q0 acc q' ans H x Hx; cbn [rfold] in H; [injection H as <- <-; auto|].
    cbn [fst snd] in H. destruct (qaTryAnswer q0 c) as [[q1 a1]|] eqn:E; [|discriminate]. cbn [rbind fst snd] in H.
    apply qaTryAnswer_spec in E. destruct E as (Es & _ & _ & C). destruct (IH _ _ _ _ H _ Hx) as [K|(K1 & K2)].
    - apply in_app_iff in K. destruct K as [K|K]; auto. destruct C as [(-> & _)|(-> & _)]; [destruct K|]. destruct K as [<-|[]]. right. cbn. auto.
    - right. rewrite Es in K1. cbn. auto. }
  destruct (G _ _ _ _ _ H _ Hx) as [[]|K]. exact K.
Qed.
Lemma cycle_answers : forall expf sv sh now sh' now' ans m x, reasonCycle expf sv sh now = Ok (sh', now', ans, m) -> In x ans -> temporal (fst x) ->
  exists u c, occurs u (fst x) /\ In (u, c) (procMem sh) /\ (In (snd x) (byExp c) \/ In (snd x) (byUsage c)).
Proof.
  intros expf sv sh now sh' now' ans m x H Hx (a & b & T). unfold reasonCycle in H. set (s1 := baseCredits _) in H. assert (P : procMem s1 = procMem sh) by reflexivity. clearbody s1.
  destruct (sampleQuestion sv s1) as [[s2 an]|] eqn:E; [|discriminate]. cbn [rbind fst snd] in H.
  destruct (selectWork expf s2) as [[s3 w]|]; [|discriminate]. cbn [rbind fst snd] in H.
  destruct (maintainTasks _ _) as [s4|]; [|discriminate]. cbn [rbind] in H. destruct (maintainConcepts s4) as [s5|]; [|discriminate]. cbn [rbind] in H.
  assert (an = ans) by congruence. subst an. clear H. unfold sampleQuestion in E. destruct (questions s1) as [|q0 qs]; [assert (ans = []) by congruence; subst ans; destruct Hx|].
  destruct (task2SelByCreditRandom sv (q0 :: qs)) as [i|]; [|discriminate]. cbn [rbind] in E. destruct (idx (q0 :: qs) i) as [q|]; [|discriminate]. cbn [rbind] in E.
  match type of E with context [qaTryAll q ?l] => set (cs := l) in E end. destruct (qaTryAll q cs) as [[q' a']|] eqn:Q; [|discriminate]. cbn [rbind fst snd] in E.
  assert (a' = ans) by congruence. subst a'. destruct (tryAll_from _ _ _ _ _ Q Hx) as (Ef & Hin). unfold cs in Hin. rewrite <- Ef in Hin. assert (IT : isTemporal (fst x) = true) by (rewrite T; reflexivity). rewrite IT in Hin.
  apply in_flat_map in Hin. destruct Hin as (u & Hu & Hb). apply retUniqueSubterms_in in Hu. unfold ret_beliefs_of_concept in Hb. destruct (mget u (procMem s1)) as [c|] eqn:M; [|contradiction].
  apply in_app_iff in Hb. apply mget_in in M. rewrite P in M. exists u, c. auto.
Qed.
Theorem wired_answers : forall log n expf sv now sh' now' ans m x, session log n ->
  reasonCycle expf sv (linked n) now = Ok (sh', now', ans, m) -> In x ans -> temporal (fst x) ->
  nr_wired n = true /\ exists u c a, occurs u (fst x) /\ In (u, c) (pcs (n_mem (nr_proc n))) /\ (In a (pExp c) \/ In a (pUse c)) /\ rd (cells (n_mem (nr_proc n))) a = snd x.
Proof.
  intros log n expf sv now sh' now' ans m x R H Hx T. destruct (cycle_answers _ _ _ _ _ _ _ _ _ H Hx T) as (u & c & O & M & B).
  unfold linked in M. destruct (nr_wired n) eqn:W; [|rewrite (session_procMem _ _ R W) in M; destruct M].
  split; auto. cbn [procMem setProcMem] in M. unfold viewMem in M. apply in_map_iff in M. destruct M as ([k pc] & E & Hp). cbn [fst snd] in E. injection E as <- <-. cbn [byExp byUsage] in B.
  destruct B as [B|B]; apply in_map_iff in B; destruct B as (a & Ea & Ha); exists k, pc, a; auto.
Qed.

(** * Files *)
(** the lines were given to the reasoner one after another *)
Inductive fed (pf : text -> option f64) : list (text * lineRnd) -> nar -> nar -> Prop :=
| fed_end : forall n, fed pf [] n n
| fed_line : forall n l r n1 q x ls n', facade pf n l r = Ok (n1, q, x) -> fed pf ls n1 n' -> fed pf ((l, r) :: ls) n n'.
Theorem readFile_spec : forall pf lines n n' q, readFile pf lines n = Ok (n', q) ->
  exists pre rest, Forall (fun e => ~ trimmed (fst e) (tx "!QQ")) pre /\
    if q then exists l r, lines = pre ++ (l, r) :: rest /\ trimmed l (tx "!QQ") /\ fed pf (pre ++ [(l, r)]) n n' else lines = pre /\ rest = [] /\ fed pf pre n n'.
Proof.
  intros pf. induction lines as [|[l r] ls IH]; intros n n' q H; cbn [readFile] in H.
  - injection H as <- <-. exists [], []. repeat split; constructor.
  - destruct (facade pf n l r) as [[[n1 q1] x]|] eqn:E; [|discriminate]. cbn [rbind] in H. assert (Q := facade_quit _ _ _ _ _ _ _ E). destruct q1.
    + injection H as <- <-. exists [], ls. split; [constructor|]. exists l, r. split; [reflexivity|]. split; [now apply Q|]. eapply fed_line; [exact E|constructor].
    + apply IH in H. destruct H as (pre & rest & F & K). exists ((l, r) :: pre), rest. split.
      { constructor; auto. intros T. apply Q in T. discriminate. }
      destruct q.
      * destruct K as (l' & r' & -> & T & Fd). exists l', r'. split; [reflexivity|]. split; auto. eapply fed_line; eauto.
      * destruct K as (-> & -> & Fd). split; [reflexivity|]. split; [reflexivity|]. eapply fed_line; eauto.
Qed.
