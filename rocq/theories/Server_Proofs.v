(** Proofs for Server_Model. *)
From Coq Require Import String ZArith Bool Lia List.
From Verif Require Import Base F64_Model Sentence_Model Cycle_Model Parser_Model Nar_Model Nar_Spec Nar_Proofs Nar2_Proofs Server_Model Server_Spec.
Import ListNotations.
Local Open Scope list_scope.
Local Open Scope nat_scope.

Fixpoint numbered (d : nat) (l : list text) : list (Z * text) :=
  match l with [] => [] | m :: l' => (Z.of_nat d, m) :: numbered (S d) l' end.
Lemma numbered_len : forall l d, length (numbered d l) = length l.
Proof. induction l; intros d; cbn; auto. Qed.
Lemma numbered_app : forall l d l', numbered d (l ++ l') = numbered d l ++ numbered (d + length l) l'.
Proof. induction l as [|m l IH]; intros d l'; cbn [app numbered length]; [now rewrite Nat.add_0_r|]. rewrite IH. now replace (d + S (length l)) with (S d + length l) by lia. Qed.
Lemma numbered_skip : forall k d l, skipn k (numbered d l) = numbered (d + k) (skipn k l).
Proof.
  induction k as [|k IH]; intros d l; cbn [skipn]; [now rewrite Nat.add_0_r|]. destruct l as [|m l]; cbn [numbered]; auto. rewrite IH. now replace (d + S k) with (S d + k) by lia.
Qed.
(** a client that has seen less than number [my] gets the rest *)
Lemma scan_numbered : forall l d my, scan (Z.of_nat my) (numbered d l) =
  (Z.of_nat (if Nat.leb (d + length l) my then my else match l with [] => my | _ => d + length l - 1 end), skipn (my - d) l).
Proof.
  induction l as [|m l IH]; intros d my; cbn [scan numbered].
  - rewrite skipn_nil. destruct (Nat.leb _ _); reflexivity.
  - destruct (Z.leb_spec (Z.of_nat my) (Z.of_nat d)) as [L|L].
    + replace (my - d) with 0 by lia. cbn [skipn]. rewrite IH. replace (d - S d) with 0 by lia. cbn [skipn length]. f_equal. f_equal.
      destruct (Nat.leb_spec (d + S (length l)) my); [lia|]. destruct (Nat.leb_spec (S d + length l) d); [lia|]. destruct l; cbn [length]; lia.
    + rewrite IH. replace (my - d) with (S (my - S d)) by lia. cbn [skipn length]. f_equal. f_equal.
      replace (S d + length l) with (d + S (length l)) by lia. destruct (Nat.leb_spec (d + S (length l)) my); auto. destruct l; cbn [length] in *; lia.
Qed.

Lemma nth_skip : forall (A : Type) k (l : list A) i, nth_error (skipn k l) i = nth_error l (k + i).
Proof. induction k as [|k IH]; intros l i; cbn [skipn Nat.add]; auto. destruct l; cbn [nth_error]; auto. now destruct i. Qed.
Lemma skip_nths : forall (A : Type) k (l : list A), map Some (skipn k l) = map (nth_error l) (seq k (length l - k)).
Proof.
  intros A k l. revert k. induction l as [|x l IH]; intros k; [now rewrite skipn_nil|]. destruct k as [|k]; cbn [skipn length].
  - replace (S (length l) - 0) with (S (length l)) by lia. cbn [seq map nth_error]. f_equal. rewrite <- seq_shift, map_map. specialize (IH 0). cbn [skipn] in IH. rewrite IH.
    now replace (length l - 0) with (length l) by lia.
  - rewrite IH. replace (S (length l) - S k) with (length l - k) by lia. now rewrite <- seq_shift, map_map.
Qed.
Lemma ordered_app : forall a b, ordered a -> ordered b -> (forall i, In i b -> forall j, last a i = j -> j <= i) -> ordered (a ++ b).
Proof.
  intros a b Ha Hb H. induction Ha as [|i|i j l L Ha IH]; cbn [app]; auto.
  - destruct b as [|k b]; [constructor|]. constructor; auto. apply (H k); [now left|reflexivity].
  - constructor; auto.
Qed.
Lemma ordered_seq : forall n k, ordered (seq k n).
Proof.
  induction n as [|n IH]; intros k; cbn [seq]; [constructor|]. destruct n as [|n]; [constructor|]. specialize (IH (S k)). cbn [seq] in IH |- *. constructor; auto.
Qed.
Lemma last_any : forall (l : list nat) a b, l <> [] -> last l a = last l b.
Proof. induction l as [|x l IH]; intros a b N; [congruence|]. destruct l as [|y l]; auto. cbn [last] in *. apply IH. discriminate. Qed.
Lemma last_in : forall (l : list nat) x d, last (x :: l) d = last (x :: l) x.
Proof. intros. apply last_any. discriminate. Qed.
Lemma last_app : forall (a b : list nat) d, last (a ++ b) d = last b (last a d).
Proof.
  induction a as [|x a IH]; intros b d; auto. cbn [app]. destruct a as [|y a].
  - cbn [app last]. destruct b as [|z b]; auto. change (last (x :: z :: b) d) with (last (z :: b) d). rewrite (last_in b z d), (last_in b z x). reflexivity.
  - change (last (x :: (y :: a) ++ b) d) with (last ((y :: a) ++ b) d). rewrite IH. reflexivity.
Qed.
Lemma last_seq : forall n k d, last (seq k n) d = match n with O => d | S m => k + m end.
Proof.
  induction n as [|n IH]; intros k d; auto. destruct n as [|n]; [cbn; lia|]. specialize (IH (S k) d). change (last (seq k (S (S n))) d) with (last (seq (S k) (S n)) d). rewrite IH. lia.
Qed.

Definition from (g : global) (hist : list text) : nat := length hist - length (g_arr g).
Definition bufOk (hist : list text) (g : global) : Prop :=
  g_id g = Z.of_nat (length hist) /\ length (g_arr g) <= length hist /\ g_arr g = numbered (from g hist) (skipn (from g hist) hist) /\ Nat.min 50 (length hist) <= length (g_arr g).
Definition cliOk (hist : list text) (g : global) (st : nat) (c : client) : Prop :=
  st <= length hist /\
  exists ids, got hist c ids /\ ordered ids /\ Forall (fun i => st <= i < length hist) ids /\ cl_my c = Z.of_nat (last ids st) /\
    forall i, ids <> [] -> from g hist <= i -> st <= i <= last ids st -> In i ids.

Lemma buf_push : forall hist g m, bufOk hist g -> bufOk (hist ++ [m]) (mkGlobal (g_arr g ++ [(g_id g, m)]) (g_id g + 1)).
Proof.
  intros hist g m (I & L & A & B). unfold bufOk, from in *. cbn [g_arr g_id]. rewrite !app_length. cbn [length].
  split; [lia|]. split; [lia|]. split; [|lia]. replace (length hist + 1 - (length (g_arr g) + 1)) with (length hist - length (g_arr g)) by lia.
  rewrite skipn_app. replace (length hist - length (g_arr g) - length hist) with 0 by lia. cbn [skipn]. rewrite numbered_app, <- A. f_equal.
  rewrite skipn_length. cbn [numbered]. rewrite I. do 3 f_equal. lia.
Qed.
Lemma buf_limit : forall hist g, bufOk hist g -> 50 < length (g_arr g) -> bufOk hist (mkGlobal (skipn (length (g_arr g) - 50) (g_arr g)) (g_id g)).
Proof.
  intros hist g (I & L & A & B) H. unfold bufOk, from in *. cbn [g_arr g_id]. rewrite skipn_length.
  split; [auto|]. split; [lia|]. split; [|lia]. etransitivity; [exact (f_equal (skipn (length (g_arr g) - 50)) A)|]. rewrite numbered_skip. f_equal; [lia|]. rewrite ProcC_Proofs.skip_skip. f_equal. lia.
Qed.
Lemma cli_more : forall hist m g g' st c, cliOk hist g st c -> from g hist <= from g' (hist ++ m) -> cliOk (hist ++ m) g' st c.
Proof.
  intros hist m g g' st c (S0 & ids & G & O & F & M & K) L. split; [rewrite app_length; lia|]. exists ids. split; [|split; [exact O|split; [|split; [exact M|]]]].
  - unfold got in *. rewrite G. apply map_ext_in. intros i Hi. rewrite Forall_forall in F. apply F in Hi. rewrite nth_error_app1; auto. lia.
  - eapply Forall_impl; [|exact F]. cbn beta. intros i Hi. rewrite app_length. lia.
  - intros i N Hi. apply K; auto. lia.
Qed.
Lemma cli_read : forall hist g st c, bufOk hist g -> cliOk hist g st c ->
  cliOk hist g st (readBuffer g c) /\ exists ids', got hist (readBuffer g c) ids' /\ forall i, st <= i < length hist -> length hist <= i + 50 -> In i ids'.
Proof.
  intros hist g st c (I & L & A & B) (S0 & ids & G & O & F & M & K). unfold readBuffer. rewrite A, M, scan_numbered. set (d := from g hist) in *. set (my := last ids st) in *.
  assert (Ld : d <= length hist) by (unfold d, from; lia). assert (Lm : length (g_arr g) = length hist - d) by (unfold d, from; lia).
  rewrite skipn_length, ProcC_Proofs.skip_skip. replace (d + (length hist - d)) with (length hist) by lia.
  replace (skipn (my - d + d) hist) with (skipn (Nat.max my d) hist) by (f_equal; lia).
  assert (My : st <= my <= length hist).
  { unfold my. destruct ids as [|i ids]; [cbn; lia|]. rewrite last_in. rewrite Forall_forall in F. assert (In (last (i :: ids) i) (i :: ids)); [|apply F in H; lia].
    clear. revert i. induction ids as [|j l IH]; intros i; [now left|]. change (last (i :: j :: l) i) with (last (j :: l) i). rewrite last_in. right. apply IH. }
  set (new := seq (Nat.max my d) (length hist - Nat.max my d)).
  assert (Got : got hist (mkClient (Z.of_nat (if Nat.leb (length hist) my then my else match skipn d hist with [] => my | _ => length hist - 1 end)) false (cl_dead c) (cl_out c ++ skipn (Nat.max my d) hist)) (ids ++ new)).
  { unfold got in *. cbn [cl_out]. rewrite !map_app, G. f_equal. apply skip_nths. }
  assert (Cm : forall i, st <= i < length hist -> d <= i -> In i (ids ++ new)).
  { intros i Hi Hd. apply in_or_app. destruct (Nat.lt_ge_cases i my) as [C|C]; [left|right; apply in_seq; lia]. apply K; auto; [|lia]. intros E. unfold my in C. rewrite E in C. cbn in C. lia. }
  split.
  - split; auto. exists (ids ++ new). split; [exact Got|]. split; [|split; [|split]].
    + apply ordered_app; auto; [apply ordered_seq|]. intros i Hi j Hj. apply in_seq in Hi. subst j. unfold my in Hi. destruct ids as [|x ids]; [cbn; lia|]. rewrite (last_in ids x i). rewrite (last_in ids x st) in Hi. lia.
    + apply Forall_app. split; auto. apply Forall_forall. intros i Hi. apply in_seq in Hi. lia.
    + cbn [cl_my]. f_equal. rewrite last_app. fold my. unfold new. rewrite last_seq. destruct (Nat.leb_spec (length hist) my) as [C|C].
      * replace (length hist - Nat.max my d) with 0 by lia. reflexivity.
      * destruct (skipn d hist) as [|y r] eqn:E; [apply (f_equal (@length text)) in E; rewrite skipn_length in E; cbn in E; replace (length hist - Nat.max my d) with 0 by lia; reflexivity|].
        apply (f_equal (@length text)) in E. rewrite skipn_length in E. cbn in E. destruct (length hist - Nat.max my d) eqn:E2; lia.
    + intros i N Hd Hi. destruct (Nat.lt_ge_cases i (length hist)) as [C|C]; [apply Cm; [lia|exact Hd]|]. rewrite last_app in Hi. fold my in Hi. unfold new in Hi, N |- *. rewrite last_seq in Hi.
      destruct (length hist - Nat.max my d) eqn:E2; [|lia]. cbn [seq] in *. rewrite app_nil_r in *. apply K; auto; lia.
  - exists (ids ++ new). split; [exact Got|]. intros i Hi H50. apply Cm; [lia|]. unfold d, from. lia.
Qed.

(** * All runs *)
Section Runs.
Variables (pf : text -> option f64) (render : nar -> info -> list text).
Notation runs := (runs pf render).
Notation act1 := (act1 pf render).

Lemma push_from : forall hist g m, bufOk hist g -> from g hist <= from (pushAnswer g m) (hist ++ [m]) /\ from g hist <= from (pushLine g m) (hist ++ [m]).
Proof.
  intros hist g m (_ & L & _ & _). unfold from, pushLine, pushAnswer. cbn [g_arr g_id]. rewrite !app_length. cbn [length]. split; [lia|].
  destruct (Nat.ltb_spec 50 (length (g_arr g) + 1)); cbn [g_arr]; rewrite ?skipn_length, ?app_length; cbn [length]; lia.
Qed.
Lemma buf_line : forall hist g m, bufOk hist g -> bufOk (hist ++ [m]) (pushLine g m).
Proof.
  intros hist g m B. apply (buf_push _ _ m) in B. unfold pushLine. set (g1 := mkGlobal _ _) in *. destruct (Nat.ltb_spec 50 (length (g_arr g1))); auto. now apply buf_limit.
Qed.
Lemma replace_in : forall (A : Type) k (x y : A) l, nth_error l k = Some y -> forall j, nth_error (replace k x l) j = if Nat.eqb j k then Some x else nth_error l j.
Proof.
  intros A. induction k as [|k IH]; intros x y l H j; destruct l as [|z l]; try discriminate.
  - destruct j; reflexivity.
  - unfold replace in *. cbn [firstn app]. cbn [nth_error] in H. destruct j as [|j]; [reflexivity|]. cbn [nth_error Nat.eqb]. change (skipn (S (S k)) (z :: l)) with (skipn (S k) l). eapply IH; eauto.
Qed.
Definition cliAll (hist : list text) (starts : list nat) (s : server) : Prop :=
  length starts = length (sv_cl s) /\ forall k st c, nth_error starts k = Some st -> nth_error (sv_cl s) k = Some c -> cliOk hist (sv_g s) st c.
Lemma cli_same : forall hist g st c c', cliOk hist g st c -> cl_my c' = cl_my c -> cl_out c' = cl_out c -> cliOk hist g st c'.
Proof. intros hist g st c c' (S0 & ids & G & O & F & M & K) E1 E2. split; auto. exists ids. unfold got in *. rewrite E1, E2. auto. Qed.
Theorem runs_inv : forall hist lines starts s, runs hist lines starts s -> bufOk hist (sv_g s) /\ cliAll hist starts s.
Proof.
  intros hist lines starts s H. induction H as [|hist lines starts s a s' _ (B & N & C) H].
  - split; [repeat split; cbn; auto; lia|]. split; auto. intros [|k] st c; discriminate.
  - assert (Same : forall s2, sv_g s2 = sv_g s -> sv_cl s2 = sv_cl s -> bufOk (hist ++ []) (sv_g s2) /\ cliAll (hist ++ []) (starts ++ []) s2).
    { intros s2 E1 E2. rewrite !app_nil_r. unfold cliAll. rewrite E1, E2. auto. }
    assert (Rep : forall k c0 c2 n ch td, nth_error (sv_cl s) k = Some c0 -> (forall st, cliOk hist (sv_g s) st c0 -> cliOk hist (sv_g s) st c2) ->
      bufOk (hist ++ []) (sv_g s) /\ cliAll (hist ++ []) (starts ++ []) (mkServer (sv_g s) n ch td (replace k c2 (sv_cl s)))).
    { intros k c0 c2 n ch td E Q. rewrite !app_nil_r. split; auto. split.
      - cbn [sv_cl]. rewrite N. unfold replace. rewrite app_length. cbn [length]. rewrite firstn_length, skipn_length. assert (k < length (sv_cl s)) by (apply nth_error_Some; congruence). lia.
      - intros j st c E1 E2. cbn [sv_cl sv_g] in *. rewrite (replace_in _ _ _ _ _ E) in E2. destruct (Nat.eqb_spec j k) as [->|]; [injection E2 as <-|]; eauto. }
    destruct a as [|k line|k|r| |msg| |draws]; cbn [act1 said] in *.
    + injection H as <-. rewrite app_nil_r. split; auto. split; [cbn [sv_cl]; rewrite !app_length; cbn; lia|]. intros k st c E1 E2. cbn [sv_cl sv_g] in *.
      destruct (Nat.lt_ge_cases k (length starts)) as [L|L].
      * rewrite nth_error_app1 in E1 by auto. rewrite nth_error_app1 in E2 by lia. eauto.
      * rewrite nth_error_app2 in E1 by auto. rewrite nth_error_app2 in E2 by lia. rewrite N in *. destruct (k - length (sv_cl s)) as [|[|]]; try discriminate. injection E1 as <-. injection E2 as <-.
        split; auto. exists []. destruct B as (I & _). split; [reflexivity|]. split; [constructor|]. split; [constructor|]. split; [cbn; now rewrite I|]. intros i Q. congruence.
    + destruct (nth_error (sv_cl s) k) as [c0|] eqn:E; [|discriminate]. destruct (cl_busy c0 || cl_dead c0); [discriminate|].
      destruct (sv_nar s); injection H as <-; eapply Rep; eauto; intros st Q; eapply cli_same; eauto.
    + destruct (nth_error (sv_cl s) k) as [c0|] eqn:E; [|discriminate]. destruct (cl_busy c0); [|discriminate]. injection H as <-. eapply Rep; eauto. intros st Q. now apply cli_read.
    + destruct (sv_nar s) as [n|]; [|discriminate]. destruct (sv_todo s); [|discriminate]. destruct (sv_chan s) as [|l ch]; [discriminate|].
      destruct (facade _ _ _ _) as [[[n' q] x]|]; injection H as <-; apply Same; reflexivity.
    + destruct (sv_todo s) as [|m todo] eqn:E; [discriminate|]. injection H as <-. rewrite app_nil_r. cbn [firstn sv_g sv_cl]. split; [now apply buf_line|]. split; auto.
      intros k st c E1 E2. cbn [sv_cl sv_g] in *. eapply cli_more; [eauto|]. now apply push_from.
    + injection H as <-. rewrite app_nil_r. cbn [sv_g sv_cl]. split; [now apply buf_push|]. split; auto.
      intros k st c E1 E2. cbn [sv_cl sv_g] in *. eapply cli_more; [eauto|]. now apply push_from.
    + destruct (sv_nar s) as [n|]; [|discriminate]. destruct (declWork n); [|discriminate]. injection H as <-. apply Same; reflexivity.
    + destruct (sv_nar s) as [n|]; [|discriminate]. destruct (procWork n draws); [|discriminate]. injection H as <-. apply Same; reflexivity.
Qed.

Theorem server_buffer : forall hist lines starts s, runs hist lines starts s ->
  exists d, d <= length hist /\ map snd (g_arr (sv_g s)) = skipn d hist /\ map fst (g_arr (sv_g s)) = map Z.of_nat (seq d (length hist - d)) /\ g_id (sv_g s) = Z.of_nat (length hist) /\
    (length hist <= 50 -> d = 0) /\ d <= length hist - Nat.min 50 (length hist).
Proof.
  intros hist lines starts s R. apply runs_inv in R. destruct R as ((I & L & A & B) & _). exists (from (sv_g s) hist). unfold from in *.
  split; [lia|]. assert (Q : forall l d, map snd (numbered d l) = l /\ map fst (numbered d l) = map Z.of_nat (seq d (length l))).
  { induction l as [|m l IH]; intros d; cbn [numbered map seq length]; auto. destruct (IH (S d)) as (-> & ->). auto. }
  rewrite A at 1 3. destruct (Q (skipn (length hist - length (g_arr (sv_g s))) hist) (length hist - length (g_arr (sv_g s)))) as (-> & ->). rewrite skipn_length. repeat split; auto; lia.
Qed.
Theorem server_order : forall hist lines starts s k st c, runs hist lines starts s -> nth_error starts k = Some st -> nth_error (sv_cl s) k = Some c ->
  exists ids, got hist c ids /\ ordered ids /\ Forall (fun i => st <= i < length hist) ids.
Proof. intros hist lines starts s k st c R E1 E2. apply runs_inv in R. destruct R as (_ & _ & C). destruct (C _ _ _ E1 E2) as (_ & ids & G & O & F & _). eauto. Qed.
Theorem server_complete : forall hist lines starts s k s' st c, runs hist lines starts s -> act1 s (ARead k) = Some s' ->
  nth_error starts k = Some st -> nth_error (sv_cl s') k = Some c ->
  exists ids, got hist c ids /\ forall i, st <= i < length hist -> length hist <= i + 50 -> In i ids.
Proof.
  intros hist lines starts s k s' st c R H E1 E2. apply runs_inv in R. destruct R as (B & _ & C). cbn [act1] in H.
  destruct (nth_error (sv_cl s) k) as [c0|] eqn:E; [|discriminate]. destruct (cl_busy c0); [|discriminate]. injection H as <-. cbn [sv_cl] in E2. rewrite (replace_in _ _ _ _ _ E), Nat.eqb_refl in E2. injection E2 as <-.
  eapply cli_read; eauto.
Qed.
(** a read without news sends the last message again *)
Lemma read_my : forall hist g st c, bufOk hist g -> cliOk hist g st c -> st < length hist -> cl_my (readBuffer g c) = Z.of_nat (length hist - 1).
Proof.
  intros hist g st c B C L. destruct (cli_read _ _ _ _ B C) as ((_ & ids & G & O & F & M & K) & _). rewrite M. f_equal.
  destruct B as (I & L2 & A & B). unfold readBuffer in M. destruct C as (_ & ids0 & _ & _ & F0 & M0 & _). rewrite A, M0, scan_numbered in M. cbn [cl_my] in M.
  rewrite skipn_length in M. assert (E : from g hist + (length hist - from g hist) = length hist) by (unfold from; lia). rewrite E in M. apply Nat2Z.inj in M. rewrite <- M.
  assert (My : last ids0 st < length hist).
  { destruct ids0 as [|i ids0]; [cbn; lia|]. rewrite Forall_forall in F0. apply F0. clear. revert i. induction ids0 as [|j l IH]; intros i; [now left|]. change (last (i :: j :: l) st) with (last (j :: l) st). right. apply IH. }
  destruct (Nat.leb_spec (length hist) (last ids0 st)); [lia|]. destruct (skipn (from g hist) hist) eqn:Q; auto. apply (f_equal (@length text)) in Q. rewrite skipn_length in Q. cbn in Q. unfold from in Q. lia.
Qed.
Lemma read_again : forall hist g c, bufOk hist g -> 0 < length hist -> cl_my c = Z.of_nat (length hist - 1) ->
  exists m, nth_error hist (length hist - 1) = Some m /\ cl_out (readBuffer g c) = cl_out c ++ [m].
Proof.
  intros hist g c (I & L & A & B) P M. unfold readBuffer. rewrite A, M, scan_numbered. cbn [cl_out]. rewrite ProcC_Proofs.skip_skip.
  replace (length hist - 1 - from g hist + from g hist) with (length hist - 1) by (unfold from; lia).
  destruct (nth_error hist (length hist - 1)) as [m|] eqn:E; [|apply nth_error_None in E; lia]. exists m. split; auto. f_equal.
  assert (Q := skip_nths _ (length hist - 1) hist). replace (length hist - (length hist - 1)) with 1 in Q by lia. cbn [seq map] in Q. rewrite E in Q.
  destruct (skipn (length hist - 1) hist) as [|x [|]]; try discriminate. injection Q as ->. reflexivity.
Qed.
Theorem server_again : forall hist lines starts s k s1 s2 s3 line, runs hist lines starts s -> act1 s (ARead k) = Some s1 ->
  act1 s1 (ALine k line) = Some s2 -> act1 s2 (ARead k) = Some s3 ->
  forall c1 c3, nth_error (sv_cl s1) k = Some c1 -> nth_error (sv_cl s3) k = Some c3 ->
  forall st, nth_error starts k = Some st -> st < length hist ->
  exists m, nth_error hist (length hist - 1) = Some m /\ cl_out c3 = cl_out c1 ++ [m].
Proof.
  intros hist lines starts s k s1 s2 s3 line R H1 H2 H3 c1 c3 E1 E3 st Es L.
  apply runs_inv in R. destruct R as (B & _ & C). cbn [act1] in H1.
  destruct (nth_error (sv_cl s) k) as [c0|] eqn:E; [|discriminate]. destruct (cl_busy c0); [|discriminate]. injection H1 as <-. cbn [sv_cl] in E1. rewrite (replace_in _ _ _ _ _ E), Nat.eqb_refl in E1. injection E1 as <-.
  assert (E0 := replace_in _ _ (readBuffer (sv_g s) c0) _ _ E k). rewrite Nat.eqb_refl in E0. assert (M := read_my _ _ _ _ B (C _ _ _ Es E) L).
  set (c1 := readBuffer (sv_g s) c0) in *. cbn [act1 sv_cl] in H2. rewrite E0 in H2. destruct (cl_busy c1 || cl_dead c1); [discriminate|]. cbn [sv_nar] in H2.
  destruct (sv_nar s) as [n|]; injection H2 as <-; cbn [act1 sv_cl sv_g] in H3.
  - assert (E2 := replace_in _ _ (mkClient (cl_my c1) true false (cl_out c1)) _ _ E0 k). rewrite Nat.eqb_refl in E2. rewrite E2 in H3. cbn [cl_busy] in H3. injection H3 as <-.
    cbn [sv_cl] in E3. rewrite (replace_in _ _ _ _ _ E2), Nat.eqb_refl in E3. injection E3 as <-.
    destruct (read_again hist (sv_g s) (mkClient (cl_my c1) true false (cl_out c1)) B) as (m & Hm & O); [lia|exact M|]. exists m. auto.
  - assert (E2 := replace_in _ _ (mkClient (cl_my c1) false true (cl_out c1)) _ _ E0 k). rewrite Nat.eqb_refl in E2. rewrite E2 in H3. discriminate.
Qed.

(** ** bounds *)
Notation quiet := (quiet pf render).
Theorem quiet_bound : forall s, quiet s -> length (g_arr (sv_g s)) <= 50.
Proof.
  intros s H. induction H as [|s a s' _ IH H Na]; [cbn; lia|]. destruct a as [|k line|k|r| |msg| |draws]; cbn [act1] in H.
  - injection H as <-. auto.
  - destruct (nth_error _ _) as [c|]; [|discriminate]. destruct (_ || _); [discriminate|]. destruct (sv_nar s); injection H as <-; auto.
  - destruct (nth_error _ _) as [c|]; [|discriminate]. destruct (cl_busy c); [|discriminate]. injection H as <-; auto.
  - destruct (sv_nar s) as [n|]; [|discriminate]. destruct (sv_todo s); [|discriminate]. destruct (sv_chan s) as [|l ch]; [discriminate|]. destruct (facade _ _ _ _) as [[[n' q] x]|]; injection H as <-; auto.
  - destruct (sv_todo s) as [|m todo]; [discriminate|]. injection H as <-. cbn [sv_g]. unfold pushLine. set (g1 := mkGlobal _ _). destruct (Nat.ltb_spec 50 (length (g_arr g1))); cbn [g_arr]; [rewrite skipn_length|]; lia.
  - now destruct (Na msg).
  - destruct (sv_nar s) as [n|]; [|discriminate]. destruct (declWork n); [|discriminate]. injection H as <-. auto.
  - destruct (sv_nar s) as [n|]; [|discriminate]. destruct (procWork n draws); [|discriminate]. injection H as <-. auto.
Qed.
Theorem server_unbounded : forall k, exists hist lines starts s, runs hist lines starts s /\ length (g_arr (sv_g s)) = k /\ hist = repeat [] k.
Proof.
  induction k as [|k (hist & lines & starts & s & R & L & Eh)]; [exists [], [], [], start; repeat split; constructor|].
  assert (R' := runs_act _ _ _ _ _ _ (AAnswer []) _ R eq_refl). eexists _, _, _, _. split; [exact R'|]. split; [cbn; rewrite app_length; cbn; lia|]. cbn [said]. subst hist.
  change (repeat [] (S k) : list text) with ([] :: repeat [] k : list text). symmetry. apply repeat_cons.
Qed.

(** ** the reasoner behind the server *)
Theorem server_session : forall hist lines starts s n, runs hist lines starts s -> sv_nar s = Some n -> exists log, session log n.
Proof.
  intros hist lines starts s n R. revert n. induction R as [|hist lines starts s a s' _ IH H]; intros n0 E.
  - injection E as <-. exists []. constructor.
  - destruct a as [|k line|k|r| |msg| |draws]; cbn [act1] in H.
    + injection H as <-. auto.
    + destruct (nth_error _ _) as [c|]; [|discriminate]. destruct (_ || _); [discriminate|]. destruct (sv_nar s) eqn:E2; injection H as <-; cbn [sv_nar] in E; [|discriminate]. injection E as <-. auto.
    + destruct (nth_error _ _) as [c|]; [|discriminate]. destruct (cl_busy c); [|discriminate]. injection H as <-; auto.
    + destruct (sv_nar s) as [n|]; [|discriminate]. destruct (sv_todo s); [|discriminate]. destruct (sv_chan s) as [|l ch]; [discriminate|].
      destruct (facade _ _ _ _) as [[[n' q] x]|] eqn:F; injection H as <-; cbn [sv_nar] in E; [|discriminate]. injection E as <-. destruct (IH n eq_refl) as (log & S0).
      destruct (facade_session _ _ _ _ _ _ _ _ S0 F) as (l2 & S1). eauto.
    + destruct (sv_todo s) as [|m todo]; [discriminate|]. injection H as <-. auto.
    + injection H as <-. auto.
    + destruct (sv_nar s) as [n|]; [|discriminate]. destruct (declWork n) as [n'|] eqn:W; [|discriminate]. injection H as <-. cbn in E. injection E as <-. destruct (IH n eq_refl) as (log & S0). exists log. eapply ss_declWork; eauto.
    + destruct (sv_nar s) as [n|]; [|discriminate]. destruct (procWork n draws) as [n'|] eqn:W; [|discriminate]. injection H as <-. cbn in E. injection E as <-. destruct (IH n eq_refl) as (log & S0). exists log. eapply ss_procWork; eauto.
Qed.
(** lines reach the reasoner in the order they were sent *)
Theorem server_fifo : forall hist lines starts s, runs hist lines starts s -> exists done, lines = done ++ sv_chan s.
Proof.
  intros hist lines starts s R. induction R as [|hist lines starts s a s' _ (done & IH) H]; [exists []; reflexivity|]. subst lines.
  destruct a as [|k line|k|r| |msg| |draws]; cbn [act1] in H; rewrite ?app_nil_r.
  - injection H as <-. eauto.
  - destruct (nth_error _ _) as [c|]; [|discriminate]. destruct (_ || _); [discriminate|]. destruct (sv_nar s); injection H as <-; exists done; cbn [sv_chan]; now rewrite ?app_nil_r, ?app_assoc.
  - destruct (nth_error _ _) as [c|]; [|discriminate]. destruct (cl_busy c); [|discriminate]. injection H as <-; eauto.
  - destruct (sv_nar s) as [n|]; [|discriminate]. destruct (sv_todo s); [|discriminate]. destruct (sv_chan s) as [|l ch]; [discriminate|].
    destruct (facade _ _ _ _) as [[[n' q] x]|] eqn:F; injection H as <-; exists (done ++ [l]); now rewrite <- app_assoc.
  - destruct (sv_todo s) as [|m todo]; [discriminate|]. injection H as <-. eauto.
  - injection H as <-. eauto.
  - destruct (sv_nar s) as [n|]; [|discriminate]. destruct (declWork n) as [n'|] eqn:W; [|discriminate]. injection H as <-. eauto.
  - destruct (sv_nar s) as [n|]; [|discriminate]. destruct (procWork n draws) as [n'|] eqn:W; [|discriminate]. injection H as <-. eauto.
Qed.
(** once the reasoner is dead it stays dead, nothing it had to say is left, and the next line of a client kills its task *)
Theorem server_dead : forall s a s', sv_nar s = None -> act1 s a = Some s' -> sv_nar s' = None /\
  forall k line, a = ALine k line -> exists c, nth_error (sv_cl s') k = Some c /\ cl_dead c = true /\ sv_chan s' = sv_chan s.
Proof.
  intros s a s' D H. destruct a as [|k line|k|r| |msg| |draws]; cbn [act1] in H; rewrite ?D in H; try discriminate.
  - injection H as <-. split; auto. discriminate.
  - destruct (nth_error _ _) as [c|] eqn:E; [|discriminate]. destruct (_ || _); [discriminate|]. injection H as <-. split; auto. intros k' line' Q. injection Q as <- <-.
    exists (mkClient (cl_my c) false true (cl_out c)). cbn [sv_cl sv_chan]. rewrite (replace_in _ _ _ _ _ E), Nat.eqb_refl. auto.
  - destruct (nth_error _ _) as [c|]; [|discriminate]. destruct (cl_busy c); [|discriminate]. injection H as <-. split; auto. discriminate.
  - destruct (sv_todo s) as [|m todo]; [discriminate|]. injection H as <-. split; auto. discriminate.
  - injection H as <-. split; auto. discriminate.
Qed.
(** a client is sent something only after a line of its own *)
Theorem server_silent : forall s a s' k c, act1 s a = Some s' -> nth_error (sv_cl s) k = Some c -> a <> ARead k ->
  exists c', nth_error (sv_cl s') k = Some c' /\ cl_out c' = cl_out c /\ (cl_busy c' = true -> cl_busy c = true \/ exists line, a = ALine k line).
Proof.
  intros s a s' k c H E N. destruct a as [|j line|j|r| |msg| |draws]; cbn [act1] in H.
  - injection H as <-. exists c. cbn [sv_cl]. rewrite nth_error_app1; auto. apply nth_error_Some. congruence.
  - destruct (nth_error (sv_cl s) j) as [c0|] eqn:Ej; [|discriminate]. destruct (_ || _); [discriminate|].
    destruct (sv_nar s); injection H as <-; cbn [sv_cl]; rewrite (replace_in _ _ _ _ _ Ej); (destruct (Nat.eqb_spec k j) as [->|]; [|exists c; auto]);
      (eexists; split; [reflexivity|]); cbn; (split; [congruence|]); [eauto|discriminate].
  - destruct (nth_error (sv_cl s) j) as [c0|] eqn:Ej; [|discriminate]. destruct (cl_busy c0); [|discriminate]. injection H as <-. cbn [sv_cl]. rewrite (replace_in _ _ _ _ _ Ej).
    destruct (Nat.eqb_spec k j) as [->|]; [congruence|]. exists c. auto.
  - destruct (sv_nar s) as [n|]; [|discriminate]. destruct (sv_todo s); [|discriminate]. destruct (sv_chan s) as [|l ch]; [discriminate|].
    destruct (facade _ _ _ _) as [[[n' q] x]|] eqn:F; injection H as <-; eauto.
  - destruct (sv_todo s) as [|m todo]; [discriminate|]. injection H as <-. eauto.
  - injection H as <-. eauto.
  - destruct (sv_nar s) as [n|]; [|discriminate]. destruct (declWork n) as [n'|] eqn:W; [|discriminate]. injection H as <-. eauto.
  - destruct (sv_nar s) as [n|]; [|discriminate]. destruct (procWork n draws) as [n'|] eqn:W; [|discriminate]. injection H as <-. eauto.
Qed.
End Runs.
