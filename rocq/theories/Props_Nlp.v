(** Properties C75 to C79: the small language network. *)
From Coq Require Import ZArith Reals Lra Lia String Ascii List Bool SpecFloat.
From Verif Require Import Base F64_Model Tv_Model Term_Model Sentence_Model Parser_Model Parser_Spec Parser3_Proofs Nar_Model Ad_Model Goal_Proofs Nlp_Model Nlp_Spec Nlp_Proofs Nlp2_Proofs Nlp3_Proofs Nlp4_Proofs Nlp5_Proofs.
Import ListNotations.
Local Open Scope list_scope. Local Open Scope nat_scope.

(** ** C75: input and output of the network *)
Theorem c75_input : forall F (A : arith F) s v, conv_seq_to_nninput A s = Ok v <-> isInput (A0 A) (A1 A) s v.
Proof. intros. apply conv_iff. Qed.
Theorem c75_input_panic : forall F (A : arith F) s, conv_seq_to_nninput A s = Panic <-> ~ fits s.
Proof. intros. apply conv_panic. Qed.
(** different signs give different inputs, unless the sign 33 of an empty place is used *)
Theorem c75_distinct : forall F (A : arith F) s s' v, A0 A <> A1 A -> ~ In 33 s -> ~ In 33 s' ->
  conv_seq_to_nninput A s = Ok v -> conv_seq_to_nninput A s' = Ok v -> s = s'.
Proof.
  intros F A s s' v D N N' H H'. apply conv_iff in H, H'. destruct H as ((L & C) & _ & H), H' as ((L' & C') & _ & H').
  assert (Sg : forall k, k < 12 -> signAt s k = signAt s' k).
  { intros k Hk. assert (Lt : signAt s k < 34).
    { unfold signAt. destruct (nth_error (repeat 33 (12 - length s) ++ s) k) as [c|] eqn:E; [|lia]. apply nth_error_In in E. apply in_app_or in E. destruct E as [E|E]; [apply repeat_spec in E; lia|auto]. }
    specialize (H k _ Hk Lt). specialize (H' k _ Hk Lt). rewrite H, Nat.eqb_refl in H'. injection H' as H'. destruct (Nat.eqb_spec (signAt s k) (signAt s' k)); auto. congruence. }
  assert (E : repeat 33 (12 - length s) ++ s = repeat 33 (12 - length s') ++ s').
  { apply nth_ext'; [rewrite !app_length, !repeat_length; lia|]. intros i Hi. rewrite app_length, repeat_length in Hi. specialize (Sg i ltac:(lia)). unfold signAt in Sg.
    destruct (nth_error (repeat 33 (12 - length s) ++ s) i) eqn:E1; [|apply nth_error_None in E1; rewrite app_length, repeat_length in E1; lia].
    destruct (nth_error (repeat 33 (12 - length s') ++ s') i) eqn:E2; [|apply nth_error_None in E2; rewrite app_length, repeat_length in E2; lia]. congruence. }
  assert (G : forall a b (x y : list nat), ~ In 33 x -> ~ In 33 y -> repeat 33 a ++ x = repeat 33 b ++ y -> x = y).
  { clear. induction a as [|a IH]; intros [|b] x y Nx Ny E; cbn [repeat app] in E; auto.
    - exfalso. apply Nx. rewrite E. now left.
    - exfalso. apply Ny. rewrite <- E. now left.
    - injection E as E. eauto. }
  eapply G; eauto.
Qed.
(** signs of the words *)
Theorem c75_signs : forall w base, (do pos <- conv_tokens_to_poss w; prot_pos0 pos) = Ok base <-> signsOf w base.
Proof. apply signs_iff. Qed.
Theorem c75_signs_panic : forall w, (do pos <- conv_tokens_to_poss w; prot_pos0 pos) = Panic <-> exists x, In x w /\ ~ known x.
Proof. apply signs_panic. Qed.
(** what comes out, in any arithmetic, operation by operation *)
Theorem c75_forward : forall F (A : arith F) n0 n1 nn s v, shaped n0 n1 nn -> isInput (A0 A) (A1 A) s v ->
  exists out, forward A nn v = Ok out /\ length out = n1 /\ forall o, o < n1 -> nth_error (map fst out) o = Some (output A nn n0 (inputVal A s) o).
Proof.
  intros F A n0 n1 nn s v S I. destruct (forward_output A n0 n1 nn s v S I) as (out & E & L & H). exists out. split; auto. split; auto. intros o Ho. rewrite nth_error_map, H by assumption. reflexivity.
Qed.
Theorem c75_forward_panic : forall F (A : arith F) nn v, forward A nn v = Panic <->
  length nn < 2 \/ (exists l0 l1 rest, nn = l0 :: l1 :: rest /\
    ((exists n, In n l0 /\ length (w_weights n) <> length v) \/ (exists n, In n l1 /\ length (w_weights n) <> length l0))).
Proof. intros. apply forward_panic. Qed.
Example c75_ex : exists v, conv_seq_to_nninput f64_arith [2; 0; 1; 7] = Ok v /\ length v = 408 /\
  filter (fun i => match nth_error v i with Some (x, _) => SFeqb x f1 | None => false end) (seq 0 408) =
    map (fun k => 34 * k + 33) (seq 0 8) ++ [34 * 8 + 2; 34 * 9 + 0; 34 * 10 + 1; 34 * 11 + 7].
Proof. eexists. split; [vm_compute; reflexivity|]. split; reflexivity. Qed.
Example c75_ex_words : (do pos <- conv_tokens_to_poss (words (tx "Tom is fast")); prot_pos0 pos) = Ok [2; 0; 1; 7] /\
  signsOf (words (tx "Tom is fast")) [2; 0; 1; 7].
Proof. assert (E : (do pos <- conv_tokens_to_poss (words (tx "Tom is fast")); prot_pos0 pos) = Ok [2; 0; 1; 7]) by reflexivity. split; [exact E|]. now apply c75_signs. Qed.

(** ** C76: a run *)
Theorem c76_winner : forall v w, calc_max_onehot_idx v = w <-> wins (map fst v) w.
Proof. apply calc_iff. Qed.
Theorem c76_one_winner : forall v a b, wins v a -> wins v b -> a = b.
Proof. apply wins_unique. Qed.
Theorem c76_run : forall d w log rels d', network_run d w = Ok (log, rels, d') <->
  exists nn base, readyNet d nn /\ dk_log d = false /\ signsOf w base /\ talk nn base log /\ over log /\ told w log rels /\ d' = mkDisk (dk_db d) true.
Proof. apply run_iff. Qed.
Theorem c76_run_panic : forall d w nn n0 n1 base, readyNet d nn -> shaped n0 n1 nn -> n1 <= 16 -> dk_log d = false -> signsOf w base ->
  (network_run d w = Panic <->
   exists l, talk nn base l /\ ongoing l /\ (forall a, In a l -> needs a <= length w) /\
     (11 < length w + length l \/ exists a, answers nn (said base l) a /\ length w < needs a)).
Proof. apply run_panic. Qed.
Theorem c76_unready : forall d w, (~ (exists nn, readyNet d nn)) \/ dk_log d = true \/ (exists x, In x w /\ ~ known x) -> network_run d w = Panic.
Proof. apply run_unready. Qed.
(** Finding: after one run every other one panics, because the log file exists *)
Theorem c76_only_once : forall d w log rels d' w', network_run d w = Ok (log, rels, d') -> network_run d' w' = Panic.
Proof. intros d w log rels d' w' H. apply run_iff in H. destruct H as (nn & base & _ & _ & _ & _ & _ & _ & ->). apply run_unready. right. now left. Qed.
(** Finding: more than eleven words panic *)
Theorem c76_long : forall d w nn n0 n1, readyNet d nn -> shaped n0 n1 nn -> n1 <= 16 -> 11 < length w -> network_run d w = Panic.
Proof.
  intros d w nn n0 n1 R S L Lw. destruct (dk_log d) eqn:E; [apply run_unready; auto|]. destruct (do pos <- conv_tokens_to_poss w; prot_pos0 pos) as [base|] eqn:B; [|apply signs_panic in B; apply run_unready; auto].
  apply signs_iff in B. eapply run_panic; eauto. exists []. split; [apply talk_nil|]. split; [split; [auto|cbn; lia]|]. split; [intros a []|]. left. cbn [length]. lia.
Qed.
(** the samples are the beginnings of the lessons *)
Definition lessons : list (list kind * list nat) :=
  [([ProperNoun; Is; Adj; And; Adj], [1; 7; 0]); ([Can; ProperNoun; Verb; Mark], [12; 0]); ([Noun; Is; The; Noun], [11; 0]); ([ProperNoun; Is; Adj], [1; 0]);
   ([Noun; Is; Noun], [1; 0]); ([ProperNoun; And; ProperNoun; Are; Adj], [2; 3; 0]); ([Noun; Want; To; Verb], [4; 0]); ([Noun; Are; Noun], [1; 0])].
Lemma lesson_iff : forall ks c, lesson ks c <-> In (ks, c) lessons.
Proof.
  intros ks c. split; [intros H; destruct H; cbn; tauto|]. intros H. cbn in H. repeat (destruct H as [E|H]; [injection E as <- <-; constructor|]). contradiction.
Qed.
Lemma samples_are : trainingSamples = Ok (flat_map (fun kc => samplesOf (map kindSign (fst kc) ++ [7]) (snd kc)) lessons).
Proof. reflexivity. Qed.
Lemma samplesOf_iff : forall base control s o, In (s, o) (samplesOf base control) <-> exists before after, control = before ++ o :: after /\ s = said base before.
Proof.
  intros base control s o. unfold samplesOf. rewrite in_map_iff. split.
  - intros (i & E & Hi). apply in_seq in Hi. injection E as <- <-. destruct (nth_error control i) as [a|] eqn:N; [|apply nth_error_None in N; lia]. rewrite (nth_error_nth _ _ _ N). apply nth_error_split in N.
    destruct N as (b & c & -> & <-). exists b, c. split; auto. rewrite firstn_app, firstn_all, Nat.sub_diag, firstn_O, app_nil_r. reflexivity.
  - intros (b & c & -> & ->). exists (length b). split; [|apply in_seq; rewrite app_length; cbn; lia]. rewrite firstn_app, firstn_all, Nat.sub_diag, firstn_O, app_nil_r, app_nth2, Nat.sub_diag by lia. reflexivity.
Qed.
Theorem c76_samples : exists ts, trainingSamples = Ok ts /\
  forall s o, In (s, o) ts <-> exists ks before after, lesson ks (before ++ o :: after) /\ s = said (map kindSign ks ++ [7]) before.
Proof.
  eexists. split; [apply samples_are|]. intros s o. rewrite in_flat_map. split.
  - intros ((ks & c) & Hk & H). cbn [fst snd] in H. apply samplesOf_iff in H. destruct H as (b & a & -> & ->). apply lesson_iff in Hk. eauto.
  - intros (ks & b & a & L & ->). apply lesson_iff in L. exists (ks, b ++ o :: a). split; auto. cbn [fst snd]. apply samplesOf_iff. eauto.
Qed.
(** no two samples contradict each other *)
Theorem c76_consistent : forall ts s o o', trainingSamples = Ok ts -> In (s, o) ts -> In (s, o') ts -> o = o'.
Proof.
  intros ts s o o' E H H'. assert (T : forallb (fun x => forallb (fun y => if list_eq_dec Nat.eq_dec (fst x) (fst y) then Nat.eqb (snd x) (snd y) else true) ts) ts = true).
  { revert E. vm_compute. intros E. injection E as <-. reflexivity. }
  rewrite forallb_forall in T. specialize (T _ H). rewrite forallb_forall in T. specialize (T _ H'). cbn [fst snd] in T. destruct (list_eq_dec Nat.eq_dec s s); [|contradiction]. now apply Nat.eqb_eq.
Qed.
(** a network that answers every sample repeats every lesson, whatever the words *)
Lemma kinds_signs : forall w ks, ofKinds w ks -> signsOf w (map kindSign ks ++ [7]).
Proof.
  intros w ks H. exists (map kindSign ks). split; auto. induction H as [|x k w ks (s & E & K) H IH]; cbn [map]; constructor; eauto.
Qed.
Lemma told_total : forall w log, (forall a, In a log -> needs a <= length w) -> exists rels, told w log rels.
Proof.
  induction log as [|a log IH]; intros H; [exists []; constructor|]. destruct IH as (rs & T); [intros b Hb; apply H; now right|]. destruct (relOf w a) as [o|] eqn:E; [|apply relOf_panic in E; specialize (H a (or_introl eq_refl)); lia].
  eexists. apply told_cons. exists o, rs. auto.
Qed.
Theorem c76_learned : forall ts d nn w ks control, trainingSamples = Ok ts -> (forall s o, In (s, o) ts -> answers nn s o) ->
  readyNet d nn -> dk_log d = false -> lesson ks control -> ofKinds w ks ->
  exists rels, network_run d w = Ok (control, rels, mkDisk (dk_db d) true) /\ told w control rels.
Proof.
  intros ts d nn w ks control T H R Lg Ls K. assert (Len : length w = length ks) by (clear -K; induction K; cbn; auto).
  destruct (told_total w control) as (rels & To). { rewrite Len. intros a Ha. destruct Ls; cbn in Ha; repeat (destruct Ha as [<-|Ha]; [cbn; lia|]); contradiction. }
  exists rels. split; auto. apply run_iff. exists nn, (map kindSign ks ++ [7]). split; auto. split; auto. split; [now apply kinds_signs|]. split; [|split; [|split; auto]].
  - apply samples_talk. intros s o Hs. assert (Et : ts = flat_map (fun kc => samplesOf (map kindSign (fst kc) ++ [7]) (snd kc)) lessons) by (rewrite samples_are in T; congruence). apply H. rewrite Et. apply in_flat_map. exists (ks, control). split; [now apply lesson_iff|exact Hs].
  - left. destruct Ls; [exists [1; 7]|exists [12]|exists [11]|exists [1]|exists [1]|exists [2; 3]|exists [4]|exists [1]]; (split; [reflexivity|]); (split; [cbn; lia|cbn; lia]).
Qed.
(** such a network of the size used exists *)
Definition tN (l : list (nat * f64)) (bias : f64) (n : nat) : wb f64 :=
  mkWb (fold_left (fun w p => replace_at (fst p) (snd p, f0) w) l (repeat (f0, f0) n)) (bias, f0).
Definition tAt (place sign : nat) : nat := 34 * place + sign.
Definition f716 : f64 := f_frac 7 16.
Definition taught : nlpnet f64 :=
  [[tN [] f05 408; tN [(tAt 11 7, f_frac 3 4)] f0 408; tN [(tAt 7 3, f716); (tAt 9 6, f716)] f0 408; tN [(tAt 11 20, f1)] f0 408; tN [(tAt 9 9, f1)] f0 408;
    tN [(tAt 11 19, f716); (tAt 8 3, f716)] f0 408; tN [(tAt 9 8, f1)] f0 408; tN [(tAt 10 13, f1)] f0 408; tN [] f0 408];
   map (fun o => match o with 0 => tN [(0, f1)] f0 9 | 1 => tN [(1, f1)] f0 9 | 2 => tN [(2, f1)] f0 9 | 3 => tN [(3, f1)] f0 9 | 4 => tN [(4, f1)] f0 9
                 | 7 => tN [(5, f1)] f0 9 | 11 => tN [(6, f1)] f0 9 | 12 => tN [(7, f1)] f0 9 | _ => tN [] f0 9 end) (seq 0 15)].
Lemma taught_shaped : shaped 9 15 taught.
Proof.
  eexists _, _. split; [reflexivity|]. split; [reflexivity|]. split; [reflexivity|].
  split; intros n H; apply (In_nth_error) in H; destruct H as (i & H); do 16 (destruct i as [|i]; [try discriminate; vm_compute in H; injection H as <-; reflexivity|]); destruct i; discriminate.
Qed.
Lemma taught_answers : forall ts s o, trainingSamples = Ok ts -> In (s, o) ts -> answers taught s o.
Proof.
  intros ts s o T H. assert (G : forallb (fun so => match (do v <- conv_seq_to_nninput f64_arith (fst so); forward f64_arith taught v) with Ok out => Nat.eqb (calc_max_onehot_idx out) (snd so) | Panic => false end) ts = true).
  { rewrite samples_are in T. injection T as <-. vm_compute. reflexivity. }
  rewrite forallb_forall in G. specialize (G _ H). cbn [fst snd] in G. apply answers_iff. destruct (conv_seq_to_nninput f64_arith s) as [v|]; [|discriminate]. cbn [rbind] in G. destruct (forward f64_arith taught v) as [out|] eqn:E; [|discriminate].
  apply Nat.eqb_eq in G. eauto.
Qed.
Theorem c76_learnable : exists nn, shaped 9 15 nn /\ forall ts s o, trainingSamples = Ok ts -> In (s, o) ts -> answers nn s o.
Proof. exists taught. split; [apply taught_shaped|apply taught_answers]. Qed.
Definition tDisk : disk := mkDisk (Some (fst (nn_store taught))) false.
Example c76_ex : network_run tDisk (words (tx "Tim is fast and good")) =
  Ok ([1; 7; 0], [mkRel (tx "is") [tx "Tim"; tx "fast"] false f0998; mkRel (tx "is") [tx "Tim"; tx "good"] false f0998], mkDisk (dk_db tDisk) true).
Proof. vm_compute. reflexivity. Qed.
(** Finding: of the sentences in the comments beside the lessons, four contain words the
    network does not know and one is of other kinds than its lesson *)
Example c76_ex_comments : ~ known (tx "fly") /\ ~ known (tx "ant") /\ network_run tDisk (words (tx "can Tom fly ?")) = Panic /\
  (forall ks, ofKinds (words (tx "Cat want food")) ks -> ks = [Noun; Want; Noun]) /\ ~ exists c, lesson [Noun; Want; Noun] c.
Proof.
  assert (K : forall w, conv_tokens_to_poss [w] = Panic -> ~ known w).
  { intros w E. assert (P : (do pos <- conv_tokens_to_poss [w]; prot_pos0 pos) = Panic) by now rewrite E. apply signs_panic in P. destruct P as (x & [<-|[]] & N). exact N. }
  split; [apply K; reflexivity|]. split; [apply K; reflexivity|]. split.
  { assert (E : words (tx "can Tom fly ?") = [tx "can"; tx "Tom"; tx "fly"; tx "?"]) by reflexivity. rewrite E. apply run_unready. right. right. exists (tx "fly"). split; [right; right; left; reflexivity|apply K; reflexivity]. }
  split.
  - intros ks H. apply kinds_signs in H. apply signs_iff in H. vm_compute in H. injection H as H.
    destruct ks as [|k1 ks]; [discriminate|]. destruct k1; try discriminate H. destruct ks as [|k2 ks]; [discriminate|]. destruct k2; try discriminate H.
    destruct ks as [|k3 ks]; [discriminate|]. destruct k3; try discriminate H. destruct ks as [|k4 ks]; [reflexivity|]. destruct k4, ks; discriminate H.
  - intros (c & H). inversion H.
Qed.

(** ** C77: the reasoner reads the relations *)
Theorem c77_read : forall sh pf w log rels, told w log rels -> (forall x, In x w -> known x) -> shows sh pf f1 -> shows sh pf f0998 ->
  Forall (fun r => exists i o, conv_rel_to_narsese sh r = Ok i /\ readAs r o /\ parseNarsese pf i = Ok o) rels.
Proof. apply rel_read. Qed.
Theorem c77_process : forall sh pf d i r n n', shows sh pf f1 -> shows sh pf f0998 ->
  ln_net r i = rmap fst (nlpTexts sh d i) ->
  (nlpProcess pf n i r = Ok n' <->
   exists ws log rels d' os k, wordsIn true i ws /\ network_run d ws = Ok (log, rels, d') /\ Forall2 readAs rels os /\ rfold (feed (ln_draws r)) os (n, O) = Ok (n', k)).
Proof.
  intros sh pf d i r n n' S1 S2 L. rewrite (process_iff sh pf d i r n n' S1 S2 L). split.
  - intros (log & rels & d' & os & k & H). exists (words (spreadMarks i)), log, rels, d', os, k. split; [now apply spoken_iff|exact H].
  - intros (ws & log & rels & d' & os & k & W & H). apply spoken_iff in W. subst ws. eauto 8.
Qed.
(** words stand between spaces; for the network a question mark is one of its own *)
Theorem c77_words : forall i ws, words i = ws <-> wordsIn false i ws.
Proof. apply words_iff. Qed.
Theorem c77_spoken : forall i ws, words (spreadMarks i) = ws <-> wordsIn true i ws.
Proof. apply spoken_iff. Qed.
Example c77_spoken_ex : wordsIn true (tx " is Tom?fast  ?") [tx "is"; tx "Tom"; mark; tx "fast"; mark] /\ words (tx " is Tom?fast  ?") = [tx "is"; tx "Tom?fast"; mark].
Proof. split; [apply c77_spoken|]; reflexivity. Qed.
(** Finding: a relation with a question mark in it is lost *)
Theorem c77_mark_lost : forall sh pf w log rels r, told w log rels -> (forall x, In x w -> known x) -> shows sh pf f1 -> shows sh pf f0998 -> In r rels ->
  (In mark (rel_head r :: rel_args r) <-> exists i, conv_rel_to_narsese sh r = Ok i /\ parseNarsese pf i = Ok None).
Proof.
  intros sh pf w log rels r T K S1 S2 H. pose proof (rel_read sh pf w log rels T K S1 S2) as Fa. rewrite Forall_forall in Fa. destruct (Fa r H) as (i & o & E & Rd & P). split.
  - intros M. exists i. split; auto. rewrite P. destruct Rd as [h a b c Nh Na Nb|]; [|reflexivity]. exfalso. cbn [In rel_head rel_args] in M. destruct M as [M|[M|[M|[]]]]; congruence.
  - intros (i' & E' & P'). assert (i' = i) by congruence. subst. assert (o = None) by congruence. subst. inversion Rd as [|h a b c M]; subst. cbn [In rel_head rel_args]. tauto.
Qed.
Definition tShow (v : f64) : text := if SFeqb v f1 then tx "1" else tx "0.998".
Definition tRead (t : text) : option f64 := if text_eqb t (tx "1") then Some f1 else if text_eqb t (tx "0.998") then Some f0998 else None.
Example c77_shows : shows tShow tRead f1 /\ shows tShow tRead f0998.
Proof.
  split; (split; [|reflexivity]); unfold numText; vm_compute tShow; intros c H; cbn in H; repeat (destruct H as [<-|H]; [repeat split; [apply Nat.ltb_lt; reflexivity|discriminate|discriminate|discriminate]|]); contradiction.
Qed.
Example c77_ex : exists d', nlpTexts tShow tDisk (tx "Tim is fast and good") = Ok ([tx "<(Tim*fast) --> is>. {1 0.998}"; tx "<(Tim*good) --> is>. {1 0.998}"], d') /\
  parseNarsese tRead (tx "<(Tim*good) --> is>. {1 0.998}") = Ok (Some (Stmt INH (Prod [Name "Tim"; Name "good"]) (Name "is"), mkTv f1 f0998, JUGEMENT, false)).
Proof. eexists. split; vm_compute; reflexivity. Qed.
Example c77_ex_mark : told [tx "Tim"; tx "is"; mark] [1] [mkRel (tx "is") [tx "Tim"; mark] false f0998] /\
  parseNarsese tRead (tx "<(Tim*?) --> is>. {1 0.998}") = Ok None.
Proof. split; [|vm_compute; reflexivity]. apply told_rel; [|constructor]. now apply says1. Qed.

(** ** C78: storing and loading *)
Theorem c78_load : forall nn k, noNan nn -> nn <> [] -> (forall layer, In layer nn -> layer <> []) -> nn_load (fst (nn_store (nn ++ repeat [] k))) = Ok (plainNet nn) /\ snd (nn_store (nn ++ repeat [] k)) = true.
Proof.
  intros nn k N Ne Fu. split; [now apply store_load|]. rewrite store_plain; [reflexivity|]. intros v Hv. apply N. unfold numbers in *. rewrite flat_map_app in Hv. apply in_app_or in Hv. destruct Hv as [Hv|Hv]; auto.
  exfalso. apply in_flat_map in Hv. destruct Hv as (l & Hl & Hv). apply repeat_spec in Hl. subst. contradiction.
Qed.
Theorem c78_panic : forall nn, noNan nn -> (nn_load (fst (nn_store nn)) = Panic <-> (forall layer, In layer nn -> layer = []) \/ exists a b layer, nn = a ++ [] :: b /\ In layer b /\ layer <> []).
Proof. apply store_load_panic. Qed.
(** a stored network that was loaded before is the same one *)
Theorem c78_again : forall nn, noNan nn -> nn <> [] -> (forall layer, In layer nn -> layer <> []) -> nn_load (fst (nn_store (plainNet nn))) = Ok (plainNet nn).
Proof.
  intros nn N Ne Fu. pose proof (flat_plain nn) as Fp. pose proof (store_load (plainNet nn) 0) as S. cbn [repeat] in S. rewrite app_nil_r in S.
  assert (I : plainNet (plainNet nn) = plainNet nn).
  { unfold plainNet. rewrite map_map. apply map_ext. intros l. rewrite map_map. apply map_ext. intros n. unfold plainNeuron. cbn [w_weights w_bias]. rewrite map_map.
    assert (P : forall p, plainNum (plainNum p) = plainNum p) by (intros ([]&q); reflexivity). f_equal; [apply map_ext; intros; apply P|apply P]. }
  rewrite S, I; auto.
  - intros v Hv. unfold numbers, plainNet in Hv. apply in_flat_map in Hv. destruct Hv as (l & Hl & Hv). apply in_map_iff in Hl. destruct Hl as (l' & <- & Hl). apply in_flat_map in Hv. destruct Hv as (n & Hn & Hv). apply in_map_iff in Hn. destruct Hn as (n' & <- & Hn).
    assert (P : exists p, v = fst (plainNum p) /\ In (fst p) (fst (w_bias n') :: map fst (w_weights n'))).
    { destruct Hv as [Hv|Hv]; [exists (w_bias n'); split; [now symmetry|now left]|]. cbn [plainNeuron w_weights] in Hv. rewrite map_map in Hv. apply in_map_iff in Hv. destruct Hv as (p & <- & Hp). exists p. split; auto. right. now apply in_map. }
    destruct P as (p & -> & Hp). assert (fst p <> S754_nan). { apply N. unfold numbers. apply in_flat_map. exists l'. split; auto. apply in_flat_map. exists n'. split; auto. } destruct p as ([] & q); cbn in *; try discriminate; congruence.
  - now destruct nn.
  - now apply plain_full.
Qed.
(** Finding: with a NaN the storing stops there, nobody looks at the result, and the
    rest of the network is missing *)
Theorem c78_nan : forall nn, ~ noNan nn -> snd (nn_store nn) = false /\
  exists a r b, netRows nn = a ++ r :: b /\ r_value r = S754_nan /\ (forall x, In x a -> r_value x <> S754_nan) /\ length (fst (nn_store nn)) = length a.
Proof.
  intros nn H. assert (E : exists r, In r (netRows nn) /\ r_value r = S754_nan).
  { destruct (existsb (fun r => fis_nan (r_value r)) (netRows nn)) eqn:X.
    - apply existsb_exists in X. destruct X as (r & Hr & Nr). exists r. split; auto. destruct (r_value r); try discriminate. reflexivity.
    - exfalso. apply H. intros v Hv Nv. apply row_values in Hv. apply in_map_iff in Hv. destruct Hv as (r & <- & Hr). assert (Y : existsb (fun r => fis_nan (r_value r)) (netRows nn) = true); [|congruence]. apply existsb_exists. exists r. split; auto. now rewrite Nv. }
  apply insert_nan in E. destruct E as (a & r & b & E1 & E2 & E3 & E4). unfold nn_store. rewrite E4. split; [reflexivity|]. exists a, r, b. split; auto. split; auto. split; auto. cbn [fst]. now rewrite map_length.
Qed.
Theorem c78_nan_refuted : exists nn nn', shaped 9 15 nn /\ nn_load (fst (nn_store nn)) = Ok nn' /\ length nn' < length nn.
Proof.
  exists [nth 0 taught []; map (fun n => mkWb (w_weights n) (S754_nan, f0)) (nth 1 taught [])], [nth 0 taught []]. split; [|split; [vm_compute; reflexivity|cbn; lia]].
  destruct taught_shaped as (l0 & l1 & E & L0 & L1 & W0 & W1). rewrite E. cbn [nth]. eexists _, _. split; [reflexivity|]. rewrite map_length. split; auto. split; auto. split; auto. intros n Hn. apply in_map_iff in Hn. destruct Hn as (m & <- & Hm). cbn. auto.
Qed.
Example c78_ex : nn_load (fst (nn_store taught)) = Ok taught /\
  nn_load (fst (nn_store [[mkWb [(fneg f0, f1); (f1, f1)] (f0998, f05)]])) = Ok [[mkWb [(f0, f0); (f1, f0)] (f0998, f0)]].
Proof. split; vm_compute; reflexivity. Qed.

(** ** C79: learning *)
Local Open Scope R_scope.
(** a step goes against the slope of the chosen output in the chosen number, and that slope
    is exact: the outputs are affine in every single number *)
Theorem c79_step : forall n0 n1 lo hi lr nn l j k x s out o, shaped n0 n1 nn -> unmarked 0 nn -> number nn l j k = Some (x, 0) -> fits s -> (out < n1)%nat -> (o < n1)%nat ->
  exists nn' g, trainStep R_arith lo hi lr nn l j k s out o = Ok nn' /\ shaped n0 n1 nn' /\ unmarked 0 nn' /\
    (forall y nny, differsAt l j k y nn nny -> output R_arith nny n0 (inputVal R_arith s) o = output R_arith nn n0 (inputVal R_arith s) o + (y - x) * g) /\
    differsAt l j k (x - lr * (output R_arith nn n0 (inputVal R_arith s) o - (if Nat.eqb o out then hi else lo)) * g) nn nn'.
Proof. apply step_gradient. Qed.
(** the error of the output shrinks by a factor, unless the rate is too great *)
Theorem c79_error : forall n0 n1 lo hi lr nn l j k x s out o, shaped n0 n1 nn -> unmarked 0 nn -> number nn l j k = Some (x, 0) -> fits s -> (out < n1)%nat -> (o < n1)%nat ->
  exists nn' g, trainStep R_arith lo hi lr nn l j k s out o = Ok nn' /\
    (forall y nny, differsAt l j k y nn nny -> output R_arith nny n0 (inputVal R_arith s) o = output R_arith nn n0 (inputVal R_arith s) o + (y - x) * g) /\
    output R_arith nn' n0 (inputVal R_arith s) o - (if Nat.eqb o out then hi else lo) =
      (1 - lr * (g * g)) * (output R_arith nn n0 (inputVal R_arith s) o - (if Nat.eqb o out then hi else lo)) /\
    (0 <= lr * (g * g) <= 2 ->
     Rabs (output R_arith nn' n0 (inputVal R_arith s) o - (if Nat.eqb o out then hi else lo)) <= Rabs (output R_arith nn n0 (inputVal R_arith s) o - (if Nat.eqb o out then hi else lo))).
Proof.
  intros n0 n1 lo hi lr nn l j k x s out o S U P Ft Lo1 Lo2. destruct (step_gradient n0 n1 lo hi lr nn l j k x s out o S U P Ft Lo1 Lo2) as (nn' & g & E & _ & _ & G & D).
  exists nn', g. split; auto. split; auto. rewrite (G _ _ D). set (t := if Nat.eqb o out then hi else lo). set (y := output R_arith nn n0 (inputVal R_arith s) o).
  assert (Eq : y + (x - lr * (y - t) * g - x) * g - t = (1 - lr * (g * g)) * (y - t)) by ring. split; [exact Eq|]. intros B. rewrite Eq, Rabs_mult.
  assert (Rabs (1 - lr * (g * g)) <= 1) by (apply Rabs_le; lra). pose proof (Rabs_pos (y - t)). nra.
Qed.
(** Finding: a number of another output neuron than the chosen output stays as it is *)
Theorem c79_wasted : forall n0 n1 lo hi lr nn j k x s out o, shaped n0 n1 nn -> unmarked 0 nn -> number nn 1 j k = Some (x, 0) -> fits s -> (out < n1)%nat -> (o < n1)%nat -> j <> o ->
  exists nn', trainStep R_arith lo hi lr nn 1 j k s out o = Ok nn' /\ forall l' j' k', number nn' l' j' k' = number nn l' j' k'.
Proof.
  intros n0 n1 lo hi lr nn j k x s out o S U P Ft Lo1 Lo2 Ne. destruct (step_gradient n0 n1 lo hi lr nn 1 j k x s out o S U P Ft Lo1 Lo2) as (nn' & g & E & _ & _ & G & D). exists nn'. split; auto.
  destruct (upd_ok 1 j k (fun p => (x + 1, snd p)) nn _ P) as (nny & _ & Ny & _).
  assert (Dy : differsAt 1 j k (x + 1) nn nny). { intros l' j' k'. rewrite Ny, P. reflexivity. }
  assert (Oy : output R_arith nny n0 (inputVal R_arith s) o = output R_arith nn n0 (inputVal R_arith s) o).
  { assert (V : forall k', number nny 1 o k' = number nn 1 o k'). { intros k'. rewrite Ny. unfold same. destruct (Nat.eqb_spec o j); [congruence|]. reflexivity. }
    assert (V0 : forall j' k', number nny 0 j' k' = number nn 0 j' k') by (intros j' k'; rewrite Ny; reflexivity).
    unfold output. rewrite V. f_equal. apply sum_ext. intros i _. rewrite V. f_equal. unfold inner. rewrite V0. f_equal. apply sum_ext. intros m _. now rewrite V0. }
  rewrite (G _ _ Dy) in Oy. assert (g = 0) by lra. subst g. intros l' j' k'. rewrite D, P. fold (same 1 j k l' j' k'). destruct (same 1 j k l' j' k') eqn:Sm; auto.
  apply same_eq in Sm. destruct Sm as (-> & -> & ->). rewrite P. cbn [snd]. do 2 f_equal. ring.
Qed.
(** Finding: so does an inner weight whose input is 0; of the 408 inputs 12 are not *)
Theorem c79_silent : forall n0 n1 lo hi lr nn j i x s out o, shaped n0 n1 nn -> unmarked 0 nn -> number nn 0 j (Some i) = Some (x, 0) -> fits s -> (out < n1)%nat -> (o < n1)%nat ->
  (i mod 34)%nat <> signAt s (i / 34) ->
  exists nn', trainStep R_arith lo hi lr nn 0 j (Some i) s out o = Ok nn' /\ forall l' j' k', number nn' l' j' k' = number nn l' j' k'.
Proof.
  intros n0 n1 lo hi lr nn j i x s out o S U P Ft Lo1 Lo2 Ne. destruct (step_gradient n0 n1 lo hi lr nn 0 j (Some i) x s out o S U P Ft Lo1 Lo2) as (nn' & g & E & _ & _ & G & D). exists nn'. split; auto.
  destruct (upd_ok 0 j (Some i) (fun p => (x + 1, snd p)) nn _ P) as (nny & _ & Ny & _).
  assert (Dy : differsAt 0 j (Some i) (x + 1) nn nny). { intros l' j' k'. rewrite Ny, P. reflexivity. }
  assert (Oy : output R_arith nny n0 (inputVal R_arith s) o = output R_arith nn n0 (inputVal R_arith s) o).
  { assert (V1 : forall k', number nny 1 o k' = number nn 1 o k') by (intros k'; rewrite Ny; reflexivity).
    unfold output. rewrite V1. f_equal. apply sum_ext. intros j' _. rewrite V1. f_equal. unfold inner. f_equal.
    - apply sum_ext. intros m _. rewrite Ny. destruct (same 0 j (Some i) 0 j' (Some m)) eqn:Sm; [|reflexivity]. apply same_eq in Sm. destruct Sm as (_ & -> & Em). injection Em as ->. unfold inputVal.
      destruct (Nat.eqb_spec (i mod 34) (signAt s (i / 34))); [contradiction|]. cbn. ring.
    - rewrite Ny. unfold same. now rewrite andb_false_r. }
  rewrite (G _ _ Dy) in Oy. assert (g = 0) by lra. subst g. intros l' j' k'. rewrite D, P. fold (same 0 j (Some i) l' j' k'). destruct (same 0 j (Some i) l' j' k') eqn:Sm; auto.
  apply same_eq in Sm. destruct Sm as (-> & -> & ->). rewrite P. cbn [snd]. do 2 f_equal. ring.
Qed.
(** a network with one neuron in each layer, output 2*3+1 where 1 is wanted *)
Definition rNet (b : R) : nlpnet R := [[mkWb (repeat (0, 0) 408) (2, 0)]; [mkWb [(3, 0)] (b, 0)]].
Lemma rNet_output : forall b v, output R_arith (rNet b) 1 v 0 = 6 + b.
Proof.
  intros b v. assert (N : forall i, val 0 (number (rNet b) 0 0 (Some i)) = 0).
  { intros i. unfold number, rNet. cbn [nth_error w_weights]. destruct (nth_error (repeat (0, 0) 408) i) as [p|] eqn:E; [|reflexivity]. apply nth_error_In, repeat_spec in E. subst. reflexivity. }
  assert (Z : forall n, sumOver R_arith (fun i => v i * val 0 (number (rNet b) 0 0 (Some i))) n = 0). { induction n as [|n IH]; [reflexivity|]. cbn [sumOver Aadd R_arith]. rewrite IH, N. ring. }
  assert (I : inner R_arith (rNet b) v 0 = 2). { unfold inner. cbn [Aadd Amul A0 R_arith]. rewrite Z. cbn. ring. }
  unfold output. cbn [sumOver]. rewrite I. cbn. ring.
Qed.
Example c79_ex_step : exists nn', trainStep R_arith 0 1 (1 / 10) (rNet 1) 1 0 None [7%nat] 0 0 = Ok nn' /\ number nn' 1 0 None = Some (4 / 10, 0) /\
  output R_arith nn' 1 (inputVal R_arith [7%nat]) 0 - 1 = 9 / 10 * (output R_arith (rNet 1) 1 (inputVal R_arith [7%nat]) 0 - 1).
Proof.
  assert (S : shaped 1 1 (rNet 1)). { eexists _, _. split; [reflexivity|]. split; [reflexivity|]. split; [reflexivity|]. split; intros n [<-|[]]; [|reflexivity]. cbn [w_weights]. now rewrite repeat_length. }
  assert (U : unmarked 0 (rNet 1)).
  { intros l j k p H. unfold number in H. destruct (nth_error (rNet 1) l) as [y|] eqn:L; [|discriminate]. destruct (nth_error y j) as [n|] eqn:N; [|discriminate]. apply nth_error_In in L, N.
    assert (G : snd (w_bias n) = 0 /\ forall q, In q (w_weights n) -> snd q = 0). { destruct L as [<-|[<-|[]]]; destruct N as [<-|[]]; cbn [w_bias w_weights snd]; (split; [reflexivity|]); intros q Hq; [apply repeat_spec in Hq; now subst|destruct Hq as [<-|[]]; reflexivity]. }
    destruct k as [k|]; [apply nth_error_In in H; exact (proj2 G p H)|injection H as <-; exact (proj1 G)]. }
  destruct (c79_error 1 1 0 1 (1 / 10) (rNet 1) 1 0 None 1 [7%nat] 0 0 S U eq_refl ltac:(split; [cbn; lia|intros c [<-|[]]; lia]) ltac:(lia) ltac:(lia)) as (nn' & g & E & G & Er & _).
  destruct (c79_step 1 1 0 1 (1 / 10) (rNet 1) 1 0 None 1 [7%nat] 0 0 S U eq_refl ltac:(split; [cbn; lia|intros c [<-|[]]; lia]) ltac:(lia) ltac:(lia)) as (nn2 & g2 & E2 & _ & _ & G2 & D).
  rewrite E in E2. injection E2 as <-. assert (Dy : differsAt 1 0 None 2 (rNet 1) (rNet 2)).
  { intros l' j' k'. destruct l' as [|[|l']]; [reflexivity| |destruct l'; reflexivity]. destruct j' as [|j']; [destruct k'; reflexivity|]. cbn. destruct j'; reflexivity. }
  pose proof (G _ _ Dy) as Gy. pose proof (G2 _ _ Dy) as Gy2. rewrite !rNet_output in Gy, Gy2. assert (g = 1) by lra. assert (g2 = 1) by lra. subst g g2. exists nn'. split; [exact E|]. split.
  - rewrite D. cbn [Nat.eqb andb]. rewrite rNet_output. cbn. do 2 f_equal. lra.
  - cbn [Nat.eqb] in Er. rewrite Er. lra.
Qed.
Local Close Scope R_scope.
Theorem c79_step_panic : forall F (A : arith F) n0 n1 lo hi lr nn l j k s out o, shaped n0 n1 nn ->
  (trainStep A lo hi lr nn l j k s out o = Panic <-> number nn l j k = None \/ ~ fits s \/ n1 <= out \/ n1 <= o).
Proof. intros F A n0 n1 lo hi lr nn l j k s out o S. apply (step_panic A n0 n1); auto. Qed.
(** the training of the code, for every sine and every number of epochs: it does not panic,
    and what it stores can be run, unless a number became NaN *)
Theorem c79_train : forall sn fr n, (forall v, (Z.abs (sn v) <= 8461256485)%Z) -> exists nn, train sn fr n = Ok nn /\ shaped 9 15 nn /\ unmarked f0 nn /\
  (noNan nn -> readyNet (mkDisk (Some (fst (nn_store nn))) false) (plainNet nn) /\ shaped 9 15 (plainNet nn)).
Proof.
  intros sn fr n B. destruct (train_ok sn fr n B) as (nn & E & S & U). exists nn. split; auto. split; auto. split; auto. intros N. pose proof S as (l0 & l1 & En & L0 & L1 & W0 & W1).
  assert (Fu : full nn). { intros layer H. rewrite En in H. destruct H as [<-|[<-|[]]]; intros ->; discriminate. }
  pose proof (store_load nn 0 N ltac:(rewrite En; discriminate) Fu) as Ld. cbn [repeat] in Ld. rewrite app_nil_r in Ld. split.
  - exists (fst (nn_store nn)). split; [reflexivity|]. split; [exact Ld|]. rewrite En. destruct l0 as [|n' l0]; [discriminate|]. cbn. eauto.
  - rewrite En. exists (map plainNeuron l0), (map plainNeuron l1). split; [reflexivity|]. rewrite !map_length. split; auto. split; auto.
    split; intros m Hm; apply in_map_iff in Hm; destruct Hm as (m' & <- & Hm); cbn [plainNeuron w_weights]; rewrite map_length; auto.
Qed.
(** three epochs: which numbers are not what they were *)
Definition tSin (v : Z) : Z := (408 - (1383462957253 + v * 1337) mod 36810)%Z.
Definition tFrac (v : Z) : f64 := f_frac (Z.to_pos (v mod 100 + 1)) 128.
Definition changed (a b : nlpnet f64) : list (nat * nat * option nat) :=
  filter (fun p => match number a (fst (fst p)) (snd (fst p)) (snd p), number b (fst (fst p)) (snd (fst p)) (snd p) with
                   | Some x, Some y => negb (SFeqb (fst x) (fst y)) | _, _ => false end)
    (flat_map (fun j => map (fun k => (0, j, k)) (None :: map Some (seq 0 408))) (seq 0 9) ++ flat_map (fun j => map (fun k => (1, j, k)) (None :: map Some (seq 0 9))) (seq 0 15)).
Example c79_ex : match train tSin tFrac 3 with Ok nn => changed (initNet tFrac) nn = [(0, 3, None)] | Panic => False end /\
  forall v, (Z.abs (tSin v) <= 8461256485)%Z.
Proof. split; [vm_compute; reflexivity|]. intros v. unfold tSin. pose proof (Z.mod_pos_bound (1383462957253 + v * 1337) 36810). lia. Qed.

(** the numbers of the first network are drawn one after the other, the bias of a neuron after its weights *)
Theorem c79_first : forall fr l j k, number (initNet fr) l j k = firstNumber fr l j k.
Proof. apply init_number. Qed.
(** the numbers drawn *)
Theorem c79_draw : forall sn v m r, rng_genint sn v m = Ok r <->
  (0 < m)%nat /\ draw sn v m r /\ ((0 <= 1383462957253 + v * 1337 + sn v)%Z \/ r = 0%nat).
Proof. intros sn v m r. rewrite genint_iff. tauto. Qed.
Theorem c79_draw_panic : forall sn v m, rng_genint sn v m = Panic <->
  m = 0%nat \/ ((1383462957253 + v * 1337 + sn v < 0)%Z /\ ((1383462957253 + v * 1337 + sn v) mod Z.of_nat m <> 0)%Z).
Proof. apply genint_panic. Qed.
(** the training is the first network followed by one step per epoch, at the places that are drawn
    and with the learning rate of the epoch *)
Theorem c79_epochs : forall sn fr n ts, (forall v, (Z.abs (sn v) <= 8461256485)%Z) -> (2 <= n)%nat -> trainingSamples = Ok ts ->
  exists f, f 0%nat = initNet fr /\ train sn fr n = Ok (f n) /\ forall i, (i < n)%nat -> epochAt sn fr ts n i (f i) (f (i + 1)%nat).
Proof. intros sn fr n ts B. now apply epochs_ok. Qed.
Example c79_epochs_ex : draw tSin 12569 9 3 /\ draw tSin 12570 409 408 /\ rateOf 10 1 = f_frac 1 100 /\
  rateOf 10 2 = f_frac 1 1000 /\ rateOf 10 5 = f_frac 1 2000 /\
  firstNumber tFrac 1 14 None = Some (tFrac 12567, f0) /\ firstNumber tFrac 0 9 None = None /\
  rng_genint (fun _ => (-2000000000000)%Z) 0 7 = Panic.
Proof. unfold draw. repeat split; try lia; vm_compute; reflexivity. Qed.

Print Assumptions c75_input. Print Assumptions c75_input_panic. Print Assumptions c75_distinct. Print Assumptions c75_signs. Print Assumptions c75_signs_panic.
Print Assumptions c75_forward. Print Assumptions c75_forward_panic.
Print Assumptions c76_winner. Print Assumptions c76_one_winner. Print Assumptions c76_run. Print Assumptions c76_run_panic. Print Assumptions c76_unready. Print Assumptions c76_only_once.
Print Assumptions c76_long. Print Assumptions c76_samples. Print Assumptions c76_consistent. Print Assumptions c76_learned. Print Assumptions c76_learnable.
Print Assumptions c77_read. Print Assumptions c77_process. Print Assumptions c77_mark_lost.
Print Assumptions c78_load. Print Assumptions c78_panic. Print Assumptions c78_again. Print Assumptions c78_nan. Print Assumptions c78_nan_refuted.
Print Assumptions c79_step. Print Assumptions c79_error. Print Assumptions c79_wasted. Print Assumptions c79_silent. Print Assumptions c79_step_panic. Print Assumptions c79_train.
Print Assumptions c79_first. Print Assumptions c79_draw. Print Assumptions c79_draw_panic. Print Assumptions c79_epochs. Print Assumptions c77_words. Print Assumptions c77_spoken.
