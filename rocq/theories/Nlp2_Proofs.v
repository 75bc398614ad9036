(** The run of the language network. *)
From Coq Require Import ZArith Lia String Ascii List Bool.
From Verif Require Import Base F64_Model Tv_Model Parser_Model Nar_Model Vision_Proofs Nlp_Model Nlp_Spec Nlp_Proofs.
Import ListNotations.
Local Open Scope list_scope. Local Open Scope nat_scope.

Lemma answers_iff : forall nn s a, answers nn s a <->
  exists v out, conv_seq_to_nninput f64_arith s = Ok v /\ forward f64_arith nn v = Ok out /\ calc_max_onehot_idx out = a.
Proof.
  intros nn s a. split; intros (v & out & I & Fw & W); exists v, out; (split; [apply (conv_iff f64_arith); exact I|split; [exact Fw|now apply calc_iff]]).
Qed.
Lemma answers_unique : forall nn s a b, answers nn s a -> answers nn s b -> a = b.
Proof. intros nn s a b Ha Hb. apply answers_iff in Ha, Hb. destruct Ha as (v & o & A & B & <-), Hb as (v' & o' & A' & B' & <-). congruence. Qed.
Lemma no_answer : forall nn s, (~ exists a, answers nn s a) <-> (do v <- conv_seq_to_nninput f64_arith s; forward f64_arith nn v) = Panic.
Proof.
  intros nn s. split.
  - intros H. destruct (conv_seq_to_nninput f64_arith s) as [v|] eqn:E; [|reflexivity]. cbn [rbind]. destruct (forward f64_arith nn v) as [o|] eqn:Fw; [|reflexivity].
    exfalso. apply H. exists (calc_max_onehot_idx o). apply answers_iff. eauto.
  - intros H (a & Ha). apply answers_iff in Ha. destruct Ha as (v & o & A & B & _). rewrite A in H. cbn [rbind] in H. congruence.
Qed.
Lemma answers_shaped : forall n0 n1 nn s, shaped n0 n1 nn -> ((exists a, answers nn s a) <-> fits s).
Proof.
  intros n0 n1 nn s S. split.
  - intros (a & v & o & I & _). apply I.
  - intros Ft. destruct (conv_seq_to_nninput f64_arith s) as [v|] eqn:E; [|apply conv_panic in E; contradiction].
    pose proof (proj1 (conv_iff f64_arith s v) E) as I. destruct (forward_shaped f64_arith n0 n1 nn v S) as (o & Fw & _); [apply I|].
    exists (calc_max_onehot_idx o). apply answers_iff. eauto.
Qed.
Lemma answers_small : forall n0 n1 nn s a, shaped n0 n1 nn -> answers nn s a -> a = 0 \/ a < n1.
Proof.
  intros n0 n1 nn s a S (v & o & I & Fw & W). apply wins_lt in W. rewrite map_length in W. destruct (forward_shaped f64_arith n0 n1 nn v S) as (o' & Fw' & L); [apply I|]. 
  assert (o' = o) by congruence. subst. exact W.
Qed.

(** ** relations *)
Lemma relFrom_iff : forall h a b r, relFrom h a b = Ok (Some r) <-> exists h' a' b', h = Ok h' /\ a = Ok a' /\ b = Ok b' /\ r = mkRel h' [a'; b'] false f0998.
Proof.
  intros h a b r. unfold relFrom. destruct h as [h|], a as [a|], b as [b|]; cbn [rbind]; (split; [intros X; try discriminate X; injection X as <-; eauto 10|intros (x & y & z & A & B & C & ->); congruence]).
Qed.
Lemma idx_iff : forall X (l : list X) i x, idx l i = Ok x <-> nth_error l i = Some x.
Proof. intros. unfold idx. destruct (nth_error l i); cbn; split; intros H; congruence. Qed.
Lemma relOf_some : forall w a r, relOf w a = Ok (Some r) <-> exists h x y, says w a h x y /\ r = mkRel h [x; y] false f0998.
Proof.
  intros w a r. split.
  - intros H. destruct a as [|[|[|[|[|[|[|[|a]]]]]]]]; cbn [relOf] in H; try discriminate H; apply relFrom_iff in H; destruct H as (h & x & y & A & B & C & ->);
      repeat match goal with X : idx _ _ = Ok _ |- _ => apply idx_iff in X end; exists h, x, y; (split; [|reflexivity]);
      [now apply says1|now apply says2|now apply says3|injection A as <-; now apply says4|now apply says7].
  - intros (h & x & y & S & ->). destruct S; cbn [relOf]; apply relFrom_iff; repeat eexists; try (apply idx_iff; eassumption).
Qed.
Lemma relFrom_none : forall h a b, relFrom h a b <> Ok None.
Proof. intros h a b. unfold relFrom. destruct h, a, b; discriminate. Qed.
Lemma relOf_none : forall w a, relOf w a = Ok None <-> needs a = 0.
Proof.
  intros w a. destruct a as [|[|[|[|[|[|[|[|a]]]]]]]]; cbn [relOf needs]; split; intros H; auto; try discriminate; now apply relFrom_none in H.
Qed.
Lemma relOf_panic : forall w a, relOf w a = Panic <-> length w < needs a.
Proof.
  intros w a. assert (I : forall i, idx w i = Panic <-> length w <= i).
  { intros i. unfold idx. rewrite <- nth_error_None. destruct (nth_error w i); cbn; split; intros; congruence. }
  assert (J : forall i, i < length w -> exists x, idx w i = Ok x).
  { intros i L. destruct (idx w i) as [x|] eqn:E; [eauto|]. apply I in E. lia. }
  assert (K : forall (h a b : res text), relFrom h a b = Panic <-> h = Panic \/ a = Panic \/ b = Panic).
  { intros h x y. unfold relFrom. destruct h, x, y; cbn [rbind]; split; intros Q; auto; try discriminate; destruct Q as [Q|[Q|Q]]; discriminate. }
  destruct a as [|[|[|[|[|[|[|[|a]]]]]]]]; cbn [relOf needs]; try (split; [discriminate|lia]); rewrite K, ?I; split; intros H; try lia; intuition (try lia; try discriminate).
Qed.

(** ** the loop *)
Definition overF (f : nat) (l : list nat) : Prop := (exists l0, l = l0 ++ [0] /\ ~ In 0 l0 /\ length l0 < f) \/ (~ In 0 l /\ length l = f).
Lemma said_cons : forall base a l, said base (a :: l) = said (base ++ [18 + a]) l.
Proof. intros. unfold said. cbn [map]. rewrite <- app_assoc. reflexivity. Qed.
Lemma talk_nil : forall nn base, talk nn base [].
Proof. intros nn base [|x b] a c H; discriminate. Qed.
Lemma talk_cons : forall nn base a l, talk nn base (a :: l) <-> answers nn base a /\ talk nn (base ++ [18 + a]) l.
Proof.
  intros nn base a l. split.
  - intros H. split; [pose proof (H [] a l eq_refl) as X; unfold said in X; cbn in X; now rewrite app_nil_r in X|].
    intros b x c ->. rewrite <- said_cons. apply (H (a :: b) x c). reflexivity.
  - intros (H & T) [|b0 b] x c E; injection E as <- E; [subst; unfold said; cbn; now rewrite app_nil_r|]. rewrite said_cons. eapply T, E.
Qed.
Lemma overF_S : forall f a l, overF (S f) (a :: l) <-> (a = 0 /\ l = []) \/ (a <> 0 /\ overF f l).
Proof.
  intros f a l. split.
  - intros [(l0 & E & N & L)|(N & L)].
    + destruct l0 as [|b l0]; injection E as <- ->; [now left|]. right. split; [intros ->; apply N; now left|]. left. exists l0. split; auto. cbn in *. split; [tauto|lia].
    + right. split; [intros ->; apply N; now left|]. right. cbn in *. split; [tauto|lia].
  - intros [(-> & ->)|(Na & [(l0 & -> & N & L)|(N & L)])].
    + left. exists []. split; auto. cbn. split; [tauto|lia].
    + left. exists (a :: l0). split; auto. cbn. split; [intros [H|H]; [now apply Na|tauto]|lia].
    + right. cbn. split; [intros [H|H]; [now apply Na|tauto]|lia].
Qed.
Lemma overF_0 : forall l, overF 0 l <-> l = [].
Proof. intros l. split; [intros [(l0 & _ & _ & L)|(_ & L)]; [lia|now destruct l]|intros ->; right; split; auto]. Qed.
Lemma told_cons : forall w a l rs, told w (a :: l) rs <-> exists o rs', relOf w a = Ok o /\ told w l rs' /\ rs = match o with Some r => r :: rs' | None => rs' end.
Proof.
  intros w a l rs. split.
  - intros H. inversion H as [|a' h x y l' rs' S T|a' l' rs' N T]; subst.
    + exists (Some (mkRel h [x; y] false f0998)), rs'. split; [apply relOf_some; eauto|]. auto.
    + exists None, rs. split; [now apply relOf_none|]. auto.
  - intros (o & rs' & R & T & ->). destruct o as [r|].
    + apply relOf_some in R. destruct R as (h & x & y & S & ->). now constructor.
    + apply relOf_none in R. now constructor.
Qed.
Theorem loop_iff : forall nn w f cur log rels log' rels', runLoop f nn w cur log rels = Ok (log', rels') <->
  exists l rs, log' = log ++ l /\ rels' = rels ++ rs /\ talk nn cur l /\ overF f l /\ told w l rs.
Proof.
  intros nn w. induction f as [|f IH]; intros cur log rels log' rels'.
  - cbn [runLoop]. split.
    + intros H. injection H as <- <-. exists [], []. rewrite !app_nil_r. repeat split; [apply talk_nil|now apply overF_0|constructor].
    + intros (l & rs & -> & -> & _ & O & T). apply overF_0 in O. subst. inversion T. now rewrite !app_nil_r.
  - cbn [runLoop]. destruct (conv_seq_to_nninput f64_arith cur) as [v|] eqn:Ev; cbn [rbind].
    2: { split; [discriminate|]. intros (l & rs & _ & _ & T & O & _). exfalso. destruct l as [|a l]; [destruct O as [(l0 & E & _)|(_ & L)]; [now destruct l0|discriminate]|].
         apply talk_cons in T. destruct T as (An & _). apply answers_iff in An. destruct An as (v & o & A & _). congruence. }
    destruct (forward f64_arith nn v) as [out|] eqn:Fw; cbn [rbind].
    2: { split; [discriminate|]. intros (l & rs & _ & _ & T & O & _). exfalso. destruct l as [|a l]; [destruct O as [(l0 & E & _)|(_ & L)]; [now destruct l0|discriminate]|].
         apply talk_cons in T. destruct T as (An & _). apply answers_iff in An. destruct An as (v' & o & A & B & _). congruence. }
    set (a := calc_max_onehot_idx out). assert (An : answers nn cur a) by (apply answers_iff; eauto).
    assert (Head : forall x l, talk nn cur (x :: l) -> x = a) by (intros x l T; apply talk_cons in T; destruct T as (T & _); eapply answers_unique; eauto).
    destruct (Nat.eqb_spec a 0) as [Ea|Ea].
    + split.
      * intros H. injection H as <- <-. exists [a], []. rewrite app_nil_r. repeat split; auto.
        { apply talk_cons. split; auto. apply talk_nil. } { apply overF_S. now left. } { apply told_none; [now rewrite Ea|constructor]. }
      * intros (l & rs & -> & -> & T & O & Td). destruct l as [|x l]; [destruct O as [(l0 & E & _)|(_ & L)]; [now destruct l0|discriminate]|].
        pose proof (Head _ _ T) as Hx. subst x. apply overF_S in O. destruct O as [(_ & ->)|(N & _)]; [|contradiction].
        apply told_cons in Td. destruct Td as (o & rs' & R & Td & ->). inversion Td; subst rs'. rewrite Ea in R. cbn in R. injection R as <-. now rewrite app_nil_r.
    + split.
      * destruct (relOf w a) as [o|] eqn:R; [|discriminate]. cbn [rbind]. intros H. apply IH in H. destruct H as (l & rs & -> & -> & T & O & Td).
        exists (a :: l), (match o with Some r => r :: rs | None => rs end). split; [now rewrite <- app_assoc|]. split; [destruct o; [now rewrite <- app_assoc|reflexivity]|].
        split; [apply talk_cons; auto|]. split; [apply overF_S; auto|]. apply told_cons. exists o, rs. auto.
      * intros (l & rs & -> & -> & T & O & Td). destruct l as [|x l]; [destruct O as [(l0 & E & _)|(_ & L)]; [now destruct l0|discriminate]|].
        pose proof (Head _ _ T) as Hx. subst x. apply overF_S in O. destruct O as [(N & _)|(_ & O)]; [contradiction|]. apply talk_cons in T. destruct T as (_ & T).
        apply told_cons in Td. destruct Td as (o & rs' & R & Td & ->). rewrite R. cbn [rbind]. apply IH. exists l, rs'. split; [now rewrite <- app_assoc|]. split; [destruct o; [now rewrite <- app_assoc|reflexivity]|]. auto.
Qed.
(** the condition of a panic *)
Definition stuck (nn : nlpnet f64) (w : list text) (cur l : list nat) : Prop :=
  (~ exists a, answers nn (said cur l) a) \/ (exists a, answers nn (said cur l) a /\ length w < needs a).
Theorem loop_panic : forall nn w f cur log rels, runLoop f nn w cur log rels = Panic <->
  exists l, talk nn cur l /\ ~ In 0 l /\ length l < f /\ (forall a, In a l -> needs a <= length w) /\ stuck nn w cur l.
Proof.
  intros nn w. induction f as [|f IH]; intros cur log rels; cbn [runLoop].
  - split; [discriminate|]. intros (l & _ & _ & L & _). lia.
  - assert (Now : (do v <- conv_seq_to_nninput f64_arith cur; forward f64_arith nn v) = Panic <-> ~ exists a, answers nn cur a) by (symmetry; apply no_answer).
    assert (Nil : said cur [] = cur) by (unfold said; cbn; apply app_nil_r).
    assert (Stop : (~ exists a, answers nn cur a) -> exists l, talk nn cur l /\ ~ In 0 l /\ length l < S f /\ (forall a, In a l -> needs a <= length w) /\ stuck nn w cur l).
    { intros N. exists []. split; [apply talk_nil|]. split; [tauto|]. split; [cbn; lia|]. split; [intros a []|]. left. now rewrite Nil. }
    destruct (conv_seq_to_nninput f64_arith cur) as [v|] eqn:Ev; cbn [rbind] in *; [|split; auto; intros _; apply Stop; now apply Now].
    destruct (forward f64_arith nn v) as [out|] eqn:Fw; cbn [rbind]; [|split; auto; intros _; apply Stop; now apply Now].
    set (a := calc_max_onehot_idx out). assert (An : answers nn cur a) by (apply answers_iff; eauto).
    assert (Head : forall x l, talk nn cur (x :: l) -> x = a) by (intros x l T; apply talk_cons in T; destruct T as (T & _); eapply answers_unique; eauto).
    destruct (Nat.eqb_spec a 0) as [Ea|Ea].
    + split; [discriminate|]. intros (l & T & N & _ & _ & S). exfalso. destruct l as [|x l]; [|apply N; left; rewrite <- Ea; eapply Head, T].
      destruct S as [S|(b & Hb & L)]; [apply S; rewrite Nil; eauto|]. rewrite Nil in Hb. assert (b = a) by (eapply answers_unique; eauto). subst b. rewrite Ea in L. cbn in L. lia.
    + destruct (relOf w a) as [o|] eqn:R; cbn [rbind].
      * assert (Wa : needs a <= length w). { destruct (le_lt_dec (needs a) (length w)) as [L|L]; auto. apply relOf_panic in L. congruence. }
        rewrite IH. split.
        { intros (l & T & N & L & W & S). exists (a :: l). split; [apply talk_cons; auto|]. split; [cbn; tauto|]. split; [cbn; lia|]. split; [intros x [<-|Hx]; auto|]. unfold stuck in *. rewrite said_cons. exact S. }
        { intros (l & T & N & L & W & S). destruct l as [|x l].
          - exfalso. unfold stuck in S. rewrite Nil in S. destruct S as [S|(b & Hb & Lb)]; [eauto|]. assert (b = a) by (eapply answers_unique; eauto). subst b. lia.
          - pose proof (Head _ _ T) as Hx. subst x. apply talk_cons in T. destruct T as (_ & T). exists l. split; auto. split; [cbn in N; tauto|]. split; [cbn in L; lia|]. split; [intros x Hx; apply W; now right|].
            unfold stuck in *. rewrite said_cons in S. exact S. }
      * apply relOf_panic in R. split; auto. intros _. exists []. split; [apply talk_nil|]. split; [tauto|]. split; [cbn; lia|]. split; [intros x []|]. right. exists a. rewrite Nil. auto.
Qed.

(** ** the whole run *)
Definition readyNet (d : disk) (nn : nlpnet f64) : Prop :=
  exists rows, dk_db d = Some rows /\ nn_load rows = Ok nn /\ exists n l0 rest, nn = (n :: l0) :: rest.
Lemma run_eq : forall d w, network_run d w =
  do rows <- unwrap (dk_db d); do nn <- nn_load rows; do l0 <- idx nn 0; do _ <- idx l0 0;
  if dk_log d then Panic else
  do cur <- (do pos <- conv_tokens_to_poss w; prot_pos0 pos);
  do '(log, rels) <- runLoop 10 nn w cur [] []; Ok (log, rels, mkDisk (dk_db d) true).
Proof.
  intros d w. unfold network_run. destruct (unwrap (dk_db d)); [|reflexivity]. cbn [rbind]. destruct (nn_load a) as [nn|]; [|reflexivity]. cbn [rbind]. destruct (idx nn 0) as [l0|]; [|reflexivity]. cbn [rbind].
  destruct (idx l0 0); [|reflexivity]. cbn [rbind]. destruct (dk_log d); [reflexivity|]. destruct (conv_tokens_to_poss w); reflexivity.
Qed.
Lemma over_iff : forall l, over l <-> overF 10 l.
Proof.
  intros l. unfold over, overF, ongoing. split; (intros [(l0 & A & B)|(A & B)]; [left; exists l0; tauto|right; tauto]).
Qed.
Theorem run_iff : forall d w log rels d', network_run d w = Ok (log, rels, d') <->
  exists nn base, readyNet d nn /\ dk_log d = false /\ signsOf w base /\ talk nn base log /\ over log /\ told w log rels /\ d' = mkDisk (dk_db d) true.
Proof.
  intros d w log rels d'. rewrite run_eq. split.
  - intros H. destruct (dk_db d) as [rows|] eqn:D; [|discriminate]. cbn [unwrap rbind] in H. destruct (nn_load rows) as [nn|] eqn:L; [|discriminate]. cbn [rbind] in H.
    destruct nn as [|l0 rest]; [discriminate|]. cbn [idx nth_error unwrap rbind] in H. destruct l0 as [|n l0]; [discriminate|]. cbn [idx nth_error unwrap rbind] in H.
    destruct (dk_log d) eqn:G; [discriminate|]. destruct (do pos <- conv_tokens_to_poss w; prot_pos0 pos) as [base|] eqn:B; [|discriminate]. cbn [rbind] in H.
    destruct (runLoop 10 _ w base [] []) as [(lg & rl)|] eqn:R; [|discriminate]. cbn [rbind] in H. injection H as <- <- <-. apply signs_iff in B. apply loop_iff in R.
    destruct R as (l & rs & -> & -> & T & O & Td). exists ((n :: l0) :: rest), base. split; [exists rows; eauto 10|]. cbn [app]. rewrite over_iff. auto 10.
  - intros (nn & base & (rows & D & L & n & l0 & rest & ->) & G & B & T & O & Td & ->). rewrite D. cbn [unwrap rbind]. rewrite L. cbn [rbind idx nth_error unwrap]. rewrite G.
    apply signs_iff in B. rewrite B. cbn [rbind]. assert (R : runLoop 10 ((n :: l0) :: rest) w base [] [] = Ok (log, rels)) by (apply loop_iff; exists log, rels; rewrite <- over_iff; auto).
    rewrite R. reflexivity.
Qed.
Lemma signs_codes : forall w base, signsOf w base -> length base = length w + 1 /\ forall c, In c base -> c < 18.
Proof.
  intros w base (cs & -> & H). split.
  - rewrite app_length. cbn. f_equal. induction H; cbn; auto.
  - intros c Hc. apply in_app_iff in Hc. destruct Hc as [Hc|[<-|[]]]; [|lia]. induction H as [|x y l l' (s & k & _ & _ & ->) _ IH]; [destruct Hc|]. destruct Hc as [<-|Hc]; auto. destruct k; cbn; lia.
Qed.
Lemma said_fits : forall n0 n1 nn w base l, shaped n0 n1 nn -> n1 <= 16 -> signsOf w base -> talk nn base l -> (fits (said base l) <-> length w + length l <= 11).
Proof.
  intros n0 n1 nn w base l S N B T. destruct (signs_codes _ _ B) as (Lb & Cb). unfold said. split.
  - intros (L & _). rewrite app_length, map_length in L. lia.
  - intros L. split; [rewrite app_length, map_length; lia|]. intros c Hc. apply in_app_iff in Hc. destruct Hc as [Hc|Hc]; [specialize (Cb c Hc); lia|].
    apply in_map_iff in Hc. destruct Hc as (a & <- & Ha). apply in_split in Ha. destruct Ha as (b & r & ->). specialize (T b a r eq_refl). apply (answers_small n0 n1) in T; auto. lia.
Qed.
(** a network of the right shape and known words *)
Theorem run_panic : forall d w nn n0 n1 base, readyNet d nn -> shaped n0 n1 nn -> n1 <= 16 -> dk_log d = false -> signsOf w base ->
  (network_run d w = Panic <->
   exists l, talk nn base l /\ ongoing l /\ (forall a, In a l -> needs a <= length w) /\
     (11 < length w + length l \/ exists a, answers nn (said base l) a /\ length w < needs a)).
Proof.
  intros d w nn n0 n1 base (rows & D & L & n & l0 & rest & E) S N G B. rewrite run_eq, D. cbn [unwrap rbind]. rewrite L. cbn [rbind]. rewrite E at 1. cbn [idx nth_error unwrap rbind]. rewrite G.
  pose proof (proj2 (signs_iff w base) B) as Sg. rewrite Sg. cbn [rbind].
  assert (X : (do '(log, rels) <- runLoop 10 nn w base [] []; Ok (log, rels, mkDisk (dk_db d) true)) = Panic <-> runLoop 10 nn w base [] [] = Panic).
  { destruct (runLoop 10 nn w base [] []) as [(a & b)|]; cbn [rbind]; split; auto; discriminate. }
  rewrite D in X. rewrite X, loop_panic. unfold ongoing, stuck. split.
  - intros (l & T & Nz & Ll & W & St). exists l. split; auto. split; auto. split; auto. destruct St as [St|St]; auto. left. rewrite (answers_shaped n0 n1) in St by assumption. rewrite (said_fits n0 n1 nn w) in St by assumption. lia.
  - intros (l & T & (Nz & Ll) & W & St). exists l. split; auto. split; auto. split; auto. split; auto. destruct St as [St|St]; auto. left. rewrite (answers_shaped n0 n1) by assumption. rewrite (said_fits n0 n1 nn w) by assumption. lia.
Qed.
Theorem run_unready : forall d w, (~ (exists nn, readyNet d nn)) \/ dk_log d = true \/ (exists x, In x w /\ ~ known x) -> network_run d w = Panic.
Proof.
  intros d w H. destruct (network_run d w) as [((log & rels) & d')|] eqn:E; auto. exfalso. apply run_iff in E. destruct E as (nn & base & R & G & B & _).
  destruct H as [H|[H|H]]; [eauto|congruence|]. apply signs_panic in H. apply signs_iff in B. congruence.
Qed.

(** ** training sequences *)
Lemma samples_talk : forall nn base control, (forall s o, In (s, o) (samplesOf base control) -> answers nn s o) <-> talk nn base control.
Proof.
  intros nn base control. split.
  - intros H b a c E. apply (H (said base b) a). unfold samplesOf. apply in_map_iff. exists (length b). subst control. split.
    + rewrite firstn_app, firstn_all, Nat.sub_diag, firstn_O, app_nil_r, app_nth2, Nat.sub_diag by lia. reflexivity.
    + apply in_seq. rewrite app_length. cbn. lia.
  - intros T s o H. unfold samplesOf in H. apply in_map_iff in H. destruct H as (i & E & Hi). apply in_seq in Hi. injection E as <- <-.
    destruct (nth_error control i) as [a|] eqn:N; [|apply nth_error_None in N; lia]. rewrite (nth_error_nth _ _ _ N). apply nth_error_split in N. destruct N as (b & c & -> & <-).
    rewrite firstn_app, firstn_all, Nat.sub_diag, firstn_O, app_nil_r. apply (T b a c). reflexivity.
Qed.
