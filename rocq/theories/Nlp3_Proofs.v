(** Texts of the relations; the stored network. *)
From Coq Require Import ZArith Lia SpecFloat String Ascii List Bool.
From Verif Require Import Base F64_Model Tv_Model Term_Model Sentence_Model Parser_Model Parser_Spec Parser_Proofs Parser2_Proofs Parser3_Proofs Nar_Model Vision_Proofs Nlp_Model Nlp_Spec Nlp_Proofs Nlp2_Proofs.
Import ListNotations.
Local Open Scope list_scope. Local Open Scope nat_scope.

(** ** texts *)
Definition relTerm (a b h : text) : text := tx "<(" ++ a ++ tx "*" ++ b ++ tx ") --> " ++ h ++ tx ">".
Lemma conv_text : forall sh h a b n c, conv_rel_to_narsese sh (mkRel h [a; b] n c) = Ok (sentenceText (relTerm a b h) JUGEMENT (Some (sh f1, sh c)) false).
Proof.
  intros. unfold conv_rel_to_narsese, sentenceText, relTerm. cbn [rel_args rel_head rel_conf]. f_equal. rewrite <- !app_assoc. repeat f_equal.
Qed.
(** the words that occur in a relation *)
Definition vocab : list text := map fst wordPos.
Lemma known_vocab : forall w, known w -> In w vocab.
Proof.
  intros w (s & k & -> & K). destruct K as [x H|x H|x H| | | | | | | | | | |]; cbn in H || idtac; repeat (destruct H as [<-|H]; [vm_compute; tauto|]); try destruct H; vm_compute; tauto.
Qed.
Lemma vocab_name : forall w, In w (vocab ++ [tx "want_to"]) -> w = mark \/ nameText w.
Proof.
  intros w H. assert (G : forallb (fun w => text_eqb w mark || (negb (text_eqb w []) && Nat.leb (length w) 512 && forallb (fun c => existsb (Ascii.eqb c) (ascii_text "0123456789ABCDEFGHIJKLMNOPQRSTUVWXYZabcdefghijklmnopqrstuvwxyz-_^")) w)) (vocab ++ [tx "want_to"]) = true) by (vm_compute; reflexivity).
  rewrite forallb_forall in G. specialize (G w H). apply orb_true_iff in G. destruct G as [G|G]; [left; now apply text_eqb_eq|]. right. rewrite !andb_true_iff in G. destruct G as ((A & B) & C). split; [intros ->; discriminate A|]. split; [now apply Nat.leb_le|].
  intros c Hc. rewrite forallb_forall in C. specialize (C c Hc). apply existsb_exists in C. destruct C as (d & Hd & E). apply Ascii.eqb_eq in E. subst. exact Hd.
Qed.
Lemma neat_word : forall w, In w (vocab ++ [tx "want_to"]) -> neat w.
Proof.
  intros w H. apply vocab_name in H. destruct H as [->|(A & _ & B)]; [neatc|]. apply neat_name; auto. intros c Hc. now apply name_inner, B.
Qed.
Lemma neat_rel : forall a b h, neat a -> neat b -> neat h -> neat (relTerm a b h).
Proof.
  intros a b h Na Nb Nh. unfold relTerm. apply neat_app; [neatc|]. apply neat_mid; auto; [split; reflexivity|]. apply neat_mid; auto; [split; reflexivity|]. apply neat_app; auto. neatc.
Qed.
Lemma rel_written : forall a b h, nameText a -> nameText b -> nameText h -> writes (Stmt INH (Prod [nameOf a; nameOf b]) (nameOf h)) (relTerm a b h).
Proof.
  intros a b h A B H. unfold relTerm.
  replace (tx "<(" ++ a ++ tx "*" ++ b ++ tx ") --> " ++ h ++ tx ">") with (ascii_text "<" ++ (ascii_text "(" ++ (a ++ ascii_text "*" ++ b) ++ ascii_text ")") ++ copText INH ++ h ++ ascii_text ">").
  - apply w_stmt; [|now apply w_name]. apply w_prod; [cbn; lia|]. apply wa_more; [now apply w_name|]. apply wa_one. now apply w_name.
  - change (tx "<(") with (ascii_text "<" ++ ascii_text "("). change (tx ") --> ") with (ascii_text ")" ++ copText INH). rewrite <- !app_assoc. reflexivity.
Qed.
Definition isErr (p : pres term) : bool := match p with PErr => true | _ => false end.
Lemma mark_unreadable : forall a b h, In a vocab -> In b vocab -> In h (vocab ++ [tx "want_to"]) -> h = mark \/ a = mark \/ b = mark -> parseEntry (relTerm a b h) = PErr.
Proof.
  intros a b h A B H M.
  assert (G : forallb (fun a => forallb (fun b => forallb (fun h => if text_eqb h mark || (text_eqb a mark || text_eqb b mark) then isErr (parseEntry (relTerm a b h)) else true) (vocab ++ [tx "want_to"])) vocab) vocab = true) by (vm_compute; reflexivity).
  rewrite forallb_forall in G. specialize (G a A). rewrite forallb_forall in G. specialize (G b B). rewrite forallb_forall in G. specialize (G h H).
  assert (E : text_eqb h mark || (text_eqb a mark || text_eqb b mark) = true) by (rewrite !orb_true_iff, !text_eqb_eq; exact M).
  rewrite E in G. destruct (parseEntry (relTerm a b h)); [discriminate|reflexivity|discriminate].
Qed.
Lemma says_words : forall w a h x y, says w a h x y -> In x w /\ In y w /\ (In h w \/ h = tx "want_to").
Proof. intros w a h x y S. destruct S; repeat split; try (eapply nth_error_In; eassumption); try (left; eapply nth_error_In; eassumption). now right. Qed.
Lemma told_shape : forall w log rels r, told w log rels -> In r rels -> exists h x y, r = mkRel h [x; y] false f0998 /\ In x w /\ In y w /\ (In h w \/ h = tx "want_to").
Proof.
  intros w log rels r T. induction T as [|a h x y log rels S T IH|]; intros In0; [destruct In0| |auto]. destruct In0 as [<-|In0]; auto. exists h, x, y. split; auto. now apply says_words with a.
Qed.
Theorem rel_read : forall sh pf w log rels, told w log rels -> (forall x, In x w -> known x) -> shows sh pf f1 -> shows sh pf f0998 ->
  Forall (fun r => exists i o, conv_rel_to_narsese sh r = Ok i /\ readAs r o /\ parseNarsese pf i = Ok o) rels.
Proof.
  intros sh pf w log rels T K (N1 & P1) (N2 & P2). apply Forall_forall. intros r Hr. destruct (told_shape _ _ _ _ T Hr) as (h & a & b & -> & Ha & Hb & Hh).
  assert (Va : In a vocab) by auto using known_vocab. assert (Vb : In b vocab) by auto using known_vocab.
  assert (Vh : In h (vocab ++ [tx "want_to"])) by (apply in_app_iff; destruct Hh as [Hh|Hh]; [left; auto using known_vocab|right; now left]).
  assert (Ia : In a (vocab ++ [tx "want_to"])) by (apply in_app_iff; auto). assert (Ib : In b (vocab ++ [tx "want_to"])) by (apply in_app_iff; auto).
  eexists. rewrite conv_text.
  assert (Rd : forall p, parseEntry (relTerm a b h) = p -> parseNarsese pf (sentenceText (relTerm a b h) JUGEMENT (Some (sh f1, sh f0998)) false) = Ok (match p with POk t _ => Some (t, mkTv f1 f0998, JUGEMENT, false) | _ => None end)).
  { intros p <-. rewrite sentence_neat by (auto using neat_rel, neat_word). rewrite P1, P2. reflexivity. }
  destruct (list_eq_dec ascii_dec h mark) as [Eh|Eh], (list_eq_dec ascii_dec a mark) as [Ea|Ea], (list_eq_dec ascii_dec b mark) as [Eb|Eb];
    try (exists None; split; [reflexivity|]; split; [constructor; tauto|]; rewrite (Rd PErr); [reflexivity|]; apply mark_unreadable; tauto).
  eexists. split; [reflexivity|]. split; [now constructor|].
  assert (Na : nameText a) by (apply vocab_name in Ia; tauto). assert (Nb : nameText b) by (apply vocab_name in Ib; tauto). assert (Nh : nameText h) by (apply vocab_name in Vh; tauto).
  pose proof (entry_complete _ _ [] (rel_written a b h Na Nb Nh) Logic.I) as X. rewrite app_nil_r in X. rewrite (Rd _ X). reflexivity.
Qed.

(** putting the relations into the reasoner *)
Definition feed (draws : nat -> list nat) (st : nar * nat) (o : option (term * tv * punct * bool)) : res (nar * nat) :=
  match o with
  | Some (t, v, p, ev) => do n' <- inputT2 (fst st) t p v ev (draws (snd st)); Ok (n', S (snd st))
  | None => Ok (fst st, S (snd st))
  end.
Lemma feed_all : forall sh pf draws rels, Forall (fun r => exists i o, conv_rel_to_narsese sh r = Ok i /\ readAs r o /\ parseNarsese pf i = Ok o) rels ->
  exists ts os, rmapM (conv_rel_to_narsese sh) rels = Ok ts /\ Forall2 readAs rels os /\
    forall st, rfold (fun st j => do x <- inputN pf (fst st) j (draws (snd st)); Ok (fst x, S (snd st))) ts st = rfold (feed draws) os st.
Proof.
  intros sh pf draws rels H. induction H as [|r rels (i & o & C & R & P) _ (ts & os & E & F & Q)].
  - exists [], []. split; auto.
  - exists (i :: ts), (o :: os). cbn [rmapM]. rewrite C. cbn [rbind]. rewrite E. split; auto. split; [now constructor|]. intros st. cbn [rfold]. unfold inputN at 1. rewrite P. cbn [rbind].
    destruct o as [(((t & v) & p) & ev)|]; cbn [feed].
    + destruct (inputT2 (fst st) t p v ev (draws (snd st))); cbn [rbind fst snd]; auto.
    + cbn [rbind fst snd]. apply Q.
Qed.
Lemma readAs_unique : forall r o o', readAs r o -> readAs r o' -> o = o'.
Proof. intros r o o' A B. destruct A; inversion B; subst; auto; tauto. Qed.
Lemma signs_known : forall w base, signsOf w base -> forall x, In x w -> known x.
Proof.
  intros w base (cs & _ & H). induction H as [|a c l l' (s & k & -> & K & _) _ IH]; intros x Hx; [destruct Hx|]. destruct Hx as [<-|Hx]; [now exists s, k|auto].
Qed.
Theorem process_iff : forall sh pf d i r n n', shows sh pf f1 -> shows sh pf f0998 ->
  ln_net r i = rmap fst (nlpTexts sh d i) ->
  (nlpProcess pf n i r = Ok n' <->
   exists log rels d' os k, network_run d (words (spreadMarks i)) = Ok (log, rels, d') /\ Forall2 readAs rels os /\ rfold (feed (ln_draws r)) os (n, O) = Ok (n', k)).
Proof.
  intros sh pf d i r n n' S1 S2 L. unfold nlpProcess. rewrite L. unfold nlpTexts. destruct (network_run d (words (spreadMarks i))) as [((log & rels) & d')|] eqn:R; cbn [rbind rmap].
  - pose proof R as R'. apply run_iff in R'. destruct R' as (nn & base & _ & _ & B & _ & _ & T & _).
    destruct (feed_all sh pf (ln_draws r) rels) as (ts & os & E & F & Q); [eapply rel_read; eauto; eapply signs_known; eauto|]. rewrite E. cbn [rbind rmap fst]. rewrite Q. split.
    + destruct (rfold _ os (n, 0)) as [(m & k)|] eqn:X; [|discriminate]. cbn [rbind]. intros H. injection H as <-. exists log, rels, d', os, k. auto.
    + intros (log1 & rels1 & d1 & os1 & k & A & C & D). injection A as <- <- <-. assert (os1 = os).
      { clear - F C. revert os1 C. induction F; intros os1 C; inversion C; subst; auto. f_equal; auto. eapply readAs_unique; eauto. }
      subst os1. rewrite D. reflexivity.
  - split; [discriminate|]. intros (a & b & c & e & f & A & _). discriminate.
Qed.

(** ** the database *)
Section Keys.
  Context {X : Type} (key : row -> nat) (f : nat -> X -> list row).
  Hypothesis keyed : forall i x r, In r (f i x) -> key r = i.
  Lemma filter_keyed : forall xs k l,
    filter (fun r => Nat.eqb (key r) l) (flat_map (fun ix => f (fst ix) (snd ix)) (combine (seq k (length xs)) xs)) =
    if Nat.leb k l then match nth_error xs (l - k) with Some x => f l x | None => [] end else [].
  Proof.
    induction xs as [|x xs IH]; intros k l.
    - cbn. destruct (Nat.leb k l); auto. now destruct (l - k).
    - cbn [length seq combine flat_map fst snd]. rewrite filter_app, IH. destruct (Nat.eq_dec k l) as [->|N].
      + rewrite Nat.leb_refl, Nat.sub_diag. cbn [nth_error]. destruct (Nat.leb_spec (S l) l); [lia|]. rewrite app_nil_r.
        assert (G : forall rs, (forall r, In r rs -> key r = l) -> filter (fun r => Nat.eqb (key r) l) rs = rs).
        { induction rs as [|r rs IHr]; intros H0; [reflexivity|]. cbn [filter]. rewrite (H0 r) by now left. rewrite Nat.eqb_refl. f_equal. apply IHr. intros r0 Hr. apply H0. now right. }
        apply G. intros r. apply keyed.
      + assert (G : forall rs, (forall r, In r rs -> key r = k) -> filter (fun r => Nat.eqb (key r) l) rs = []).
        { induction rs as [|r rs IHr]; intros H0; [reflexivity|]. cbn [filter]. rewrite (H0 r) by now left. destruct (Nat.eqb_spec k l); [contradiction|]. apply IHr. intros r0 Hr. apply H0. now right. }
        rewrite G by (intros r; apply keyed). cbn [app]. destruct (Nat.leb_spec (S k) l), (Nat.leb_spec k l); auto; try lia. replace (l - k) with (S (l - S k)) by lia. reflexivity.
  Qed.
  Lemma keys_in : forall xs k l, In l (map key (flat_map (fun ix => f (fst ix) (snd ix)) (combine (seq k (length xs)) xs))) <->
    k <= l /\ exists x, nth_error xs (l - k) = Some x /\ f l x <> [].
  Proof.
    induction xs as [|x xs IH]; intros k l.
    - cbn. split; [tauto|]. intros (_ & x & H & _). now destruct (l - k).
    - cbn [length seq combine flat_map fst snd]. rewrite map_app, in_app_iff, IH. split.
      + intros [H|(L & y & E & N)].
        * apply in_map_iff in H. destruct H as (r & <- & Hr). pose proof (keyed _ _ _ Hr) as K. rewrite K. split; auto. exists x. rewrite Nat.sub_diag. split; auto. intros E. rewrite E in Hr. destruct Hr.
        * split; [lia|]. exists y. replace (l - k) with (S (l - S k)) by lia. auto.
      + intros (L & y & E & N). destruct (Nat.eq_dec k l) as [->|D].
        * left. rewrite Nat.sub_diag in E. injection E as ->. destruct (f l y) as [|r rs] eqn:Q; [contradiction|]. apply in_map_iff. exists r. split; [|now left]. eapply (keyed l y). rewrite Q. now left.
        * right. split; [lia|]. exists y. replace (l - k) with (S (l - S k)) in E by lia. auto.
  Qed.
End Keys.
Lemma sqlMax_spec : forall l, match sqlMax l with Some m => In m l /\ forall x, In x l -> x <= m | None => l = [] end.
Proof.
  induction l as [|a l IH]; [reflexivity|]. cbn [sqlMax]. destruct (sqlMax l) as [b|].
  - destruct IH as (I & M). split; [destruct (Nat.max_spec a b) as [(_ & ->)|(_ & ->)]; [now right|now left]|]. intros x [<-|Hx]; [lia|]. specialize (M x Hx). lia.
  - subst l. split; [now left|]. intros x [<-|[]]. lia.
Qed.
Lemma sqlMax_is : forall l m, In m l -> (forall x, In x l -> x <= m) -> sqlMax l = Some m.
Proof.
  intros l m I M. pose proof (sqlMax_spec l) as H. destruct (sqlMax l) as [b|]; [|subst; destruct I]. destruct H as (J & B). f_equal. specialize (M b J). specialize (B m I). lia.
Qed.
Definition layerRows (l : nat) (layer : list (wb f64)) : list row :=
  flat_map (fun jn => neuronRows l (fst jn) (snd jn)) (combine (seq 0 (length layer)) layer).
Lemma netRows_eq : forall nn, netRows nn = flat_map (fun il => layerRows (fst il) (snd il)) (combine (seq 0 (length nn)) nn).
Proof. reflexivity. Qed.
Lemma neuron_keys : forall l j n r, In r (neuronRows l j n) -> r_layer r = l /\ r_neuron r = j.
Proof. intros l j n r [<-|H]; [auto|]. apply in_map_iff in H. destruct H as (kv & <- & _). auto. Qed.
Lemma layer_keys : forall l layer r, In r (layerRows l layer) -> r_layer r = l.
Proof. intros l layer r H. apply in_flat_map in H. destruct H as (jn & _ & H). now apply neuron_keys in H. Qed.
Definition flat (p : f64 * f64) : f64 * f64 := (fst p, f0).
Definition flatNeuron (n : wb f64) : wb f64 := mkWb (map flat (w_weights n)) (flat (w_bias n)).
Lemma load_neuron : forall l j n, fold_left (fun n r => if Z.eqb (r_valueid r) (-1) then mkWb (w_weights n) (r_value r, f0) else mkWb (w_weights n ++ [(r_value r, f0)]) (w_bias n)) (neuronRows l j n) (mkWb [] (f0, f0)) = flatNeuron n.
Proof.
  intros l j n. unfold neuronRows, flatNeuron. cbn [fold_left r_valueid r_value w_weights]. change (Z.eqb (-1) (-1)) with true. cbn iota.
  assert (G : forall ws k acc b, fold_left (fun n r => if Z.eqb (r_valueid r) (-1) then mkWb (w_weights n) (r_value r, f0) else mkWb (w_weights n ++ [(r_value r, f0)]) (w_bias n))
      (map (fun kv => mkRow l j (Z.of_nat (fst kv)) (fst (snd kv))) (combine (seq k (length ws)) ws)) (mkWb acc b) = mkWb (acc ++ map flat ws) b).
  { induction ws as [|x ws IH]; intros k acc b; [cbn; now rewrite app_nil_r|]. cbn [length seq combine map fold_left fst snd r_valueid r_value w_weights w_bias].
    destruct (Z.eqb_spec (Z.of_nat k) (-1)); [lia|]. rewrite IH, <- app_assoc. reflexivity. }
  apply G.
Qed.
Lemma nth_flat : forall (layer : list (wb f64)) rows l, (forall j, filter (fun r => Nat.eqb (r_layer r) l && Nat.eqb (r_neuron r) j) rows = match nth_error layer j with Some n => neuronRows l j n | None => [] end) ->
  map (neuronOf rows l) (seq 0 (length layer)) = map flatNeuron layer.
Proof.
  intros layer rows l H. apply nth_ext'; [now rewrite !map_length, seq_length|]. intros i Hi. rewrite map_length, seq_length in Hi. rewrite !nth_error_map.
  assert (E : nth_error (seq 0 (length layer)) i = Some i). { rewrite (nth_error_nth' _ 0) by now rewrite seq_length. now rewrite seq_nth. }
  rewrite E. cbn [option_map]. destruct (nth_error layer i) as [n|] eqn:N; [|apply nth_error_None in N; lia]. cbn [option_map]. f_equal. unfold neuronOf. rewrite H, N. apply load_neuron.
Qed.
Lemma filter_layer : forall nn l, filter (fun r => Nat.eqb (r_layer r) l) (netRows nn) = match nth_error nn l with Some layer => layerRows l layer | None => [] end.
Proof. intros nn l. rewrite netRows_eq. rewrite (filter_keyed r_layer layerRows layer_keys). cbn [Nat.leb]. now rewrite Nat.sub_0_r. Qed.
Lemma filter_both : forall nn l j, filter (fun r => Nat.eqb (r_layer r) l && Nat.eqb (r_neuron r) j) (netRows nn) =
  match nth_error nn l with Some layer => match nth_error layer j with Some n => neuronRows l j n | None => [] end | None => [] end.
Proof.
  intros nn l j. assert (E : forall rs, filter (fun r => Nat.eqb (r_layer r) l && Nat.eqb (r_neuron r) j) rs = filter (fun r => Nat.eqb (r_neuron r) j) (filter (fun r => Nat.eqb (r_layer r) l) rs)).
  { induction rs as [|r rs IH]; [reflexivity|]. cbn [filter]. destruct (Nat.eqb (r_layer r) l); cbn [andb filter]; rewrite IH; reflexivity. }
  rewrite E, filter_layer. destruct (nth_error nn l) as [layer|]; [|reflexivity]. unfold layerRows.
  rewrite (filter_keyed r_neuron (neuronRows l)); [cbn [Nat.leb]; now rewrite Nat.sub_0_r|]. intros i x r H. now apply neuron_keys in H.
Qed.
Lemma neuron_max : forall l layer, layer <> [] -> sqlMax (map r_neuron (layerRows l layer)) = Some (length layer - 1).
Proof.
  intros l layer N. assert (K : forall i x r, In r (neuronRows l i x) -> r_neuron r = i) by (intros i x r H; now apply neuron_keys in H).
  assert (Len : length layer <> 0) by (destruct layer; [contradiction|cbn; lia]).
  apply sqlMax_is; unfold layerRows; [apply (keys_in r_neuron (neuronRows l) K)|intros x Hx; apply (keys_in r_neuron (neuronRows l) K) in Hx].
  - split; [lia|]. rewrite Nat.sub_0_r. destruct (nth_error layer (length layer - 1)) as [n|] eqn:E; [|apply nth_error_None in E; lia]. exists n. split; auto. discriminate.
  - destruct Hx as (_ & n & E & _). rewrite Nat.sub_0_r in E. assert (x < length layer) by (apply nth_error_Some; congruence). lia.
Qed.
Lemma layerRows_nil : forall l layer, layerRows l layer = [] <-> layer = [].
Proof. intros l [|n layer]; cbn; split; auto; discriminate. Qed.
Definition full (nn : nlpnet f64) : Prop := forall layer, In layer nn -> layer <> [].
Definition flatNet (nn : nlpnet f64) : nlpnet f64 := map (map flatNeuron) nn.
Lemma load_layer : forall nn l layer, nth_error nn l = Some layer -> layer <> [] ->
  (do k <- unwrap (sqlMax (map r_neuron (filter (fun r => Nat.eqb (r_layer r) l) (netRows nn)))); Ok (map (neuronOf (netRows nn) l) (seq 0 (S k)))) = Ok (map flatNeuron layer).
Proof.
  intros nn l layer E N. rewrite filter_layer, E, neuron_max by assumption. cbn [unwrap rbind]. f_equal. assert (length layer <> 0) by (destruct layer; [contradiction|cbn; lia]).
  replace (S (length layer - 1)) with (length layer) by lia. apply nth_flat. intros j. rewrite filter_both, E. reflexivity.
Qed.
Theorem load_rows : forall nn k, nn <> [] -> full nn -> nn_load (netRows (nn ++ repeat [] k)) = Ok (flatNet nn).
Proof.
  intros nn k N Fu. set (all := nn ++ repeat [] k). assert (Len : length nn <> 0) by (destruct nn; [contradiction|cbn; lia]).
  assert (Mx : sqlMax (map r_layer (netRows all)) = Some (length nn - 1)).
  { apply sqlMax_is; rewrite netRows_eq; [apply (keys_in r_layer layerRows layer_keys)|intros x Hx; apply (keys_in r_layer layerRows layer_keys) in Hx].
    - split; [lia|]. rewrite Nat.sub_0_r. unfold all. rewrite nth_error_app1 by lia. destruct (nth_error nn (length nn - 1)) as [y|] eqn:E; [|apply nth_error_None in E; lia]. exists y. split; auto. rewrite layerRows_nil. apply Fu. eapply nth_error_In, E.
    - destruct Hx as (_ & y & E & Y). rewrite Nat.sub_0_r in E. rewrite layerRows_nil in Y. destruct (le_lt_dec x (length nn - 1)) as [|L]; auto. exfalso. apply Y. unfold all in E. rewrite nth_error_app2 in E by lia. apply nth_error_In, repeat_spec in E. exact E. }
  unfold nn_load. rewrite Mx. cbn [unwrap rbind]. replace (S (length nn - 1)) with (length nn) by lia. apply rmapM_spec. unfold flatNet.
  assert (G : forall m k, k + m = length nn -> Forall2 (fun l y => (do k <- unwrap (sqlMax (map r_neuron (filter (fun r => Nat.eqb (r_layer r) l) (netRows all)))); Ok (map (neuronOf (netRows all) l) (seq 0 (S k)))) = Ok y) (seq k m) (map (map flatNeuron) (skipn k nn))).
  { induction m as [|m IH]; intros k0 E.
    - rewrite skipn_all2 by lia. constructor.
    - destruct (nth_error nn k0) as [y|] eqn:Y; [|apply nth_error_None in Y; lia]. assert (Sk : skipn k0 nn = y :: skipn (S k0) nn).
      { clear - Y. revert nn Y. induction k0 as [|k IH]; intros [|x nn] Y; try discriminate; cbn in Y; [injection Y as ->; reflexivity|]. cbn [skipn]. rewrite (IH nn Y). reflexivity. }
      rewrite Sk. cbn [seq map]. constructor; [|apply IH; lia]. apply load_layer; [|apply Fu; eapply nth_error_In, Y]. unfold all. rewrite nth_error_app1; auto. apply nth_error_Some. congruence. }
  apply (G (length nn) 0). lia.
Qed.
Theorem load_none : forall k, nn_load (netRows (repeat [] k)) = Panic.
Proof.
  intros k. assert (E : netRows (repeat [] k) = []).
  { rewrite netRows_eq. generalize 0 at 1. induction k as [|k IH]; intros s; [reflexivity|]. cbn [repeat length seq combine flat_map fst snd]. rewrite IH. reflexivity. }
  unfold nn_load. rewrite E. reflexivity.
Qed.
Theorem load_gap : forall a b layer, In layer b -> layer <> [] -> nn_load (netRows (a ++ [] :: b)) = Panic.
Proof.
  intros a b layer I N. unfold nn_load. pose proof (sqlMax_spec (map r_layer (netRows (a ++ [] :: b)))) as M. destruct (sqlMax _) as [m|]; [|reflexivity]. destruct M as (_ & M). cbn [unwrap rbind].
  apply in_split in I. destruct I as (b1 & b2 & ->). assert (L : length a < m).
  { assert (X : length a + 1 + length b1 <= m); [|lia]. apply M. rewrite netRows_eq. apply (keys_in r_layer layerRows layer_keys). split; [lia|]. exists layer. rewrite layerRows_nil. split; auto. rewrite Nat.sub_0_r.
    rewrite nth_error_app2 by lia. replace (length a + 1 + length b1 - length a) with (S (length b1)) by lia. cbn [nth_error]. rewrite nth_error_app2, Nat.sub_diag by lia. reflexivity. }
  apply rmapM_panic. exists (length a). split; [apply in_seq; lia|]. rewrite filter_layer. rewrite nth_error_app2, Nat.sub_diag by lia. reflexivity.
Qed.
(** every network is of one of the three kinds *)
Lemma net_cases : forall nn : nlpnet f64, (exists k, nn = repeat [] k) \/ (exists a k, nn = a ++ repeat [] k /\ a <> [] /\ full a) \/ (exists a b layer, nn = a ++ [] :: b /\ In layer b /\ layer <> []).
Proof.
  induction nn as [|y nn IH]; [left; now exists 0|]. destruct IH as [(k & ->)|[(a & k & -> & N & Fu)|(a & b & layer & -> & I & N)]].
  - destruct y as [|n y]; [left; now exists (S k)|]. right. left. exists [n :: y], k. split; auto. split; [discriminate|]. intros l [<-|[]]. discriminate.
  - destruct y as [|n y].
    + right. right. destruct a as [|l a]; [contradiction|]. exists [], ((l :: a) ++ repeat [] k), l. split; auto. split; [now left|]. apply Fu. now left.
    + right. left. exists ((n :: y) :: a), k. split; auto. split; [discriminate|]. intros l [<-|H]; [discriminate|auto].
  - right. right. exists (y :: a), b, layer. auto.
Qed.

(** storing *)
Definition cleanRow (r : row) : row := mkRow (r_layer r) (r_neuron r) (r_valueid r) (match r_value r with S754_zero _ => f0 | v => v end).
Lemma sqlReal_eq : forall v, sqlReal v = if fis_nan v then None else Some (match v with S754_zero _ => f0 | v => v end).
Proof. intros [s|s| |s m e]; cbn; auto; destruct s; reflexivity. Qed.
Lemma insert_clean : forall rs, (forall r, In r rs -> r_value r <> S754_nan) -> insertRows rs = (map cleanRow rs, true).
Proof.
  induction rs as [|r rs IH]; intros H; [reflexivity|]. cbn [insertRows map]. rewrite sqlReal_eq. assert (N : fis_nan (r_value r) = false) by (specialize (H r (or_introl eq_refl)); destruct (r_value r); auto; contradiction).
  rewrite N, IH by (intros r0 Hr; apply H; now right). unfold cleanRow at 2. now destruct (r_value r).
Qed.
Lemma insert_nan : forall rs, (exists r, In r rs /\ r_value r = S754_nan) -> exists a r b, rs = a ++ r :: b /\ r_value r = S754_nan /\ (forall x, In x a -> r_value x <> S754_nan) /\ insertRows rs = (map cleanRow a, false).
Proof.
  induction rs as [|r rs IH]; intros (x & Hx & E); [destruct Hx|]. cbn [insertRows]. rewrite sqlReal_eq. destruct (fis_nan (r_value r)) eqn:N.
  - exists [], r, rs. split; auto. split; [destruct (r_value r); auto; discriminate|]. split; [intros y []|reflexivity].
  - destruct Hx as [->|Hx]; [rewrite E in N; discriminate|]. destruct IH as (a & y & b & -> & Ey & Na & I); [eauto|]. rewrite I. exists (r :: a), y, b. split; auto. split; auto. split; [|cbn [map]; unfold cleanRow at 2; now destruct (r_value r)].
    intros z [<-|Hz]; auto. intros Q. rewrite Q in N. discriminate.
Qed.
Lemma rows_clean : forall nn, map cleanRow (netRows nn) = netRows (plainNet nn).
Proof.
  assert (Nr : forall l j n, map cleanRow (neuronRows l j n) = neuronRows l j (plainNeuron n)).
  { intros l j n. unfold neuronRows. cbn [map w_bias w_weights plainNeuron]. f_equal. rewrite map_length. generalize 0. induction (w_weights n) as [|x ws IH]; intros k; [reflexivity|]. cbn [length seq combine map]. f_equal. apply IH. }
  assert (Lr : forall l layer, map cleanRow (layerRows l layer) = layerRows l (map plainNeuron layer)).
  { intros l layer. unfold layerRows. rewrite map_length. generalize 0. induction layer as [|n layer IH]; intros k; [reflexivity|]. cbn [length seq combine map flat_map fst snd]. rewrite map_app, Nr, IH. reflexivity. }
  intros nn. rewrite !netRows_eq. unfold plainNet. rewrite map_length. generalize 0. induction nn as [|y nn IH]; intros k; [reflexivity|]. cbn [length seq combine map flat_map fst snd]. rewrite map_app, Lr, IH. reflexivity.
Qed.
Lemma row_values : forall nn v, In v (map r_value (netRows nn)) <-> In v (numbers nn).
Proof.
  assert (Nr : forall l j n, map r_value (neuronRows l j n) = fst (w_bias n) :: map fst (w_weights n)).
  { intros l j n. unfold neuronRows. cbn [map r_value]. f_equal. generalize 0. induction (w_weights n) as [|x ws IH]; intros k; [reflexivity|]. cbn [length seq combine map fst snd r_value]. f_equal. apply IH. }
  assert (Lr : forall l layer, map r_value (layerRows l layer) = flat_map (fun n => fst (w_bias n) :: map fst (w_weights n)) layer).
  { intros l layer. unfold layerRows. generalize 0. induction layer as [|n layer IH]; intros k; [reflexivity|]. cbn [length seq combine flat_map fst snd]. rewrite map_app, Nr, IH. reflexivity. }
  intros nn v. rewrite netRows_eq. assert (E : forall k, map r_value (flat_map (fun il => layerRows (fst il) (snd il)) (combine (seq k (length nn)) nn)) = numbers nn); [|now rewrite E].
  induction nn as [|y nn IH]; intros k; [reflexivity|]. cbn [length seq combine flat_map fst snd]. rewrite map_app, Lr, IH. reflexivity.
Qed.
Lemma flat_plain : forall nn, flatNet (plainNet nn) = plainNet nn.
Proof.
  intros nn. unfold flatNet, plainNet. rewrite map_map. apply map_ext. intros layer. rewrite map_map. apply map_ext. intros n. unfold flatNeuron, plainNeuron. cbn [w_weights w_bias]. rewrite map_map. reflexivity.
Qed.
Lemma store_plain : forall nn, noNan nn -> nn_store nn = (netRows (plainNet nn), true).
Proof.
  intros nn H. unfold nn_store. rewrite insert_clean; [now rewrite rows_clean|]. intros r Hr. apply H, row_values. now apply in_map.
Qed.
Lemma plain_app : forall a k, plainNet (a ++ repeat [] k) = plainNet a ++ repeat [] k.
Proof. intros a k. unfold plainNet. rewrite map_app. f_equal. induction k; cbn; [|f_equal]; auto. Qed.
Lemma plain_full : forall a, full a -> full (plainNet a).
Proof. intros a H l Hl. unfold plainNet in Hl. apply in_map_iff in Hl. destruct Hl as (y & <- & Hy). specialize (H y Hy). destruct y; [contradiction|discriminate]. Qed.
Theorem store_load : forall nn k, noNan nn -> nn <> [] -> full nn -> nn_load (fst (nn_store (nn ++ repeat [] k))) = Ok (plainNet nn).
Proof.
  intros nn k H N Fu. rewrite store_plain; cbn [fst].
  - rewrite plain_app, load_rows, flat_plain; auto; [|now apply plain_full]. intros E. apply map_eq_nil in E. contradiction.
  - intros v Hv. apply H. unfold numbers in *. rewrite flat_map_app in Hv. apply in_app_iff in Hv. destruct Hv as [Hv|Hv]; auto. exfalso. clear - Hv. induction k; auto.
Qed.
Theorem store_load_panic : forall nn, noNan nn -> (nn_load (fst (nn_store nn)) = Panic <-> (forall layer, In layer nn -> layer = []) \/ exists a b layer, nn = a ++ [] :: b /\ In layer b /\ layer <> []).
Proof.
  intros nn H. destruct (net_cases nn) as [(k & ->)|[(a & k & -> & N & Fu)|(a & b & layer & -> & I & N)]].
  - rewrite store_plain by assumption. cbn [fst]. pose proof (plain_app [] k) as P. cbn [app] in P. rewrite P. cbn [plainNet map app]. rewrite load_none. split; auto. intros _. left. intros l Hl. now apply repeat_spec in Hl.
  - rewrite store_load; auto.
    + split; [discriminate|]. intros [X|(c & b & layer & E & I & Nl)]; exfalso.
      * destruct a as [|y a]; [contradiction|]. apply (Fu y); [now left|]. apply X. now left.
      * clear - Fu E I Nl. revert c E. induction a as [|y a IH]; intros c E.
        { cbn in E. assert (In layer (repeat [] k)) by (rewrite E; apply in_app_iff; right; now right). apply repeat_spec in H. contradiction. }
        { destruct c as [|z c]; injection E as E1 E2; [apply (Fu y); [now left|exact E1]|]. apply (IH ltac:(intros l Hl; apply Fu; now right) c E2). }
    + intros v Hv. apply H. unfold numbers in *. rewrite flat_map_app, in_app_iff. now left.
  - rewrite store_plain by assumption. cbn [fst]. replace (plainNet (a ++ [] :: b)) with (plainNet a ++ [] :: plainNet b) by (unfold plainNet; now rewrite map_app).
    split; [intros _; right; eauto 10|]. intros _. apply (load_gap _ _ (map plainNeuron layer)); [apply in_map; exact I|]. destruct layer; [contradiction|discriminate].
Qed.
