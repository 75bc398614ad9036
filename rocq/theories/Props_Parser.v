(** Properties C39, C40 and C68: reading Narsese. *)
From Coq Require Import String Ascii Arith ZArith Bool Lia List.
From Verif Require Import Base F64_Model Tv_Model Term_Model Sentence_Model Parser_Model Parser_Spec Parser_Proofs Parser2_Proofs Parser3_Proofs.
Import ListNotations.
Local Open Scope string_scope.
Local Open Scope list_scope.
Local Open Scope nat_scope.

(** ** C39: the printed form is read again exactly for the plain terms *)
Theorem c39_print_read : forall t s, convTermToStr t = Ok s -> (parseEntry (tx s) = POk t [] <-> plain t).
Proof. exact print_read. Qed.
Theorem c39_plain_printed : forall t, plain t -> exists s, convTermToStr t = Ok s /\ parseEntry (tx s) = POk t [].
Proof. intros t P. destruct (print_plain t P) as (s & E & W). exists s. split; auto. now apply print_read. Qed.
(** A printed sentence of a plain term is read as the same sentence. *)
Theorem c39_sentence : forall pf t s p ev, plain t -> convTermToStr t = Ok s ->
  parseNarsese pf (sentenceText (tx s) p None ev) = Ok (Some (t, defaultTv, p, ev)).
Proof.
  intros pf t s p ev P E. destruct (print_plain t P) as (s' & E' & W). assert (s' = s) by congruence. subst s'. exact (sentence_read pf t _ p None ev W Logic.I).
Qed.
Example c39_ex : parseEntry (tx "<{cup} --> [red]>") = POk (Stmt INH (SetExt [Name "cup"]) (SetInt [Name "red"])) [] /\
  convTermToStr (Stmt INH (SetExt [Name "cup"]) (SetInt [Name "red"])) = Ok "<{cup} --> [red]>".
Proof. split; vm_compute; reflexivity. Qed.
Example c39_plain_ex : plain (Stmt INH (SetExt [Name "cup"]) (SetInt [IndepVar "x1"])).
Proof.
  assert (N : forall s, match list_ascii_of_string s with [] => false | _ => true end && (length (list_ascii_of_string s) <=? 512) && forallb isValidSign (list_ascii_of_string s) = true -> nameText (list_ascii_of_string s)).
  { intros s H. apply andb_true_iff in H. destruct H as (H & C). apply andb_true_iff in H. destruct H as (A & B). split; [intros E; rewrite E in A; discriminate|]. split; [now apply Nat.leb_le|].
    intros c Hc. apply sign_iff. rewrite forallb_forall in C. now apply C. }
  constructor; [constructor; apply (pl_name (list_ascii_of_string "cup")); now apply N|]. constructor. apply (pl_indepvar (list_ascii_of_string "x1")). now apply N.
Qed.
(** Finding: what the system prints for sequences, conjunctions, products, negations and
    images cannot be typed in again. *)
Theorem c39_refuted : exists t s, convTermToStr t = Ok s /\ (exists w, writes t w /\ parseEntry w = POk t []) /\ parseEntry (tx s) = PErr.
Proof.
  exists (Seq [Name "a"; Name "b"]). eexists. split; [vm_compute; reflexivity|]. split; [|vm_compute; reflexivity].
  exists (tx "(a,b)"). assert (P : parseEntry (tx "(a,b)") = POk (Seq [Name "a"; Name "b"]) []) by (vm_compute; reflexivity). split; auto.
  apply entry_sound in P. destruct P as (w & W & E). rewrite app_nil_r in E. now rewrite E.
Qed.
(** Finding: of a name with more than 512 characters only the beginning is read,
    without any error. *)
Theorem c39_long_refuted : forall pf, exists s, length (tx s) = 600 /\ (forall c, In c (tx s) -> nameChar c) /\
  exists t s', parseNarsese pf (tx s ++ tx ".") = Ok (Some (t, defaultTv, JUGEMENT, false)) /\ t = Name s' /\ length (tx s') = 512.
Proof.
  intros pf. set (w := repeat "a"%char 600). exists (string_of_list_ascii w). assert (E : tx (string_of_list_ascii w) = w) by (unfold tx; apply list_ascii_of_string_of_list_ascii). rewrite E.
  split; [apply repeat_length|]. split; [intros c Hc; apply repeat_spec in Hc; subst c; vm_compute; tauto|].
  exists (Name (string_of_list_ascii (repeat "a"%char 512))), (string_of_list_ascii (repeat "a"%char 512)). split; [subst w; vm_compute; reflexivity|]. split; [reflexivity|].
  unfold tx. rewrite list_ascii_of_string_of_list_ascii. apply repeat_length.
Qed.

(** ** C40: reading a term *)
Theorem c40_total : forall i, parseEntry i <> PFuel.
Proof. exact entry_total. Qed.
Theorem c40_fuel : forall f i, length i < f -> parseSubjOrPred f i = parseEntry i.
Proof. exact entry_fuel. Qed.
Theorem c40_sound : forall i t r, parseEntry i = POk t r -> exists w, writes t w /\ i = w ++ r.
Proof. exact entry_sound. Qed.
Theorem c40_complete : forall t w r, writes t w -> mayFollow t r -> parseEntry (w ++ r) = POk t r.
Proof. exact entry_complete. Qed.
(** Reading fails exactly when no beginning of the text is a term. *)
Theorem c40_fails : forall i, parseEntry i = PErr <-> ~ exists t w r, writes t w /\ i = w ++ r.
Proof. exact entry_err. Qed.
(** The grammar is unambiguous. *)
Theorem c40_unambiguous : forall t t' w, writes t w -> writes t' w -> t = t'.
Proof. exact unambiguous. Qed.
(** The term depends only on the text that was consumed. *)
Theorem c40_prefix : forall i t r, parseEntry i = POk t r -> exists w, i = w ++ r /\ forall r', mayFollow t r' -> parseEntry (w ++ r') = POk t r'.
Proof. intros i t r H. apply entry_sound in H. destruct H as (w & W & ->). exists w. split; auto. intros r' M. now apply entry_complete. Qed.
Example c40_ex : parseEntry (tx "<(a*b*c) --> (rel /1 $x)>tail") =
  POk (Stmt INH (Prod [Name "a"; Name "b"; Name "c"]) (Img (Name "rel") 0 [IndepVar "x"])) (tx "tail").
Proof. vm_compute. reflexivity. Qed.
Example c40_err_ex : parseEntry (tx "<a -> b>") = PErr.
Proof. vm_compute. reflexivity. Qed.
(** Finding: a sentence with rubbish behind the term is accepted as if the rubbish was not there. *)
Theorem c40_trailing_refuted : forall pf, exists rubbish, rubbish <> [] /\
  parseNarsese pf (tx "<a --> b>" ++ rubbish ++ tx ".") = parseNarsese pf (tx "<a --> b>" ++ tx ".") /\
  parseNarsese pf (tx "<a --> b>" ++ tx ".") = Ok (Some (Stmt INH (Name "a") (Name "b"), defaultTv, JUGEMENT, false)).
Proof. intros pf. exists (tx " xyz <{"). split; [discriminate|]. split; vm_compute; reflexivity. Qed.

(** ** C68: whole sentences *)
Theorem c68_read : forall pf t w p v ev, writes t w -> match v with Some (a, b) => numText a /\ numText b | None => True end ->
  parseNarsese pf (sentenceText w p v ev) =
  match v with
  | None => Ok (Some (t, defaultTv, p, ev))
  | Some (a, b) => match pf a, pf b with Some f, Some c => Ok (Some (t, mkTv f c, p, ev)) | _, _ => Panic end
  end.
Proof. exact sentence_read. Qed.
Theorem c68_sound : forall pf i t v p ev, parseNarsese pf i = Ok (Some (t, v, p, ev)) ->
  exists w r, writes t w /\ exists tail, body i = w ++ r ++ [punctChar p] ++ tail.
Proof. exact sentence_sound. Qed.
Theorem c68_squeeze : forall i, tidy (squeezeStars i) /\ letters (squeezeStars i) = letters i /\ (tidy i -> squeezeStars i = i).
Proof. exact squeeze_spec. Qed.
Theorem c68_panics : forall pf i, parseNarsese pf i = Panic <-> (exists c, In c i /\ isAscii c = false) \/ badTv pf (body i).
Proof. exact narsese_panic. Qed.
Example c68_ex : forall pf, pf (tx "0.4") = Some (f_frac 2%positive 5%positive) -> pf (tx "0.8") = Some (f_frac 4%positive 5%positive) ->
  parseNarsese pf (tx "<(a   *  b) --> r>! {0.4 0.8} :|:") = Ok (Some (Stmt INH (Prod [Name "a"; Name "b"]) (Name "r"), mkTv (f_frac 2%positive 5%positive) (f_frac 4%positive 5%positive), GOAL, true)).
Proof.
  intros pf A B. change (parseNarsese pf (tx "<(a   *  b) --> r>! {0.4 0.8} :|:")) with (parseNarsese pf (sentenceText (tx "<(a*b) --> r>") GOAL (Some (tx "0.4", tx "0.8")) true)).
  assert (P : parseEntry (tx "<(a*b) --> r>") = POk (Stmt INH (Prod [Name "a"; Name "b"]) (Name "r")) []) by (vm_compute; reflexivity).
  apply entry_sound in P. destruct P as (w & W & E). rewrite app_nil_r in E. rewrite E.
  rewrite (c68_read pf _ _ GOAL (Some (tx "0.4", tx "0.8")) true W).
  - rewrite A, B. reflexivity.
  - split; intros c H; cbn in H; repeat (destruct H as [<-|H]; [vm_compute; repeat split; (lia || discriminate)|]); destruct H.
Qed.
(** Finding: one bad number in the braces stops the program. *)
Theorem c68_number_refuted : forall pf, pf (tx "x") = None -> exists i, (forall c, In c i -> isAscii c = true) /\ parseNarsese pf i = Panic.
Proof.
  intros pf N. exists (tx "<a --> b>. {x 0.9}"). split; [intros c H; cbn in H; repeat (destruct H as [<-|H]; [reflexivity|]); destruct H|].
  apply narsese_panic. right. exists (tx "<a --> b>. "), (tx "x"), (tx "0.9"). split; [vm_compute; reflexivity|]. split; [discriminate|]. split; [|now left].
  intros c H. cbn in H. repeat (destruct H as [<-|H]; [split; discriminate|]). destruct H.
Qed.
(** Finding: values in the braces are not checked to be truth values. *)
Theorem c68_unchecked : forall pf a b f c, numText a -> numText b -> pf a = Some f -> pf b = Some c -> forall t w, writes t w ->
  parseNarsese pf (sentenceText w JUGEMENT (Some (a, b)) false) = Ok (Some (t, mkTv f c, JUGEMENT, false)).
Proof. intros pf a b f c Na Nb A B t w W. rewrite (c68_read pf t w JUGEMENT (Some (a, b)) false W (conj Na Nb)). rewrite A, B. reflexivity. Qed.

Print Assumptions c39_print_read.
Print Assumptions c39_sentence.
Print Assumptions c40_total.
Print Assumptions c40_complete.
Print Assumptions c40_fails.
Print Assumptions c40_unambiguous.
Print Assumptions c68_read.
Print Assumptions c68_sound.
Print Assumptions c68_squeeze.
Print Assumptions c68_panics.
