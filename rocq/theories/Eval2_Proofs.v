(** Proofs for Eval_Model: score, files, chaos, limit. *)
From Coq Require Import String ZArith Bool Lia List Reals Lra.
From Verif Require Import Base F64_Model Term_Model Tv_Model Stamp_Model Sentence_Model Mem_Model Cycle_Model PMem_Model Goal_Model Proc_Model Proc_Spec ProcA_Proofs ProcB_Proofs ProcC_Proofs
  Parser_Model Ad_Model Nar_Model Nar_Spec Nar2_Proofs Sched_Model Eval_Model.
Import ListNotations.
Local Open Scope list_scope.

(** * Score *)
Section RScore.
Local Open Scope R_scope.
Definition scoreR : list (list (option Z)) -> R := scoreOf R_arith exp IZR (2 / 1000) (-1).
Definition ratioR : list (list (option Z)) -> R := unansweredOf R_arith IZR.
(** what one result is worth *)
Definition gain (r : option Z) : R := match r with Some c => exp (- (IZR c / 500)) | None => 0 end.
Fixpoint total (l : list (option Z)) : R := match l with [] => 0 | r :: l' => gain r + total l' end.
Lemma total_app : forall a b, total (a ++ b) = total a + total b.
Proof. induction a as [|r a IH]; intros b; cbn [app total]; [lra|rewrite IH; lra]. Qed.
Lemma credit_gain : forall l acc, fold_left (credit R_arith exp IZR (2 / 1000) (-1)) l acc = acc + total l.
Proof.
  induction l as [|r l IH]; intros acc; cbn [fold_left total]; [lra|]. rewrite IH. destruct r as [c|]; cbn [credit gain]; [|lra].
  cbn [Aadd Amul R_arith]. replace (IZR c * (2 / 1000) * -1) with (- (IZR c / 500)) by lra. lra.
Qed.
Lemma score_total : forall runs, scoreR runs = total (concat runs) / INR (length runs).
Proof.
  intros runs. unfold scoreR, scoreOf. rewrite INR_IZR_INZ. cbn [Adiv R_arith A0]. f_equal.
  assert (G : forall acc, fold_left (fun acc files => fold_left (credit R_arith exp IZR (2 / 1000) (-1)) files acc) runs acc = acc + total (concat runs)).
  { induction runs as [|f runs IH]; intros acc; cbn [fold_left concat]; [cbn; lra|]. rewrite IH, credit_gain, total_app. lra. }
  rewrite G. lra.
Qed.
Definition sane (r : option Z) : Prop := match r with Some c => (0 <= c)%Z | None => True end.
Lemma gain_pos : forall r, 0 <= gain r.
Proof. intros [c|]; cbn; [left; apply exp_pos|lra]. Qed.
Lemma gain_le : forall r, sane r -> gain r <= 1 /\ (gain r = 1 <-> r = Some 0%Z).
Proof.
  intros [c|] H; cbn [sane gain] in *; [|split; [lra|split; [lra|discriminate]]]. apply IZR_le in H. split.
  - rewrite <- exp_0. destruct (Req_dec (IZR c) 0) as [->|N]; [right; f_equal; lra|]. left. apply exp_increasing. lra.
  - split; [|intros [= ->]; replace (- (0 / 500)) with 0 by lra; apply exp_0]. intros E. rewrite <- exp_0 in E. apply exp_inv in E. f_equal. apply eq_IZR. lra.
Qed.
Lemma total_bound : forall l, Forall sane l -> 0 <= total l <= INR (length l) /\ (total l = INR (length l) <-> Forall (fun r => r = Some 0%Z) l).
Proof.
  induction l as [|r l IH]; intros H; [cbn; split; [lra|split; auto]|]. inversion H as [|? ? Hr Hl]; subst. destruct (IH Hl) as ((A & B) & C).
  pose proof (gain_pos r). destruct (gain_le r Hr) as (D & E). change (length (r :: l)) with (S (length l)). rewrite S_INR. cbn [total]. split; [lra|]. split.
  - intros X. constructor; [apply E; lra|apply C; lra].
  - intros X. inversion X as [|? ? X1 X2]; subst. destruct E as (_ & E). rewrite E by auto. destruct C as (_ & C). rewrite C by auto. lra.
Qed.
Lemma concat_len : forall k (runs : list (list (option Z))), Forall (fun f => length f = k) runs -> length (concat runs) = (length runs * k)%nat.
Proof. intros k runs H. induction H; cbn [concat length]; auto. rewrite app_length. lia. Qed.
Theorem score_bounds : forall k runs, runs <> [] -> Forall (fun f => length f = k) runs -> Forall sane (concat runs) ->
  0 <= scoreR runs <= INR k /\ (scoreR runs = INR k <-> Forall (fun r => r = Some 0%Z) (concat runs)).
Proof.
  intros k runs N L S. rewrite score_total. destruct (total_bound _ S) as ((A & B) & C). rewrite (concat_len k) in B, C by auto. rewrite mult_INR in B, C.
  assert (P : 0 < INR (length runs)) by (destruct runs; [contradiction|apply lt_0_INR; cbn; lia]).
  assert (D : total (concat runs) / INR (length runs) = INR k <-> total (concat runs) = INR (length runs) * INR k).
  { split; intros E; [rewrite <- E; field; lra|rewrite E; field; lra]. }
  split; [|rewrite D; exact C]. split; [apply Rmult_le_pos; [lra|left; now apply Rinv_0_lt_compat]|].
  apply Rmult_le_reg_r with (INR (length runs)); auto. unfold Rdiv. rewrite Rmult_assoc, Rinv_l by lra. lra.
Qed.
(** sooner is better *)
Definition noBetter (r r' : option Z) : Prop := match r, r' with None, _ => True | Some c, Some c' => (c' <= c)%Z | Some _, None => False end.
Lemma gain_mono : forall r r', noBetter r r' -> gain r <= gain r'.
Proof.
  intros [c|] [c'|] H; cbn [noBetter] in H; [| contradiction|apply gain_pos|lra]. cbn. apply IZR_le in H. destruct (Req_dec (IZR c) (IZR c')) as [->|N]; [lra|]. left. apply exp_increasing. lra.
Qed.
Theorem score_mono : forall runs runs', Forall2 (Forall2 noBetter) runs runs' -> scoreR runs <= scoreR runs'.
Proof.
  intros runs runs' H. rewrite !score_total.
  assert (T : forall l l', Forall2 noBetter l l' -> total l <= total l') by (intros l l' F; induction F; cbn [total]; [lra|]; match goal with X : noBetter _ _ |- _ => apply gain_mono in X end; lra).
  assert (L : length runs = length runs' /\ total (concat runs) <= total (concat runs')).
  { induction H as [|f f' r r' Hf Hr IH]; cbn [concat length]; [split; auto; lra|]. destruct IH as (-> & IH). split; auto. rewrite !total_app. apply T in Hf. lra. }
  destruct L as (-> & L). apply Rmult_le_compat_r; auto. destruct (length runs') as [|k]; [change (INR 0) with 0; rewrite Rinv_0; lra|].
  left. apply Rinv_0_lt_compat, lt_0_INR. lia.
Qed.
Lemma filter_length_le : forall A (f : A -> bool) l, (length (filter f l) <= length l)%nat.
Proof. induction l as [|x l IH]; cbn; auto. destruct (f x); cbn; lia. Qed.
Theorem ratio_spec : forall runs, concat runs <> [] -> 0 <= ratioR runs <= 1 /\ (ratioR runs = 0 <-> ~ In None (concat runs)) /\ (ratioR runs = 1 <-> Forall (fun r => r = None) (concat runs)).
Proof.
  intros runs N. unfold ratioR, unansweredOf. rewrite <- !INR_IZR_INZ. cbn [Adiv R_arith]. set (l := concat runs) in *. set (f := fun r : option Z => match r with None => true | Some _ => false end).
  assert (P : 0 < INR (length l)) by (destruct l; [contradiction|apply lt_0_INR; cbn; lia]).
  assert (B : (length (filter f l) <= length l)%nat) by apply filter_length_le.
  assert (Z : length (filter f l) = 0%nat <-> ~ In None l).
  { split; intros H.
    - intros I. assert (X : In None (filter f l)) by (apply filter_In; auto). destruct (filter f l); [contradiction|discriminate].
    - destruct (filter f l) as [|r m] eqn:E; auto. exfalso. assert (X : In r (filter f l)) by (rewrite E; now left). apply filter_In in X. destruct X as (X & Y). destruct r; [discriminate|]. auto. }
  assert (O : length (filter f l) = length l <-> Forall (fun r => r = None) l).
  { clear. induction l as [|r l IH]; [cbn; split; auto|]. cbn [filter length]. pose proof (filter_length_le _ f l). destruct r as [c|]; cbn [f].
    - split; [lia|]. intros X. inversion X. discriminate.
    - cbn [length]. split; intros X; [constructor; auto; apply IH; lia|]. inversion X; subst. f_equal. now apply IH. }
  assert (E0 : INR (length (filter f l)) / INR (length l) = 0 <-> length (filter f l) = 0%nat).
  { split; intros H; [|rewrite H; cbn; lra]. apply INR_eq. cbn. apply Rmult_eq_reg_r with (/ INR (length l)); [|apply Rinv_neq_0_compat; lra]. unfold Rdiv in H. lra. }
  assert (E1 : INR (length (filter f l)) / INR (length l) = 1 <-> length (filter f l) = length l).
  { split; intros H; [|rewrite H; field; lra]. apply INR_eq. replace (INR (length l)) with (1 * INR (length l)) by lra. rewrite <- H. field. lra. }
  rewrite E0, E1, Z, O. split; [|tauto]. apply le_INR in B. pose proof (pos_INR (length (filter f l))). split.
  - apply Rmult_le_pos; [lra|left; now apply Rinv_0_lt_compat].
  - apply Rmult_le_reg_r with (INR (length l)); auto. unfold Rdiv. rewrite Rmult_assoc, Rinv_l by lra. lra.
Qed.
End RScore.

(** * Files *)
Lemma fed_app : forall pf a n m b p, fed pf a n m -> fed pf b m p -> fed pf (a ++ b) n p.
Proof. intros pf a n m b p H. revert b p. induction H; intros b p K; [exact K|]. cbn [app]. eapply fed_line; eauto. Qed.
Definition quits (e : text * lineRnd) : Prop := trimmed (fst e) (tx "!QQ").
Theorem readFiles_spec : forall pf files n n' q, readFiles pf files n = Ok (n', q) ->
  exists pre rest, Forall (fun e => ~ quits e) pre /\
    if q then exists e, concat files = pre ++ e :: rest /\ quits e /\ fed pf (pre ++ [e]) n n' else concat files = pre /\ fed pf pre n n'.
Proof.
  intros pf. induction files as [|f files IH]; intros n n' q H; cbn [readFiles] in H.
  - injection H as <- <-. exists [], []. split; [constructor|]. split; [reflexivity|constructor].
  - destruct (readFile pf f n) as [[n1 q1]|] eqn:E; [|discriminate]. cbn [rbind] in H. apply readFile_spec in E. destruct E as (pre & rest & F & K). destruct q1.
    + injection H as <- <-. destruct K as (l & r & -> & T & Fd). exists pre, (rest ++ concat files). split; auto. exists (l, r). cbn [concat]. rewrite <- app_assoc. cbn [app]. auto.
    + destruct K as (-> & _ & Fd). apply IH in H. destruct H as (pre' & rest' & F' & K). exists (pre ++ pre'), rest'. split; [apply Forall_app; auto|]. destruct q.
      * destruct K as (e & C & T & Fd'). exists e. cbn [concat]. rewrite C, <- !app_assoc. split; [reflexivity|]. split; auto. eapply fed_app; eauto.
      * destruct K as (C & Fd'). cbn [concat]. rewrite C. split; [reflexivity|]. eapply fed_app; eauto.
Qed.
Theorem mainIt_spec : forall pf files lines n q, mainIt pf files lines = Ok (n, q) ->
  (exists pre e rest, concat files = pre ++ e :: rest /\ Forall (fun e => ~ quits e) pre /\ quits e /\ fed pf (pre ++ [e]) createNar n /\ q = true) \/
  (Forall (fun e => ~ quits e) (concat files) /\ exists m, fed pf (concat files) createNar m /\ runInteractive pf m [] lines = Ok (n, q)).
Proof.
  intros pf files lines n q H. unfold mainIt in H. destruct (readFiles pf files createNar) as [[m q1]|] eqn:E; [|discriminate]. cbn [rbind] in H. apply readFiles_spec in E.
  destruct E as (pre & rest & F & K). destruct q1.
  - injection H as <- <-. destruct K as (e & C & T & Fd). left. exists pre, e, rest. auto.
  - destruct K as (-> & Fd). right. split; auto. eauto.
Qed.

(** * Chaos *)
Lemma input_time : forall n t p v ev draws n', inputT2 n t p v ev draws = Ok n' -> n_t (nr_proc n') = n_t (nr_proc n).
Proof.
  intros n t p v ev draws n' H. unfold inputT2 in H. destruct (takeId (nr_decl n)) as [[id u] d]. cbn [nr_proc withDecl] in H.
  match type of H with rbind ?x _ = _ => destruct x; [|discriminate] end. cbn [rbind] in H.
  destruct ev; [destruct p|destruct (isTemporal t); destruct p]; try (injection H as <-; reflexivity);
    match type of H with rbind ?x _ = _ => destruct x; [|discriminate] end; cbn [rbind] in H; injection H as <-; reflexivity.
Qed.
Lemma inputN_time : forall pf n i draws n' b, inputN pf n i draws = Ok (n', b) -> n_t (nr_proc n') = n_t (nr_proc n).
Proof.
  intros pf n i draws n' b H. unfold inputN in H. destruct (parseNarsese pf i) as [[[[[t v] p] ev]|]|]; [| |discriminate]; cbn [rbind] in H; [|now injection H as <- _].
  destruct (inputT2 n t p v ev draws) as [n1|] eqn:E; [|discriminate]. cbn [rbind] in H. injection H as <- _. eapply input_time; eauto.
Qed.
