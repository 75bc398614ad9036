(** A term can be typed exactly when it has the right shape. *)
From Coq Require Import String Ascii Arith Bool Lia List Relations.
From Verif Require Import Base F64_Model Term_Model Term_Spec Term_Proofs Sentence_Model Parser_Model Parser_Spec Parser_Proofs Parser2_Proofs Parser3_Proofs Speak_Spec Safe_Spec Read_Spec.
Import ListNotations.
Local Open Scope list_scope.

Lemma ty_build : forall t, shape t -> (forall x, component x t -> typable x) -> typable t.
Proof. intros t P C x O. apply occurs_inv in O. destruct O as [->|(y & Cy & O)]; [auto|]. now apply (C y Cy). Qed.
Lemma ty_comp : forall x t, typable t -> component x t -> typable x.
Proof. intros x t H C y O. apply H. eapply occurs_trans; [exact O|now apply rt_step]. Qed.
Lemma ty_shape : forall t, typable t -> shape t.
Proof. intros t H. apply H, occurs_refl. Qed.

Lemma writes_typable : forall t w, writes t w -> typable t.
Proof.
  apply (writes_ind2 (fun t w _ => typable t) (fun sep l w _ => Forall typable l)); intros; auto;
    try (apply ty_build; [cbn; rewrite ?list_ascii_of_string_of_list_ascii; auto|];
         intros x C; inversion C; subst; auto; try match goal with K : In _ [_] |- _ => destruct K as [<-|[]]; assumption end;
         match goal with F : Forall typable ?l, K : In _ ?l |- _ => rewrite Forall_forall in F; now apply F end).
Qed.

Lemma write_all : forall sep l, l <> [] -> Forall (fun t => exists w, writes t w) l -> exists w, writesAll sep l w.
Proof.
  intros sep l N F. induction F as [|t l (w & W) F IH]; [congruence|]. destruct l as [|u l].
  - exists w. now constructor.
  - destruct IH as (v & V); [discriminate|]. eexists. econstructor; eauto.
Qed.
Lemma typable_writes : forall t, typable t -> exists w, writes t w.
Proof.
  intros t. induction t as [c a b IHa IHb|nm|l IH|l IH|l IH|nm|nm|nm|l IH|l IH|r i l IHr IH|l IH|l IH|l IH|x IHx] using term_ind2; intros H;
    assert (S := ty_shape _ H); cbn in S;
    try (assert (F : Forall (fun t => exists w, writes t w) l) by
      (apply Forall_forall; intros y Hy; rewrite Forall_forall in IH; apply IH; [auto|]; apply (ty_comp _ _ H); now constructor)).
  - destruct (IHa (ty_comp _ _ H ltac:(constructor))) as (v & V). destruct (IHb (ty_comp _ _ H ltac:(apply comp_pred))) as (w & W). eexists. constructor; eauto.
  - exists (list_ascii_of_string nm). rewrite <- (string_of_list_ascii_of_string nm) at 1. now constructor.
  - destruct (write_all "," l) as (w & W); [destruct l; [simpl in S; lia|discriminate]|auto|]. eexists. apply w_seq; eauto.
  - destruct l as [|y [|]]; try discriminate S. inversion F as [|? ? (w & W) _]; subst. eexists. apply w_setint; eauto.
  - destruct l as [|y [|]]; try discriminate S. inversion F as [|? ? (w & W) _]; subst. eexists. apply w_setext; eauto.
  - exists (ascii_text "?" ++ list_ascii_of_string nm). rewrite <- (string_of_list_ascii_of_string nm) at 1. now constructor.
  - exists (ascii_text "#" ++ list_ascii_of_string nm). rewrite <- (string_of_list_ascii_of_string nm) at 1. now constructor.
  - exists (ascii_text "$" ++ list_ascii_of_string nm). rewrite <- (string_of_list_ascii_of_string nm) at 1. now constructor.
  - destruct (write_all "&&" l) as (w & W); [destruct l; [simpl in S; lia|discriminate]|auto|]. eexists. apply w_conj; eauto.
  - destruct (write_all "*" l) as (w & W); [destruct l; [simpl in S; lia|discriminate]|auto|]. eexists. apply w_prod; eauto.
  - destruct S as [S I]. destruct l as [|y [|]]; try discriminate S. inversion F as [|? ? (w & W) _]; subst.
    destruct (IHr (ty_comp _ _ H ltac:(apply comp_imgrel))) as (v & V). destruct I as [->| ->]; eexists; [apply w_img0|apply w_img1]; eauto.
  - destruct (write_all "|" l) as (w & W); [destruct l; discriminate|auto|]. eexists. apply w_intint; eauto.
  - destruct (write_all "&" l) as (w & W); [destruct l; discriminate|auto|]. eexists. apply w_extint; eauto.
  - contradiction.
  - destruct (IHx (ty_comp _ _ H ltac:(constructor))) as (v & V). eexists. constructor; eauto.
Qed.
Theorem typed_shape : forall t, (exists i r, parseEntry i = POk t r) <-> typable t.
Proof.
  intros t. split.
  - intros (i & r & P). apply entry_sound in P. destruct P as (w & W & _). eapply writes_typable; eauto.
  - intros T. destruct (typable_writes t T) as (w & W). exists (w ++ []), []. apply entry_complete; [auto|]. destruct t; cbn; auto.
Qed.
Theorem sentence_typable : forall pf i t v p ev, parseNarsese pf i = Ok (Some (t, v, p, ev)) -> typable t.
Proof. intros pf i t v p ev P. apply sentence_sound in P. destruct P as (w & r & W & _). eapply writes_typable; eauto. Qed.
Theorem sentence_typed : forall pf t p ev, typable t -> exists i, parseNarsese pf i = Ok (Some (t, defaultTv, p, ev)).
Proof.
  intros pf t p ev T. destruct (typable_writes t T) as (w & W). exists (sentenceText w p None ev). exact (sentence_read pf t w p None ev W Logic.I).
Qed.
Lemma typable_wf : forall t, typable t -> wf t.
Proof.
  intros t H x O. specialize (H x O). destruct x as [| |l|l|l| | | |l|l|? ? l|l|l|l|]; cbn in *; auto; try lia; try contradiction;
    destruct l; cbn in *; (discriminate || lia || destruct H; discriminate).
Qed.
