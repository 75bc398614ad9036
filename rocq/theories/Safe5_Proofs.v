(** More evidence than a stamp holds: full confidence, then no number. *)
From Coq Require Import Floats.SpecFloat String.
From Coq Require Import ZArith Bool Lia List Permutation.
From Verif Require Import Base F64_Model Tv_Model Tv_Spec Stamp_Model Stamp_Proofs Term_Model Term_Spec Sentence_Model
  Mem_Model Mem_Spec Cycle_Model Cycle_Spec Safe_Spec Safe_Proofs.
Import ListNotations.
Local Open Scope list_scope. Local Open Scope nat_scope.

Definition rTerm : term := Stmt INH (Name "a") (Name "b").
Definition rTv : tv := mkTv f1 (f_frac 9 10).
Definition rSen (i : Z) : sentence := mkSentence rTerm None JUGEMENT [i] None (Some (TV rTv)) 0.
Definition rIds : list Z := map Z.of_nat (seq 0 241).
Definition rInp (s : sentence) : Prop := exists i, In i rIds /\ s = rSen i.
Fixpoint rAt (k : nat) : tv := match k with O => rTv | S k => let v := rAt k in rev v v end.
Fixpoint rSize (k : nat) : nat := match k with O => 1 | S k => Nat.min 120 (2 * rSize k) end.
Definition rHas (L : list Z) (v : tv) : Prop :=
  exists s, derivable rInp s /\ s_term s = rTerm /\ s_stamp s = L /\ retTv s = Some v.

Lemma rIds_nodup : NoDup rIds.
Proof.
  unfold rIds. apply FinFun.Injective_map_NoDup; [intros a b; apply Nat2Z.inj|apply seq_NoDup].
Qed.
Lemma rRevise : forall L M v w, rHas L v -> rHas M w -> (forall i, In i L -> ~ In i M) -> rHas (merge L M) (rev v w).
Proof.
  intros L M v w (b & Db & Tb & Sb & Vb) (s & Ds & Ts & Ss & Vs) Dj.
  set (nb := mkSentence rTerm (s_t b) (s_punct b) (merge L M) (s_expDt b) (Some (TV (rev v w))) 0).
  exists nb. split; [|split; [reflexivity|]; split; reflexivity].
  apply (dv_revise rInp s b nb Ds Db).
  - split; [congruence|]. intros (i & H1 & H2). rewrite Sb in H1. rewrite Ss in H2. exact (Dj i H1 H2).
  - exists v, w. unfold nb. cbn. rewrite Sb, Ss, Ts. repeat split; auto.
Qed.
Lemma fresh : forall (pool L : list Z) n, NoDup L -> NoDup pool -> incl L pool -> n + length L <= length pool ->
  exists F, length F = n /\ NoDup (L ++ F) /\ incl F pool.
Proof.
  intros pool L n NL NP IL. induction n as [|n IH]; intros H.
  - exists []. rewrite app_nil_r. repeat split; auto. intros x [].
  - destruct IH as (F & LF & NF & IF); [lia|].
    destruct (Exists_dec (fun x => ~ In x (L ++ F)) pool) as [E|E].
    + intros x. destruct (in_dec Z.eq_dec x (L ++ F)); [right|left]; auto.
    + apply Exists_exists in E. destruct E as (x & Px & Nx). exists (F ++ [x]). rewrite app_length. simpl. split; [lia|]. split.
      * rewrite app_assoc. apply NoDup_app2; auto; [repeat constructor; auto; intros []|]. intros y Hy [->|[]]. contradiction.
      * intros y Hy. apply in_app_iff in Hy. destruct Hy as [Hy|[<-|[]]]; auto.
    + exfalso. assert (I : incl pool (L ++ F)).
      { intros x Hx. destruct (in_dec Z.eq_dec x (L ++ F)) as [|N]; auto. exfalso. apply E. apply Exists_exists. eauto. }
      apply NoDup_incl_length in I; auto. rewrite app_length in I. lia.
Qed.
Lemma halves : forall m (M : list Z), length M = 2 * m -> exists a b, length a = m /\ length b = m /\ interleave a b = M.
Proof.
  induction m as [|m IH]; intros M H; [exists [], []; destruct M; [auto|discriminate]|].
  destruct M as [|x [|y M]]; simpl in H; try lia. destruct (IH M) as (a & b & A & B & E); [lia|].
  exists (x :: a), (y :: b). simpl. rewrite A, B, E. auto.
Qed.
Lemma size_step : forall k, rSize (S k) <= 2 * rSize k /\ 2 * rSize k <= 240 /\ (rSize (S k) = 120 \/ rSize (S k) = 2 * rSize k).
Proof.
  intros k. assert (rSize k <= 120) by (destruct k; cbn [rSize]; lia). cbn [rSize]. lia.
Qed.
Lemma double : forall k L, NoDup L -> incl L rIds -> length L = rSize k -> rHas L (rAt k).
Proof.
  induction k as [|k IH]; intros L N I Len.
  - destruct L as [|i [|y L]]; try discriminate. exists (rSen i). split; [|repeat split]. apply dv_input; [|reflexivity]. exists i. split; [apply I; now left|auto].
  - destruct (size_step k) as (S1 & S2 & S3).
    destruct (fresh rIds L (2 * rSize k - rSize (S k)) N rIds_nodup I) as (F & LF & NF & IF).
    { rewrite Len. assert (length rIds = 241) by reflexivity. lia. }
    destruct (halves (rSize k) (L ++ F)) as (a & b & A & B & E); [rewrite app_length; lia|].
    assert (P := interleave_perm a b). rewrite E in P.
    assert (Nab : NoDup (a ++ b)) by (eapply Permutation_NoDup; eauto).
    assert (Iab : incl (a ++ b) rIds).
    { intros x Hx. apply (Permutation_in _ (Permutation_sym P)) in Hx. apply in_app_iff in Hx. destruct Hx; auto. }
    assert (Mg : merge a b = L).
    { unfold merge. rewrite E. assert (K : rSize (S k) <= 120) by (cbn [rSize]; lia).
      assert (Mn : Nat.min (length (L ++ F)) 120 = length L) by (rewrite app_length; lia).
      rewrite Mn, firstn_app, Nat.sub_diag, firstn_O, app_nil_r. apply firstn_all. }
    rewrite <- Mg. cbn [rAt]. cbv zeta. apply rRevise.
    + apply IH; auto; [|intros x Hx; apply Iab, in_or_app; auto]. clear - Nab. induction a as [|x a IHa]; [constructor|]. simpl in Nab. inversion Nab as [|? ? Nx Na]; subst.
      constructor; auto. intros Hx. apply Nx. apply in_or_app. auto.
    + apply IH; auto; [|intros x Hx; apply Iab, in_or_app; auto]. clear - Nab. induction a as [|x a IHa]; [auto|]. apply IHa. now inversion Nab.
    + clear - Nab. induction a as [|x a IHa]; [intros i []|]. simpl in Nab. inversion Nab as [|? ? Nx Na]; subst. intros i [<-|Hi] Hb; [|exact (IHa Na i Hi Hb)].
      apply Nx, in_or_app. auto.
Qed.
Lemma one_each : forall i, In i rIds -> rHas [i] rTv.
Proof.
  intros i Hi. apply (double 0); [repeat constructor; auto; intros []|intros x [<-|[]]; auto|reflexivity].
Qed.
Definition rSome (a n : nat) : list Z := map Z.of_nat (seq a n).
Theorem full_confidence : rHas (merge (rSome 0 120) [120%Z]) (rev (rAt 50) rTv).
Proof.
  apply rRevise.
  - apply double; [unfold rSome; apply FinFun.Injective_map_NoDup; [intros a b; apply Nat2Z.inj|apply seq_NoDup]| |reflexivity].
    intros x Hx. unfold rSome, rIds in *. apply in_map_iff in Hx. destruct Hx as (n & <- & Hn). apply in_seq in Hn. apply in_map, in_seq. lia.
  - apply one_each. unfold rIds. change 120%Z with (Z.of_nat 120). apply in_map, in_seq. lia.
  - intros i Hi [<-|[]]. unfold rSome in Hi. apply in_map_iff in Hi. destruct Hi as (n & E & Hn). apply in_seq in Hn. lia.
Qed.
Lemma full_val : tvc (rev (rAt 50) rTv) = f1.
Proof. vm_compute. reflexivity. Qed.
Theorem then_nan : exists L, rHas L (rev (rev (rAt 50) rTv) rTv).
Proof.
  eexists. apply rRevise; [exact full_confidence|apply (one_each 200%Z)|].
  - unfold rIds. change 200%Z with (Z.of_nat 200). apply in_map, in_seq. lia.
  - intros i Hi [<-|[]]. apply merge_from in Hi. destruct Hi as [Hi|[Hi|[]]]; [|discriminate].
    unfold rSome in Hi. apply in_map_iff in Hi. destruct Hi as (n & E & Hn). apply in_seq in Hn. lia.
Qed.
Lemma nan_val : rev (rev (rAt 50) rTv) rTv = mkTv S754_nan S754_nan.
Proof. vm_compute. reflexivity. Qed.
Lemma wf_name : forall n, wf (Name n).
Proof. intros n. apply wf_build; [exact I|]. intros x C. inversion C. Qed.
Lemma rInp_observed : forall s, rInp s -> observed rIds s.
Proof.
  intros s (i & Hi & ->). split.
  - unfold rSen, rTerm. cbn [s_term]. apply wf_stmt. split; apply wf_name.
  - intros _. exists i, rTv. repeat split; auto.
Qed.
