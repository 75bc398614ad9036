(** C112: what the program "envTTT2" learns is true of the game. *)
From Coq Require Import String Ascii ZArith Bool Lia List.
From Verif Require Import Base F64_Model Term_Model Sentence_Model PMem_Model Goal_Model Proc_Model ProcS_Model ProcX_Model Parser_Model Play_Model Play_Spec
  Env_Model Env_Spec Env_Proofs Ttt_Model Ttt_Spec Vocab_Spec Vocab_Proofs Vocab2_Proofs Props_Play Props_Ttt Props_Vocab.
Import ListNotations.
Local Open Scope list_scope.
Local Open Scope Z_scope.

(** a board is known by its name *)
Lemma reads_one : forall f f' s, unfinished f -> unfinished f' -> readsAs f s -> readsAs f' s -> f = f'.
Proof.
  intros f f' s (p & L & _) (p' & L' & _) (N & H) (N' & H'). destruct (legal_inv _ L) as (_ & C & _). destruct (legal_inv _ L') as (_ & C' & _). cbn [g_field] in *.
  apply nth_error_ext. intros i. destruct (nth_error f i) as [c|] eqn:E.
  - destruct (nth_error f' i) as [c'|] eqn:E'; [|apply nth_error_None in E'; assert (i < length f)%nat by (apply nth_error_Some; congruence); lia].
    assert (X := H i c E). rewrite (H' i c' E') in X. injection X as X. f_equal. apply nth_error_In in E. apply nth_error_In in E'.
    destruct (C c E) as [-> | [-> | ->]]; destruct (C' c' E') as [-> | [-> | ->]]; try reflexivity; discriminate X.
  - destruct (nth_error f' i) as [c'|] eqn:E'; auto. apply nth_error_None in E. assert (i < length f')%nat by (apply nth_error_Some; congruence). lia.
Qed.
Lemma w_no_board : forall f, unfinished f -> ~ readsAs f "w".
Proof. intros f (p & L & _) (N & _). destruct (legal_inv _ L) as (L9 & _). cbn [g_field] in L9. rewrite L9 in N. discriminate N. Qed.
Lemma believed_sound : forall pf mx n q c s o s', tplayed pf mx n q -> n * 10000 < 2 ^ 63 -> In c (cells (n_mem (y_nar (u_sys q)))) ->
  s_term c = Stmt PREDIMPL (Seq [Name s; plainCall o]) (Name s') -> sound s o s'.
Proof. intros pf mx n q c s o s' P L H E. exact (proj2 (v_cells _ _ _ _ (ttt_vocab pf mx n q P L) c H) s o s' E). Qed.

(** If it is remembered that an operator on a board leads to winning, then the move of this
    operator on this board wins. *)
Theorem c112_wins : forall pf mx n q c s o, tplayed pf mx n q -> n * 10000 < 2 ^ 63 -> In c (cells (n_mem (y_nar (u_sys q)))) ->
  s_term c = Stmt PREDIMPL (Seq [Name s; plainCall o]) (Name "w") ->
  exists f i f1, unfinished f /\ readsAs f s /\ nth_error moveNames i = Some o /\ placed "a" i f f1 /\ wins "a" f1.
Proof.
  intros pf mx n q c s o P L H E. destruct (believed_sound pf mx n q c s o "w" P L H E) as (f & i & f1 & U & Rd & Pa & [(_ & Nm & W)|(j & f2 & _ & U2 & R2)]); [exists f, i, f1; auto|].
  destruct (w_no_board _ U2 R2).
Qed.
(** the same of any game that shows this board *)
Theorem c112_wins_there : forall pf mx n q c s o f i f1, tplayed pf mx n q -> n * 10000 < 2 ^ 63 -> In c (cells (n_mem (y_nar (u_sys q)))) ->
  s_term c = Stmt PREDIMPL (Seq [Name s; plainCall o]) (Name "w") -> unfinished f -> readsAs f s -> nth_error moveNames i = Some o ->
  nth_error f i = Some " "%char /\ (placed "a" i f f1 -> wins "a" f1).
Proof.
  intros pf mx n q c s o f i f1 P L H E U Rd Nm. destruct (c112_wins pf mx n q c s o P L H E) as (f' & i' & f1' & U' & Rd' & Nm' & Pa & W).
  assert (f' = f) by (eapply reads_one; eauto). subst f'. assert (i' = i).
  { assert (Nd : NoDup moveNames) by (unfold moveNames; repeat (constructor; [cbn; intuition discriminate|]); constructor). rewrite NoDup_nth_error in Nd. apply Nd; [apply nth_error_Some; congruence|congruence]. }
  subst i'. split; [apply Pa|]. intros (_ & Ln & Si & Ot). destruct Pa as (_ & Ln' & Si' & Ot'). replace f1 with f1'; auto. apply nth_error_ext. intros j. destruct (Nat.eq_dec j i) as [->|N]; [congruence|]. now rewrite Ot, Ot'.
Qed.
(** If the effect is a board, it is the board of the condition after a move of each player. *)
Theorem c112_next : forall pf mx n q c s o s' f f', tplayed pf mx n q -> n * 10000 < 2 ^ 63 -> In c (cells (n_mem (y_nar (u_sys q)))) ->
  s_term c = Stmt PREDIMPL (Seq [Name s; plainCall o]) (Name s') -> unfinished f -> readsAs f s -> unfinished f' -> readsAs f' s' ->
  exists i j f1, placed "a" i f f1 /\ placed "b" j f1 f'.
Proof.
  intros pf mx n q c s o s' f f' P L H E U Rd U' Rd'. destruct (believed_sound pf mx n q c s o s' P L H E) as (g & i & f1 & Ug & Rg & Pa & [(-> & _)|(j & f2 & Pb & U2 & R2)]); [destruct (w_no_board _ U' Rd')|].
  assert (g = f) by (eapply reads_one; eauto). assert (f2 = f') by (eapply reads_one; eauto). subst. eauto.
Qed.
(** Winning is never the condition of what is remembered. *)
Theorem c112_condition : forall pf mx n q c, tplayed pf mx n q -> n * 10000 < 2 ^ 63 -> In c (cells (n_mem (y_nar (u_sys q)))) ->
  exists f s o s', unfinished f /\ readsAs f s /\ s_term c = Stmt PREDIMPL (Seq [Name s; plainCall o]) (Name s').
Proof.
  intros pf mx n q c P L H. destruct (c111_ttt_beliefs pf mx n q c P L H) as (a & d & b & (s & -> & _) & (s' & -> & _) & _ & (o & _ & ->) & E).
  destruct (believed_sound pf mx n q c s o s' P L H E) as (f & _ & _ & U & Rd & _). exists f, s, o, s'. auto.
Qed.

(** the first game of a run, won with the fifth move, and the laws it teaches *)
Definition lawText (c : sentence) : string :=
  match s_term c with Stmt _ (Seq [Name s; Stmt _ _ (Name o)]) (Name s') => (s ++ " " ++ o ++ " " ++ s')%string | _ => ""%string end.
Example c112_ex : option_map (fun q => (u_wins q, nodup string_dec (map lawText (cells (n_mem (y_nar (u_sys q)))))))
    (match tttRun noNumber 2 (concat (map tplays (seq 4 2900))) tttStart with Ok q => Some q | Panic => None end) =
  Some (1, ["SSSSSSSSS ^2 SSaSbSSSS"; "SSaSbSSSS ^7 SSabbSSaS"; "SSabbSSaS ^0 aSabbSbaS"; "aSabbSbaS ^5 aSabbabab"; "aSabbabab ^1 w"]%string).
Proof. vm_cast_no_check (@eq_refl (option (Z * list string)) (Some (1, ["SSSSSSSSS ^2 SSaSbSSSS"; "SSaSbSSSS ^7 SSabbSSaS"; "SSabbSSaS ^0 aSabbSbaS"; "aSabbSbaS ^5 aSabbabab"; "aSabbabab ^1 w"]%string))). Qed.
Print Assumptions c112_wins.
Print Assumptions c112_wins_there.
Print Assumptions c112_next.
Print Assumptions c112_condition.
