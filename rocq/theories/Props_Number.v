(** C114: the numbers of typed goals and the times of events are taken for the same. *)
From Coq Require Import String Ascii ZArith Bool Lia List.
From Verif Require Import Base F64_Model Term_Model Stamp_Model Sentence_Model Mem_Model Mem_Spec Cycle_Model PMem_Model Goal_Model Goal_Spec Goal_Proofs Live_Proofs Proc_Model Proc_Spec ProcS_Model ProcX_Model Parser_Model Nar_Model Play_Model Play_Spec
  Env_Model Env_Spec Ttt_Model Ttt_Spec Vocab_Spec Vocab_Proofs Vocab2_Proofs Props_Play Props_Ttt Props_Vocab Props_Truth Props_Want Number_Proofs.
Import ListNotations.
Local Open Scope list_scope.
Local Open Scope Z_scope.

(** Whatever is wanted, but for the calls of operators, begins its evidence with the number of a
    typed sentence. *)
Theorem c114_pong_number : forall pf n q e, played pf n q -> stored (n_goals (y_nar (q_sys q))) e ->
  deed ["^L"; "^R"]%string (s_term (e_sentence e)) \/ exists k r, s_stamp (e_sentence e) = k :: r /\ 0 <= k < stampCtr (q_decl q).
Proof. intros pf n q e P H. exact (proj2 (proj2 (pong_nums pf n q P) e H)). Qed.
Theorem c114_ttt_number : forall pf mx n q e, tplayed pf mx n q -> n * 10000 < 2 ^ 63 -> stored (n_goals (y_nar (u_sys q))) e ->
  deed moveNames (s_term (e_sentence e)) \/ exists k r, s_stamp (e_sentence e) = k :: r /\ 0 <= k < stampCtr (u_decl q).
Proof. intros pf mx n q e P L H. exact (proj2 (proj2 (ttt_nums pf mx n q P L) e H)). Qed.
(** A goal is derived over a remembered statement only if that number is not the time of one of
    the statement's events; while only the first goal has been typed, nothing is derived over what
    was learned from the events of time 0. *)
Lemma step_number : forall ops F R y N e a g, vInv ops F R y -> numberedAll ops F N (n_goals (y_nar y)) -> stored (n_goals (y_nar y)) e ->
  goalStep (believed (n_mem (y_nar y))) (e_sentence e) (Some a) g ->
  exists k r, s_stamp (e_sentence e) = k :: r /\ 0 <= k < N /\ ~ In k (s_stamp (rd (cells (n_mem (y_nar y))) a)).
Proof.
  intros ops F R y N e a g V G H S. inversion S as [|g0 a0 b0 subj vg vb c0 _ (-> & _) E Sh]; subst.
  destruct (cell_in _ _ _ _ E) as (_ & Hin). destruct (v_cells _ _ _ _ V _ Hin) as ((a1 & d & b1 & _ & Fb & _ & _ & E') & _). rewrite E in E'. injection E' as _ Eg.
  destruct (proj2 (G e H)) as [D|(k & r & Ek & B)]; [rewrite Eg in D; destruct (fact_deed ops F _ Fb D)|]. exists k, r. split; auto. split; auto. intros Hk. apply Sh. exists k. split; auto. rewrite Ek. now left.
Qed.
Theorem c114_pong_skips : forall pf n q e a g, played pf n q -> stored (n_goals (y_nar (q_sys q))) e -> goalStep (believed (n_mem (y_nar (q_sys q)))) (e_sentence e) (Some a) g ->
  exists k r, s_stamp (e_sentence e) = k :: r /\ 0 <= k < stampCtr (q_decl q) /\ ~ In k (s_stamp (rd (cells (n_mem (y_nar (q_sys q)))) a)).
Proof. intros pf n q e a g P. exact (step_number _ _ _ _ _ e a g (proj1 (pong_vocab pf n q P)) (proj2 (pong_nums pf n q P))). Qed.
Theorem c114_ttt_skips : forall pf mx n q e a g, tplayed pf mx n q -> n * 10000 < 2 ^ 63 -> stored (n_goals (y_nar (u_sys q))) e -> goalStep (believed (n_mem (y_nar (u_sys q)))) (e_sentence e) (Some a) g ->
  exists k r, s_stamp (e_sentence e) = k :: r /\ 0 <= k < stampCtr (u_decl q) /\ ~ In k (s_stamp (rd (cells (n_mem (y_nar (u_sys q)))) a)).
Proof. intros pf mx n q e a g P L. exact (step_number _ _ _ _ _ e a g (ttt_vocab pf mx n q P L) (proj2 (ttt_nums pf mx n q P L))). Qed.

(** The two are not independent: after the game of C113 a board is wanted, it is remembered how to
    get there, and the only evidence in common is the number of the typed goal, which is also the
    time of the first turn. *)
Definition lostRun : list tact := concat (map tplays (seq 4 2890)) ++ concat (map dreams (seq 2894 12)).
Lemma lost_fair : Forall fairTurn lostRun.
Proof.
  assert (B : fairTurn (BWork (repeat 3%nat 24))). { intros d Hd. revert d Hd. apply Forall_forall. vm_compute. repeat constructor; discriminate. }
  assert (O : forall i, 0 <= Z.of_nat (Nat.modulo (2 * i + 1) 9) < 9) by (intros i; assert (H := Nat.mod_upper_bound (2 * i + 1) 9 ltac:(discriminate)); lia).
  apply Forall_app. split; apply Forall_forall; intros a Ha; apply in_concat in Ha; destruct Ha as (l & Hl & Ha); apply in_map_iff in Hl; destruct Hl as (i & <- & _);
    (destruct Ha as [<-|[<-|[]]]; [split; [intros z _; split; [|split]; vm_compute; reflexivity|apply O]|exact B]).
Qed.
Definition shared0 (q : ttt) : option (term * stamp) * option (term * stamp) * bool :=
  (nth_error (map (fun e => (s_term (e_sentence e), s_stamp (e_sentence e))) (retEntries (n_goals (y_nar (u_sys q))))) 8,
   nth_error (map (fun c => (s_term c, s_stamp c)) (cells (n_mem (y_nar (u_sys q))))) 0,
   existsb (fun tc => existsb (Nat.eqb 0) (pExp (snd tc) ++ pUse (snd tc))) (pcs (n_mem (y_nar (u_sys q))))).
Example c114_ex : match tttRun noNumber 2 lostRun tttStart with Ok q => Some (shared0 q) | Panic => None end =
  Some (Some (Name "SSaSbSSSS", [0; 102; 204; 102; 311; 153; 204; 416; 255; 311; 416; 362; 417]),
        Some (Stmt PREDIMPL (Seq [Name "SSSSSSSSS"; plainCall "^2"]) (Name "SSaSbSSSS"), [0; 0; 51]), true).
Proof. vm_cast_no_check (@eq_refl (option (option (term * stamp) * option (term * stamp) * bool)) (Some (Some (Name "SSaSbSSSS", [0; 102; 204; 102; 311; 153; 204; 416; 255; 311; 416; 362; 417]),
        Some (Stmt PREDIMPL (Seq [Name "SSSSSSSSS"; plainCall "^2"]) (Name "SSaSbSSSS"), [0; 0; 51]), true))). Qed.
Lemma same3 : forall (A B C : Type) (a a' : A) (b b' : B) (c c' : C), Some (a, b, c) = Some (a', b', c') -> a = a' /\ b = b' /\ c = c'.
Proof. intros A B C a a' b b' c c' H. injection H. auto. Qed.
Theorem c114_independent_refuted : exists pf n q e a b subj, tplayed pf 2 n q /\ stored (n_goals (y_nar (u_sys q))) e /\ believed (n_mem (y_nar (u_sys q))) a b /\
  s_term b = Stmt PREDIMPL subj (s_term (e_sentence e)) /\ shareEvidence (e_sentence e) b /\ forall i, In i (s_stamp (e_sentence e)) -> In i (s_stamp b) -> i = 0.
Proof.
  destruct (c109_safe noNumber 2 lostRun lost_fair) as (q & n & Rn & P & _); [now vm_compute|]. assert (X := c114_ex). rewrite Rn in X. unfold shared0 in X. apply same3 in X. destruct X as (X1 & X2 & X3).
  destruct (nth_error (retEntries (n_goals (y_nar (u_sys q)))) 8) as [e|] eqn:E1; [|rewrite nth_error_map, E1 in X1; discriminate X1]. rewrite nth_error_map, E1 in X1. cbn [option_map] in X1. injection X1 as T1 S1.
  destruct (nth_error (cells (n_mem (y_nar (u_sys q)))) 0) as [b|] eqn:E2; [|rewrite nth_error_map, E2 in X2; discriminate X2]. rewrite nth_error_map, E2 in X2. cbn [option_map] in X2. injection X2 as T2 S2.
  exists noNumber, n, q, e, 0%nat, b, (Seq [Name "SSSSSSSSS"; plainCall "^2"]). split; auto. split; [apply stored_iff; apply nth_error_In in E1; exact E1|]. split; [|split; [now rewrite T1|]].
  - split; [unfold rd; symmetry; now apply nth_error_nth|]. apply existsb_exists in X3. destruct X3 as ([t c] & H1 & H2). apply existsb_exists in H2. destruct H2 as (x & H2 & Hx). apply Nat.eqb_eq in Hx. subst x. eauto.
  - rewrite S1, S2. split; [exists 0; rewrite S1, S2; split; now left|]. intros i Hi [<-|[<-|[<-|[]]]]; auto. cbn in Hi. repeat (destruct Hi as [Hi|Hi]; [discriminate Hi|]). destruct Hi.
Qed.
Print Assumptions c114_pong_number.
Print Assumptions c114_ttt_number.
Print Assumptions c114_pong_skips.
Print Assumptions c114_ttt_skips.
Print Assumptions c114_independent_refuted.
