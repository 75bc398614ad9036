(** C111: what the programs "envPong3" and "envTTT2" can learn, want and do. *)
From Coq Require Import String Ascii ZArith Bool Lia List.
From Verif Require Import Base F64_Model Term_Model Sentence_Model PMem_Model Goal_Model Goal_Spec Proc_Model ProcS_Model ProcX_Model Parser_Model Play_Model Play_Spec
  Env_Model Env_Spec Ttt_Model Ttt_Spec Live_Proofs Vocab_Spec Vocab_Proofs Vocab2_Proofs Props_Play Props_Ttt.
Import ListNotations.
Local Open Scope list_scope.
Local Open Scope Z_scope.

(** A reasoner that perceives only names with the property [F] and has only operators without
    arguments believes only laws of the form "a, then the operator: b". *)
Theorem c111_beliefs : forall ops F y s, (forall o, In o ops -> op_kind o = OpPlain) -> confined ops F y -> In s (cells (n_mem (y_nar y))) -> law F (map op_name ops) (s_term s).
Proof.
  intros ops F y s Pl C. revert s. apply (fun V => any_cells ops F y V). induction C as [cfg tab t nMax depth C|us y a y' C IH K Y]; [|exact (vocab_act _ _ _ Pl us y a y' IH Y (any_act _ _ _ K))].
  apply start_vocab; auto; [apply gr_make|]. apply (no_goals _ (Z.to_nat depth)); reflexivity.
Qed.
(** It wants situations, deeds, or a situation and then a deed. *)
Theorem c111_goals : forall ops F y e, (forall o, In o ops -> op_kind o = OpPlain) -> confined ops F y -> stored (n_goals (y_nar y)) e -> aim F (map op_name ops) (s_term (e_sentence e)).
Proof.
  intros ops F y e Pl C. revert e. apply (v_goals ops F anyLaw). induction C as [cfg tab t nMax depth C|us y a y' C IH K Y]; [|exact (vocab_act _ _ _ Pl us y a y' IH Y (any_act _ _ _ K))].
  apply start_vocab; auto; [apply gr_make|]. apply (no_goals _ (Z.to_nat depth)); reflexivity.
Qed.
(** Its concepts are situations. *)
Theorem c111_concepts : forall ops F y t, (forall o, In o ops -> op_kind o = OpPlain) -> confined ops F y -> In t (map fst (pcs (n_mem (y_nar y)))) -> fact F t.
Proof.
  intros ops F y t Pl C H. assert (V : vInv ops F anyLaw y). { clear H. induction C as [cfg tab t0 nMax depth C|us y a y' C IH K Y]; [|exact (vocab_act _ _ _ Pl us y a y' IH Y (any_act _ _ _ K))].
    apply start_vocab; auto; [apply gr_make|]. apply (no_goals _ (Z.to_nat depth)); reflexivity. }
  apply in_map_iff in H. destruct H as ([t0 c] & <- & H). apply (proj2 (v_keys _ _ _ _ V) _ _ H).
Qed.
(** Pong: what is remembered, *)
Theorem c111_pong_beliefs : forall pf n q s, played pf n q -> In s (cells (n_mem (y_nar (q_sys q)))) -> law ballAt ["^L"; "^R"]%string (s_term s).
Proof. intros pf n q s P. destruct (pong_vocab pf n q P) as (V & _). apply (any_cells _ _ _ V). Qed.
(** at most twelve different statements in all, *)
Theorem c111_pong_twelve : forall pf n q l, played pf n q -> NoDup l -> (forall t, In t l -> exists s, In s (cells (n_mem (y_nar (q_sys q)))) /\ s_term s = t) -> (length l <= 12)%nat.
Proof.
  intros pf n q l P N H. change 12%nat with (length pongLaws). apply NoDup_incl_length; auto. intros t Ht. destruct (H t Ht) as (s & Hs & <-). apply pong_laws. exact (c111_pong_beliefs pf n q s P Hs).
Qed.
(** under three concepts at most, so that no concept is ever forgotten, *)
Theorem c111_pong_concepts : forall pf n q, played pf n q -> (length (pcs (n_mem (y_nar (q_sys q)))) <= 3)%nat /\ forall k, (3 <= k)%nat -> pLimit (n_mem (y_nar (q_sys q))) k = Ok (n_mem (y_nar (q_sys q))).
Proof.
  intros pf n q P. destruct (pong_vocab pf n q P) as (V & _). destruct (v_keys _ _ _ _ V) as (N & K).
  assert (L : (length (pcs (n_mem (y_nar (q_sys q)))) <= 3)%nat). { apply (fact_names ballAt ["0-1-xc"; "0-1-xl"; "0-1-xr"]%string); auto. intros s [-> | [-> | ->]]; cbn; auto. }
  split; auto. intros k Hk. unfold pLimit. replace (Nat.leb _ _) with true; auto. symmetry. apply Nat.leb_le. lia.
Qed.
(** what is wanted, *)
Theorem c111_pong_goals : forall pf n q e, played pf n q -> stored (n_goals (y_nar (q_sys q))) e -> aim ballAt ["^L"; "^R"]%string (s_term (e_sentence e)).
Proof. intros pf n q e P. destruct (pong_vocab pf n q P) as (V & _). exact (v_goals _ _ _ _ V e). Qed.
(** and what has happened. *)
Theorem c111_pong_events : forall pf n q e, played pf n q -> In e (n_trace (y_nar (q_sys q))) -> fact ballAt (ev_name e) \/ deed ["^L"; "^R"]%string (ev_name e).
Proof. intros pf n q e P. destruct (pong_vocab pf n q P) as (V & _). revert e. apply Forall_forall. exact (v_trace _ _ _ _ V). Qed.
(** Tic-tac-toe: the situations are winning and the boards of unfinished games reached by legal moves. *)
Theorem c111_ttt_beliefs : forall pf mx n q s, tplayed pf mx n q -> n * 10000 < 2 ^ 63 -> In s (cells (n_mem (y_nar (u_sys q)))) -> law boardOrWin moveNames (s_term s).
Proof. intros pf mx n q s P L. intros H. exact (proj1 (v_cells _ _ _ _ (ttt_vocab pf mx n q P L) s H)). Qed.
Theorem c111_ttt_concepts : forall pf mx n q t, tplayed pf mx n q -> n * 10000 < 2 ^ 63 -> In t (map fst (pcs (n_mem (y_nar (u_sys q))))) -> fact boardOrWin t.
Proof. intros pf mx n q t P L H. apply in_map_iff in H. destruct H as ([t0 c] & <- & H). apply (proj2 (v_keys _ _ _ _ (ttt_vocab pf mx n q P L)) _ _ H). Qed.
Theorem c111_ttt_goals : forall pf mx n q e, tplayed pf mx n q -> n * 10000 < 2 ^ 63 -> stored (n_goals (y_nar (u_sys q))) e -> aim boardOrWin moveNames (s_term (e_sentence e)).
Proof. intros pf mx n q e P L. exact (v_goals _ _ _ _ (ttt_vocab pf mx n q P L) e). Qed.
Theorem c111_ttt_events : forall pf mx n q e, tplayed pf mx n q -> n * 10000 < 2 ^ 63 -> In e (n_trace (y_nar (u_sys q))) -> fact boardOrWin (ev_name e) \/ deed moveNames (ev_name e).
Proof. intros pf mx n q e P L. revert e. apply Forall_forall. exact (v_trace _ _ _ _ (ttt_vocab pf mx n q P L)). Qed.

(** after a few moves each of them has learned something: the first statement remembered, and the goals *)
Definition learnt (y : psys) : list term * list term := (firstn 1 (map s_term (cells (n_mem (y_nar y)))), map (fun e => s_term (e_sentence e)) (retEntries (n_goals (y_nar y)))).
Example c111_pong_ex : option_map (fun q => learnt (q_sys q)) (match progRun noText tryOut pongStart with Ok q => Some q | Panic => None end) =
  Some ([Stmt PREDIMPL (Seq [Name "0-1-xc"; plainCall "^R"]) (Name "0-1-xr")], [Name "0-1-xc"]).
Proof. vm_compute. reflexivity. Qed.
Definition tplays (i : nat) : list tact :=
  [BMain pick0 (mkIn 0 [] (Nat.modulo i 9) (fun _ => f1) []) (Z.of_nat (Nat.modulo (2 * i + 1) 9)) (fun x => x) f1; BWork (repeat 3%nat 24)].
Example c111_ttt_ex : option_map (fun q => learnt (u_sys q)) (match tttRun noNumber 2 (concat (map tplays (seq 0 420))) tttStart with Ok q => Some q | Panic => None end) =
  Some ([Stmt PREDIMPL (Seq [Name "SSSSSSSSS"; plainCall "^7"]) (Name "SSSbSSSaS")], [Name "w"]).
Proof. vm_compute. reflexivity. Qed.
Print Assumptions c111_beliefs.
Print Assumptions c111_goals.
Print Assumptions c111_concepts.
Print Assumptions c111_pong_beliefs.
Print Assumptions c111_pong_concepts.
Print Assumptions c111_pong_twelve.
Print Assumptions c111_pong_goals.
Print Assumptions c111_pong_events.
Print Assumptions c111_ttt_beliefs.
Print Assumptions c111_ttt_concepts.
Print Assumptions c111_ttt_goals.
Print Assumptions c111_ttt_events.
