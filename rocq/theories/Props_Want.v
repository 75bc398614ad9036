(** C113: what the program "envTTT2" wants and considers can still be won. *)
From Coq Require Import String Ascii ZArith Bool Lia List.
From Verif Require Import Base F64_Model Term_Model Sentence_Model PMem_Model Goal_Model Goal_Spec Proc_Model Proc_Spec ProcS_Model ProcX_Model Parser_Model Nar_Model Play_Model Play_Spec
  Env_Model Env_Spec Env_Proofs Ttt_Model Ttt_Spec Ttt_Proofs Ttt2_Proofs Vocab_Spec Vocab_Proofs Vocab2_Proofs Props_Play Props_Ttt Props_Vocab Props_Truth Want_Spec Want_Proofs.
Import ListNotations.
Local Open Scope list_scope.
Local Open Scope Z_scope.

(** A situation that is wanted is winning, or a board of an unfinished game that can be won. *)
Theorem c113_wanted : forall pf mx n q e s, tplayed pf mx n q -> n * 10000 < 2 ^ 63 -> stored (n_goals (y_nar (u_sys q))) e -> s_term (e_sentence e) = Name s ->
  s = "w"%string \/ exists f, unfinished f /\ readsAs f s /\ winnable f.
Proof. intros pf mx n q e s P L H E. exact (proj1 (proj2 (ttt_wants pf mx n q P L e H)) s E). Qed.
(** A situation in which a move is wanted is such a board. *)
Theorem c113_then : forall pf mx n q e s o, tplayed pf mx n q -> n * 10000 < 2 ^ 63 -> stored (n_goals (y_nar (u_sys q))) e -> s_term (e_sentence e) = Seq [Name s; plainCall o] ->
  exists f, unfinished f /\ readsAs f s /\ winnable f.
Proof.
  intros pf mx n q e s o P L H E. destruct (proj2 (proj2 (ttt_wants pf mx n q P L e H)) s o E) as (s' & So & Ho).
  destruct (hope_back _ _ _ So Ho) as [->|X]; auto. destruct So as (f & i & f1 & U & Rd & _). destruct (w_no_board _ U Rd).
Qed.
(** When it decides on a move, the decisions it can choose from are moves on the board in front of
    it, and this board can be won. *)
Theorem c113_considers : forall pf mx n q k b, tplayed pf mx n q -> n * 10000 < 2 ^ 63 -> u_pc q = THalf1 (Think k) -> candidate (y_nar (u_sys q)) b ->
  winnable (g_field (u_game q)) /\ exists s o, b_seq b = Seq [Name s; plainCall o] /\ readsAs (g_field (u_game q)) s /\ In o moveNames.
Proof.
  intros pf mx n q k b P L Pc Cd. destruct (ttt_vocab2 pf mx n q P L) as (V & A). assert (G := ttt_wants pf mx n q P L). destruct (ttt_inv pf mx n q P L) as [_ _ _ _ _ I6 _ _ _].
  rewrite Pc in A, I6. destruct A as (Ob & _). destruct I6 as (Go & _). assert (U : unfinished (g_field (u_game q))) by (apply (going_unf _ (g_player (u_game q))); now destruct (u_game q)).
  destruct (candidate_wanted _ _ _ _ hope_back _ _ V G Cd) as (s & o & e & Es & Ho & Hs & He & En). assert (Rd : readsAs (g_field (u_game q)) s) by (apply Ob; exists e; auto).
  split; [|exists s, o; auto]. destruct Hs as [->|(f & Uf & Rf & Wf)]; [destruct (w_no_board _ U Rd)|]. assert (f = g_field (u_game q)) by (eapply reads_one; eauto). now subst f.
Qed.
(** So on a board that cannot be won any more there is nothing to decide. *)
Theorem c113_hopeless : forall pf mx n q k b, tplayed pf mx n q -> n * 10000 < 2 ^ 63 -> u_pc q = THalf1 (Think k) -> ~ winnable (g_field (u_game q)) -> ~ candidate (y_nar (u_sys q)) b.
Proof. intros pf mx n q k b P L Pc N C. apply N. exact (proj1 (c113_considers pf mx n q k b P L Pc C)). Qed.

(** a board with one empty cell that cannot be won: aba / abb / ba *)
Example c113_drawn_ex : ~ winnable ["a"; "b"; "a"; "a"; "b"; "b"; "b"; "a"; " "]%char.
Proof.
  assert (P : forall i f1, placed "a" i ["a"; "b"; "a"; "a"; "b"; "b"; "b"; "a"; " "]%char f1 -> f1 = ["a"; "b"; "a"; "a"; "b"; "b"; "b"; "a"; "a"]%char).
  { intros i f1 (E & Ln & Hi & Ho). assert (i = 8%nat). { do 9 (destruct i as [|i]; [cbn in E; try discriminate E; auto|]). destruct i; discriminate E. } subst i.
    apply nth_error_ext. intros j. destruct (Nat.eq_dec j 8) as [->|N]; [exact Hi|]. rewrite (Ho j N). do 9 (destruct j as [|j]; [try reflexivity; now destruct N|]). now destruct j. }
  intros H. inversion H as [f i f1 Pa Wn|f i f1 j f2 Pa (Pb & _) U Wn]; subst; apply P in Pa; subst f1.
  - destruct (winner_spec _ (eq_refl : length ["a"; "b"; "a"; "a"; "b"; "b"; "b"; "a"; "a"]%char = 9%nat)) as (w & Ew & _ & No). vm_compute in Ew. injection Ew as <-. exact (No eq_refl _ Wn).
  - do 9 (destruct j as [|j]; [discriminate Pb|]). destruct j; discriminate Pb.
Qed.
(** the game of C112 goes on a little: from winning it derives what to do on the last board, then
    on the one before, and so on *)
Definition dreams (i : nat) : list tact :=
  [BMain pick0 (mkIn 0 [] (Nat.modulo i 9) (fun _ => f1) [(f0, f0, fun k => (k, k, k))]) (Z.of_nat (Nat.modulo (2 * i + 1) 9)) (fun x => x) f1; BWork (repeat 3%nat 24)].
Definition goalText (e : entry) : string :=
  match s_term (e_sentence e) with Seq [Name s; Stmt _ _ (Name o)] => (s ++ " " ++ o)%string | Name s => s | _ => ""%string end.
Example c113_ex : option_map (fun q => map goalText (retEntries (n_goals (y_nar (u_sys q)))))
    (match tttRun noNumber 2 (concat (map tplays (seq 4 2890)) ++ concat (map dreams (seq 2894 12))) tttStart with Ok q => Some q | Panic => None end) =
  Some ["w"; "aSabbabab ^1"; "aSabbabab"; "aSabbSbaS ^5"; "aSabbSbaS"; "SSabbSSaS ^0"; "SSabbSSaS"; "SSaSbSSSS ^7"; "SSaSbSSSS"]%string.
Proof. vm_cast_no_check (@eq_refl (option (list string)) (Some ["w"; "aSabbabab ^1"; "aSabbabab"; "aSabbSbaS ^5"; "aSabbSbaS"; "SSabbSSaS ^0"; "SSabbSSaS"; "SSaSbSSSS ^7"; "SSaSbSSSS"]%string)). Qed.
(** at the first turn of the next game a plan reaches one of these boards, and its move is made *)
Example c113_decides_ex : option_map (fun q => (u_pc q, boardName (u_game q), match planForward (y_nar (u_sys q)) 0 [] None with Ok (Some b) => Some (b_seq b) | _ => None end, called (y_nar (u_sys q)) (mkIn 0 [] 80 (fun _ => f1) [])))
    (match tttRun noNumber 2 (concat (map tplays (seq 4 2890)) ++ concat (map dreams (seq 2894 453))) tttStart with Ok q => Some q | Panic => None end) =
  Some (THalf1 (Think 4), "SSSSSSSSS"%string, Some (Seq [Name "SSSSSSSSS"; plainCall "^2"]), Some "^2"%string).
Proof. vm_cast_no_check (@eq_refl (option (tpc * string * option term * option string)) (Some (THalf1 (Think 4), "SSSSSSSSS"%string, Some (Seq [Name "SSSSSSSSS"; plainCall "^2"]), Some "^2"%string))). Qed.
Print Assumptions c113_wanted.
Print Assumptions c113_then.
Print Assumptions c113_considers.
Print Assumptions c113_hopeless.
