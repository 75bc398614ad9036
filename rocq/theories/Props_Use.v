(** C117: the tic-tac-toe program makes a winning move that it knows. *)
From Coq Require Import String Ascii ZArith Bool Lia List.
From Verif Require Import Base F64_Model Term_Model Tv_Model Sentence_Model PMem_Model Goal_Model Goal_Spec Goal_Proofs Proc_Model Proc_Spec ProcA_Proofs ProcC_Proofs ProcS_Model ProcX_Model Mem_Model Cycle_Model Parser_Model Nar_Model Play_Model Play_Spec
  Play_Proofs Play2_Proofs Env_Model Env_Spec Env_Proofs Ttt_Model Ttt_Spec Ttt_Proofs Ttt2_Proofs Vocab_Spec Vocab_Proofs Vocab2_Proofs Teach_Spec Teach_Proofs Props_Teach Props_Play Props_Ttt Props_Vocab Props_Truth Want_Spec Live_Proofs Props_Want Props_Number Backed_Proofs Props_Backed.
Import ListNotations.
Local Open Scope list_scope.
Local Open Scope Z_scope.

Lemma last_some : forall (tr : list event), tr <> [] -> lastEvents 20 tr <> [].
Proof. intros tr H E. unfold lastEvents in E. assert (L := skipn_length (length tr - 20) tr). rewrite E in L. cbn [length] in L. destruct tr; [auto|]. cbn [length] in L. lia. Qed.
Definition thinking (pc : tpc) : Prop := exists k, pc = THalf0 (Think k) \/ pc = TIn0 (Think k) \/ pc = THalf1 (Think k).
(** While it thinks, all it remembers as past is the board in front of it. *)
Theorem c117_board : forall pf mx n q, tplayed pf mx n q -> n * 10000 < 2 ^ 63 -> thinking (u_pc q) -> n_trace (y_nar (u_sys q)) <> [] /\
  forall e, In e (n_trace (y_nar (u_sys q))) -> exists s, ev_name e = Name s /\ readsAs (g_field (u_game q)) s.
Proof.
  intros pf mx n q P L Th. split.
  2:{ intros e He. destruct (ttt_vocab2 pf mx n q P L) as (V & A). assert (A' : onBoard (u_game q) (n_trace (y_nar (u_sys q))) /\ forall o, ~ deeds (n_trace (y_nar (u_sys q))) o) by (destruct Th as (k & [Pc|[Pc|Pc]]); rewrite Pc in A; exact A).
    destruct A' as (A1 & A2). destruct (c111_ttt_events pf mx n q e P L He) as [(s & En & _)|(o & Ho & En)]; [exists s; split; auto; apply A1; exists e; auto|]. exfalso. apply (A2 o). exists e. auto. }
  revert L Th. induction P as [|n q a q' P IH Fa E]; intros L Th; [destruct Th as (k & [X|[X|X]]); discriminate X|].
  assert (I := ttt_vocab pf mx n q P ltac:(lia)). destruct a as [rs r opp expf sel|ds].
  2:{ destruct (work_keeps _ _ _ _ _ E) as (y' & Y & ->). cbn [u_pc u_game u_sys] in *. destruct (work_trace _ _ _ _ Y) as (-> & _). apply IH; auto. lia. }
  specialize (IH ltac:(lia)). destruct q as [y d tm dq g mv games wns losses pc]. cbn [u_pc u_sys] in *. cbn [tttStep] in E. destruct pc.
  - exfalso. destruct (games >=? mx); [injection E as <-; destruct Th as (k & [X|[X|X]]); discriminate X|].
    destruct (if knowsGoal (n_goals (y_nar y)) then _ else _) as [[n1 d1]|]; cbn [rbind] in E; [|discriminate E]. injection E as <-. destruct Th as (k & [X|[X|X]]); discriminate X.
  - exfalso. injection E as <-. destruct Th as (k & [X|[X|X]]); discriminate X.
  - destruct (g_player g) eqn:Pl; [injection E as <-; cbn; discriminate|]. exfalso.
    destruct (range 9 opp) as [m|]; cbn [rbind] in E; [|discriminate E]. destruct (tryMove g m) as [[g1 [|]]|]; cbn [rbind] in E; try discriminate E; injection E as <-; destruct Th as (k & [X|[X|X]]); discriminate X.
  - destruct (yact _ y XStep0) as [[y'|]|] eqn:Y; cbn [rbind option_map] in E; try discriminate E. injection E as <-. cbn [u_sys u_pc] in *. rewrite (act_events _ _ _ _ Y). apply IH. destruct Th as (k & [X|[X|X]]); try discriminate X. injection X as ->. exists k. auto.
  - assert (Mn : (do o <- yact (usages d) y (XMain 20 rs); Ok (option_map (fun y' => mkTtt y' d tm dq g mv games wns losses (TIn0 w)) o)) = Ok (Some q') -> n_trace (y_nar (u_sys q')) <> []).
    { clear E. intros E. destruct (yact (usages d) y (XMain 20 rs)) as [[y'|]|] eqn:Y; cbn [rbind option_map] in E; try discriminate E. injection E as <-. cbn [u_sys u_pc] in *. rewrite (act_events _ _ _ _ Y). apply IH. exact Th. }
    destruct (y_main y); auto. injection E as <-. cbn [u_sys u_pc] in *. destruct Th as (k & [X|[X|X]]); try discriminate X. injection X as ->. apply IH. exists k. auto.
  - destruct (yact _ y (XStep1 true r)) as [[y'|]|] eqn:Y; cbn [rbind] in E; try discriminate E; [|destruct w as [k| |won k]; [destruct (moveOf _ mv)| |]; discriminate E].
    assert (Hw : exists k, w = Think k /\ u_sys q' = y').
    { destruct w as [k| |won k]; [exists k; split; auto; destruct (moveOf _ mv); injection E as <-; reflexivity| |]; exfalso; injection E as <-; destruct Th as (k1 & Th); cbn [u_pc] in Th.
      - destruct Th as [X|[X|X]]; discriminate X.
      - destruct k as [|[|k]]; try destruct won; destruct Th as [X|[X|X]]; discriminate X. }
    destruct Hw as (k & -> & ->). assert (Ne : n_trace (y_nar y) <> []) by (apply IH; exists k; auto). assert (Eo := v_ops _ _ _ _ I). clear - Y Ne Eo. destruct y as [n0 p c wk]. cbn [y_nar] in *. cbn [yact] in Y. destruct p; try discriminate Y.
    destruct (narStep1 n0 true r) as [n'|] eqn:S; cbn [rbind] in Y; [|discriminate Y]. injection Y as <-. cbn [y_nar]. assert (Sp := called_spec _ _ _ S). rewrite Eo in Sp. specialize (Sp ttt_plain).
    destruct (called n0 r); [destruct Sp as (t & args & _ & ->)|rewrite Sp]; apply last_some; [intros X; now apply app_eq_nil in X|exact Ne].
  - exfalso. destruct (tryMove g m) as [[g1 [|]]|]; cbn [rbind] in E; try discriminate E; injection E as <-; destruct Th as (k & [X|[X|X]]); discriminate X.
  - exfalso. destruct (winner (g_field g)) as [[c|]|]; cbn [rbind] in E; [| |discriminate E].
    + destruct (Ascii.eqb c "a"); [destruct (inputN _ _ _ _) as [[x b]|]; cbn [rbind] in E; [|discriminate E]|]; injection E as <-; destruct Th as (k & [X|[X|X]]); discriminate X.
    + destruct (isDraw (g_field g)); [|destruct (g_player g)]; injection E as <-; destruct Th as (k & [X|[X|X]]); discriminate X.
  - exfalso. destruct (reasonCycle expf sel d tm) as [[[[d1 tm1] an] m]|]; cbn [rbind] in E; [|discriminate E]. injection E as <-. destruct Th as (k & [X|[X|X]]); discriminate X.
  - discriminate E.
Qed.
Lemma get_none : forall s i, (String.length s <= i)%nat -> String.get i s = None.
Proof. intros s. induction s as [|c s IH]; intros i H; cbn in *; [reflexivity|]. destruct i; [lia|]. apply IH. lia. Qed.
Lemma reads_fun : forall f s s', readsAs f s -> readsAs f s' -> s = s'.
Proof.
  intros f s s' (L & G) (L' & G'). apply get_correct. intros i. destruct (nth_error f i) as [c|] eqn:E; [now rewrite (G i c E), (G' i c E)|].
  apply nth_error_None in E. rewrite !get_none; auto; lia.
Qed.
(** At its turn: everything remembered that starts from the board in front of it says that the move
    to cell [m] leads to [C], which is wanted, and no decision is left from before. Then this move is
    tried, whatever is drawn, also if another one was kept. *)
Theorem c117_move : forall pf mx n q k s o m C v rs r opp expf sel q', tplayed pf mx n q -> n * 10000 < 2 ^ 63 -> u_pc q = THalf1 (Think k) ->
  readsAs (g_field (u_game q)) s -> nth_error moveNames m = Some o ->
  (exists a, relevant (y_nar (u_sys q)) (Name s) a) -> (forall a, relevant (y_nar (u_sys q)) (Name s) a -> advises (y_nar (u_sys q)) (Name s) (plainCall o) C v a) ->
  Teach_Spec.wants (y_nar (u_sys q)) C v -> noneFor (y_nar (u_sys q)) (plainCall o) -> tttStep pf mx (BMain rs r opp expf sel) q = Ok (Some q') -> u_pc q' = TMove (Z.of_nat m) /\ u_game q' = u_game q.
Proof.
  intros pf mx n q k s o m C v rs r opp expf sel q' P L Pc Rd Nm Ex Al Wa No E. destruct (c117_board pf mx n q P L (ex_intro _ k (or_intror (or_intror Pc)))) as (Ne & Ev).
  assert (V := ttt_vocab pf mx n q P L). destruct (c109_settings pf mx n q P L) as (b & Cf & _). clear P L. destruct (exists_last Ne) as (tr & e & Et). destruct (Ev e) as (s1 & En & Rd1); [rewrite Et; apply in_elt|]. assert (s1 = s) by (eapply reads_fun; eauto). subst s1. clear Ne Ev Rd Rd1.
  assert (Eo := v_ops _ _ _ _ V). assert (Rc := v_reach _ _ _ _ V). clear V. destruct q as [y d tm dq g mv games wns losses pc]. cbn [u_sys u_pc u_game] in *. subst pc. cbn [tttStep] in E.
  destruct (yact (usages d) y (XStep1 true r)) as [[y'|]|] eqn:Y; cbn [rbind option_map] in E; [| |discriminate E].
  2:{ match type of E with (let '(_, _) := ?t in _) = _ => destruct t as [mv2 pc2] end. discriminate E. }
  assert (Cl : called (y_nar y) r = Some o).
  { clear E. destruct y as [n0 p c wk]. cbn [y_nar] in *. cbn [yact] in Y. destruct p; try discriminate Y. destruct (narStep1 n0 true r) as [n'|] eqn:S; cbn [rbind] in Y; [|discriminate Y]. clear Y.
    assert (Oc : opCall (plainCall o) [SetExt [Name "SELF"]] o) by (split; [discriminate|reflexivity]).
    assert (Hf : exists x, firstNamed (n_ops n0) o x).
    { rewrite Eo. destruct (ret_op_by_name tttOps o) as [x|] eqn:Rt; [exists x; now apply ret_op_some|]. exfalso. apply nth_error_In in Nm. rewrite <- ttt_names in Nm. apply in_map_iff in Nm. destruct Nm as (x & Nx & Hx). exact (proj1 (ret_op_none _ _) Rt _ Hx Nx). }
    destruct Hf as (x & Hf). assert (Pl : op_kind x = OpPlain). { apply ttt_plain. destruct Hf as (p1 & p2 & E1 & _). rewrite <- Eo, E1. apply in_elt. }
    assert (Th : fltb f0 (c_thresh (n_cfg n0)) = true) by (rewrite Cf; vm_compute; reflexivity).
    destruct (c94_act n0 r n' tr e (Name s) (plainCall o) C v _ o x S Rc Et En Oc Hf Pl Th Ex Al Wa No) as (a & iv & _ & _ & T1 & _). rewrite limit_last in T1.
    assert (Sp := called_spec _ _ _ S). rewrite Eo in Sp. specialize (Sp ttt_plain). rewrite T1 in Sp.
    assert (La : forall l (z : event), exists p0, lastEvents 20 (l ++ [z]) = p0 ++ [z]).
    { clear. intros l z. unfold lastEvents. rewrite app_length, skipn_app. cbn [length]. replace (length l + 1 - 20 - length l)%nat with 0%nat by lia. cbn. eauto. }
    destruct (La (n_trace n0) (mkEvent (plainCall o) (n_t n0) (n_t n0))) as (p0 & E0). rewrite E0 in Sp. destruct (called n0 r) as [nm|].
    - destruct Sp as (t & args & (_ & ->) & Sp). destruct (La (n_trace n0) (mkEvent (Stmt INH (SetExt [Prod args]) (Name nm)) (n_t n0) (n_t n0))) as (p1 & E1). rewrite E1 in Sp. apply app_inj_tail in Sp. destruct Sp as (_ & Sp). unfold plainCall in Sp. injection Sp as _ ->. reflexivity.
    - exfalso. rewrite Et in Sp. destruct (La tr e) as (p1 & E1). rewrite E1 in Sp. apply app_inj_tail in Sp. destruct Sp as (_ & Sp). rewrite <- Sp in En. discriminate En. }
  rewrite Cl in E. clear - E Nm. assert (Lm : (m < 9)%nat) by (change 9%nat with (length moveNames); apply nth_error_Some; congruence).
  do 9 (destruct m as [|m]; [cbn in Nm; injection Nm as <-; cbn in E; injection E as <-; split; reflexivity|]). lia.
Qed.
(** If it says that the game is won, then it is won by this move. *)
Theorem c117_wins : forall pf mx n q k s o m v rs r opp expf sel q', tplayed pf mx n q -> n * 10000 < 2 ^ 63 -> u_pc q = THalf1 (Think k) ->
  readsAs (g_field (u_game q)) s -> nth_error moveNames m = Some o ->
  (exists a, relevant (y_nar (u_sys q)) (Name s) a) -> (forall a, relevant (y_nar (u_sys q)) (Name s) a -> advises (y_nar (u_sys q)) (Name s) (plainCall o) (Name "w") v a) ->
  Teach_Spec.wants (y_nar (u_sys q)) (Name "w") v -> noneFor (y_nar (u_sys q)) (plainCall o) -> tttStep pf mx (BMain rs r opp expf sel) q = Ok (Some q') ->
  exists g1, u_pc q' = TMove (Z.of_nat m) /\ tryMove (u_game q') (Z.of_nat m) = Ok (g1, true) /\ wins "a" (g_field g1).
Proof.
  intros pf mx n q k s o m v rs r opp expf sel q' P L Pc Rd Nm Ex Al Wa No E. destruct (c117_move _ _ _ _ _ _ _ _ _ _ _ _ _ _ _ _ P L Pc Rd Nm Ex Al Wa No E) as (Pc' & Eg). rewrite Eg. clear E Eg.
  destruct Ex as (a & Ra). destruct (Al a Ra) as (Ta & _). destruct (cell_in _ _ _ _ Ta) as (_ & Hin). destruct (ttt_inv pf mx n q P L) as [_ _ _ _ _ I6 _ _ _]. rewrite Pc in I6. destruct I6 as (Go & Pl & _).
  assert (U : unfinished (g_field (u_game q))) by (apply (going_unf _ (g_player (u_game q))); now destruct (u_game q)).
  assert (Lm : (m < 9)%nat) by (change 9%nat with (length moveNames); apply nth_error_Some; congruence).
  assert (W := fun f1 => c112_wins_there pf mx n q _ s o (g_field (u_game q)) m f1 P L Hin Ta U Rd Nm). destruct Go as (Lg & _). destruct (legal_inv _ Lg) as (L9 & _).
  assert (T := tryMove_spec (u_game q) (Z.of_nat m) L9). destruct (tryMove (u_game q) (Z.of_nat m)) as [[g1 x]|] eqn:Tm; [|lia]. destruct T as (_ & Pl1 & L1 & K & T). rewrite Nat2Z.id in T. destruct x.
  - exists g1. split; auto. split; auto. apply (W (g_field g1)). destruct T as (T1 & T2). rewrite Pl in T2. split; auto. split; [congruence|]. split; auto. intros j Hj. apply K. lia.
  - exfalso. destruct T as (_ & c & Tc & Nc). destruct (W (g_field g1)) as (W1 & _). congruence.
Qed.
(** the second game is played as the first, the moves are drawn and nothing is derived: before the
    last move the board, what is remembered where it occurs, all that is wanted, that no operator is
    left to be called, and what is called with a drawn number that stands for no operator *)
Definition sameMove (q : ttt) : nat :=
  match List.length (filter (fun c => negb (Ascii.eqb c " ")) (g_field (u_game q))) with 0%nat => 2 | 2%nat => 7 | 4%nat => 0 | 6%nat => 5 | _ => 80 end%nat.
Fixpoint replay (k : nat) (q : ttt) : res ttt :=
  match k with
  | O => Ok q
  | S k =>
      let next := do q' <- tttRun noNumber 2 [BMain pick0 (mkIn 0 [] (sameMove q) (fun _ => f1) []) (again q) (fun x => x) f1; BWork (repeat 3%nat 24)] q; replay k q' in
      match u_pc q with THalf1 (Think _) => if String.eqb (boardName (u_game q)) "aSabbabab" then Ok q else next | _ => next end
  end.
Definition recalled (q : ttt) : string * list (string * bool) * list term * res bool * option string :=
  let n := y_nar (u_sys q) in
  (boardName (u_game q),
   map (fun a => let c := rd (cells (n_mem n)) a in (lawText c, match retTv c with Some v => fltb (c_thresh (n_cfg n)) (calcExp v) | None => false end)) (pBeliefs (n_mem n) [Name (boardName (u_game q))]),
   map (fun e => s_term (e_sentence e)) (retEntries (n_goals n)), do p <- pickGoal (n_goals n) (c_thresh (n_cfg n)); Ok (match p with None => true | _ => false end), called n (mkIn 0 [] 80 (fun _ => f1) [])).
Example c117_ex : (do q <- tttRun noNumber 2 (concat (map tplays (seq 4 2890))) tttStart; do q' <- replay 4000 q; Ok (recalled q')) =
  Ok ("aSabbabab", [("aSabbSbaS ^5 aSabbabab", true); ("aSabbabab ^1 w", true); ("aSabbSbaS ^5 aSabbabab", true); ("aSabbabab ^1 w", true)], [Name "w"], Ok true, Some "^1")%string.
Proof.
  vm_cast_no_check (@eq_refl (res (string * list (string * bool) * list term * res bool * option string))
    (Ok ("aSabbabab", [("aSabbSbaS ^5 aSabbabab", true); ("aSabbabab ^1 w", true); ("aSabbSbaS ^5 aSabbabab", true); ("aSabbabab ^1 w", true)], [Name "w"], Ok true, Some "^1")%string)).
Qed.
Print Assumptions c117_board.
Print Assumptions c117_move.
Print Assumptions c117_wins.
