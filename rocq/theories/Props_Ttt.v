(** C109: the program "envTTT2". *)
From Coq Require Import String Ascii ZArith Bool Lia List.
From Verif Require Import Base F64_Model Term_Model Tv_Model Tv_Spec Sentence_Model Mem_Model Cycle_Model PMem_Model Goal_Model Goal_Spec Proc_Model Proc_Spec
  ProcS_Model ProcX_Model Parser_Model Nar_Model Env_Model Env_Spec Env_Proofs Play_Model Ttt_Model Ttt_Spec Ttt_Proofs Ttt2_Proofs Ttt3_Proofs.
Import ListNotations.
Local Open Scope list_scope.
Local Open Scope Z_scope.

(** However the two threads take turns and whatever is drawn, nothing panics. *)
Theorem c109_safe : forall pf mx acts, Forall fairTurn acts -> Z.of_nat (length acts) * 10000 < 2 ^ 63 ->
  exists q n, tttRun pf mx acts tttStart = Ok q /\ tplayed pf mx n q /\ n <= Z.of_nat (length acts).
Proof.
  intros pf mx acts F L. assert (G : forall l n q, tplayed pf mx n q -> Forall fairTurn l -> (n + Z.of_nat (length l)) * 10000 < 2 ^ 63 ->
    exists q' n', tttRun pf mx l q = Ok q' /\ tplayed pf mx n' q' /\ n' <= n + Z.of_nat (length l)).
  { clear. intros l. induction l as [|a l IH]; intros n q P F L; cbn [tttRun length] in *; [exists q, n; split; auto; split; auto; lia|].
    inversion F as [|? ? Fa Fl]; subst. rewrite Nat2Z.inj_succ in L. destruct (ttt_step pf mx n q a) as (o & E & _); auto; [apply (ttt_inv pf); auto; lia|lia|].
    rewrite E. cbn [rbind]. rewrite Nat2Z.inj_succ. destruct o as [q1|].
    - destruct (IH (n + 1) q1) as (q' & n' & R & P' & B); auto; [eapply tp_step; eauto|lia|]. exists q', n'. split; auto. split; auto. lia.
    - destruct (IH n q) as (q' & n' & R & P' & B); auto; [lia|]. exists q', n'. split; auto. split; auto. lia. }
  destruct (G acts 0 tttStart (tp_start pf mx) F ltac:(lia)) as (q & n & R & P & B). exists q, n. auto.
Qed.
(** Every board arises by legal play, the reasoner moves only when it is its turn and the game
    is neither won nor drawn. *)
Theorem c109_legal : forall pf mx n q, tplayed pf mx n q -> n * 10000 < 2 ^ 63 ->
  (exists p, legal (mkGame (g_field (u_game q)) p)) /\
  (forall m, u_pc q = TMove m -> 0 <= m < 9 /\ legal (mkGame (g_field (u_game q)) true) /\ (forall c, ~ wins c (g_field (u_game q))) /\ ~ full (g_field (u_game q))).
Proof.
  intros pf mx n q P L. split; [eapply board_legal; eauto|]. intros m E. assert (I := ti_game _ _ _ (ttt_inv _ _ _ _ P L)). rewrite E in I. destruct I as ((I1 & I2 & I3) & Pl & B).
  split; auto. split; auto. destruct (u_game q) as [f p]. cbn [g_player g_field] in *. now subst p.
Qed.
(** Before it thinks, the reasoner knows of exactly one event: the board as it is now. *)
Theorem c109_told : forall pf mx n q, tplayed pf mx n q -> n * 10000 < 2 ^ 63 -> u_pc q = THalf0 (Think 4) ->
  exists s, readsAs (g_field (u_game q)) s /\ n_trace (y_nar (u_sys q)) = [mkEvent (Name s) (n_t (y_nar (u_sys q))) (n_t (y_nar (u_sys q)))].
Proof. exact told_board. Qed.
(** What it decides: calling the operator ^m is the move to cell m and is remembered. A move
    called while it only watches is kept, and made when it thinks the next time. *)
Theorem c109_does : forall pf mx n q w rs r opp expf sel q', tplayed pf mx n q -> n * 10000 < 2 ^ 63 -> u_pc q = THalf1 w -> tttStep pf mx (BMain rs r opp expf sel) q = Ok (Some q') ->
  (match w, u_move q with
   | Think _, Some m => u_pc q' = TMove m /\ u_move q' = None
   | Think _, None => (forall m, u_pc q' <> TMove m) /\ u_move q' = None
   | _, mv => u_move q' = mv
   end /\ n_trace (y_nar (u_sys q')) = lastEvents 20 (n_trace (y_nar (u_sys q)))) \/
  (exists m t args, (m < 9)%nat /\ opCall t args (String "^" (String (ascii_of_nat (48 + m)) "")) /\
    match w with Think _ => u_pc q' = TMove (Z.of_nat m) /\ u_move q' = None | _ => u_move q' = Some (Z.of_nat m) end /\
    n_trace (y_nar (u_sys q')) = lastEvents 20 (n_trace (y_nar (u_sys q)) ++ [mkEvent t (n_t (y_nar (u_sys q))) (n_t (y_nar (u_sys q)))])).
Proof.
  intros pf mx n q w rs r opp expf sel q' P L Q E. destruct (ttt_does _ _ _ _ _ _ _ _ _ _ _ P L Q E) as [(H1 & H2)|(m & t & args & H1 & H2 & H3 & H4)].
  - left. split; auto. unfold undecided in H1. rewrite Q in H1. destruct w as [k| |won k]; destruct (u_move q); auto.
  - right. exists m, t, args. split; auto. split; auto. split; auto. unfold decided in H3. rewrite Q in H3. destruct w as [k| |won k]; auto.
Qed.
(** What its move does: the mark is set exactly if the cell is empty; else it has to think again. *)
Theorem c109_plays : forall pf mx n q m rs r opp expf sel q', tplayed pf mx n q -> n * 10000 < 2 ^ 63 -> u_pc q = TMove m -> tttStep pf mx (BMain rs r opp expf sel) q = Ok (Some q') ->
  0 <= m < 9 /\
  ((nth_error (g_field (u_game q)) (Z.to_nat m) = Some " "%char /\ u_pc q' = TCheck /\ nth_error (g_field (u_game q')) (Z.to_nat m) = Some "a"%char) \/
   (nth_error (g_field (u_game q)) (Z.to_nat m) <> Some " "%char /\ u_pc q' = TPick /\ u_game q' = u_game q)) /\
  (forall j, Z.of_nat j <> m -> nth_error (g_field (u_game q')) j = nth_error (g_field (u_game q)) j).
Proof. exact ttt_plays. Qed.
(** The counted wins and losses are the numbers of games in which the reasoner and the opponent
    got a line. The program ends after one game more than it is asked for. (It prints the ratio
    before it counts the game that has just ended: 280.) *)
Theorem c109_tally : forall pf mx n q, tplayed pf mx n q -> n * 10000 < 2 ^ 63 -> exists k, tallied pf mx n k (u_wins q) (u_losses q) q /\
  (u_wins q + u_losses q <= k) /\ (u_pc q = TDone -> k = Z.max 0 (mx + 1)).
Proof.
  intros pf mx n q P L. destruct (tally_exists _ _ _ _ P L) as (k & a & b & T). destruct (tally_ok _ _ _ _ _ _ _ T L) as (-> & -> & ->). assert (I := ttt_inv _ _ _ _ P L).
  assert (W := ti_wins _ _ _ I). assert (G := ti_games _ _ _ I). assert (D := ti_done _ _ _ I). exists (u_games q + 1). split; auto. split; [destruct (gameOver (u_pc q)); lia|]. intros E. specialize (D E). lia.
Qed.
(** the counts are determined *)
Theorem c109_tally_fun : forall pf mx n k a b q, tallied pf mx n k a b q -> n * 10000 < 2 ^ 63 -> k = u_games q + 1 /\ a = u_wins q /\ b = u_losses q.
Proof. exact tally_ok. Qed.
(** The declarative part never gets anything to do: what is typed goes to the procedural part. *)
Theorem c109_quiet : forall pf mx n q, tplayed pf mx n q -> n * 10000 < 2 ^ 63 ->
  u_dq q = [] /\ judg (u_decl q) = [] /\ questions (u_decl q) = [] /\ memory (u_decl q) = [].
Proof. intros pf mx n q P L. destruct (ttt_inv _ _ _ _ P L) as [_ [S1 S2 S3 _ _] I3 _ _ _ _ _ _]. auto. Qed.
(** Its settings: operators are tried out while it thinks and never while it watches; effects
    are never waited for. *)
Theorem c109_settings : forall pf mx n q, tplayed pf mx n q -> n * 10000 < 2 ^ 63 ->
  exists b, n_cfg (y_nar (u_sys q)) = mkPcfg 2 (f_frac 58 100) 1 4 b false 500 100 /\
    (forall k, u_pc q = THalf1 (Think k) -> b = true) /\ (watching (u_pc q) -> b = false).
Proof.
  intros pf mx n q P L. assert (C := ttt_set _ _ _ _ P L). unfold cfgBy, setAs, watching in *.
  assert (D : forall b, n_cfg (y_nar (u_sys q)) = mkPcfg 2 (f_frac 58 100) 1 4 b false 500 100 -> (forall k, u_pc q = THalf1 (Think k) -> b = true) -> (watching (u_pc q) -> b = false) ->
    exists b, n_cfg (y_nar (u_sys q)) = mkPcfg 2 (f_frac 58 100) 1 4 b false 500 100 /\ (forall k, u_pc q = THalf1 (Think k) -> b = true) /\ (watching (u_pc q) -> b = false)) by (intros b H1 H2 H3; exists b; auto).
  destruct (u_pc q) as [| | |[k| |won k]|[k| |won k]|[k| |won k]|m| | |]; try destruct C as [C|C]; (apply (D _ C); [intros k' X; (reflexivity || discriminate X)|]);
    intros (w & [X|[X|X]] & [Y|(won' & k' & Y)]); try discriminate X; try reflexivity; congruence.
Qed.
(** A new game begins with an empty board, no events and the goal "w" among the goals. *)
Theorem c109_begin : forall pf mx n q a q', tplayed pf mx n q -> n * 10000 < 2 ^ 63 -> u_pc q = TEpoch -> tttStep pf mx a q = Ok (Some q') -> u_pc q' <> TEpoch ->
  (u_pc q' = TDone /\ mx <= u_games q) \/
  (u_pc q' = TTurn /\ u_games q < mx /\ u_game q' = mkGame (repeat " "%char 9) true /\ n_trace (y_nar (u_sys q')) = [] /\
     exists e, stored (n_goals (y_nar (u_sys q'))) e /\ s_term (e_sentence e) = Name "w").
Proof. exact ttt_fresh. Qed.
(** After the opponent's move it is shown the board. *)
Theorem c109_seen : forall pf mx n q, tplayed pf mx n q -> n * 10000 < 2 ^ 63 -> u_pc q = THalf1 See ->
  exists s pre, readsAs (g_field (u_game q)) s /\ n_trace (y_nar (u_sys q)) = pre ++ [mkEvent (Name s) (n_t (y_nar (u_sys q))) (n_t (y_nar (u_sys q)))].
Proof. exact ttt_seen. Qed.
(** It is told "w" exactly when it has won, and nothing when it has lost or nobody has won. *)
Theorem c109_reward : forall pf mx n q rs r opp expf sel q', tplayed pf mx n q -> n * 10000 < 2 ^ 63 -> u_pc q = TCheck -> tttStep pf mx (BMain rs r opp expf sel) q = Ok (Some q') ->
  (wins "a" (g_field (u_game q)) /\ n_trace (y_nar (u_sys q')) = n_trace (y_nar (u_sys q)) ++ [mkEvent (Name "w") (n_t (y_nar (u_sys q))) (n_t (y_nar (u_sys q)))]) \/
  (~ wins "a" (g_field (u_game q)) /\ n_trace (y_nar (u_sys q')) = n_trace (y_nar (u_sys q))).
Proof. intros pf mx n q rs r opp expf sel q' P L Q E. destruct (ttt_reward _ _ _ _ _ _ _ _ _ _ P L Q E) as (_ & [(A & B & _)|(A & B & _)]); auto. Qed.
(** How long it watches after a move: 50 steps after its own moves and wins, 51 after the
    opponent's, none after a game that is lost or drawn. *)
Theorem c109_pause : forall pf mx n q rs r opp expf sel q1 q2, tplayed pf mx n q -> (n + 1) * 10000 < 2 ^ 63 -> u_pc q = TCheck -> fairTurn (BMain rs r opp expf sel) ->
  tttStep pf mx (BMain rs r opp expf sel) q = Ok (Some q1) -> watches pf mx q1 q2 -> ~ watching (u_pc q2) ->
  let f := g_field (u_game q) in exists k, n_t (y_nar (u_sys q2)) = n_t (y_nar (u_sys q)) + k /\
    ((wins "a" f /\ k = 50) \/ ((wins "b" f \/ (full f /\ ~ wins "a" f)) /\ k = 0) \/ (~ full f /\ (forall p, ~ wins p f) /\ k = if g_player (u_game q) then 50 else 51)).
Proof.
  intros pf mx n q rs r opp expf sel q1 q2 P L Q Fa E W Nw. cbv zeta. destruct (ttt_reward _ _ _ _ _ _ _ _ _ _ P ltac:(lia) Q E) as (T & R). cbv zeta in R.
  assert (P1 := tp_step _ _ _ _ _ _ P Fa E). assert (I1 := ti_game _ _ _ (ttt_inv _ _ _ _ P1 L)).
  destruct (watch_pause _ _ _ _ _ P1 W) as (H & _). { intros w k [X|[X|X]]; rewrite X in I1; apply I1. }
  assert (Z0 : pause (u_pc q2) = 0). { destruct (u_pc q2) as [| | |[k| |won k]|[k| |won k]|[k| |won k]|m| | |]; try reflexivity; exfalso; apply Nw; unfold watching; eauto 10. }
  exists (pause (u_pc q1)). split; [lia|]. destruct R as [(R1 & _ & R2)|(R1 & _ & [(R2 & R3)|(R2 & R3 & R4)])].
  - left. rewrite R2. auto.
  - right. left. rewrite R3. split; [|reflexivity]. tauto.
  - right. right. rewrite R4. split; auto. split; [|destruct (g_player (u_game q)); reflexivity].
    intros p Wp. assert (Ic := ti_game _ _ _ (ttt_inv _ _ _ _ P ltac:(lia))). rewrite Q in Ic. destruct Ic as (w & _ & Hw). destruct w as [c|].
    + destruct Hw as (_ & Hc & Ec & _). destruct (g_player (u_game q)); subst c; contradiction.
    + destruct (isDraw (g_field (u_game q))); [|destruct Hw as (_ & Hw & _)]; [destruct Hw as (_ & Hw & _)|]; exact (Hw p Wp).
Qed.
(** until the end one of the two threads can always go on *)
Theorem c109_go_on : forall pf mx n q rs r opp expf sel ds, tplayed pf mx n q -> (n + 1) * 10000 < 2 ^ 63 -> fairTurn (BMain rs r opp expf sel) -> fairTurn (BWork ds) -> u_pc q <> TDone ->
  (exists q', tttStep pf mx (BMain rs r opp expf sel) q = Ok (Some q')) \/ (exists q', tttStep pf mx (BWork ds) q = Ok (Some q')).
Proof. exact ttt_goes_on. Qed.

(** asked for two games, the program plays three *)
Definition noNumber : text -> option f64 := fun _ => None.
Definition tturn (i : nat) : tact := BMain (fun _ => mkSmp false [] 0 false 0) (mkIn 0 [] (Nat.modulo i 9) (fun _ => f1) []) (Z.of_nat (Nat.modulo (2 * i + 1) 9)) (fun x => x) f1.
Definition tturns : list tact := map tturn (seq 0 4000).
Definition tseen (o : res ttt) : option (tpc * string * Z * Z * Z) :=
  match o with Ok q => Some (u_pc q, string_of_list_ascii (g_field (u_game q)), u_games q, u_wins q, u_losses q) | Panic => None end.
Lemma tturns_fair : Forall fairTurn tturns.
Proof.
  apply Forall_forall. intros a Ha. apply in_map_iff in Ha. destruct Ha as (i & <- & _). cbn [tturn fairTurn i_decay]. split; [intros z _; split; [|split]; vm_compute; reflexivity|].
  assert (H := Nat.mod_upper_bound (2 * i + 1) 9 ltac:(discriminate)). lia.
Qed.
Example c109_ex : tseen (tttRun noNumber 2 tturns tttStart) = Some (TDone, "aba b ab "%string, 2, 2, 1).
Proof. vm_cast_no_check (@eq_refl (option (tpc * string * Z * Z * Z)) (Some (TDone, "aba b ab "%string, 2, 2, 1))). Qed.
Theorem c109_rounds_refuted : exists pf n k q, tallied pf 2 n k (u_wins q) (u_losses q) q /\ u_pc q = TDone /\ k = 3.
Proof.
  assert (Ln : length tturns = 4000%nat) by (unfold tturns; rewrite map_length; apply seq_length).
  destruct (c109_safe noNumber 2 tturns tturns_fair) as (q & n & R & P & B); [rewrite Ln; now vm_compute|]. rewrite Ln in B.
  assert (X := c109_ex). rewrite R in X. cbn [tseen] in X. assert (Q : u_pc q = TDone) by (injection X as X _ _ _ _; exact X).
  assert (L : n * 10000 < 2 ^ 63). { apply Z.le_lt_trans with (4000 * 10000); [lia|now vm_compute]. }
  destruct (c109_tally _ _ _ _ P L) as (k & T & _ & D). exists noNumber, n, k, q. split; [exact T|]. split; [exact Q|]. exact (D Q).
Qed.
Print Assumptions c109_safe.
Print Assumptions c109_legal.
Print Assumptions c109_told.
Print Assumptions c109_does.
Print Assumptions c109_plays.
Print Assumptions c109_tally.
Print Assumptions c109_tally_fun.
Print Assumptions c109_quiet.
Print Assumptions c109_go_on.
Print Assumptions c109_rounds_refuted.
Print Assumptions c109_settings.
Print Assumptions c109_begin.
Print Assumptions c109_seen.
Print Assumptions c109_reward.
Print Assumptions c109_pause.
