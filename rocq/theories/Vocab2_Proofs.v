(** What the programs "envPong3" and "envTTT2" can learn, want and do. *)
From Coq Require Import String Ascii ZArith Bool Lia List.
From Verif Require Import Base F64_Model Term_Model Stamp_Model Sentence_Model Mem_Model Cycle_Model PMem_Model Goal_Model Goal_Spec Goal_Proofs Run_Proofs Proc_Model ProcS_Model
  ProcX_Model Parser_Model Nar_Model Play_Model Play_Spec Play_Proofs Play2_Proofs Live_Proofs Env_Model Env_Spec Env_Proofs Ttt_Model Ttt_Spec Ttt_Proofs Ttt2_Proofs Vocab_Spec Vocab_Proofs.
Import ListNotations.
Local Open Scope list_scope.
Local Open Scope Z_scope.

(** no further condition *)
Definition anyLaw (s o s' : string) : Prop := True.
Lemma any_cells : forall ops F y, vInv ops F anyLaw y -> forall s, In s (cells (n_mem (y_nar y))) -> law F (map op_name ops) (s_term s).
Proof. intros ops F y V s H. exact (proj1 (v_cells _ _ _ _ V s H)). Qed.
Lemma any_act : forall F y a, match a with XEvent e => fact F e | XGoal s => fact F (s_term s) | XBelief _ _ _ _ => False | _ => True end ->
  match a with XEvent e => fact F e /\ lets anyLaw (n_trace (y_nar y)) e | XGoal s => fact F (s_term s) | XBelief _ _ _ _ => False | _ => True end.
Proof. intros F y a H. destruct a; auto. split; auto. repeat intro. exact Logic.I. Qed.
Lemma start_vocab : forall ops F R cfg tab t g, c_nOpsMax cfg = 1%nat -> gReach g -> (forall e, ~ stored g e) -> vInv ops F R (ystart (mkPnar cfg ops tab t [] [] pmemMake g)).
Proof. intros ops F R cfg tab t g C Rg E. constructor; cbn; auto; try solve [intros ? []]; try solve [intros ? ? []].
  - intros x Hx. destruct (E x Hx).
  - split; [constructor|intros ? ? []].
  - apply ordered_nil.
Qed.
Lemma no_goals : forall g d, g_active g = [] -> g_batches g = repeat [] d -> forall e, ~ stored g e.
Proof. intros g d A B e [(i & b0 & gr & H & Hg & _)|H]; [|rewrite A in H; destruct H]. rewrite B in H. apply nth_error_In in H. apply repeat_spec in H. subst b0. destruct Hg. Qed.
Lemma pong_plain : forall o, In o pongOps -> op_kind o = OpPlain.
Proof. intros o [<-|[<-|[]]]; reflexivity. Qed.
Lemma ttt_plain : forall o, In o tttOps -> op_kind o = OpPlain.
Proof. intros o Ho. unfold tttOps in Ho. apply in_map_iff in Ho. destruct Ho as (s & <- & _). reflexivity. Qed.
Lemma ttt_names : map op_name tttOps = moveNames.
Proof. reflexivity. Qed.
Lemma percept_at : forall e, ballAt (percept e).
Proof. intros e. unfold percept, ballAt. cbv zeta. destruct (_ <=? _); auto. destruct (_ <? _); auto. Qed.

(** * Pong *)
Definition freeQ (q : prog) : Prop := q_pc q = PIn0 \/ y_main (q_sys q) = MFree.
Lemma pong_vocab : forall pf n q, played pf n q -> vInv pongOps ballAt anyLaw (q_sys q) /\ freeQ q.
Proof.
  intros pf n q P. induction P as [|n q a q' P [V Fr] F E].
  - split; [|now right]. apply start_vocab; [reflexivity|apply gr_make|]. apply (no_goals _ 8); reflexivity.
  - destruct q as [y d e t pc]. unfold freeQ in *. cbn [q_sys q_pc] in *. destruct a as [rs r dr|ds]; cbn [progStep] in E.
    + assert (Go : forall us a f o, yact us y a = Ok o -> match a with XEvent e => fact ballAt e /\ lets anyLaw (n_trace (y_nar y)) e | XGoal s => fact ballAt (s_term s) | XBelief _ _ _ _ => False | _ => True end ->
        option_map f o = Some q' -> (forall y', q_sys (f y') = y') -> (forall y', q_pc (f y') = PIn0 \/ (yact us y a = Ok (Some y') -> y_main y' = MFree)) -> vInv pongOps ballAt anyLaw (q_sys q') /\ (q_pc q' = PIn0 \/ y_main (q_sys q') = MFree)).
      { intros us a f o Y K O Q1 Q2. destruct o as [y'|]; [|discriminate O]. injection O as <-. rewrite Q1. split; [exact (vocab_act _ _ _ pong_plain us y a y' V Y K)|]. destruct (Q2 y'); auto. }
      destruct pc.
      * destruct Fr as [Fr|Fr]; [discriminate Fr|]. destruct (Z.rem t 10 =? 0).
        -- assert (T := typed_goal pf (usages d) y d Fr). destruct (yact (usages d) y (XGoal (pongGoal d))) as [[y'|]|] eqn:Y; [|contradiction|rewrite T in E; discriminate E].
           destruct T as (n' & T0 & T1 & T2). rewrite T0 in E. cbn [rbind] in E. rewrite T1 in E. injection E as <-. cbn [q_sys q_pc]. split; [|right; now destruct (act_time _ _ _ _ Y) as (_ & _ & ->)].
           refine (vocab_act _ _ _ pong_plain _ _ _ _ V Y _). exists "0-1-xc"%string. split; [reflexivity|now left].
        -- injection E as <-. auto.
      * destruct (yact (usages d) y XStep0) as [o|] eqn:Y; cbn [rbind] in E; [|discriminate E]. injection E as E. apply (Go _ _ _ _ Y Logic.I E); auto.
      * assert (Ev : (do o <- yact (usages d) y (XEvent (Name (percept e))); Ok (option_map (fun y' => mkProg y' d e t PHalf1) o)) = Ok (Some q') -> vInv pongOps ballAt anyLaw (q_sys q') /\ (q_pc q' = PIn0 \/ y_main (q_sys q') = MFree)).
        { clear E. intros E. destruct (yact (usages d) y (XEvent (Name (percept e)))) as [o|] eqn:Y; cbn [rbind] in E; [|discriminate E]. injection E as E. refine (Go _ _ _ _ Y _ E _ _); auto.
          - split; [exists (percept e); split; [reflexivity|apply percept_at]|]. repeat intro. exact Logic.I.
          - intros y'. right. intros Y'. destruct (act_time _ _ _ _ Y') as (_ & _ & M). exact M. }
        assert (Mn : (do o <- yact (usages d) y (XMain 20 rs); Ok (option_map (fun y' => mkProg y' d e t PIn0) o)) = Ok (Some q') -> vInv pongOps ballAt anyLaw (q_sys q') /\ (q_pc q' = PIn0 \/ y_main (q_sys q') = MFree)).
        { clear E. intros E. destruct (yact (usages d) y (XMain 20 rs)) as [o|] eqn:Y; cbn [rbind] in E; [|discriminate E]. injection E as E. apply (Go _ _ _ _ Y Logic.I E); auto. }
        destruct (y_main y); auto.
      * destruct (yact (usages d) y (XStep1 true r)) as [o|] eqn:Y; cbn [rbind] in E; [|discriminate E]. injection E as E. apply (Go _ _ _ _ Y Logic.I E); auto.
        intros y'. right. intros Y'. destruct (act_time _ _ _ _ Y') as (_ & _ & M). exact M.
      * destruct Fr as [Fr|Fr]; [discriminate Fr|]. destruct (simStep e dr) as [e'|]; cbn [rbind] in E; [|discriminate E]. injection E as <-. destruct (t >=? 5000); auto.
      * destruct Fr as [Fr|Fr]; [discriminate Fr|]. destruct (debugEvidence _) as [x|]; cbn [rbind] in E; [|discriminate E]. destruct (pcs _); cbn [rbind] in E; [discriminate E|]. destruct (goalsText _); cbn [rbind] in E; [|discriminate E]. injection E as <-. auto.
      * discriminate E.
    + destruct (yact (usages d) y (XWork ds)) as [[y'|]|] eqn:Y; cbn [rbind option_map] in E; try discriminate E. injection E as <-. cbn [q_sys q_pc]. split; [exact (vocab_act _ _ _ pong_plain _ _ _ _ V Y Logic.I)|]. destruct Fr as [Fr|Fr]; auto. right. now rewrite (work_main _ _ _ _ Y).
Qed.
(** the twelve lessons of Pong *)
Definition pongLaws : list term :=
  flat_map (fun d => map (fun p => Stmt PREDIMPL (Seq [Name (fst p); plainCall d]) (Name (snd p)))
    [("0-1-xc", "0-1-xl"); ("0-1-xc", "0-1-xr"); ("0-1-xl", "0-1-xc"); ("0-1-xl", "0-1-xr"); ("0-1-xr", "0-1-xc"); ("0-1-xr", "0-1-xl")]%string) ["^L"; "^R"]%string.
Lemma pong_laws : forall t, law ballAt (map op_name pongOps) t -> In t pongLaws.
Proof.
  intros t (a & d & b & (x & -> & Hx) & (z & -> & Hz) & N & (o & Ho & ->) & ->).
  destruct Ho as [<-|[<-|[]]]; destruct Hx as [-> | [-> | ->]]; destruct Hz as [-> | [-> | ->]]; try (exfalso; apply N; reflexivity); cbn; tauto.
Qed.

Lemma fact_names : forall (F : string -> Prop) l (m : list (term * pconcept)), (forall s, F s -> In s l) -> NoDup (map fst m) -> (forall t c, In (t, c) m -> fact F t /\ pc_name c = t) -> (length m <= length l)%nat.
Proof.
  intros F l m H N K. rewrite <- (map_length fst), <- (map_length Name l). apply NoDup_incl_length; auto. intros t Ht. apply in_map_iff in Ht. destruct Ht as ([t0 c] & <- & Hc).
  destruct (K t0 c Hc) as ((s & E & Hs) & _). cbn [fst]. rewrite E. apply in_map. auto.
Qed.

(** * Tic-tac-toe *)
Definition facts (tr : list event) (s : string) : Prop := exists e, In e tr /\ ev_name e = Name s.
Definition deeds (tr : list event) (o : string) : Prop := exists e, In e tr /\ ev_name e = plainCall o.
Definition mine (g : gamestate) (tr : list event) : Prop := forall s, facts tr s -> exists f i, unfinished f /\ readsAs f s /\ placed "a" i f (g_field g).
Definition mineD (g : gamestate) (tr : list event) : Prop := forall s o, facts tr s -> deeds tr o -> exists f i, unfinished f /\ readsAs f s /\ placed "a" i f (g_field g) /\ nth_error moveNames i = Some o.
Definition theirs (g : gamestate) (tr : list event) : Prop := forall s, facts tr s -> exists f i f1 j, unfinished f /\ readsAs f s /\ placed "a" i f f1 /\ placed "b" j f1 (g_field g).
Definition onBoard (g : gamestate) (tr : list event) : Prop := forall s, facts tr s -> readsAs (g_field g) s.
(** what the past says about the game *)
Definition about (g : gamestate) (pc : tpc) (tr : list event) : Prop :=
  match pc with
  | THalf0 w | TIn0 w | THalf1 w =>
      match w with
      | Think _ => onBoard g tr /\ (forall o, ~ deeds tr o)
      | See => g_player g = false /\ match pc with THalf1 _ => True | _ => theirs g tr end
      | Rest false _ => if g_player g then mine g tr else True
      | Rest true _ => True
      end
  | TMove m => onBoard g tr /\ forall o, deeds tr o -> nth_error moveNames (Z.to_nat m) = Some o
  | TCheck => if g_player g then mine g tr /\ mineD g tr else theirs g tr
  | TCycle => if g_player g then mine g tr else True
  | TTurn | TPick => if g_player g then True else mine g tr
  | TEpoch | TDone => True
  end.
Lemma board_fact : forall g, unfinished (g_field g) -> fact boardOrWin (Name (boardName g)).
Proof. intros g U. exists (boardName g). split; auto. right. exists (g_field g). split; auto. apply reads_board. Qed.
Lemma going_unf : forall f p, going (mkGame f p) -> unfinished f.
Proof. intros f p (L & W & Fu). exists p. auto. Qed.
Lemma told_vocab : forall s y t, vInv tttOps boardOrWin sound y -> boardOrWin s -> lets sound (n_trace (y_nar y)) (Name s) ->
  vInv tttOps boardOrWin sound (withNar y (setTrace (y_nar y) (event_happened (n_trace (y_nar y)) (mkEvent (Name s) t t)))).
Proof.
  intros s [n p c w] t V B L. apply (vocab_set _ _ _ n _ p c w V); auto; cbn; unfold event_happened.
  - apply Forall_app. split; [apply V|]. constructor; auto. left. exists s. auto.
  - apply ordered_add; auto. apply V.
Qed.
Lemma lets_facts : forall tr s', (forall s o, facts tr s -> deeds tr o -> sound s o s') -> lets sound tr (Name s').
Proof. intros tr s' H i j e0 e1 s o z _ H0 H1 E0 E1 [= <-]. apply H; [exists e0|exists e1]; split; auto; eapply nth_error_In; eauto. Qed.
Lemma tryMove_placed : forall g m g1, going g -> tryMove g m = Ok (g1, true) -> g_player g1 = g_player g /\ placed (if g_player g then "a" else "b") (Z.to_nat m) (g_field g) (g_field g1).
Proof.
  intros g m g1 (Lg & _) E. destruct (legal_inv _ Lg) as (L & _). assert (T := tryMove_spec g m L). rewrite E in T. destruct T as (Rm & Pl & L' & K & B & Sg).
  split; auto. split; auto. split; [congruence|]. split; auto. intros j Hj. apply K. lia.
Qed.
Lemma tryMove_stays : forall g m g1, going g -> tryMove g m = Ok (g1, false) -> g1 = g.
Proof. intros g m g1 (Lg & _) E. destruct (legal_inv _ Lg) as (L & _). assert (T := tryMove_spec g m L). rewrite E in T. destruct T as (Rm & Pl & L' & K & -> & _). reflexivity. Qed.
Lemma main_trace : forall us y a y', yact us y a = Ok (Some y') -> match a with XStep0 | XMain _ _ => True | _ => False end -> n_trace (y_nar y') = n_trace (y_nar y).
Proof.
  intros us [n p c w] a y' Y A. destruct a as [e|s|t id u draws| |decl r|nB rs|draws]; try contradiction; cbn [yact] in Y.
  - destruct p; try discriminate Y. destruct (confirm n); cbn [rbind] in Y; [|discriminate Y]. now injection Y as <-.
  - destruct p as [|[|a todo]|[|m ms]|now [|s todo]]; try discriminate Y.
    + destruct (traceStep n rs) as [[g ms]|]; cbn [rbind] in Y; [|discriminate Y]. now injection Y as <-.
    + destruct (negConfirm _ _); cbn [rbind] in Y; [|discriminate Y]. now injection Y as <-.
    + now injection Y as <-.
    + destruct (Nat.ltb _ _); [|discriminate Y]. now injection Y as <-.
    + now injection Y as <-.
    + destruct (mem_add_evidence_internal _ _ _ _ _); cbn [rbind] in Y; [|discriminate Y]. now injection Y as <-.
Qed.
Lemma skip_in : forall (A : Type) k (l : list A) x, In x (skipn k l) -> In x l.
Proof. intros A k l x H. rewrite <- (firstn_skipn k l). apply in_or_app. now right. Qed.
Lemma indexOf_nth : forall name l i m, indexOf name l i = Some m -> nth_error l (Z.to_nat (m - i)) = Some name.
Proof.
  intros name l. induction l as [|s l IH]; intros i m H; cbn [indexOf] in H; [discriminate H|]. destruct (String.eqb_spec s name) as [->|N]; [injection H as <-; now rewrite Z.sub_diag|].
  assert (B := indexOf_range _ _ _ _ H). apply IH in H. replace (Z.to_nat (m - i)) with (S (Z.to_nat (m - (i + 1)))) by lia. exact H.
Qed.
Lemma indexOf_some : forall name l i, In name l -> exists m, indexOf name l i = Some m.
Proof. intros name l. induction l as [|s l IH]; intros i Hi; [destruct Hi|]. destruct Hi as [->|H]; cbn [indexOf]; [rewrite String.eqb_refl; eauto|]. destruct (String.eqb s name); eauto. Qed.
(** what the second half step adds to the past *)
Lemma step1_adds : forall us y r y' mv, n_ops (y_nar y) = tttOps -> yact us y (XStep1 true r) = Ok (Some y') ->
  (forall s, facts (n_trace (y_nar y')) s -> facts (n_trace (y_nar y)) s) /\
  match called (y_nar y) r with
  | None => moveOf (called (y_nar y) r) mv = mv /\ forall o, deeds (n_trace (y_nar y')) o -> deeds (n_trace (y_nar y)) o
  | Some name => exists m, moveOf (called (y_nar y) r) mv = Some m /\ nth_error moveNames (Z.to_nat m) = Some name /\ forall o, deeds (n_trace (y_nar y')) o -> deeds (n_trace (y_nar y)) o \/ o = name
  end.
Proof.
  intros us [n p c w] r y' mv Eo Y. cbn [y_nar] in *. cbn [yact] in Y. destruct p; try discriminate Y. destruct (narStep1 n true r) as [n'|] eqn:S; cbn [rbind] in Y; [|discriminate Y]. injection Y as <-. cbn [y_nar].
  assert (Cs := called_spec n r n' S). rewrite Eo in Cs. specialize (Cs ttt_plain). assert (Co := called_op n r). destruct (called n r) as [name|].
  - destruct Cs as (t & args & (_ & Ct) & Et). rewrite Et. split.
    + intros s (e & He & En). apply skip_in in He. apply in_app_iff in He. destruct He as [He|[<-|[]]]; [now exists e|]. cbn [ev_name] in En. rewrite En in Ct. discriminate Ct.
    + destruct (Co name eq_refl) as (o & Ho & On). assert (Hn : In name moveNames). { rewrite <- ttt_names, <- On. apply in_map. now rewrite <- Eo. }
      destruct (indexOf_some name moveNames 0 Hn) as (m & Hm). exists m. cbn [moveOf]. rewrite Hm. split; auto. apply indexOf_nth in Hm. rewrite Z.sub_0_r in Hm. split; auto.
      intros x (e & He & En). apply skip_in in He. apply in_app_iff in He. destruct He as [He|[<-|[]]]; [left; now exists e|]. right. cbn [ev_name] in En. rewrite En in Ct. unfold plainCall in Ct. injection Ct as _ Ct. exact Ct.
  - rewrite Cs. split; [|split; auto]; intros s (e & He & En); apply skip_in in He; now exists e.
Qed.
Lemma about_same : forall g pc tr tr', (forall s, facts tr' s -> facts tr s) -> (forall o, deeds tr' o -> deeds tr o) -> about g pc tr -> about g pc tr'.
Proof.
  intros g pc tr tr' Hf Hd A.
  assert (M : mine g tr -> mine g tr') by (intros H s Hs; auto). assert (Md : mineD g tr -> mineD g tr') by (intros H s o Hs Ho; auto). assert (Th : theirs g tr -> theirs g tr') by (intros H s Hs; auto). assert (Ob : onBoard g tr -> onBoard g tr') by (intros H s Hs; auto).
  destruct pc as [| | |[k| |[|] k]|[k| |[|] k]|[k| |[|] k]|m| | |]; cbn [about] in *; try destruct (g_player g); auto; try tauto; try (destruct A as (A1 & A2); split; auto; intros o Ho; eapply A2; eauto).
Qed.
Lemma ttt_vocab2 : forall pf mx n q, tplayed pf mx n q -> n * 10000 < 2 ^ 63 -> vInv tttOps boardOrWin sound (u_sys q) /\ about (u_game q) (u_pc q) (n_trace (y_nar (u_sys q))).
Proof.
  intros pf mx n q P. induction P as [|n q a q' P IH F E]; intros L.
  - split; [|exact Logic.I]. apply start_vocab; [reflexivity|exact (gr_cfg _ 1000 false _ (gr_make 20 8))|]. apply (no_goals _ 8); reflexivity.
  - assert (I := ttt_inv pf mx n q P ltac:(lia)). destruct IH as (V & A); [lia|]. clear P. destruct I as [_ _ _ I4 _ I6 _ _ _]. destruct q as [y d tm dq g mv games wins losses pc].
    cbn [u_sys u_pc u_game] in *. destruct a as [rs r opp expf sel|ds]; cbn [tttStep] in E.
    2:{ destruct (yact (usages d) y (XWork ds)) as [[y'|]|] eqn:Y; cbn [rbind option_map] in E; try discriminate E. injection E as <-. cbn [u_sys u_pc u_game]. split; [exact (vocab_act _ _ _ ttt_plain _ _ _ _ V Y Logic.I)|]. destruct (work_trace _ _ _ _ Y) as (-> & _). exact A. }
    assert (Same : forall n', n_ops n' = n_ops (y_nar y) -> c_nOpsMax (n_cfg n') = c_nOpsMax (n_cfg (y_nar y)) -> n_mem n' = n_mem (y_nar y) -> n_goals n' = n_goals (y_nar y) ->
      n_trace n' = n_trace (y_nar y) \/ n_trace n' = [] -> vInv tttOps boardOrWin sound (withNar y n')).
    { intros n' H1 H2 H3 H4 H5. clear - V H1 H2 H3 H4 H5. destruct y as [nn p c w]. apply (vocab_set _ _ _ nn n' p c w V); auto; destruct H5 as [-> | ->]; try apply V; [constructor|apply ordered_nil]. }
    destruct pc.
    + destruct I4 as [(w & [=])|M]. destruct (games >=? mx); [injection E as <-; split; [exact V|exact Logic.I]|]. destruct (knowsGoal (n_goals (y_nar y))).
      * cbn [rbind] in E. injection E as <-. split; [apply Same; auto|]. exact Logic.I.
      * assert (T := aim_goal pf (usages d) y d M). destruct (yact (usages d) y (XGoal (aimGoal d))) as [[y'|]|] eqn:Y; [|contradiction|rewrite T in E; discriminate E].
        destruct T as (n' & T0 & T1 & _). rewrite T0 in E. cbn [rbind] in E. injection E as <-. cbn [u_sys u_pc u_game]. split; [|exact Logic.I].
        assert (V' : vInv tttOps boardOrWin sound y'). { refine (vocab_act _ _ _ ttt_plain _ _ _ _ V Y _). exists "w"%string. split; [reflexivity|now left]. }
        clear - V' T1. subst y'. destruct y as [nn p c w]. refine (vocab_set _ _ _ (nr_proc n') _ p c w V' _ _ _ _ _ _); auto; [constructor|apply ordered_nil].
    + injection E as <-. split; [apply Same; auto|exact A].
    + destruct (g_player g) eqn:Pl.
      * injection E as <-. cbn [u_sys u_pc u_game]. assert (V1 : vInv tttOps boardOrWin sound (withNar y (setBabble (setAnt (flushTrace (y_nar y)) []) true))) by (apply Same; auto).
        assert (U : unfinished (g_field g)) by (apply (going_unf _ (g_player g)); now destruct g). split.
        -- refine (told_vocab (boardName g) _ _ V1 _ _); [right; exists (g_field g); split; auto; apply reads_board|]. apply lets_facts. intros s o (e & [] & _).
        -- cbn. split; [intros s (e & [<-|[]] & En); injection En as <-; apply reads_board|intros o (e & [<-|[]] & En); discriminate En].
      * destruct (range 9 opp) as [m|]; cbn [rbind] in E; [|discriminate E]. destruct (tryMove g m) as [[g1 v]|] eqn:Tm; cbn [rbind] in E; [|discriminate E]. injection E as <-. cbn [u_sys u_pc u_game]. split; [exact V|]. destruct v.
        -- destruct (tryMove_placed _ _ _ I6 Tm) as (P1 & P2). cbn [about] in *. rewrite Pl in A, P1, P2. rewrite P1. intros s Hs. destruct (A s Hs) as (f & i & U & Rd & Pa). exists f, i, (g_field g), (Z.to_nat m). auto.
        -- apply (tryMove_stays _ _ _ I6) in Tm. subst g1. exact A.
    + destruct (yact (usages d) y XStep0) as [[y'|]|] eqn:Y; cbn [rbind option_map] in E; try discriminate E. injection E as <-. cbn [u_sys u_pc u_game]. split; [exact (vocab_act _ _ _ ttt_plain _ _ _ _ V Y Logic.I)|]. rewrite (main_trace _ _ _ _ Y Logic.I). exact A.
    + assert (Mn : (do o <- yact (usages d) y (XMain 20 rs); Ok (option_map (fun y' => mkTtt y' d tm dq g mv games wins losses (TIn0 w)) o)) = Ok (Some q') -> vInv tttOps boardOrWin sound (u_sys q') /\ about (u_game q') (u_pc q') (n_trace (y_nar (u_sys q')))).
      { clear E. intros E. destruct (yact (usages d) y (XMain 20 rs)) as [[y'|]|] eqn:Y; cbn [rbind option_map] in E; try discriminate E. injection E as <-. cbn [u_sys u_pc u_game]. split; [exact (vocab_act _ _ _ ttt_plain _ _ _ _ V Y Logic.I)|]. rewrite (main_trace _ _ _ _ Y Logic.I). exact A. }
      destruct (y_main y); auto. injection E as <-. cbn [u_sys u_pc u_game]. destruct w; [split; [exact V|exact A]| |split; [exact V|exact A]]. destruct A as (A1 & A2). split; [|now split].
      assert (U := going_unf _ _ I6). refine (told_vocab (boardName g) _ _ V _ _); [right; exists (g_field g); split; auto; apply reads_board|]. apply lets_facts. intros s o Hs _.
      destruct (A2 s Hs) as (f & i & f1 & j & Uf & Rd & Pa & Pb). exists f, i, f1. split; auto. split; auto. split; auto. right. exists j, (g_field g). split; auto. split; auto. apply reads_board.
    + destruct (yact (usages d) y (XStep1 true r)) as [[y'|]|] eqn:Y; cbn [rbind] in E; [| |discriminate E].
      2:{ match type of E with (let '(_, _) := ?t in _) = _ => destruct t as [mv2 pc2] end. discriminate E. }
      assert (V' := vocab_act _ _ _ ttt_plain _ _ _ _ V Y Logic.I). destruct (step1_adds _ _ _ _ mv (v_ops _ _ _ _ V) Y) as (Sf & Sd). destruct (moveOf (called (y_nar y) r) mv) as [m1|] eqn:Em.
      * destruct w as [k| |won k]; injection E as <-; cbn [u_sys u_pc u_game]; (split; [exact V'|]).
        -- destruct A as (A1 & A2). cbn [about]. split; [intros s Hs; auto|]. intros o Ho. destruct (called (y_nar y) r) as [name|].
           ++ destruct Sd as (m & Sm & Sn & Sd). injection Sm as <-. destruct (Sd o Ho) as [Hd | ->]; auto. destruct (A2 o Hd).
           ++ destruct Sd as (_ & Sd). destruct (A2 o (Sd o Ho)).
        -- destruct A as (A1 & _). cbn [about]. now rewrite A1.
        -- cbn [about] in A. destruct won; destruct k as [|[|k]]; cbn [about]; auto; destruct (g_player g); auto; intros s Hs; auto.
      * destruct w as [k| |won k]; injection E as <-; cbn [u_sys u_pc u_game]; (split; [exact V'|]).
        -- destruct A as (A1 & A2). cbn [gameBy] in I6. destruct k as [|[|k]]; cbn [about]; try (destruct I6 as (_ & -> & _); exact Logic.I). split; [intros s Hs; auto|]. intros o Ho. destruct (called (y_nar y) r) as [name|].
           ++ destruct Sd as (m & Sm & _). discriminate Sm.
           ++ destruct Sd as (_ & Sd). destruct (A2 o (Sd o Ho)).
        -- destruct A as (A1 & _). cbn [about]. now rewrite A1.
        -- cbn [about] in A. destruct won; destruct k as [|[|k]]; cbn [about]; auto; destruct (g_player g); auto; intros s Hs; auto.
    + destruct (tryMove g m) as [[g1 v]|] eqn:Tm; cbn [rbind] in E; [|discriminate E]. injection E as <-. cbn [u_sys u_pc u_game]. split; [exact V|]. destruct I6 as (G & Pl & B). destruct v.
      * destruct (tryMove_placed _ _ _ G Tm) as (P1 & P2). destruct A as (A1 & A2). cbn [about]. rewrite Pl in P1, P2. rewrite P1. assert (U : unfinished (g_field g)) by (apply (going_unf _ (g_player g)); now destruct g).
        split; [intros s Hs|intros s o Hs Ho]; exists (g_field g), (Z.to_nat m); auto.
      * apply (tryMove_stays _ _ _ G) in Tm. subst g1. cbn [about]. now rewrite Pl.
    + assert (V1 : vInv tttOps boardOrWin sound (withNar y (setBabble (y_nar y) false))) by (apply Same; auto). destruct I6 as (w & Ew & Hw). rewrite Ew in E. cbn [rbind] in E. destruct w as [c|].
      * destruct (Ascii.eqb_spec c "a") as [Ec|Na]; [|injection E as <-; split; [exact V1|exact Logic.I]]. destruct (won_typed pf (withNar y (setBabble (y_nar y) false)) d) as (n' & T1 & _ & T3). rewrite T1 in E. cbn [rbind] in E. injection E as <-. cbn [u_sys u_pc u_game]. split; [|exact Logic.I]. rewrite T3.
        destruct Hw as (_ & Hwin & Pl & _). rewrite Ec in Hwin, Pl. destruct (g_player g) eqn:Eg; [|discriminate Pl]. cbn [about] in A. rewrite Eg in A. destruct A as (_ & A).
        refine (told_vocab "w" _ _ V1 _ _); [now left|]. apply lets_facts. intros s o Hs Ho. destruct (A s o Hs Ho) as (f & i & U & Rd & Pa & Nm). exists f, i, (g_field g). auto 10.
      * destruct (isDraw (g_field g)); injection E as <-; cbn [u_sys u_pc u_game]; (split; [exact V1|]); [exact Logic.I|]. cbn [about] in A. destruct (g_player g) eqn:Eg; cbn [about]; rewrite Eg; [apply A|]. split; [reflexivity|exact A].
    + destruct (reasonCycle expf sel d tm) as [[[[d1 tm1] z] m]|]; cbn [rbind] in E; [|discriminate E]. injection E as <-. cbn [u_sys u_pc u_game]. split; [exact V|]. cbn [about g_player] in *. destruct (g_player g); cbn [negb]; auto.
    + discriminate E.
Qed.
Lemma ttt_vocab : forall pf mx n q, tplayed pf mx n q -> n * 10000 < 2 ^ 63 -> vInv tttOps boardOrWin sound (u_sys q).
Proof. intros pf mx n q P L. apply (ttt_vocab2 pf mx n q P L). Qed.
