(** C117: the premises are those of a state that is reached. *)
From Coq Require Import String Ascii ZArith Bool Lia List.
From Verif Require Import Base F64_Model Term_Model Tv_Model Sentence_Model PMem_Model Goal_Model Goal_Spec Goal_Proofs Proc_Model Proc_Spec ProcC_Proofs ProcS_Model ProcX_Model Mem_Model Cycle_Model Parser_Model Nar_Model Play_Model Play_Spec
  Env_Model Env_Spec Ttt_Model Ttt_Spec Ttt_Proofs Ttt2_Proofs Teach_Spec Props_Play Props_Ttt Props_Vocab Props_Truth Props_Backed Props_Use.
Import ListNotations.
Local Open Scope list_scope.
Local Open Scope Z_scope.

Lemma run_played : forall pf mx acts n q q', tplayed pf mx n q -> Forall fairTurn acts -> tttRun pf mx acts q = Ok q' -> exists n', tplayed pf mx n' q' /\ n' <= n + Z.of_nat (length acts).
Proof.
  intros pf mx acts. induction acts as [|a acts IH]; intros n q q' P F E; cbn [tttRun] in E; [injection E as <-; exists n; split; auto; cbn; lia|]. inversion F as [|? ? Fa Fl]; subst.
  destruct (tttStep pf mx a q) as [o|] eqn:S; cbn [rbind] in E; [|discriminate E]. cbn [length]. rewrite Nat2Z.inj_succ. destruct o as [q1|].
  - destruct (IH (n + 1) q1 q') as (n' & P' & L); auto; [eapply tp_step; eauto|]. exists n'. split; auto. lia.
  - destruct (IH n q q') as (n' & P' & L); auto. exists n'. split; auto. lia.
Qed.
Lemma replay_played : forall k n q q', tplayed noNumber 2 n q -> replay k q = Ok q' -> exists n', tplayed noNumber 2 n' q' /\ n' <= n + 2 * Z.of_nat k.
Proof.
  intros k. induction k as [|k IH]; intros n q q' P E; cbn [replay] in E; [injection E as <-; exists n; split; auto; lia|]. rewrite Nat2Z.inj_succ.
  assert (Nx : forall acts, acts = [BMain pick0 (mkIn 0 [] (sameMove q) (fun _ => f1) []) (again q) (fun x => x) f1; BWork (repeat 3%nat 24)] -> (do q' <- tttRun noNumber 2 acts q; replay k q') = Ok q' -> exists n', tplayed noNumber 2 n' q' /\ n' <= n + 2 * Z.succ (Z.of_nat k)).
  { clear E. intros acts Ea E. destruct (tttRun noNumber 2 acts q) as [q1|] eqn:R; cbn [rbind] in E; [|discriminate E]. assert (Fr : Forall fairTurn acts).
    { subst acts. constructor; [|constructor; [|constructor]].
      + split; [intros z _; split; [|split]; vm_compute; reflexivity|]. unfold again. destruct (length _) as [|[|[|[|[|[|]]]]]]; lia.
      + intros d Hd. revert d Hd. apply Forall_forall. vm_compute. repeat constructor; discriminate. }
    destruct (run_played _ _ _ _ _ _ P Fr R) as (n1 & P1 & L1).
    subst acts. cbn [length] in L1. destruct (IH n1 q1 q' P1 E) as (n' & P' & L'). exists n'. split; auto. lia. }
  destruct (u_pc q) as [| | |w|w|w|m| | |]; try (eapply Nx; [reflexivity|exact E]). destruct w; try (eapply Nx; [reflexivity|exact E]).
  destruct (String.eqb _ _); [injection E as <-; exists n; split; auto; lia|]. eapply Nx; [reflexivity|exact E].
Qed.
(** what can be computed of the premises of [c117_wins], for the run of [c117_ex] *)
Definition premises (q : ttt) : tpc * string * (list (term * list Z) * list term) * (bool * bool) :=
  let n := y_nar (u_sys q) in
  (u_pc q, boardName (u_game q),
   (map (fun a => (s_term (rd (cells (n_mem n)) a), s_stamp (rd (cells (n_mem n)) a))) (pBeliefs (n_mem n) [Name "aSabbabab"]), map (fun e => s_term (e_sentence e)) (retEntries (n_goals n))),
   (match pickGoal (n_goals n) (c_thresh (n_cfg n)) with Ok None => true | _ => false end,
    match retEntries (n_goals n) with
    | [e] => match retTv (e_sentence e) with
             | Some v => forallb (fun a => match retTv (rd (cells (n_mem n)) a) with
                                           | Some vb => fltb (c_thresh (n_cfg n)) (calcExp vb) && fltb (c_thresh (n_cfg n)) (calcExp (dedGoal v vb))
                                           | None => false end) (pBeliefs (n_mem n) [Name "aSabbabab"])
             | None => false
             end
    | _ => false
    end)).
Definition lawFive : term := Stmt PREDIMPL (Seq [Name "aSabbSbaS"; plainCall "^5"]) (Name "aSabbabab").
Definition lawOne : term := Stmt PREDIMPL (Seq [Name "aSabbabab"; plainCall "^1"]) (Name "w").
Definition expected : tpc * string * (list (term * list Z) * list term) * (bool * bool) :=
  (THalf1 (Think 4), "aSabbabab"%string, ([(lawFive, [311; 311; 362]); (lawOne, [416; 416; 417]); (lawFive, [311; 311; 362]); (lawOne, [416; 416; 417])], [Name "w"]), (true, true)).
Example c117_premises_ex : (do q <- tttRun noNumber 2 (concat (map tplays (seq 4 2890))) tttStart; do q' <- replay 4000 q; Ok (premises q')) = Ok expected.
Proof. vm_cast_no_check (@eq_refl (res (tpc * string * (list (term * list Z) * list term) * (bool * bool))) (Ok expected)). Qed.
Lemma fair_plays : Forall fairTurn (concat (map tplays (seq 4 2890))).
Proof.
  apply Forall_forall. intros a Ha. apply in_concat in Ha. destruct Ha as (l & Hl & Ha). apply in_map_iff in Hl. destruct Hl as (i & <- & _). destruct Ha as [<-|[<-|[]]].
  - split; [intros z _; split; [|split]; vm_compute; reflexivity|]. assert (M := Nat.mod_upper_bound (2 * i + 1) 9 ltac:(discriminate)). lia.
  - intros d Hd. revert d Hd. apply Forall_forall. vm_compute. repeat constructor; discriminate.
Qed.
Lemma bind_ok : forall (A B : Type) (e : res A) (f : A -> res B) x, (do y <- e; f y) = Ok x -> exists y, e = Ok y /\ f y = Ok x.
Proof. intros A B e f x E. destruct e as [y|]; [exists y; auto|discriminate E]. Qed.
Lemma ok_same : forall (A : Type) (x y : A), Ok x = Ok y -> x = y.
Proof. intros A x y E. injection E as E. exact E. Qed.
(** There is a state that is reached in which all that [c117_wins] asks for holds. *)
Example c117_reached_ex : exists n q k v, tplayed noNumber 2 n q /\ n * 10000 < 2 ^ 63 /\ u_pc q = THalf1 (Think k) /\ readsAs (g_field (u_game q)) "aSabbabab" /\ nth_error moveNames 1 = Some "^1"%string /\
  (exists a, relevant (y_nar (u_sys q)) (Name "aSabbabab") a) /\
  (forall a, relevant (y_nar (u_sys q)) (Name "aSabbabab") a -> advises (y_nar (u_sys q)) (Name "aSabbabab") (plainCall "^1") (Name "w") v a) /\
  Teach_Spec.wants (y_nar (u_sys q)) (Name "w") v /\ noneFor (y_nar (u_sys q)) (plainCall "^1").
Proof.
  destruct (bind_ok _ _ _ _ _ c117_premises_ex) as (q0 & E0 & E'). destruct (bind_ok _ _ _ _ _ E') as (q & E1 & E). clear E'. apply ok_same in E.
  destruct (run_played _ _ _ _ _ _ (tp_start _ _) fair_plays E0) as (n0 & P0 & L0). destruct (replay_played _ _ _ _ P0 E1) as (n & P & L).
  assert (Ln : Z.of_nat (length (concat (map tplays (seq 4 2890)))) = 5780) by (vm_compute; reflexivity). rewrite Ln in L0. clear Ln E0 E1 P0.
  assert (L' : n * 10000 < 2 ^ 63) by (change (Z.of_nat 4000) with 4000 in L; lia). clear L L0.
  unfold premises, expected in E. injection E as Pc Bn Ma Mg Pk Ok5. set (N := y_nar (u_sys q)) in *.
  change ((pBeliefsOf (n_mem N) (Name "aSabbabab") ++ []) ++ []) with (pBeliefs (n_mem N) [Name "aSabbabab"]) in *.
  destruct (retEntries (n_goals N)) as [|en [|en2 l2]] eqn:Re; try discriminate Mg. cbn [map] in Mg. injection Mg as Te.
  destruct (retTv (e_sentence en)) as [v|] eqn:Rv; [|discriminate Ok5].
  assert (On : forall e, stored (n_goals N) e -> e = en) by (intros e He; apply stored_iff in He; rewrite Re in He; destruct He as [<-|[]]; reflexivity).
  assert (Se : stored (n_goals N) en) by (apply stored_iff; rewrite Re; left; reflexivity).
  exists n, q, 4%nat, v. split; [exact P|]. split; [exact L'|]. split; [exact Pc|]. split; [rewrite <- Bn; apply reads_board|]. split; [reflexivity|]. fold N.
  assert (Al : forall a, In a (pBeliefs (n_mem N) [Name "aSabbabab"]) -> In (s_term (rd (cells (n_mem N)) a), s_stamp (rd (cells (n_mem N)) a)) [(lawFive, [311; 311; 362]); (lawOne, [416; 416; 417])]).
  { intros a Ha. apply (in_map (fun a => (s_term (rd (cells (n_mem N)) a), s_stamp (rd (cells (n_mem N)) a)))) in Ha. rewrite Ma in Ha. cbn [In] in Ha |- *. tauto. }
  split; [|split; [|split]].
  - destruct (pBeliefs (n_mem N) [Name "aSabbabab"]) as [|a0 [|a l]] eqn:Eb; try discriminate Ma. exists a. cbn [map] in Ma. injection Ma as _ _ Ta _ _.
    split; [rewrite Eb; right; left; reflexivity|]. exists [plainCall "^1"], (Name "w"). exact Ta.
  - intros a (Ha & rest & p & Ta). assert (F := proj1 (forallb_forall _ _) Ok5 a Ha). cbn beta in F. destruct (retTv (rd (cells (n_mem N)) a)) as [vb|] eqn:Vb; [|discriminate F]. apply andb_prop in F. destruct F as (F1 & F2).
    destruct (Al a Ha) as [X|[X|[]]]; injection X as Xt Xs; [rewrite <- Xt in Ta; discriminate Ta|]. split; [symmetry; exact Xt|]. split; [rewrite <- Xs; intros [Y|[Y|[Y|[]]]]; discriminate Y|]. exists vb. auto.
  - split; [exists en; split; auto|]. split; [intros e He _; rewrite (On e He); exact Rv|]. split; [intros e l He; rewrite (On e He); unfold e_term; rewrite Te; discriminate|].
    destruct (pickGoal (n_goals N) (c_thresh (n_cfg N))) as [[[]|]|] eqn:Pg; try discriminate Pk. exact (pick_spec _ _ _ Pg).
  - intros e He. rewrite (On e He). unfold e_term. rewrite Te. discriminate.
Qed.
