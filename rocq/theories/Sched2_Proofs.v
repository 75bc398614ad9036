(** Progress, termination and the uninterrupted special case. *)
From Coq Require Import ZArith Bool Lia List Permutation Sorted Relations Wellfounded.
From Verif Require Import Base F64_Model Term_Model Term_Spec Term_Proofs
  Sentence_Model Infer_Model Mem_Model Mem_Spec Mem_Proofs
  Cycle_Model Cycle_Spec Cycle_Proofs Select_Proofs Task_Proofs Run_Proofs Sched_Model Sched_Spec Sched_Proofs.
Import ListNotations.

(** * Progress *)
Lemma addStep_moves : forall x f sh, addStep x f sh = Panic \/ exists r, addStep x f sh = Ok r.
Proof. intros. destruct (addStep x f sh); eauto. Qed.
Lemma cycStep_blocked : forall y p sh qu, cycStep y p sh qu = Ok None -> (exists m, p = YSend m) /\ 4 <= length qu.
Proof.
  intros y p sh qu H. destruct p as [| | |i [|t ts]| | |a [|t ts] acc|m|m| | | | |]; cbn [cycStep] in H; try discriminate.
  - destruct (questions sh); [discriminate|]. destruct (task2SelByCreditRandom _ _); [|discriminate]. cbn [rbind] in H.
    destruct (idx _ _); discriminate.
  - destruct (idx _ _); [|discriminate]. cbn [rbind] in H. destruct (qaTryAll _ _); discriminate.
  - destruct (idx _ _); discriminate.
  - destruct (length qu <? 4) eqn:E; [discriminate|]. apply Nat.ltb_ge in E. split; eauto.
  - destruct (limitTasks _ _); discriminate.
  - destruct (maintainConcepts _); discriminate.
Qed.
Lemma workStep_blocked : forall maxC n p sh qu, workStep maxC n p sh qu = Ok None -> p = WIdle /\ qu = [].
Proof.
  intros maxC n p sh qu H. destruct p as [|m|m cs [|c todo]|m [|c cs]|m x f cs]; cbn [workStep] in H; try discriminate.
  - destruct qu; [auto|discriminate].
  - destruct (derive sh m); discriminate.
  - destruct (punct_eqb _ _); [|discriminate]. destruct (qaTryQuestions _ _); discriminate.
  - destruct (addStep x f sh); discriminate.
Qed.
Theorem client_blocked : forall maxC n st i, exec maxC n (ChClient i) st = Ok None ->
  match nth_error (y_clients st) i with
  | None | Some CIdle => True
  | Some (CCycle _ (YSend _)) => 4 <= length (y_queue st) /\ exec maxC n ChWorker st <> Ok None
  | _ => False
  end.
Proof.
  intros maxC n st i H. cbn [exec] in H. destruct (nth_error (y_clients st) i) as [[|x f|y p]|]; auto.
  - cbn [cliStep] in H. destruct (addStep x f (y_sh st)); discriminate.
  - cbn [cliStep] in H. destruct (cycStep y p (y_sh st) (y_queue st)) as [[[[[s1 q1] a1] o]|]|] eqn:E; cbn [rbind] in H; try discriminate.
    apply cycStep_blocked in E. destruct E as [[m ->] L]. split; auto. cbn [exec]. intros K.
    destruct (workStep maxC n (y_worker st) (y_sh st) (y_queue st)) as [[[[[s1 q1] a1] o]|]|] eqn:E; cbn [rbind] in K; try discriminate.
    apply workStep_blocked in E. destruct E as [_ E]. rewrite E in L. simpl in L. lia.
Qed.
Theorem worker_blocked : forall maxC n st, exec maxC n ChWorker st = Ok None <-> y_worker st = WIdle /\ y_queue st = [].
Proof.
  intros maxC n st. cbn [exec]. split.
  - intros K. destruct (workStep maxC n (y_worker st) (y_sh st) (y_queue st)) as [[[[[s1 q1] a1] o]|]|] eqn:E; cbn [rbind] in K; try discriminate.
    now apply workStep_blocked in E.
  - intros [-> ->]. reflexivity.
Qed.
(** nothing but idle clients and an idle worker cannot move *)
Theorem all_blocked : forall maxC n st, (forall i, exec maxC n (ChClient i) st = Ok None) -> exec maxC n ChWorker st = Ok None ->
  Forall (fun p => p = CIdle) (y_clients st) /\ y_worker st = WIdle /\ y_queue st = [].
Proof.
  intros maxC n st H W. assert (W' := proj1 (worker_blocked _ _ _) W). split; auto.
  apply Forall_forall. intros p Hp. apply In_nth_error in Hp. destruct Hp as [i Hi].
  assert (K := client_blocked _ _ _ _ (H i)). rewrite Hi in K. destruct p as [|x f|y [| | | | | | | |m| | | | |]]; auto; try contradiction.
  destruct K as [_ K]. contradiction.
Qed.

(** * Termination *)
Definition rankF (f : phase) : nat * nat := match f with
  | FRevise ts _ => (2, length ts)
  | FStore => (1, 0)
  | FCheck l => (0, 3 * length l)
  | FPush _ l _ => (0, 3 * length l + 2)
  | FIndex _ l _ => (0, 3 * length l + 1)
  end.
Definition lex (a b : nat * nat) : Prop := fst a < fst b \/ (fst a = fst b /\ snd a < snd b).
Lemma lex_wf : well_founded lex.
Proof.
  assert (H : forall x y, Acc lex (x, y)).
  { intros x. induction (lt_wf x) as [x _ IH]. intros y. induction (lt_wf y) as [y _ IHy]. constructor.
    intros [x' y'] [L|[E L]]; simpl in *; [now apply IH|subst x'; now apply IHy]. }
  intros [x y]. apply H.
Qed.
Lemma addStep_lex : forall x f sh sh' f', addStep x f sh = Ok (sh', Some f') -> lex (rankF f') (rankF f).
Proof.
  intros x f sh sh' f' H. destruct f as [[|t ts] r| |[|s l]|s l a|s l a]; cbn [addStep] in H.
  - destruct r; injection H as <- <-; left; simpl; lia.
  - destruct (reviseConcept _ _ _) as [[[m r'] u]|]; [|discriminate]. cbn [rbind] in H. injection H as <- <-. right. simpl. lia.
  - destruct (storeInConcepts _ _ _ _ _); [|discriminate]. cbn [rbind] in H. injection H as <- <-. left. simpl. lia.
  - discriminate.
  - destruct (s_punct s).
    + destruct (taskExists sh s); [discriminate|]. injection H as <- <-. right. simpl. lia.
    + injection H as <- <-. right. simpl. lia.
    + injection H as <- <-. right. simpl. lia.
  - injection H as <- <-. right. simpl. lia.
  - injection H as <- <-. right. simpl. lia.
Qed.
Definition rankY (p : cphase) : nat * nat := match p with
  | YTransfer => (13, 0) | YBase => (12, 0) | YSample => (11, 0) | YAsk _ ts => (10, length ts) | YAny => (9, 0)
  | YSelect => (8, 0) | YCollect _ ts _ => (7, length ts) | YTouch _ => (6, 0) | YSend _ => (5, 0) | YTasks => (4, 0)
  | YLimit => (3, 0) | YIndex => (2, 0) | YRebuild => (1, 0) | YConcepts => (0, 0) end.
Lemma cycStep_lex : forall y p sh qu sh' qu' ans p', cycStep y p sh qu = Ok (Some (sh', qu', ans, Some p')) -> lex (rankY p') (rankY p).
Proof.
  intros y p sh qu sh' qu' ans p' H. destruct p as [| | |i [|t ts]| | |a [|t ts] acc|m|m| | | | |]; cbn [cycStep] in H.
  all: try (injection H as _ _ _ <-; unfold lex; simpl; lia).
  - destruct (questions sh); [injection H as <- <- <- <-; unfold lex; simpl; lia|]. destruct (task2SelByCreditRandom _ _); [|discriminate]. cbn [rbind] in H.
    destruct (idx _ _); [|discriminate]. cbn [rbind] in H. injection H as <- <- <- <-. unfold lex; simpl; lia.
  - destruct (idx _ _); [|discriminate]. cbn [rbind] in H. destruct (qaTryAll _ _); [|discriminate]. cbn [rbind] in H. injection H as <- <- <- <-. unfold lex; simpl; lia.
  - injection H as <- <- <- <-. destruct (judg sh); unfold lex; simpl; lia.
  - destruct (idx _ _); [|discriminate]. cbn [rbind] in H. injection H as <- <- <- <-. unfold lex; simpl; lia.
  - destruct (length qu <? 4); [|discriminate]. injection H as <- <- <- <-. unfold lex; simpl; lia.
  - injection H as <- <- <- <-. destruct (Z.rem (cycleCtr sh) 111 =? 0)%Z; unfold lex; simpl; lia.
  - destruct (limitTasks _ _); [|discriminate]. cbn [rbind] in H. injection H as <- <- <- <-. unfold lex; simpl; lia.
  - injection H as <- <- <- <-. destruct (Z.rem (cycleCtr sh) 111 =? 0)%Z; unfold lex; simpl; lia.
  - destruct (maintainConcepts _); discriminate.
Qed.
Lemma idle_stuck : forall p, ~ clientMoves CIdle p.
Proof. intros p (sh & qu & sh' & qu' & ans & H). discriminate. Qed.
Theorem clients_finish : well_founded (fun p' p => clientMoves p p').
Proof.
  assert (AI : Acc (fun p' p => clientMoves p p') CIdle) by (constructor; intros p K; destruct (idle_stuck _ K)).
  intros [|x f|y p]; auto.
  - remember (rankF f) as r eqn:E. revert f E. induction (lex_wf r) as [r _ IH]. intros f ->. constructor.
    intros p' (sh & qu & sh' & qu' & ans & H). cbn [cliStep] in H. destruct (addStep x f sh) as [[s1 [f1|]]|] eqn:E; [| |discriminate]; cbn [rbind fst snd] in H.
    + injection H as <- <- <- <-. apply (IH (rankF f1)); auto. eapply addStep_lex; eauto.
    + injection H as <- <- <- <-. auto.
  - remember (rankY p) as r eqn:E. revert p E. induction (lex_wf r) as [r _ IH]. intros p ->. constructor.
    intros p' (sh & qu & sh' & qu' & ans & H). cbn [cliStep] in H.
    destruct (cycStep y p sh qu) as [[[[[s1 q1] a1] [p1|]]|]|] eqn:E; cbn [rbind] in H; try discriminate; injection H as <- <- <- <-; auto.
    apply (IH (rankY p1)); auto. eapply cycStep_lex; eauto.
Qed.
Theorem worker_finishes : forall maxC n, well_founded (fun p' p => workerMoves maxC n p p').
Proof.
  intros maxC n. set (R := fun p' p => workerMoves maxC n p p').
  assert (AI : Acc R WIdle) by (constructor; intros p [K _]; contradiction).
  assert (AA : forall m cs, Acc R (WAdd m cs)).
  { intros m cs. induction cs as [|c cs IH]; constructor; intros p [_ (sh & qu & sh' & qu' & ans & H)]; cbn [workStep] in H.
    - injection H as <- <- <- <-. auto.
    - set (x := mkAddArgs _ _ _ _ _) in H. clearbody x. injection H as _ _ _ <-.
      destruct (startAdd maxC x) as [f|]; auto.
      remember (rankF f) as r eqn:E. revert f E. induction (lex_wf r) as [r _ IHr]. intros f ->. constructor.
      intros p' [_ (sh1 & qu1 & sh1' & qu1' & ans1 & H)]. cbn [workStep] in H.
      destruct (addStep x f sh1) as [[s1 [f1|]]|] eqn:E; [| |discriminate]; cbn [rbind fst snd] in H; injection H as _ _ _ <-; auto.
      apply (IHr (rankF f1)); auto. eapply addStep_lex; eauto. }
  assert (AD : forall m x f cs, Acc R (WAdding m x f cs)).
  { intros m x f cs. remember (rankF f) as r eqn:E. revert f E. induction (lex_wf r) as [r _ IHr]. intros f ->. constructor.
    intros p' [_ (sh1 & qu1 & sh1' & qu1' & ans1 & H)]. cbn [workStep] in H.
    destruct (addStep x f sh1) as [[s1 [f1|]]|] eqn:E; [| |discriminate]; cbn [rbind fst snd] in H; injection H as _ _ _ <-; auto.
    apply (IHr (rankF f1)); auto. eapply addStep_lex; eauto. }
  assert (AN : forall m cs todo, Acc R (WAnswer m cs todo)).
  { intros m cs todo. induction todo as [|c todo IH]; constructor; intros p [_ (sh & qu & sh' & qu' & ans & H)]; cbn [workStep] in H.
    - injection H as _ _ _ <-. auto.
    - destruct (punct_eqb _ _); [|injection H as _ _ _ <-; auto]. destruct (qaTryQuestions _ _); [|discriminate]. cbn [rbind] in H. injection H as _ _ _ <-. auto. }
  intros [|m|m cs todo|m cs|m x f cs]; auto. constructor. intros p [_ (sh & qu & sh' & qu' & ans & H)]. cbn [workStep] in H.
  destruct (derive sh m); [|discriminate]. cbn [rbind] in H. injection H as _ _ _ <-. auto.
Qed.

(** * One cycling client never selects from an empty table *)
Definition cyclerInv (j : nat) (st : sys) : Prop :=
  forall i y p, nth_error (y_clients st) i = Some (CCycle y p) -> i = j /\ (p = YSelect -> judg (y_sh st) <> []).
Lemma nth_error_replace : forall A (l : list A) i j v, nth_error (replace_at i v l) j =
  if Nat.eqb i j then (match nth_error l j with Some _ => Some v | None => None end) else nth_error l j.
Proof.
  intros A l. induction l as [|x l IH]; intros [|i] [|j] v; simpl; auto.
  - destruct (Nat.eqb i j); auto.
Qed.
Lemma addStep_judg : forall x f sh sh' o, addStep x f sh = Ok (sh', o) -> exists l, judg sh' = judg sh ++ l.
Proof.
  intros x f sh sh' o H. destruct f as [[|t ts] [nb|]| |[|s l]|s l a|s l a]; cbn [addStep] in H.
  all: try (injection H as <- <-; exists []; simpl; now rewrite app_nil_r).
  - destruct (reviseConcept _ _ _) as [[[m r'] u]|]; [|discriminate]. cbn [rbind] in H. injection H as <- <-. exists []. simpl. now rewrite app_nil_r.
  - destruct (reviseConcept _ _ _) as [[[m r'] u]|]; [|discriminate]. cbn [rbind] in H. injection H as <- <-. exists []. simpl. now rewrite app_nil_r.
  - destruct (storeInConcepts _ _ _ _ _); [|discriminate]. cbn [rbind] in H. injection H as <- <-. exists []. simpl. now rewrite app_nil_r.
  - destruct (s_punct s); [destruct (taskExists sh s)| |]; injection H as <- <-; exists []; simpl; now rewrite app_nil_r.
  - injection H as <- <-. simpl. eauto.
Qed.
Lemma cycStep_select : forall y p sh qu sh' qu' ans, cycStep y p sh qu = Ok (Some (sh', qu', ans, Some YSelect)) -> judg sh' <> [].
Proof.
  intros y p sh qu sh' qu' ans H. destruct p as [| | |i [|t ts]| | |a [|t ts] acc|m|m| | | | |]; cbn [cycStep] in H; try discriminate.
  - destruct (questions sh); [discriminate|]. destruct (task2SelByCreditRandom _ _); [|discriminate]. cbn [rbind] in H.
    destruct (idx _ _); discriminate.
  - destruct (idx _ _); [|discriminate]. cbn [rbind] in H. destruct (qaTryAll _ _); discriminate.
  - destruct (judg sh) as [|a j] eqn:E; [discriminate|]. injection H as <- <- <-. rewrite E. discriminate.
  - destruct (idx _ _); discriminate.
  - destruct (length qu <? 4); discriminate.
  - destruct (Z.rem (cycleCtr sh) 111 =? 0)%Z; discriminate.
  - destruct (limitTasks _ _); discriminate.
  - destruct (Z.rem (cycleCtr sh) 111 =? 0)%Z; discriminate.
  - destruct (maintainConcepts _); discriminate.
Qed.
Lemma grow_nonempty : forall (a b l : list nat), a <> [] -> b = a ++ l -> b <> [].
Proof. intros [|x a] b l H ->; [contradiction|discriminate]. Qed.
Lemma cycler_inv : forall (C : choice -> Prop) maxC wN k j st, (forall c, C c -> oneCycler j c) -> reach C maxC wN k st -> cyclerInv j st.
Proof.
  intros C maxC wN k j st HC R. induction R as [|st c st' R IH Hc E|st h us pm sc nu R IH S].
  - intros i y p H. simpl in H. apply nth_error_In in H. apply repeat_spec in H. discriminate.
  - apply HC in Hc. destruct c as [i o|i|]; cbn [exec] in E.
    + destruct (nth_error (y_clients st) i) as [[|x f|y p]|] eqn:Ni; try discriminate.
      destruct (opStart maxC o (y_sh st)) as [sh' p'] eqn:Es. injection E as <-. intros i' y p H. cbn [y_clients y_sh] in *.
      rewrite nth_error_replace in H. destruct (Nat.eqb i i') eqn:Ei.
      * apply Nat.eqb_eq in Ei. subst i'. rewrite Ni in H. injection H as ->. destruct o as [x|q| |y']; cbn [opStart] in Es.
        -- destruct (startAdd maxC x); discriminate.
        -- discriminate.
        -- discriminate.
        -- injection Es as <- <- <-. split; [exact Hc|discriminate].
      * destruct (IH _ _ _ H) as [-> K]. split; auto. apply Nat.eqb_neq in Ei. destruct o as [x|q| |y']; cbn [opStart] in Es.
        -- destruct (startAdd maxC x); injection Es as <- <-; auto.
        -- injection Es as <- <-. auto.
        -- simpl in Hc. contradiction.
        -- simpl in Hc. contradiction.
    + destruct (nth_error (y_clients st) i) as [p|] eqn:Ni; [|discriminate].
      destruct (cliStep p (y_sh st) (y_queue st)) as [[[[[sh' qu'] ans] p']|]|] eqn:Es; cbn [rbind] in E; [|discriminate|discriminate].
      injection E as <-. intros i' y' q H. cbn [y_clients y_sh] in *. rewrite nth_error_replace in H. destruct (Nat.eqb i i') eqn:Ei.
      * apply Nat.eqb_eq in Ei. subst i'. rewrite Ni in H. injection H as ->. destruct p as [|x f|y p]; cbn [cliStep] in Es; [discriminate| |].
        -- destruct (addStep x f (y_sh st)) as [[s1 [f1|]]|]; [| |discriminate]; cbn [rbind fst snd] in Es; discriminate.
        -- destruct (IH _ _ _ Ni) as [-> _]. split; auto. intros ->.
           destruct (cycStep y p (y_sh st) (y_queue st)) as [[[[[s1 q1] a1] [p1|]]|]|] eqn:E; cbn [rbind] in Es; try discriminate.
           assert (p1 = YSelect) by congruence. subst p1. assert (sh' = s1) by congruence. subst s1. eapply cycStep_select; eauto.
      * destruct (IH _ _ _ H) as [-> K]. split; auto. intros Eq. specialize (K Eq). destruct p as [|x f|y p]; cbn [cliStep] in Es; [discriminate| |].
        -- destruct (addStep x f (y_sh st)) as [[s1 o1]|] eqn:E; [|discriminate]. cbn [rbind fst snd] in Es. injection Es as <- <- <- <-.
           apply addStep_judg in E. destruct E as [l E]. eapply grow_nonempty; eauto.
        -- destruct (IH _ _ _ Ni) as [-> _]. apply Nat.eqb_neq in Ei. contradiction.
    + destruct (workStep maxC wN (y_worker st) (y_sh st) (y_queue st)) as [[[[[sh' qu'] ans] p']|]|] eqn:Es; cbn [rbind] in E; [|discriminate|discriminate].
      injection E as <-. intros i y p H. cbn [y_clients y_sh] in *. destruct (IH _ _ _ H) as [-> K]. split; auto. intros Ep. specialize (K Ep).
      assert (exists l, judg sh' = judg (y_sh st) ++ l) as [l J].
      { destruct (y_worker st) as [|m|m cs [|c todo]|m [|c cs]|m x f cs]; cbn [workStep] in Es.
        - destruct (y_queue st); [discriminate|]. injection Es as <- _ _ _. exists []. now rewrite app_nil_r.
        - destruct (derive _ m); [|discriminate]. cbn [rbind] in Es. injection Es as <- _ _ _. exists []. simpl. now rewrite app_nil_r.
        - injection Es as <- _ _ _. exists []. now rewrite app_nil_r.
        - destruct (punct_eqb _ _); [destruct (qaTryQuestions _ _); [|discriminate]; cbn [rbind] in Es|]; injection Es as <- _ _ _; exists []; simpl; now rewrite app_nil_r.
        - injection Es as <- _ _ _. exists []. now rewrite app_nil_r.
        - injection Es as <- _ _ _. exists []. now rewrite app_nil_r.
        - destruct (addStep x f (y_sh st)) as [[s1 o1]|] eqn:E; [|discriminate]. cbn [rbind fst snd] in Es. injection Es as <- _ _ _.
          eapply addStep_judg; eauto. }
      eapply grow_nonempty; eauto.
  - intros i y p H. apply (IH i y p H).
Qed.
Theorem select_safe : forall (C : choice -> Prop) maxC wN k j st i y, (forall c, C c -> oneCycler j c) -> reach C maxC wN k st ->
  nth_error (y_clients st) i = Some (CCycle y YSelect) -> exists st', exec maxC wN (ChClient i) st = Ok (Some st').
Proof.
  intros C maxC wN k j st i y HC R Hi. destruct (cycler_inv _ _ _ _ _ _ HC R _ _ _ Hi) as [_ K]. specialize (K eq_refl).
  cbn [exec]. rewrite Hi. cbn [cliStep cycStep]. set (ix := taskSelByCreditTop _ _ _).
  assert (L : ix < length (judg (y_sh st))).
  { unfold ix. rewrite <- (map_length (hget (heap (y_sh st))) (judg (y_sh st))). apply top_valid. destruct (judg (y_sh st)); [contradiction|discriminate]. }
  unfold idx. destruct (nth_error (judg (y_sh st)) ix) as [a|] eqn:E; [|apply nth_error_None in E; lia]. eexists. reflexivity.
Qed.
