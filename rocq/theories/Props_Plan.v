(** Property C105: typed rules are followed, also two in a row, but not three. *)
From Coq Require Import String Ascii ZArith Bool Lia List.
From Verif Require Import Base F64_Model Term_Model Term_Spec Term_Proofs Tv_Model Sentence_Model Mem_Model Cycle_Model PMem_Model Goal_Model Goal_Spec Goal_Proofs Proc_Model Proc_Spec ProcS_Model ProcX_Model Parser_Model
  Nar_Model Nar_Spec Nar_Proofs Whole_Model Props_Whole Serial_Spec Serial_Proofs Props_Serial Teach_Spec Teach_Proofs Teach2_Proofs Props_Teach Plan_Spec Plan_Proofs Plan2_Proofs.
Import ListNotations.
Local Open Scope string_scope.
Local Open Scope list_scope.
Local Open Scope Z_scope.

(** In any state: [A] is the last event, the beliefs that start from it say that [O1]
    leads to [B], those that start from [B] say that [O2] leads to [C], only [C] is
    wanted. Then the next step carries [O1] out and expects [B], whatever is drawn. *)
Theorem c105_ahead : forall n r n' tr e A O1 B O2 C v args name o, narStep1 n true r = Ok n' -> gReach (n_goals n) -> n_trace n = tr ++ [e] -> ev_name e = A ->
  opCall O1 args name -> firstNamed (n_ops n) name o -> op_kind o = OpPlain -> fltb f0 (c_thresh (n_cfg n)) = true ->
  (exists a, relevant n A a) -> (forall a, relevant n A a -> leads n A O1 B a /\ strong n a) ->
  (exists b, relevant n B b) -> (forall b, relevant n B b -> leads n B O2 C b) ->
  (forall a b, relevant n A a -> relevant n B b -> reaches n v a b) -> unwanted n B -> wants n C v -> noneFor n O1 ->
  exists a iv, relevant n A a /\
    nth_error (n_table n) (Z.to_nat (match s_expDt (rd (cells (n_mem n)) a) with Some d => d | None => 0 end)) = Some iv /\
    n_trace n' = traceLimit (n_trace n ++ [mkEvent O1 (n_t n) (n_t n)]) /\
    n_ant n' = n_ant n ++ (if c_anticipate (n_cfg n) then [(a, n_t n + iv)] else []) /\ cells (n_mem n') = cells (n_mem n) /\ n_t n' = n_t n + 1.
Proof. exact act2. Qed.
(** In any state: if nothing wanted says what to do, and neither what a belief about the
    last event leads to nor what a belief about that leads to is wanted, then nothing is
    done on purpose. *)
Theorem c105_horizon : forall n r n' tr e A, narStep1 n true r = Ok n' -> n_trace n = tr ++ [e] -> ev_name e = A -> c_babble (n_cfg n) = false -> noOrders n ->
  (forall a rest B, In a (pBeliefs (n_mem n) [A]) -> s_term (rd (cells (n_mem n)) a) = Stmt PREDIMPL (Seq (A :: rest)) B ->
    unwanted n B /\ forall b rest' D, In b (pBeliefs (n_mem n) [B]) -> s_term (rd (cells (n_mem n)) b) = Stmt PREDIMPL (Seq (B :: rest')) D -> unwanted n D) ->
  n_trace n' = traceLimit (n_trace n) /\ n_ant n' = n_ant n.
Proof. exact idle. Qed.

(** A freshly started program, up to nine rules without variables, typed with any truth
    value. The wish [C] and the situation [A] are told. If the rules about [A] all say that
    [O] leads to [C], the next step carries [O] out and expects [C] one step later. Anything
    that only concerns the declarative half may be said or done in between. *)
Theorem c105_rule : forall pf ops log n0 rules lines A O C la lg r0 rg ra rs turns n' q,
  Nar_Spec.session log n0 -> nr_proc n0 = narInit ops -> nr_pq n0 = [] -> ruleLines pf rules lines -> Forall (fun ru => ground (ruleTerm ru)) rules -> (length rules <= 9)%nat ->
  situation C -> says pf la A JUGEMENT -> says pf lg C GOAL -> ground A -> callable ops O -> theWay rules A O C ->
  mixed pf (instruct lines lg la r0 rg ra rs) turns -> takeTurns pf turns n0 = Ok (n', q) ->
  n_trace (nr_proc n') = [mkEvent A 0 0; mkEvent O 0 0] /\
  exists a, n_ant (nr_proc n') = [(a, 1)] /\ s_term (rd (cells (n_mem (nr_proc n'))) a) = Stmt PREDIMPL (Seq [A; O]) C.
Proof.
  intros pf ops log n0 rules lines A O C la lg r0 rg ra rs turns n' q S E1 E2 RL G L SC LA LG GA Ca W Mx H.
  assert (T0 : nth_error defaultTable 0 = Some 1) by (vm_compute; reflexivity). unfold narInit in E1. revert T0 E1. generalize defaultTable. intros tb T0 E1.
  destruct (end_ready pf tb ops A C la lg SC LA LG rules lines r0 rg ra rs turns n0 (n', q)) as (p1 & Rd & Sp); auto.
  - split; [split; assumption|eauto].
  - exact (one_step tb ops A C SC rules p1 (ln_step rs) (nr_proc n') Rd Sp T0 O GA Ca W).
Qed.
(** Rules may compete. What is done is the operation of some rule about [A] whose effect is
    what is wanted or, by a further rule, leads to it, and this effect is expected. If all
    ways lead to what is wanted within two steps, something is done. *)
Theorem c105_compete : forall pf ops log n0 rules lines A C la lg r0 rg ra rs turns n' q,
  Nar_Spec.session log n0 -> nr_proc n0 = narInit ops -> nr_pq n0 = [] -> ruleLines pf rules lines -> Forall (fun ru => ground (ruleTerm ru)) rules -> (length rules <= 9)%nat ->
  situation C -> says pf la A JUGEMENT -> says pf lg C GOAL -> ground A -> (forall O B, In (Rule A O B) rules -> callable ops O) ->
  mixed pf (instruct lines lg la r0 rg ra rs) turns -> takeTurns pf turns n0 = Ok (n', q) ->
  (n_trace (nr_proc n') = [mkEvent A 0 0] /\ n_ant (nr_proc n') = [] /\ ~ good rules A C) \/
  exists O B a, In (Rule A O B) rules /\ (B = C \/ exists O2, In (Rule B O2 C) rules) /\
    n_trace (nr_proc n') = [mkEvent A 0 0; mkEvent O 0 0] /\ n_ant (nr_proc n') = [(a, 1)] /\ s_term (rd (cells (n_mem (nr_proc n'))) a) = Stmt PREDIMPL (Seq [A; O]) B.
Proof.
  intros pf ops log n0 rules lines A C la lg r0 rg ra rs turns n' q S E1 E2 RL G L SC LA LG GA Ca Mx H.
  assert (T0 : nth_error defaultTable 0 = Some 1) by (vm_compute; reflexivity). unfold narInit in E1. revert T0 E1. generalize defaultTable. intros tb T0 E1.
  destruct (end_ready pf tb ops A C la lg SC LA LG rules lines r0 rg ra rs turns n0 (n', q)) as (p1 & Rd & Sp); auto.
  - split; [split; assumption|eauto].
  - destruct (compete tb ops A C SC rules p1 (ln_step rs) (nr_proc n') Rd Sp T0 G GA Ca) as [X|(O & B & a & (X1 & X2) & X3)]; [now left|right]. exists O, B, a. auto.
Qed.
(** If the rules about [A] all say that [O1] leads to [B], and those about [B] that [O2]
    leads to [C], the next step carries [O1] out and expects [B]. *)
Theorem c105_plan : forall pf ops log n0 rules lines A O1 B O2 C la lg r0 rg ra rs turns n' q,
  Nar_Spec.session log n0 -> nr_proc n0 = narInit ops -> nr_pq n0 = [] -> ruleLines pf rules lines -> Forall (fun ru => ground (ruleTerm ru)) rules -> (length rules <= 9)%nat ->
  situation C -> says pf la A JUGEMENT -> says pf lg C GOAL -> ground A -> ground B -> B <> C -> callable ops O1 -> theWay rules A O1 B -> theWay rules B O2 C ->
  mixed pf (instruct lines lg la r0 rg ra rs) turns -> takeTurns pf turns n0 = Ok (n', q) ->
  n_trace (nr_proc n') = [mkEvent A 0 0; mkEvent O1 0 0] /\
  exists a, n_ant (nr_proc n') = [(a, 1)] /\ s_term (rd (cells (n_mem (nr_proc n'))) a) = Stmt PREDIMPL (Seq [A; O1]) B.
Proof.
  intros pf ops log n0 rules lines A O1 B O2 C la lg r0 rg ra rs turns n' q S E1 E2 RL G L SC LA LG GA GB NB Ca W1 W2 Mx H.
  assert (T0 : nth_error defaultTable 0 = Some 1) by (vm_compute; reflexivity). unfold narInit in E1. revert T0 E1. generalize defaultTable. intros tb T0 E1.
  destruct (end_ready pf tb ops A C la lg SC LA LG rules lines r0 rg ra rs turns n0 (n', q)) as (p1 & Rd & Sp); auto.
  - split; [split; assumption|eauto].
  - exact (two_steps tb ops A C SC rules p1 (ln_step rs) (nr_proc n') Rd Sp T0 O1 B O2 GA GB NB Ca W1 W2).
Qed.
(** Finding: with three rules in a row nothing is done in that step, whatever is drawn. *)
Theorem c105_three : forall pf ops log n0 rules lines A O1 B O2 D O3 C la lg r0 rg ra rs turns n' q,
  Nar_Spec.session log n0 -> nr_proc n0 = narInit ops -> nr_pq n0 = [] -> ruleLines pf rules lines -> Forall (fun ru => ground (ruleTerm ru)) rules -> (length rules <= 9)%nat ->
  situation C -> says pf la A JUGEMENT -> says pf lg C GOAL -> ground A -> ground B -> B <> C -> D <> C -> theWay rules A O1 B -> theWay rules B O2 D -> theWay rules D O3 C ->
  mixed pf (instruct lines lg la r0 rg ra rs) turns -> takeTurns pf turns n0 = Ok (n', q) ->
  n_trace (nr_proc n') = [mkEvent A 0 0] /\ n_ant (nr_proc n') = [].
Proof.
  intros pf ops log n0 rules lines A O1 B O2 D O3 C la lg r0 rg ra rs turns n' q S E1 E2 RL G L SC LA LG GA GB NB ND W1 W2 W3 Mx H.
  unfold narInit in E1. revert E1. generalize defaultTable. intros tb E1.
  destruct (end_ready pf tb ops A C la lg SC LA LG rules lines r0 rg ra rs turns n0 (n', q)) as (p1 & Rd & Sp); auto.
  - split; [split; assumption|eauto].
  - exact (three_steps tb ops A C SC rules p1 (ln_step rs) (nr_proc n') Rd Sp O1 B O2 D O3 GA GB NB ND W1 W2 W3).
Qed.
Lemma started : forall c o tb t tr an m g ops verb, Nar_Spec.session [] (mkNar (mkPnar c o tb t tr an m g) sharedMake 0 0 20 64 [] [] false) ->
  Nar_Spec.session [] (mkNar (mkPnar c ops tb t tr an m g) sharedMake 0 verb 20 64 [] [] true).
Proof. intros c o tb t tr an m g ops verb S. exact (ss_wire _ _ (ss_verb _ _ verb (ss_ops _ _ ops S))). Qed.
Lemma fresh : forall ops verb, Nar_Spec.session [] (mkNar (narInit ops) sharedMake 0 verb 20 64 [] [] true).
Proof. intros ops verb. exact (started defaultCfg [] defaultTable 0 [] [] pmemMake (makeGoalSystem 20 8) ops verb ss_start). Qed.
(** The same with threads that move one at a time. *)
Theorem c105_threads : forall pf ops rules lines A O1 B O2 C la lg r0 rg ra rs turns verb n' q,
  let n0 := mkNar (narInit ops) sharedMake 0 verb 20 64 [] [] true in
  ruleLines pf rules lines -> Forall (fun ru => ground (ruleTerm ru)) rules -> (length rules <= 9)%nat ->
  situation C -> says pf la A JUGEMENT -> says pf lg C GOAL -> ground A -> ground B -> B <> C -> callable ops O1 -> theWay rules A O1 B -> theWay rules B O2 C ->
  mixed pf (instruct lines lg la r0 rg ra rs) turns -> takeTurns pf turns n0 = Ok (n', q) -> rooms pf turns n0 ->
  exists acts w, oneByOne turns acts /\ wrun pf acts (wholeMake (narInit ops) verb 20 64 true) = Ok w /\
    n_trace (y_nar (w_proc w)) = [mkEvent A 0 0; mkEvent O1 0 0].
Proof.
  intros pf ops rules lines A O1 B O2 C la lg r0 rg ra rs turns verb n' q n0 RL G L SC LA LG GA GB NB Ca W1 W2 Mx H Rm.
  pose proof (fresh ops verb) as S. fold n0 in S.
  destruct (c93_sessions pf turns ops verb true Rm) as (acts & Ob & K). fold n0 in K. rewrite H in K. destruct K as (w & R & Sa & _). exists acts, w. split; [exact Ob|]. split; [exact R|].
  rewrite (sa_proc _ _ Sa). refine (proj1 (c105_plan pf ops [] n0 rules lines A O1 B O2 C la lg r0 rg ra rs turns n' q S eq_refl eq_refl RL G L SC LA LG GA GB NB Ca W1 W2 Mx H)).
Qed.

(** ** examples *)
Definition lift : rule := Rule (cup "near") grasp (cup "held").
Definition pour : rule := Rule (cup "held") grasp (cup "full").
Definition drink : rule := Rule (cup "full") grasp (cup "empty").
Definition liftLine : text := tx "<(<{cup} --> [near]>,<{({SELF} * cup)} --> ^left>) =/> <{cup} --> [held]>>. {0.0 0.9}".
Definition pourLine : text := tx "<(<{cup} --> [held]>,<{({SELF} * cup)} --> ^left>) =/> <{cup} --> [full]>>.".
Definition drinkLine : text := tx "<(<{cup} --> [full]>,<{({SELF} * cup)} --> ^left>) =/> <{cup} --> [empty]>>.".
Definition getFull : text := tx "<{cup} --> [full]>! :|:".
Definition getEmpty : text := tx "<{cup} --> [empty]>! :|:".
Definition drawA : lineRnd := mkRnd (fun _ => repeat 3%nat 24) (fun _ => mkSmp true [7%nat; 3%nat] 5 true 0) (mkIn 9 [] 1 (fun _ => f1) [(f0, f0, draw0); (f1, f0, draw0)]) (fun _ => f1) (fun _ => f0) (fun _ => Ok []).
Definition course2 : list turn := instruct [(liftLine, drawA); (pourLine, drawA)] getFull near drawA drawA drawA drawA.
Definition course3 : list turn := instruct [(liftLine, drawA); (pourLine, drawA); (drinkLine, drawA)] getEmpty near drawA drawA drawA drawA.
Definition pf1 : text -> option f64 := fun t => if text_eqb t (tx "0.0") then Some f0 else if text_eqb t (tx "0.9") then Some (f_frac 9 10) else None.
Lemma statesBy : forall pf line t c i v, line = c :: i -> c <> "!"%char -> firstn 2 (c :: i) <> tx "//" -> forallb (fun c => Nat.ltb (nat_of_ascii c) 128) (c :: i) = true ->
  match List.rev (c :: i) with x :: _ => negb (Nat.eqb (nat_of_ascii x) 10) && negb (Nat.eqb (nat_of_ascii x) 13) | [] => true end = true ->
  parseNarsese pf (c :: i) = Ok (Some (t, v, JUGEMENT, false)) -> states pf line t.
Proof.
  intros pf line t c i v -> N S As Nl P. exists c, i, v. split; [now apply trimmedBy|]. split; [exact N|]. split; [|split; [|exact P]].
  - intros (r & E). apply S. rewrite E. reflexivity.
  - apply Forall_forall. intros x Hx. rewrite forallb_forall in As. apply As in Hx. now apply Nat.ltb_lt.
Qed.
Ltac line := eapply statesBy; [reflexivity|discriminate|discriminate|vm_compute; reflexivity|vm_compute; reflexivity|vm_compute; reflexivity].
Lemma rules3 : ruleLines pf1 [lift; pour; drink] [(liftLine, drawA); (pourLine, drawA); (drinkLine, drawA)].
Proof. repeat constructor; line. Qed.
Lemma saysBy1 : forall line t p c i, line = c :: i -> c <> "!"%char -> firstn 2 (c :: i) <> tx "//" -> forallb (fun c => Nat.ltb (nat_of_ascii c) 128) (c :: i) = true ->
  match List.rev (c :: i) with x :: _ => negb (Nat.eqb (nat_of_ascii x) 10) && negb (Nat.eqb (nat_of_ascii x) 13) | [] => true end = true ->
  parseNarsese pf1 (c :: i) = Ok (Some (t, defaultTv, p, true)) -> says pf1 line t p.
Proof.
  intros line t p c i -> N S As Nl P. exists c, i. split; [now apply trimmedBy|]. split; [exact N|]. split; [|split; [|exact P]].
  - intros (r & E). apply S. rewrite E. reflexivity.
  - apply Forall_forall. intros x Hx. rewrite forallb_forall in As. apply As in Hx. now apply Nat.ltb_lt.
Qed.
Ltac said := eapply saysBy1; [reflexivity|discriminate|discriminate|vm_compute; reflexivity|vm_compute; reflexivity|vm_compute; reflexivity].
Lemma cup_ground : forall s, ground (cup s). Proof. intros s. apply (cup_situation s). Qed.
Lemma rule_ground : forall s s', ground (ruleTerm (Rule (cup s) grasp (cup s'))).
Proof. intros s s'. exact (gT ops1 (cup s) grasp (cup s') (cup_situation s) (cup_situation s') grasp_deed). Qed.
Lemma grasp_callable : callable ops1 grasp.
Proof. destruct grasp_deed as (_ & args & name & o & OC & FN & PL & _). exists args, name, o. auto. Qed.
Lemma same1 : forall l, mixed pf1 l l. Proof. induction l as [|t l IH]; [apply mx_end|now apply mx_own]. Qed.
Definition fine (x : nar * bool) : bool := true.
(** Two rules in a row, the first typed as if it never worked: the cup is grasped. *)
Example c105_ex_plan : exists n q, takeTurns pf1 course2 room1 = Ok (n, q) /\ n_trace (nr_proc n) = [mkEvent (cup "near") 0 0; mkEvent grasp 0 0].
Proof.
  destruct (comesOut _ (takeTurns pf1 course2 room1) fine) as ([n q] & R & _); [vm_compute; reflexivity|]. exists n, q. split; [exact R|].
  refine (proj1 (c105_plan pf1 ops1 [] room1 [lift; pour] [(liftLine, drawA); (pourLine, drawA)] (cup "near") grasp (cup "held") grasp (cup "full") near getFull drawA drawA drawA drawA course2 n q (fresh ops1 0) eq_refl eq_refl _ _ _ (cup_situation _) _ _ (cup_ground _) (cup_ground _) _ grasp_callable _ _ (same1 _) R)).
  - repeat constructor; line.
  - repeat constructor; apply rule_ground.
  - cbn; lia.
  - said.
  - said.
  - discriminate.
  - split; [now left|]. intros O' C' [E|[E|[]]]; [injection E as <- <-; auto|discriminate E].
  - split; [right; now left|]. intros O' C' [E|[E|[]]]; [discriminate E|injection E as <- <-; auto].
Qed.
(** Three rules in a row: nothing is done. *)
Example c105_ex_three : exists n q, takeTurns pf1 course3 room1 = Ok (n, q) /\ n_trace (nr_proc n) = [mkEvent (cup "near") 0 0].
Proof.
  destruct (comesOut _ (takeTurns pf1 course3 room1) fine) as ([n q] & R & _); [vm_compute; reflexivity|]. exists n, q. split; [exact R|].
  refine (proj1 (c105_three pf1 ops1 [] room1 [lift; pour; drink] [(liftLine, drawA); (pourLine, drawA); (drinkLine, drawA)] (cup "near") grasp (cup "held") grasp (cup "full") grasp (cup "empty") near getEmpty drawA drawA drawA drawA course3 n q (fresh ops1 0) eq_refl eq_refl rules3 _ _ (cup_situation _) _ _ (cup_ground _) (cup_ground _) _ _ _ _ _ (same1 _) R)).
  - repeat constructor; apply rule_ground.
  - cbn; lia.
  - said.
  - said.
  - discriminate.
  - discriminate.
  - split; [now left|]. intros O' C' [E|[E|[E|[]]]]; try discriminate E; injection E as <- <-; auto.
  - split; [right; now left|]. intros O' C' [E|[E|[E|[]]]]; try discriminate E; injection E as <- <-; auto.
  - split; [right; right; now left|]. intros O' C' [E|[E|[E|[]]]]; try discriminate E; injection E as <- <-; auto.
Qed.
(** One rule. *)
Example c105_ex_rule : exists n q, takeTurns pf1 (instruct [(liftLine, drawA)] (tx "<{cup} --> [held]>! :|:") near drawA drawA drawA drawA) room1 = Ok (n, q) /\ n_trace (nr_proc n) = [mkEvent (cup "near") 0 0; mkEvent grasp 0 0].
Proof.
  destruct (comesOut _ (takeTurns pf1 (instruct [(liftLine, drawA)] (tx "<{cup} --> [held]>! :|:") near drawA drawA drawA drawA) room1) fine) as ([n q] & R & _); [vm_compute; reflexivity|]. exists n, q. split; [exact R|].
  refine (proj1 (c105_rule pf1 ops1 [] room1 [lift] [(liftLine, drawA)] (cup "near") grasp (cup "held") near (tx "<{cup} --> [held]>! :|:") drawA drawA drawA drawA _ n q (fresh ops1 0) eq_refl eq_refl _ _ _ (cup_situation _) _ _ (cup_ground _) grasp_callable _ (same1 _) R)).
  - repeat constructor; line.
  - repeat constructor; apply rule_ground.
  - cbn; lia.
  - said.
  - said.
  - split; [now left|]. intros O' C' [E|[]]. injection E as <- <-; auto.
Qed.
(** A detour and a short cut: whichever is drawn, the cup is grasped. *)
Definition gulp : rule := Rule (cup "near") grasp (cup "full").
Definition gulpLine : text := tx "<(<{cup} --> [near]>,<{({SELF} * cup)} --> ^left>) =/> <{cup} --> [full]>>.".
Definition courseC : list turn := instruct [(liftLine, drawA); (pourLine, drawA); (gulpLine, drawA)] getFull near drawA drawA drawA drawA.
Example c105_ex_compete : exists n q, takeTurns pf1 courseC room1 = Ok (n, q) /\ n_trace (nr_proc n) = [mkEvent (cup "near") 0 0; mkEvent grasp 0 0].
Proof.
  destruct (comesOut _ (takeTurns pf1 courseC room1) fine) as ([n q] & R & _); [vm_compute; reflexivity|]. exists n, q. split; [exact R|].
  destruct (c105_compete pf1 ops1 [] room1 [lift; pour; gulp] [(liftLine, drawA); (pourLine, drawA); (gulpLine, drawA)] (cup "near") (cup "full") near getFull drawA drawA drawA drawA courseC n q (fresh ops1 0) eq_refl eq_refl) as [(_ & _ & Ng)|(O & B & a & Hr & _ & Tr & _)].
  - repeat constructor; line.
  - repeat constructor; apply rule_ground.
  - cbn; lia.
  - exact (cup_situation _).
  - said.
  - said.
  - exact (cup_ground _).
  - intros O B [E|[E|[E|[]]]]; try discriminate E; injection E as <- <-; exact grasp_callable.
  - exact (same1 _).
  - exact R.
  - exfalso. clear R. apply Ng. split; [exists grasp, (cup "held"); now left|]. intros O B [E|[E|[E|[]]]]; try discriminate E; injection E as <- <-; [right|now left].
    split; [exists grasp, (cup "full"); right; now left|]. intros O2 D [E|[E|[E|[]]]]; try discriminate E; injection E as <- <-; reflexivity.
  - rewrite Tr. clear R Tr. destruct Hr as [E|[E|[E|[]]]]; try discriminate E; injection E as <- <-; reflexivity.
Qed.
(** The plan is carried on when the first effect is there; and what is three steps away is
    begun one step later, from the wishes derived meanwhile. *)
Definition graspedTwice (x : nar * bool) : bool := Nat.eqb (length (filter (fun e => checkEqTerm (ev_name e) grasp) (n_trace (nr_proc (fst x))))) 2.
Example c105_ex_carried_on : match takeTurns pf1 (course2 ++ [TLine held drawA; TLine (tx "!sp") drawA]) room1 with Ok x => graspedTwice x | Panic => false end = true.
Proof. vm_compute. reflexivity. Qed.
Example c105_ex_later : match takeTurns pf1 (course3 ++ [TLine near drawA; TLine (tx "!sp") drawA]) room1 with
  | Ok x => match map (fun e => checkEqTerm (ev_name e) grasp) (n_trace (nr_proc (fst x))) with [false; false; true] => true | _ => false end | Panic => false end = true.
Proof. vm_compute. reflexivity. Qed.

Print Assumptions c105_ahead. Print Assumptions c105_horizon. Print Assumptions c105_rule. Print Assumptions c105_compete. Print Assumptions c105_plan. Print Assumptions c105_three. Print Assumptions c105_threads.
