(** Property C94: what was shown once is done when it is wanted. *)
From Coq Require Import String Ascii ZArith Bool Lia List.
From Verif Require Import Base F64_Model Term_Model Term_Spec Term_Proofs Tv_Model Sentence_Model Mem_Model Cycle_Model PMem_Model Goal_Model Goal_Spec Goal_Proofs Proc_Model Proc_Spec ProcS_Model ProcX_Model Parser_Model
  Nar_Model Nar_Spec Nar_Proofs Whole_Model Props_Whole Serial_Spec Serial_Proofs Props_Serial Teach_Spec Teach_Proofs Teach2_Proofs.
Import ListNotations.
Local Open Scope string_scope.
Local Open Scope list_scope.
Local Open Scope Z_scope.

(** In any state: the situation [A] is the last event, every belief that starts from it
    recommends [O] for reaching [C], and only [C] is wanted. Then the next step carries
    [O] out and expects [C], whatever the random numbers are. *)
Theorem c94_act : forall n r n' tr e A O C v args name o, narStep1 n true r = Ok n' -> gReach (n_goals n) -> n_trace n = tr ++ [e] -> ev_name e = A ->
  opCall O args name -> firstNamed (n_ops n) name o -> op_kind o = OpPlain -> fltb f0 (c_thresh (n_cfg n)) = true ->
  (exists a, relevant n A a) -> (forall a, relevant n A a -> advises n A O C v a) -> wants n C v -> noneFor n O ->
  exists a iv, relevant n A a /\
    nth_error (n_table n) (Z.to_nat (match s_expDt (rd (cells (n_mem n)) a) with Some d => d | None => 0 end)) = Some iv /\
    n_trace n' = traceLimit (n_trace n ++ [mkEvent O (n_t n) (n_t n)]) /\
    n_ant n' = n_ant n ++ (if c_anticipate (n_cfg n) then [(a, n_t n + iv)] else []) /\ cells (n_mem n') = cells (n_mem n) /\ n_t n' = n_t n + 1.
Proof. exact act_it. Qed.

(** One lesson is enough. For all situations [A] and [C] and every operation [O] of a
    freshly started program: switch babbling off, say [A], [O] and [C] as events of three
    steps, let the storage worker handle at least one message, say that [C] is wanted and
    that [A] is the case again. The next step carries [O] out and expects [C] one step
    later because of the belief that [O] after [A] leads to [C]. This holds for all random
    numbers, and anything that only concerns the declarative half may be said or done in
    between. *)
Theorem c94_taught : forall pf ops A O C la lo lc lg r ds turns n0 n' q,
  nr_proc n0 = narInit ops -> nr_pq n0 = [] -> situation A -> situation C -> A <> C -> deed ops O ->
  says pf la A JUGEMENT -> says pf lo O JUGEMENT -> says pf lc C JUGEMENT -> says pf lg C GOAL -> drawn (r 6%nat) -> ds <> [] ->
  mixed pf (teach la lo lc r ++ filed ds ++ recall lg la r) turns -> takeTurns pf turns n0 = Ok (n', q) ->
  n_trace (nr_proc n') = [mkEvent A 0 0; mkEvent O 1 1; mkEvent C 2 2; mkEvent A 3 3; mkEvent O 3 3] /\
  exists a, n_ant (nr_proc n') = [(a, 4)] /\ s_term (rd (cells (n_mem (nr_proc n'))) a) = Stmt PREDIMPL (Seq [A; O]) C.
Proof.
  intros pf ops A O C la lo lc lg r ds turns n0 n' q E1 E2 SA SC NE D LA LO LC LG Dr Nd Mx H.
  assert (TB : findMinTableIdx 1 defaultTable = 0) by (vm_compute; reflexivity). assert (T0 : nth_error defaultTable 0 = Some 1) by (vm_compute; reflexivity).
  unfold narInit in E1. revert TB T0 E1. generalize defaultTable. intros tb TB T0 E1.
  destruct (taught pf tb ops A O C la lo lc lg TB SA SC D NE LA LO LC LG r ds turns n0 (n', q) E1 E2 Dr Nd Mx H) as (a & iv & Iv & Tr & An & Tm & _).
  rewrite T0 in Iv. injection Iv as <-. cbn [fst] in *. split; [exact Tr|]. exists a. split; [exact An|exact Tm].
Qed.
(** What may be in between: handling of derived tasks, comments, cycles, and sentences
    that are neither events nor wishes nor typed rules. *)
Theorem c94_aside_derive : forall pf, aside pf TDerive.
Proof. exact aside_derive. Qed.
Theorem c94_aside_comment : forall pf line r i, trimmed line i -> utf8 i -> starts (tx "//") i -> aside pf (TLine line r).
Proof. exact aside_comment. Qed.
Theorem c94_aside_cycles : forall pf line r w z, trimmed line (tx "!s" ++ w) -> numeral w z -> - 2 ^ 63 <= z < 2 ^ 63 -> aside pf (TLine line r).
Proof. exact aside_cycles. Qed.
Theorem c94_aside_said : forall pf line r c i t v p ev, trimmed line (c :: i) -> c <> "!"%char -> ~ starts (tx "//") (c :: i) -> asciiText (c :: i) ->
  parseNarsese pf (c :: i) = Ok (Some (t, v, p, ev)) -> (ev = false /\ (temporal t -> p <> JUGEMENT)) \/ p = QUESTION -> aside pf (TLine line r).
Proof. exact aside_said. Qed.
(** The same with threads that move one at a time. *)
Theorem c94_threads : forall pf ops A O C la lo lc lg r ds turns verb wired n' q,
  let n0 := mkNar (narInit ops) sharedMake 0 verb 20 64 [] [] wired in
  situation A -> situation C -> A <> C -> deed ops O ->
  says pf la A JUGEMENT -> says pf lo O JUGEMENT -> says pf lc C JUGEMENT -> says pf lg C GOAL -> drawn (r 6%nat) -> ds <> [] ->
  mixed pf (teach la lo lc r ++ filed ds ++ recall lg la r) turns -> takeTurns pf turns n0 = Ok (n', q) -> rooms pf turns n0 ->
  exists acts w, oneByOne turns acts /\ wrun pf acts (wholeMake (narInit ops) verb 20 64 wired) = Ok w /\
    n_trace (y_nar (w_proc w)) = [mkEvent A 0 0; mkEvent O 1 1; mkEvent C 2 2; mkEvent A 3 3; mkEvent O 3 3].
Proof.
  intros pf ops A O C la lo lc lg r ds turns verb wired n' q n0 SA SC NE D LA LO LC LG Dr Nd Mx H Rm.
  destruct (c93_sessions pf turns ops verb wired Rm) as (acts & Ob & K). fold n0 in K. rewrite H in K. destruct K as (w & R & S & _). exists acts, w. split; [exact Ob|]. split; [exact R|].
  rewrite (sa_proc _ _ S). refine (proj1 (c94_taught pf ops A O C la lo lc lg r ds turns n0 n' q eq_refl eq_refl SA SC NE D LA LO LC LG Dr Nd Mx H)).
Qed.

(** ** examples *)
Definition near : text := tx "<{cup} --> [near]>. :|:".
Definition doing : text := tx "<{({SELF} * cup)} --> ^left>. :|:".
Definition held : text := tx "<{cup} --> [held]>. :|:".
Definition getHeld : text := tx "<{cup} --> [held]>! :|:".
Definition ops1 : list op := [mkOp "^left" true 3 OpPlain].
Lemma trimmedBy : forall i, match List.rev i with x :: _ => negb (Nat.eqb (nat_of_ascii x) 10) && negb (Nat.eqb (nat_of_ascii x) 13) | [] => true end = true -> trimmed i i.
Proof.
  intros i Nl. exists []. split; [now rewrite app_nil_r|]. split; [constructor|]. intros i' x E. rewrite E, List.rev_app_distr in Nl. cbn [List.rev app] in Nl. apply andb_prop in Nl. destruct Nl as (N1 & N2). intros [->| ->]; discriminate.
Qed.
Lemma saysBy : forall line t p c i, line = c :: i -> c <> "!"%char -> firstn 2 (c :: i) <> tx "//" -> forallb (fun c => Nat.ltb (nat_of_ascii c) 128) (c :: i) = true ->
  match List.rev (c :: i) with x :: _ => negb (Nat.eqb (nat_of_ascii x) 10) && negb (Nat.eqb (nat_of_ascii x) 13) | [] => true end = true ->
  parseNarsese noNum (c :: i) = Ok (Some (t, defaultTv, p, true)) -> says noNum line t p.
Proof.
  intros line t p c i -> N S As Nl P. exists c, i. split.
  - now apply trimmedBy.
  - split; [exact N|]. split; [|split; [|exact P]].
    + intros (r & E). apply S. rewrite E. reflexivity.
    + apply Forall_forall. intros x Hx. rewrite forallb_forall in As. apply As in Hx. now apply Nat.ltb_lt.
Qed.
Lemma says_near : says noNum near (cup "near") JUGEMENT.
Proof. eapply saysBy; [reflexivity|discriminate|discriminate|vm_compute; reflexivity|vm_compute; reflexivity|vm_compute; reflexivity]. Qed.
Lemma says_doing : says noNum doing grasp JUGEMENT.
Proof. eapply saysBy; [reflexivity|discriminate|discriminate|vm_compute; reflexivity|vm_compute; reflexivity|vm_compute; reflexivity]. Qed.
Lemma says_held : says noNum held (cup "held") JUGEMENT.
Proof. eapply saysBy; [reflexivity|discriminate|discriminate|vm_compute; reflexivity|vm_compute; reflexivity|vm_compute; reflexivity]. Qed.
Lemma says_getHeld : says noNum getHeld (cup "held") GOAL.
Proof. eapply saysBy; [reflexivity|discriminate|discriminate|vm_compute; reflexivity|vm_compute; reflexivity|vm_compute; reflexivity]. Qed.
Lemma cup_situation : forall s, situation (cup s).
Proof.
  intros s. split; [|split; [intros args name (_ & E); discriminate E|discriminate]]. intros x Ox.
  repeat (apply occurs_inv in Ox; destruct Ox as [->|(? & Cx & Ox)]; [now intros []|]; inversion Cx; subst; clear Cx; try match goal with H : In _ _ |- _ => destruct H as [<-|[]] end).
Qed.
Lemma grasp_deed : deed ops1 grasp.
Proof.
  split; [|exists [SetExt [Name "SELF"]; Name "cup"], "^left", (mkOp "^left" true 3 OpPlain); split; [split; [discriminate|reflexivity]|]; split; [exists [], []; split; [reflexivity|]; split; [reflexivity|intros x []]|split; reflexivity]].
  intros x Ox. repeat (apply occurs_inv in Ox; destruct Ox as [->|(? & Cx & Ox)]; [now intros []|]; inversion Cx; subst; clear Cx; try match goal with H : In _ _ |- _ => destruct H as [<-|H]; [|try destruct H as [<-|[]]; try destruct H] end).
Qed.
Definition lucky (i : nat) : lineRnd := mkRnd (fun _ => []) (fun _ => mkSmp true [7%nat; 3%nat] 5 true i) (mkIn 9 [] 1 (fun _ => f1) [(f0, f0, draw0); (f1, f0, draw0)]) (fun _ => f1) (fun _ => f0) (fun _ => Ok []).
Definition class : list turn := teach near doing held lucky ++ filed (repeat (repeat 3%nat 24) 4) ++ recall getHeld near lucky.
(** with a syllogism in between *)
Definition classMixed : list turn :=
  hears "// a lesson" :: teach near doing held lucky ++ hears "<a --> b>." :: hears "<b --> c>." :: filed (repeat (repeat 3%nat 24) 4) ++ hears "!s2" :: TDerive :: TDerive :: recall getHeld near lucky ++ [hears "<a --> c>?"].
Definition room1 : nar := mkNar (narInit ops1) sharedMake 0 0 20 64 [] [] true.
Definition acted (x : nar * bool) : bool :=
  match map (fun e => (checkEqTerm (ev_name e) (cup "near"), checkEqTerm (ev_name e) grasp, checkEqTerm (ev_name e) (cup "held"), ev_occ e)) (n_trace (nr_proc (fst x))) with
  | [(true, _, _, 0); (_, true, _, 1); (_, _, true, 2); (true, _, _, 3); (_, true, _, 3)] => true
  | _ => false
  end.
Example c94_ex_done : exists x, takeTurns noNum class room1 = Ok x /\ acted x = true.
Proof. apply comesOut. vm_compute. reflexivity. Qed.
Lemma own : forall a b c, mixed noNum b c -> mixed noNum (a ++ b) (a ++ c).
Proof. intros a b c M. induction a as [|t a IH]; [exact M|]. cbn [app]. now apply mx_own. Qed.
Lemma same : forall l, mixed noNum l l.
Proof. induction l as [|t l IH]; [apply mx_end|now apply mx_own]. Qed.
(** The theorem applies: the lesson with a comment, statements, cycles, derivations and a
    question in between. *)
Example c94_ex_mixed : mixed noNum class classMixed.
Proof.
  assert (S : forall l t v p, (forall x, tx l <> "!"%char :: x) -> firstn 2 (tx l) <> tx "//" -> forallb (fun c => Nat.ltb (nat_of_ascii c) 128) (tx l) = true ->
    (exists c i, tx l = c :: i) -> (match List.rev (tx l) with x :: _ => negb (Nat.eqb (nat_of_ascii x) 10) && negb (Nat.eqb (nat_of_ascii x) 13) | [] => true end = true) ->
    parseNarsese noNum (tx l) = Ok (Some (t, v, p, false)) -> (p = QUESTION \/ isTemporal t = false) -> aside noNum (hears l)).
  { intros l t v p N1 N2 As (c & i & E) Nl Pa K. rewrite E in *. eapply c94_aside_said with (c := c) (i := i); [|intros ->; now apply (N1 i)| | |exact Pa|].
    - rewrite E. now apply trimmedBy.
    - intros (r & Er). apply N2. rewrite Er. reflexivity.
    - apply Forall_forall. intros x Hx. rewrite forallb_forall in As. apply As in Hx. now apply Nat.ltb_lt.
    - destruct K as [->|K]; [now right|]. left. split; [reflexivity|]. intros Tm. exfalso. apply temporal_iff in Tm. congruence. }
  unfold class, classMixed. apply mx_aside; [|apply own; apply mx_aside; [|apply mx_aside; [|apply own; apply mx_aside; [|apply mx_aside; [exact (c94_aside_derive noNum)|apply mx_aside; [exact (c94_aside_derive noNum)|]]]]]].
  - eapply c94_aside_comment with (i := tx "// a lesson").
    + apply trimmedBy. vm_compute. reflexivity.
    + vm_compute tx. repeat (apply u8_one; [vm_compute; lia|]). apply u8_nil.
    + exists (tx " a lesson"). reflexivity.
  - eapply S; [discriminate|discriminate|vm_compute; reflexivity|eexists _, _; reflexivity|vm_compute; reflexivity|vm_compute; reflexivity|right; vm_compute; reflexivity].
  - eapply S; [discriminate|discriminate|vm_compute; reflexivity|eexists _, _; reflexivity|vm_compute; reflexivity|vm_compute; reflexivity|right; vm_compute; reflexivity].
  - apply c94_aside_cycles with (w := tx "2") (z := 2); [apply trimmedBy; vm_compute; reflexivity| |lia].
    exists [], [2%nat]. split; [discriminate|]. split; [constructor; [lia|constructor]|]. split; [left; split; reflexivity|reflexivity].
  - rewrite <- (app_nil_r (recall getHeld near lucky)) at 1. apply own. apply mx_aside; [|apply mx_end].
    eapply S; [discriminate|discriminate|vm_compute; reflexivity|eexists _, _; reflexivity|vm_compute; reflexivity|vm_compute; reflexivity|left; vm_compute; reflexivity].
Qed.
Example c94_ex : exists n q, takeTurns noNum classMixed room1 = Ok (n, q) /\
  n_trace (nr_proc n) = [mkEvent (cup "near") 0 0; mkEvent grasp 1 1; mkEvent (cup "held") 2 2; mkEvent (cup "near") 3 3; mkEvent grasp 3 3].
Proof.
  destruct (comesOut _ (takeTurns noNum classMixed room1) acted) as ([n q] & R & _); [vm_compute; reflexivity|]. exists n, q. split; [exact R|].
  refine (proj1 (c94_taught noNum ops1 (cup "near") grasp (cup "held") near doing held getHeld lucky (repeat (repeat 3%nat 24) 4) classMixed room1 n q eq_refl eq_refl (cup_situation _) (cup_situation _) _ grasp_deed says_near says_doing says_held says_getHeld _ _ c94_ex_mixed R));
    intros; discriminate.
Qed.
Example c94_ex_threads : exists acts w, oneByOne class acts /\ wrun noNum acts (wholeMake (narInit ops1) 0 20 64 true) = Ok w /\
  n_trace (y_nar (w_proc w)) = [mkEvent (cup "near") 0 0; mkEvent grasp 1 1; mkEvent (cup "held") 2 2; mkEvent (cup "near") 3 3; mkEvent grasp 3 3].
Proof.
  destruct (comesOut _ (takeTurns noNum class room1) acted) as ([n q] & R & _); [vm_compute; reflexivity|].
  refine (c94_threads noNum ops1 (cup "near") grasp (cup "held") near doing held getHeld lucky (repeat (repeat 3%nat 24) 4) class 0 true n q (cup_situation _) (cup_situation _) _ grasp_deed says_near says_doing says_held says_getHeld _ _ _ R _).
  - intros E; discriminate E.
  - intros i E; discriminate E.
  - intros E; discriminate E.
  - exact (same _).
  - apply roomsB_ok. vm_compute. reflexivity.
Qed.
(** Finding: only the last event counts as the situation. If anything else happens after
    it, the lesson is not used in this step. *)
Definition distracted : list turn :=
  teach near doing held lucky ++ filed (repeat (repeat 3%nat 24) 4) ++ [TLine getHeld (lucky 7); TLine near (lucky 8); hears "<{bird} --> [there]>. :|:"; TLine (tx "!sp") (lucky 9)].
Definition idle (x : nar * bool) : bool :=
  Nat.eqb (length (n_trace (nr_proc (fst x)))) 5 && Nat.eqb (length (filter (fun e => checkEqTerm (ev_name e) grasp) (n_trace (nr_proc (fst x))))) 1.
Theorem c94_distracted_refuted : exists n q, takeTurns noNum distracted room1 = Ok (n, q) /\ length (n_trace (nr_proc n)) = 5%nat /\
  length (filter (fun e => checkEqTerm (ev_name e) grasp) (n_trace (nr_proc n))) = 1%nat.
Proof.
  destruct (comesOut _ (takeTurns noNum distracted room1) idle) as ([n q] & R & B); [vm_compute; reflexivity|]. exists n, q. split; [exact R|].
  unfold idle in B. apply andb_prop in B. destruct B as (B1 & B2). apply Nat.eqb_eq in B1, B2. split; [exact B1|exact B2].
Qed.
(** Finding: that the wish has come true makes no difference. The cup is held at time 4,
    the goal is satisfied, and at time 5 the operation is carried out once more. *)
Definition fulfilled : list turn := class ++ [TLine held (lucky 0); TLine (tx "!sp") (lucky 1)].
Definition onceMore : list turn := [TLine near (lucky 8); TLine (tx "!sp") (lucky 9)].
Definition content (x : nar * bool) : bool :=
  negb (snd x) && forallb (fun en => negb (checkEqTerm (e_term en) (cup "held")) || negb (is_desired en)) (retEntries (n_goals (nr_proc (fst x)))) &&
  match takeTurns noNum onceMore (fst x) with
  | Ok (n, false) => match List.rev (n_trace (nr_proc n)) with e :: e' :: _ => checkEqTerm (ev_name e) grasp && (ev_occ e =? 5) && checkEqTerm (ev_name e') (cup "near") | _ => false end
  | _ => false
  end.
Theorem c94_fulfilled_refuted : exists n n', takeTurns noNum fulfilled room1 = Ok (n, false) /\ (forall en, stored (n_goals (nr_proc n)) en -> e_term en = cup "held" -> is_desired en = false) /\
  takeTurns noNum onceMore n = Ok (n', false) /\ exists tr e e', n_trace (nr_proc n') = tr ++ [e'; e] /\ ev_name e' = cup "near" /\ ev_name e = grasp /\ ev_occ e = 5.
Proof.
  destruct (comesOut _ (takeTurns noNum fulfilled room1) content) as ([n q] & R & B); [vm_compute; reflexivity|]. unfold content in B. cbn [fst snd] in B. apply andb_prop in B. destruct B as (B & B3). apply andb_prop in B. destruct B as (B1 & B2).
  destruct q; [discriminate B1|]. destruct (takeTurns noNum onceMore n) as [[n' q']|] eqn:R2; [|discriminate B3]. destruct q'; [discriminate B3|]. exists n, n'. split; [exact R|]. split; [|split; [exact R2|]].
  - intros en Hs Et. apply stored_iff in Hs. rewrite forallb_forall in B2. apply B2 in Hs. rewrite Et, checkEqTerm_refl in Hs. now destruct (is_desired en).
  - destruct (List.rev (n_trace (nr_proc n'))) as [|e [|e' l]] eqn:E; try discriminate B3. apply andb_prop in B3. destruct B3 as (B3 & B5). apply andb_prop in B3. destruct B3 as (B3 & B4).
    exists (List.rev l), e, e'. split; [|split; [now apply checkEqTerm_eq|split; [now apply checkEqTerm_eq|now apply Z.eqb_eq]]].
    rewrite <- (List.rev_involutive (n_trace (nr_proc n'))), E. cbn [List.rev]. now rewrite <- app_assoc.
Qed.

Print Assumptions c94_act. Print Assumptions c94_taught. Print Assumptions c94_aside_derive. Print Assumptions c94_aside_comment. Print Assumptions c94_aside_cycles. Print Assumptions c94_aside_said.
Print Assumptions c94_threads. Print Assumptions c94_distracted_refuted. Print Assumptions c94_fulfilled_refuted.
