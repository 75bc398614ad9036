(** Property C87: no thread of the whole program panics while lines of the described
    kind are read, and the program never gets stuck. *)
From Coq Require Import String Ascii ZArith Bool Lia List Sorted.
From Verif Require Import Base F64_Model Term_Model Term_Spec Sentence_Model Tv_Model Tv_Spec Cycle_Model Sched_Model Safe_Spec
  PMem_Model Goal_Model Goal_Spec Proc_Model Proc_Spec ProcA_Proofs ProcS_Model ProcX_Model Speak_Spec ProcX_Spec ProcX2_Proofs Parser_Model Parser_Spec Parser3_Proofs Nar_Model
  Whole_Model Whole_Spec Whole_Proofs Whole2_Proofs Whole3_Proofs.
Import ListNotations.
Local Open Scope string_scope.
Local Open Scope list_scope.
Local Open Scope Z_scope.

(** From the start with any fair configuration of operators that inject nothing, and
    for every interleaving of the three threads and every order of lines, nothing
    panics as long as at most 120 statements are typed and the counters fit 64 bits. *)
Theorem c87_runs : forall pf M p verb nB maxC wired acts, fairStart (ystart p) -> 1 <= M -> (forall o, In o (n_ops p) -> op_kind o = OpPlain /\ op_evi o <= M) ->
  (1 <= nB)%nat -> maxC < 2 ^ 63 -> Forall (goodMove pf (n_ops p)) acts -> (statements pf (flat_map typed acts) <= 120)%nat ->
  (Z.of_nat (length acts) + 1) * Z.max M 301 < 2 ^ 63 -> wrun pf acts (wholeMake p verb nB maxC wired) <> Panic.
Proof. intros. destruct (runs pf M p verb nB maxC wired acts) as (w & ->); auto. discriminate. Qed.

(** The threads never wait for each other: if none of them can go on, the main
    thread has nothing left to do, both workers are idle and their queues are
    empty, and the next line is read unless "!QQ" was. *)
Theorem c87_no_deadlock : forall pf acts p verb nB maxC wired w, wrun pf acts (wholeMake p verb nB maxC wired) = Ok w ->
  (forall rs, wstep pf (AMain rs) w = Ok None) -> wstep pf ADerive w = Ok None -> (forall draws, wstep pf (AStore draws) w = Ok None) ->
  w_jobs w = [] /\ y_main (w_proc w) = MFree /\ y_clients (w_decl w) = [CIdle] /\ y_worker (w_decl w) = Sched_Model.WIdle /\ y_queue (w_decl w) = [] /\
  y_work (w_proc w) = ProcS_Model.WIdle /\ y_chan (w_proc w) = [] /\
  forall line r, wstep pf (ARead line r) w = (if w_quit w then Ok None else do l <- lineJobs line r; Ok (Some (wJobs w l))).
Proof. exact no_deadlock. Qed.

(** And they do not go on for ever: whatever state the program is in and whichever
    thread moves next, only finitely many steps follow before another line is read. *)
Theorem c87_finishes : forall pf, well_founded (fun w' w => busy pf w w').
Proof. exact finishes. Qed.

(** Operators can be registered by the first lines. *)
Theorem c87_register : forall pf p verb nB maxC wired line r rs x, trimNewline line = tx "!por NOP " ++ x -> x <> [] ->
  (forall c, In c x -> (33 <= nat_of_ascii c < 128)%nat) -> wrun pf [ARead line r; AMain rs] (wholeMake p verb nB maxC wired) =
    Ok (wholeMake (setOps p (n_ops p ++ [mkOp (str x) true 3 OpPlain])) verb nB maxC wired).
Proof. exact register. Qed.

(** ** a session *)
Definition noNum : text -> option f64 := fun _ => None.
Definition draw0 (k : nat) : roundRnd := (0%nat, 0%nat, 0%nat).
Definition rnd1 : lineRnd := mkRnd (fun _ => []) (fun _ => mkSmp false [] 0 false 0) (mkIn 0 [] 1 (fun _ => f1) [(f0, f0, draw0)]) (fun _ => f1) (fun _ => f0) (fun _ => Ok []).
Definition pick0 : nat -> smp := fun i => mkSmp false (if Nat.eqb i 0 then [0%nat] else []) 0 false 0.
(** a line is typed, then the main thread makes [k] steps *)
Definition say (l : string) (k : nat) : list wact := ARead (tx l ++ ["010"%char]) rnd1 :: repeat (AMain pick0) k.
Definition store (k : nat) : list wact := repeat (AStore (repeat 3%nat 24)) k.
Definition left3 : pnar := setOps (narInit []) [mkOp "^left" true 3 OpPlain].
Definition begin (p : pnar) : whole := wholeMake p 1 10 50 true.
(** The program observes that the operation makes the cup held, is asked to reach
    that, carries the operation out, meanwhile reads two statements and a question and
    answers it. *)
Definition lesson : list wact :=
  say "<{cup} --> [near]>. :|:" 1 ++ say "!sp" 6 ++ say "<{({SELF} * cup)} --> ^left>. :|:" 1 ++ say "!sp" 6 ++ say "<{cup} --> [held]>. :|:" 1 ++ say "!sp" 20.
Definition talk : list wact :=
  say "<a --> b>." 7 ++ store 11 ++ repeat (AMain pick0) 7 ++ say "<b --> c>." 20 ++ store 13 ++ say "<a --> c>? :|:" 20 ++
  say "<{cup} --> [held]>! :|:" 2 ++ say "!sp" 6 ++ say "<{cup} --> [near]>. :|:" 2 ++ say "!s3" 19 ++ repeat ADerive 9 ++ repeat (AMain pick0) 60 ++ say "!sp" 20 ++
  repeat ADerive 60 ++ say "!pse" 1 ++ say "!dt" 1 ++ say "!QQ" 1.
Lemma text_good : forall pf ops i t v p ev, parseNarsese pf i = Ok (Some (t, v, p, ev)) ->
  match p, ev with
  | JUGEMENT, true => forall x l, t = Stmt INH x (SetInt l) -> ~ callPart ops x
  | JUGEMENT, false => tvInRange v /\ fleb (tvc v) (f_frac 999999 1000000) = true /\ isTemporal t = false
  | GOAL, true => tvInRange v
  | _, _ => True
  end -> goodText pf ops i.
Proof.
  intros pf ops i t v p ev E C. split; [|split].
  - intros c Hc. destruct (isAscii c) eqn:A; [unfold isAscii in A; now apply Nat.ltb_lt in A|]. exfalso. assert (P : parseNarsese pf i = Panic) by (apply narsese_panic; left; eauto). congruence.
  - intros B. assert (P : parseNarsese pf i = Panic) by (apply narsese_panic; now right). congruence.
  - intros t' v' p' ev' E'. rewrite E in E'. injection E' as <- <- <- <-. exact C.
Qed.
Lemma unit1 : unit64 f1. Proof. split; [|split]; vm_compute; reflexivity. Qed.
Lemma ascii_check : forall i, forallb isAscii i = true -> asciiOnly i.
Proof. intros i H c Hc. rewrite forallb_forall in H. specialize (H c Hc). unfold isAscii in H. now apply Nat.ltb_lt. Qed.
(** a line that is no text *)
Lemma command_good : forall ops l, In l ["!sp"; "!s3"; "!pse"; "!dt"; "!QQ"] -> goodLine noNum ops (tx l ++ ["010"%char]) rnd1.
Proof.
  intros ops l H. assert (X : expLike (ln_exp rnd1)) by (intros x _; exact unit1).
  assert (D : forall z, 0 <= z -> unit64 (i_decay (ln_step rnd1) z)) by (intros z _; exact unit1).
  destruct H as [<-|[<-|[<-|[<-|[<-|[]]]]]]; (split; [apply ascii_check; vm_compute; reflexivity|]); (split; [try discriminate; intros _ _ _; vm_compute; discriminate|]); (split; [discriminate|]);
    (split; [discriminate|]); (split; [intros j []|auto]).
Qed.
Lemma text_line : forall ops l i, trimNewline l = i -> asciiOnly l -> lineTexts (ln_net rnd1) i = [i] -> starts (tx "!s") i = false -> starts (tx "!por ") i = false ->
  starts (tx "!.nlp ") i = false -> goodText noNum ops i -> goodLine noNum ops l rnd1.
Proof.
  intros ops l i <- A L S1 S2 S3 T. unfold goodLine. cbn zeta. rewrite L, S1, S2, S3. split; [auto|]. split; [discriminate|]. split; [discriminate|]. split; [discriminate|].
  split; [intros j [<-|[]]; auto|]. split; [intros x _; exact unit1|intros z _; exact unit1].
Qed.
Lemma said : forall ops l k, goodLine noNum ops (tx l ++ ["010"%char]) rnd1 -> Forall (goodMove noNum ops) (say l k).
Proof. intros ops l k H. constructor; [exact H|]. apply Forall_forall. intros a Ha. apply repeat_spec in Ha. subst. exact I. Qed.
Lemma steps_good : forall ops k a, goodMove noNum ops a -> Forall (goodMove noNum ops) (repeat a k).
Proof. intros ops k a H. apply Forall_forall. intros x Hx. apply repeat_spec in Hx. now subst. Qed.
Lemma store_good : forall ops k, Forall (goodMove noNum ops) (store k).
Proof.
  intros ops k. apply steps_good. intros d H. change (firstn 24 (repeat 3%nat 24)) with (repeat 3%nat 24) in H. apply repeat_spec in H. subst. vm_compute. discriminate.
Qed.
Definition cupEvent (ops : list op) (x : term) : Prop := ~ callPart ops x.
Lemma cup_good : cupEvent (n_ops left3) (SetExt [Name "cup"]).
Proof. intros [(args & name & _ & E)|[(args & [E|E])|(o & [<-|[]] & E)]]; discriminate. Qed.
Ltac sentence := eapply text_line; [vm_compute; reflexivity|apply ascii_check; vm_compute; reflexivity|vm_compute; reflexivity|reflexivity|reflexivity|reflexivity|
  eapply text_good; [vm_compute; reflexivity|
    first [exact Logic.I | (intros x l E; first [discriminate | (injection E as <- _; exact cup_good)]) | (split; [split; (split; [|split]); vm_compute; reflexivity|split; vm_compute; reflexivity]) |
      (split; (split; [|split]); vm_compute; reflexivity)]]].
Lemma session_good : Forall (goodMove noNum (n_ops left3)) (lesson ++ talk).
Proof.
  assert (Cm : forall l k, In l ["!sp"; "!s3"; "!pse"; "!dt"; "!QQ"] -> Forall (goodMove noNum (n_ops left3)) (say l k)) by (intros l k H; apply said, command_good; exact H).
  unfold lesson, talk. repeat rewrite Forall_app. repeat split.
  all: first [apply store_good | (apply steps_good; exact Logic.I) | (apply Cm; cbn; tauto) | (apply said; sentence)].
Qed.
Lemma left3_fair : fairStart (ystart left3).
Proof.
  exists defaultCfg, [mkOp "^left" true 3 OpPlain], defaultTable, 20, 8. split; [reflexivity|]. split; [cbn; lia|].
  split; [intros o [<-|[]]; change (1 <= 3 < 2 ^ 63); lia|]. split; [apply build_sorted|]. split; [vm_compute; discriminate|lia].
Qed.
(** No panic, by the theorem; the operator is registered first. *)
Definition session : list wact := say "!por NOP ^left" 1 ++ lesson ++ talk.
Lemma run_app : forall pf l l' w, wrun pf (l ++ l') w = (do w' <- wrun pf l w; wrun pf l' w').
Proof. induction l as [|a l IH]; intros l' w; [reflexivity|]. cbn [wrun app]. destruct (wstep pf a w); [|reflexivity]. cbn [rbind]. apply IH. Qed.
Example c87_ex_safe : wrun noNum session (begin (narInit [])) <> Panic.
Proof.
  unfold session. rewrite run_app.
  assert (E : wrun noNum (say "!por NOP ^left" 1) (begin (narInit [])) = Ok (begin left3)).
  { unfold say. cbn [repeat]. apply (c87_register noNum (narInit []) 1 10 50 true _ rnd1 pick0 (tx "^left")); [reflexivity|discriminate|].
    intros c H. cbn in H. repeat (destruct H as [<-|H]; [vm_compute; lia|]). destruct H. }
  rewrite E. cbn [rbind]. apply (c87_runs noNum 3 left3 1 10 50 true); try lia; [exact left3_fair| |exact session_good|vm_compute; repeat constructor|vm_compute; reflexivity].
  intros o [<-|[]]. split; [reflexivity|cbn; lia].
Qed.
(** What it does. *)
Definition cup (p : string) : term := Stmt INH (SetExt [Name "cup"]) (SetInt [Name p]).
Definition grasp : term := Stmt INH (SetExt [Prod [SetExt [Name "SELF"]; Name "cup"]]) (Name "^left").
Example c87_ex : match wrun noNum session (begin (narInit [])) with
  | Ok w => map ev_name (n_trace (y_nar (w_proc w))) = [cup "near"; grasp; cup "held"; cup "near"; grasp] /\
            w_time w = 3 /\ n_t (y_nar (w_proc w)) = 5 /\ w_quit w = true /\ w_jobs w = [] /\
            map (fun a => (fst a, s_stamp (snd a))) (y_log (w_decl w)) = [(Stmt INH (Name "a") (Name "c"), [3; 4])]
  | Panic => False
  end.
Proof. vm_compute. repeat split. Qed.

(** ** what the conditions are needed for *)
(** Finding: an unreadable number after "!s" ends the program. *)
Theorem c87_number_refuted : wrun noNum (say "<a --> b>." 20 ++ say "!s x" 0) (begin left3) = Panic.
Proof. vm_compute. reflexivity. Qed.
(** Finding: a typed temporal belief has no interval. The first observation of the same
    term with other evidence stops the storage worker. *)
Definition typedRule : list wact := say "<a --> b>." 20 ++ say "<a --> b>." 20 ++ say "<b --> c>." 20 ++
  say "<(<{cup} --> [near]>,<{({SELF} * cup)} --> ^left>) =/> <{cup} --> [held]>>." 30 ++ lesson.
Theorem c87_rule_refuted : wrun noNum typedRule (begin left3) <> Panic /\ wrun noNum (typedRule ++ store 2) (begin left3) = Panic.
Proof. split; vm_compute; [discriminate|reflexivity]. Qed.
(** Finding: two statements of full confidence make the next one panic. *)
Definition oneNum : text -> option f64 := fun t => if text_eqb t (tx "1.0") then Some f1 else None.
Theorem c87_sure_refuted : wrun oneNum (say "<a --> b>. {1.0 1.0}" 20 ++ say "<a --> b>. {1.0 1.0}" 20) (begin left3) <> Panic /\
  wrun oneNum (say "<a --> b>. {1.0 1.0}" 20 ++ say "<a --> b>. {1.0 1.0}" 20 ++ say "<a --> c>." 20) (begin left3) = Panic.
Proof. split; vm_compute; [discriminate|reflexivity]. Qed.
(** Finding: an event that gives the name of an operator a property is learned,
    generalised and used for another thing; there is no operation to carry out. *)
Definition readyRun : list wact :=
  say "<^left --> [ready]>. :|:" 1 ++ say "!sp" 6 ++ say "<{({SELF} * cup)} --> ^left>. :|:" 1 ++ say "!sp" 6 ++ say "b. :|:" 1 ++ say "!sp" 20 ++ store 48 ++
  say "x. :|:" 1 ++ say "!sp" 16 ++ store 48 ++ say "b! :|:" 1 ++ say "!sp" 16.
Theorem c87_property_refuted : wrun noNum readyRun (begin left3) <> Panic /\ wrun noNum (readyRun ++ say "<{a} --> [ready]>. :|:" 1 ++ say "!sp" 20) (begin left3) = Panic.
Proof. split; vm_compute; [discriminate|reflexivity]. Qed.

Print Assumptions c87_runs.
Print Assumptions c87_no_deadlock.
Print Assumptions c87_finishes.
Print Assumptions c87_register.
Print Assumptions c87_number_refuted.
Print Assumptions c87_rule_refuted.
Print Assumptions c87_sure_refuted.
Print Assumptions c87_property_refuted.
