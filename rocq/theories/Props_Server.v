(** Property C43: the broadcasts of the server. *)
From Coq Require Import String Ascii ZArith Bool Lia List.
From Verif Require Import Base F64_Model Sentence_Model Cycle_Model Parser_Model Nar_Model Nar_Spec Goal_Model Proc_Model Server_Model Server_Spec Server_Proofs.
Import ListNotations.
Local Open Scope string_scope.
Local Open Scope list_scope.
Local Open Scope nat_scope.

Section C43.
Variables (pf : text -> option f64) (render : nar -> info -> list text).
Notation runs := (runs pf render).
Notation act1 := (act1 pf render).
(** the buffer holds the most recent messages, numbered in order, at least the
    last 50 *)
Theorem c43_buffer : forall hist lines starts s, runs hist lines starts s ->
  exists d, d <= length hist /\ map snd (g_arr (sv_g s)) = skipn d hist /\ map fst (g_arr (sv_g s)) = map Z.of_nat (seq d (length hist - d)) /\ g_id (sv_g s) = Z.of_nat (length hist) /\
    (length hist <= 50 -> d = 0) /\ d <= length hist - Nat.min 50 (length hist).
Proof. exact (server_buffer pf render). Qed.
(** a client gets only messages from after it connected, in order *)
Theorem c43_order : forall hist lines starts s k st c, runs hist lines starts s -> nth_error starts k = Some st -> nth_error (sv_cl s) k = Some c ->
  exists ids, got hist c ids /\ ordered ids /\ Forall (fun i => st <= i < length hist) ids.
Proof. exact (server_order pf render). Qed.
(** after a read it has got every one of them that is among the last 50 *)
Theorem c43_complete : forall hist lines starts s k s' st c, runs hist lines starts s -> act1 s (ARead k) = Some s' ->
  nth_error starts k = Some st -> nth_error (sv_cl s') k = Some c ->
  exists ids, got hist c ids /\ forall i, st <= i < length hist -> length hist <= i + 50 -> In i ids.
Proof. exact (server_complete pf render). Qed.
(** nothing is sent to a client that sends nothing *)
Theorem c43_silent : forall s a s' k c, act1 s a = Some s' -> nth_error (sv_cl s) k = Some c -> a <> ARead k ->
  exists c', nth_error (sv_cl s') k = Some c' /\ cl_out c' = cl_out c /\ (cl_busy c' = true -> cl_busy c = true \/ exists line, a = ALine k line).
Proof. exact (server_silent pf render). Qed.
(** without answers the buffer is bounded *)
Theorem c43_bound : forall s, quiet pf render s -> length (g_arr (sv_g s)) <= 50.
Proof. exact (quiet_bound pf render). Qed.
(** all clients talk to one reasoner, line by line *)
Theorem c43_fifo : forall hist lines starts s, runs hist lines starts s -> exists done, lines = done ++ sv_chan s.
Proof. exact (server_fifo pf render). Qed.
Theorem c43_session : forall hist lines starts s n, runs hist lines starts s -> sv_nar s = Some n -> exists log, session log n.
Proof. exact (server_session pf render). Qed.
(** Findings. A line without news gets the last message again; *)
Theorem c43_again : forall hist lines starts s k s1 s2 s3 line, runs hist lines starts s -> act1 s (ARead k) = Some s1 ->
  act1 s1 (ALine k line) = Some s2 -> act1 s2 (ARead k) = Some s3 ->
  forall c1 c3, nth_error (sv_cl s1) k = Some c1 -> nth_error (sv_cl s3) k = Some c3 ->
  forall st, nth_error starts k = Some st -> st < length hist ->
  exists m, nth_error hist (length hist - 1) = Some m /\ cl_out c3 = cl_out c1 ++ [m].
Proof. exact (server_again pf render). Qed.
(** answers let the buffer grow without bound; *)
Theorem c43_bound_refuted : forall k, exists hist lines starts s, runs hist lines starts s /\ length (g_arr (sv_g s)) = k /\ hist = repeat [] k.
Proof. exact (server_unbounded pf render). Qed.
(** and one bad line of one client ends the service for all. *)
Theorem c43_dead : forall s a s', sv_nar s = None -> act1 s a = Some s' -> sv_nar s' = None /\
  forall k line, a = ALine k line -> exists c, nth_error (sv_cl s') k = Some c /\ cl_dead c = true /\ sv_chan s' = sv_chan s.
Proof. exact (server_dead pf render). Qed.
End C43.

Definition rnd0 : lineRnd := mkRnd (fun _ => []) (fun _ => mkSmp false [] 0 false 0) (mkIn 0 [] 0 (fun _ => f1) []) (fun _ => f1) (fun _ => f0) (fun _ => Ok []).
Definition noNum : text -> option f64 := fun _ => None.
Definition show (_ : nar) (x : info) : list text := match x with INone => [] | ITasks k => repeat (tx "task") k | IConcepts _ => [tx "concepts"] end.
Definition serve (l : list act) : option server := acts noNum show l start.
(** exactly once fails: the second line gets the same message again, and of
    60 lines the first ten are lost *)
Definition twice : list act := [AConnect; ALine 0 (tx "!dmd"); ATake rnd0; APut; ARead 0; ALine 0 (tx "// x"); ARead 0].
Fixpoint runsOf (l : list act) (hist lines : list text) (starts : list nat) (s : server) : list text * list text * list nat * option server :=
  match l with
  | [] => (hist, lines, starts, Some s)
  | a :: l' => match act1 noNum show s a with
               | Some s' => runsOf l' (hist ++ said s a) (lines ++ match a, sv_nar s with ALine _ line, Some _ => [line] | _, _ => [] end)
                                   (starts ++ match a with AConnect => [length hist] | _ => [] end) s'
               | None => (hist, lines, starts, None)
               end
  end.
Lemma runsOf_runs : forall l hist lines starts s hist' lines' starts' s', runs noNum show hist lines starts s -> runsOf l hist lines starts s = (hist', lines', starts', Some s') ->
  runs noNum show hist' lines' starts' s'.
Proof.
  induction l as [|a l IH]; intros hist lines starts s hist' lines' starts' s' R H; cbn [runsOf] in H; [injection H as <- <- <- <-; exact R|].
  destruct (act1 noNum show s a) as [s1|] eqn:E; [|discriminate]. eapply IH; [|exact H]. now apply runs_act.
Qed.
Theorem c43_once_refuted : exists hist lines starts s c, runs noNum show hist lines starts s /\ hist = [tx "concepts"] /\ nth_error (sv_cl s) 0 = Some c /\ cl_out c = [tx "concepts"; tx "concepts"].
Proof.
  destruct (runsOf twice [] [] [] start) as [[[hist lines] starts] [s|]] eqn:E; [|vm_compute in E; discriminate].
  assert (R := runsOf_runs _ _ _ _ _ _ _ _ _ (runs_start _ _) E).
  assert (Q : match runsOf twice [] [] [] start with (h, _, _, Some s) => h = [tx "concepts"] /\ match nth_error (sv_cl s) 0 with Some c => cl_out c = [tx "concepts"; tx "concepts"] | None => False end | _ => False end) by (vm_compute; split; reflexivity).
  rewrite E in Q. destruct Q as (Q1 & Q2). destruct (nth_error (sv_cl s) 0) as [c|] eqn:C; [|destruct Q2]. exists hist, lines, starts, s, c. auto.
Qed.
Definition flood : list act := [AConnect; AConnect] ++ concat (repeat [ALine 1 (tx "!dmd"); ATake rnd0; APut; ARead 1] 60) ++ [ALine 0 (tx "//"); ARead 0].
Theorem c43_lost_refuted : exists hist lines starts s c, runs noNum show hist lines starts s /\ length hist = 60 /\ nth_error starts 0 = Some 0 /\ nth_error (sv_cl s) 0 = Some c /\ length (cl_out c) = 50.
Proof.
  destruct (runsOf flood [] [] [] start) as [[[hist lines] starts] [s|]] eqn:E; [|vm_compute in E; discriminate].
  assert (R := runsOf_runs _ _ _ _ _ _ _ _ _ (runs_start _ _) E).
  assert (Q : match runsOf flood [] [] [] start with (h, _, st, Some s) => length h = 60 /\ nth_error st 0 = Some 0 /\ match nth_error (sv_cl s) 0 with Some c => length (cl_out c) = 50 | None => False end | _ => False end) by (vm_compute; repeat split).
  rewrite E in Q. destruct Q as (Q1 & Q2 & Q3). destruct (nth_error (sv_cl s) 0) as [c|] eqn:C; [|destruct Q3]. exists hist, lines, starts, s, c. auto.
Qed.
(** one line without a number stops everybody *)
Theorem c43_dead_refuted : exists hist lines starts s, runs noNum show hist lines starts s /\ sv_nar s = None /\ lines = [tx "!s x"].
Proof.
  set (l := [AConnect; ALine 0 (tx "!s x"); ATake rnd0]).
  destruct (runsOf l [] [] [] start) as [[[hist lines] starts] [s|]] eqn:E; [|vm_compute in E; discriminate].
  assert (R := runsOf_runs _ _ _ _ _ _ _ _ _ (runs_start _ _) E).
  assert (Q : match runsOf l [] [] [] start with (_, ls, _, Some s) => sv_nar s = None /\ ls = [tx "!s x"] | _ => False end) by (vm_compute; split; reflexivity).
  rewrite E in Q. exists hist, lines, starts, s. tauto.
Qed.
Definition two : list act := [AConnect; ALine 0 (tx "<a --> b>."); ATake rnd0; ARead 0; AConnect; ALine 1 (tx "!dt"); ATake rnd0; AAnswer (tx "hello"); APut; ARead 1; ALine 0 (tx "//"); ARead 0; ALine 1 (tx "!QQ"); ATake rnd0].
Example c43_ex : match serve two with
  | Some s => map cl_out (sv_cl s) = [[tx "hello"; tx "task"]; [tx "hello"; tx "task"]] /\ match sv_nar s with Some n => length (heap (nr_decl n)) = 1 | None => False end
  | None => False
  end.
Proof. vm_compute. repeat split. Qed.

Print Assumptions c43_buffer. Print Assumptions c43_order. Print Assumptions c43_complete. Print Assumptions c43_silent. Print Assumptions c43_bound.
Print Assumptions c43_fifo. Print Assumptions c43_session. Print Assumptions c43_again. Print Assumptions c43_bound_refuted. Print Assumptions c43_dead.
Print Assumptions c43_once_refuted. Print Assumptions c43_lost_refuted. Print Assumptions c43_dead_refuted.
