(** Property C99: the integers stay in the range of 64 bits. *)
From Coq Require Import String Ascii ZArith Bool List Lia.
From Verif Require Import Base F64_Model Term_Model Stamp_Model Tv_Model Sentence_Model Mem_Model Cycle_Model Sched_Model
  PMem_Model Goal_Model Proc_Model ProcS_Model ProcX_Model Parser_Model Nar_Model Whole_Model
  Goal_Spec Range_Spec Range_Proofs Range2_Proofs Range3_Proofs.
From Verif Require Props_Whole.
Import ListNotations.
Local Open Scope list_scope.
Local Open Scope Z_scope.

(** Whatever was done, for all inputs, interleavings and random numbers: every integer
    that the program keeps and computes with is not negative, and at most the amount of
    work done so far times a constant. *)
Theorem c99_small : forall pf M acts p verb nB maxC wired w z, 10 <= M -> freshWithin M p ->
  wrun pf acts (wholeMake p verb nB maxC wired) = Ok w -> number w z -> 0 <= z <= (totalWork acts + 1) * Z.max M 1000.
Proof. intros pf M acts p verb nB maxC wired w z L F H N. eapply small; eauto. Qed.

(** below 2^62 sums and differences are the same with 64 bits *)
Lemma wrap_same : forall z, - 2 ^ 63 <= z < 2 ^ 63 -> wrap64 z = z.
Proof. intros z H. unfold wrap64. rewrite Z.mod_small; lia. Qed.
Lemma fresh_init : forall ops, (forall o, In o ops -> 0 <= op_evi o <= 1000) -> freshWithin 1000 (narInit ops).
Proof.
  intros ops O. unfold narInit. eexists _, ops, defaultTable, _, _. split; [reflexivity|]. split; [exact O|].
  assert (T : forallb (fun z => (0 <=? z) && (z <=? 1000)) defaultTable = true) by (vm_compute; reflexivity).
  rewrite forallb_forall in T. intros z Hz. apply T in Hz. apply andb_true_iff in Hz. destruct Hz as [A B]. apply Z.leb_le in A, B. lia.
Qed.
(** So the unbounded integers of the model are those of the program for the first 2^52
    steps: adding and subtracting with 64 bits gives the exact result, also with a
    constant. The program is the one that is started, whose operators count at most 1000. *)
Theorem c99_exact : forall pf acts ops verb nB maxC wired w a b, (forall o, In o ops -> 0 <= op_evi o <= 1000) ->
  wrun pf acts (wholeMake (narInit ops) verb nB maxC wired) = Ok w -> totalWork acts < 2 ^ 52 ->
  number w a -> number w b \/ 0 <= b <= 2 ^ 62 -> wrap64 (a + b) = a + b /\ wrap64 (a - b) = a - b /\ wrap64 (b - a) = b - a.
Proof.
  intros pf acts ops verb nB maxC wired w a b O H Hw A B. assert (F := fresh_init ops O).
  assert (X := fun z => c99_small pf 1000 acts (narInit ops) verb nB maxC wired w z ltac:(lia) F H). change (Z.max 1000 1000) with 1000 in X.
  assert (A' := X a A). assert (B' : 0 <= b <= 2 ^ 62) by (destruct B as [B|B]; [specialize (X b B); lia|exact B]). assert (a < 2 ^ 62) by lia.
  split; [|split]; apply wrap_same; lia.
Qed.

(** Without a limit on the work the range is left: a program that is asked for cycles
    again and again counts beyond every bound. *)
Section Forever.
Variable pf : text -> option f64.
Variable ops : list Proc_Model.op.
Variables (verb : Z) (nB : nat) (maxC : Z) (wired : bool).
Variable r : lineRnd.
Variable rs : nat -> smp.
Definition idling (c t : Z) (q : cpc) (jobs : list job) : whole :=
  mkWhole (mkSys (mkShared [] [] [] [] memMake memMake 0 1000 c (fun _ => mkUsage 0 0) 0) [] [q] Sched_Model.WIdle []) (ystart (narInit ops)) t verb nB maxC wired jobs false.
Definition round : list wact := ARead (tx "!s") r :: repeat (AMain rs) 10.
Lemma seen_idling : forall c t q jobs, seen (idling c t q jobs) = w_decl (idling c t q jobs).
Proof. intros. unfold seen. cbn [w_wired idling]. destruct wired; reflexivity. Qed.
Lemma moves : forall c t y f, wstep pf (AMain rs) (idling c t (CCycle y f) []) =
  match cycStep y f (y_sh (w_decl (idling c t CIdle []))) [] with
  | Ok (Some (sh', qu', ans, o')) => Ok (Some (mkWhole (mkSys sh' qu' [match o' with Some p' => CCycle y p' | None => CIdle end] Sched_Model.WIdle ([] ++ ans)) (ystart (narInit ops)) t verb nB maxC wired [] false))
  | Ok None => Ok None
  | Panic => Panic
  end.
Proof.
  intros. unfold wstep. cbn [y_main w_proc idling ystart y_clients w_decl]. unfold declStep. rewrite seen_idling. unfold exec. cbn [w_decl idling y_clients nth_error cliStep y_sh y_queue].
  destruct (cycStep _ _ _ _) as [[[[[sh' qu'] ans] o']|]|]; reflexivity.
Qed.
Lemma round_counts : forall c t, wrun pf round (idling c t CIdle []) = Ok (idling (c + 1) (t + 1) CIdle []).
Proof.
  intros c t. unfold round. cbn [repeat wrun].
  assert (S1 : wstep pf (ARead (tx "!s") r) (idling c t CIdle []) = Ok (Some (idling c t CIdle [JCycle (ln_exp r) (ln_sel r 0)]))) by reflexivity.
  set (y := mkCycArgs (ln_exp r) (ln_sel r 0) (t + 1)).
  assert (S2 : wstep pf (AMain rs) (idling c t CIdle [JCycle (ln_exp r) (ln_sel r 0)]) = Ok (Some (idling (c + 1) (t + 1) (CCycle y YTransfer) []))).
  { unfold wstep. cbn [y_main w_proc idling ystart y_clients w_decl w_jobs]. unfold startJob, declStep. change (wTime _ _) with (idling c (t + 1) CIdle []). rewrite seen_idling. reflexivity. }
  assert (St : forall f f', cycStep y f (y_sh (w_decl (idling (c + 1) (t + 1) CIdle []))) [] = Ok (Some (y_sh (w_decl (idling (c + 1) (t + 1) CIdle [])), [], [], Some f')) ->
    wstep pf (AMain rs) (idling (c + 1) (t + 1) (CCycle y f) []) = Ok (Some (idling (c + 1) (t + 1) (CCycle y f') []))) by (intros f f' H; rewrite moves, H; reflexivity).
  assert (Nx : wstep pf (AMain rs) (idling (c + 1) (t + 1) CIdle []) = Ok None) by reflexivity.
  assert (Ls : wstep pf (AMain rs) (idling (c + 1) (t + 1) (CCycle y YConcepts) []) = Ok (Some (idling (c + 1) (t + 1) CIdle []))).
  { rewrite moves. cbn [cycStep]. unfold maintainConcepts. destruct (Z.rem _ 173 =? 0); reflexivity. }
  rewrite S1. cbn [rbind]. rewrite S2. cbn [rbind]. rewrite (St YTransfer YBase) by reflexivity. cbn [rbind]. rewrite (St YBase YSample) by reflexivity. cbn [rbind]. rewrite (St YSample YAny) by reflexivity. cbn [rbind].
  rewrite (St YAny YTasks) by reflexivity. cbn [rbind]. destruct (Z.rem (c + 1) 111 =? 0) eqn:E.
  - rewrite (St YTasks YLimit) by (cbn [cycStep idling w_decl y_sh cycleCtr]; rewrite E; reflexivity). cbn [rbind]. rewrite (St YLimit YIndex) by reflexivity. cbn [rbind].
    rewrite (St YIndex YRebuild) by (cbn [cycStep idling w_decl y_sh cycleCtr]; rewrite E; reflexivity). cbn [rbind]. rewrite (St YRebuild YConcepts) by reflexivity. cbn [rbind]. rewrite Ls. reflexivity.
  - rewrite (St YTasks YIndex) by (cbn [cycStep idling w_decl y_sh cycleCtr]; rewrite E; reflexivity). cbn [rbind].
    rewrite (St YIndex YConcepts) by (cbn [cycStep idling w_decl y_sh cycleCtr]; rewrite E; reflexivity). cbn [rbind]. rewrite Ls. cbn [rbind]. rewrite Nx. cbn [rbind]. rewrite Nx. reflexivity.
Qed.
Lemma run_app : forall l1 l2 w, wrun pf (l1 ++ l2) w = (do w' <- wrun pf l1 w; wrun pf l2 w').
Proof. induction l1 as [|a l1 IH]; intros l2 w; cbn [app wrun rbind]; [reflexivity|]. destruct (wstep pf a w); cbn [rbind]; [apply IH|reflexivity]. Qed.
Lemma rounds : forall n c t, wrun pf (concat (repeat round n)) (idling c t CIdle []) = Ok (idling (c + Z.of_nat n) (t + Z.of_nat n) CIdle []).
Proof.
  induction n as [|n IH]; intros c t.
  - cbn [repeat concat wrun]. now rewrite !Z.add_0_r.
  - cbn [repeat concat]. rewrite run_app, round_counts. cbn [rbind]. rewrite IH. f_equal. f_equal; lia.
Qed.
End Forever.
Theorem c99_forever_refuted : forall pf ops verb nB maxC wired B, exists acts w z,
  wrun pf acts (wholeMake (narInit ops) verb nB maxC wired) = Ok w /\ number w z /\ B < z.
Proof.
  intros pf ops verb nB maxC wired B. set (n := Z.to_nat (B + 1)).
  set (r := mkRnd (fun _ => []) (fun _ => mkSmp false [] 0 false 0) (mkIn 0 [] 0 (fun _ => f1) []) (fun _ => f1) (fun _ => f0) (fun _ => Ok [])).
  exists (concat (repeat (round r (fun _ => mkSmp false [] 0 false 0)) n)), (idling ops verb nB maxC wired (0 + Z.of_nat n) (0 + Z.of_nat n) CIdle []), (0 + Z.of_nat n).
  split; [apply (rounds pf ops verb nB maxC wired r (fun _ => mkSmp false [] 0 false 0) n 0 0)|]. split; [exact (nb_cycles (idling ops verb nB maxC wired (0 + Z.of_nat n) (0 + Z.of_nat n) CIdle []))|lia].
Qed.

(** The session of C87: eight sentences got an id, three cycles and five steps were
    made, and the belief that was learned counts its evidence. *)
Definition summary : option (Z * Z * Z * Z * list Z * list Z) :=
  match wrun Props_Whole.noNum Props_Whole.session (Props_Whole.begin (narInit [])) with
  | Ok w => Some (totalWork Props_Whole.session, stampCtr (y_sh (w_decl w)), cycleCtr (y_sh (w_decl w)), n_t (y_nar (w_proc w)), map ev_occ (n_trace (y_nar (w_proc w))),
      firstn 3 (flat_map (fun s => match s_evi s with Some (CNT p c) => [p; c] | _ => [] end) (cells (n_mem (y_nar (w_proc w))))))
  | Panic => None
  end.
Example c99_ex : summary = Some (331, 8, 3, 5, [0; 1; 2; 4; 4], [3; 3; 3]).
Proof. vm_compute. reflexivity. Qed.
Example c99_ex_exact : forall w a b, wrun Props_Whole.noNum Props_Whole.session (Props_Whole.begin (narInit [])) = Ok w -> number w a -> number w b ->
  0 <= a <= 332000 /\ wrap64 (a - b) = a - b.
Proof.
  intros w a b H A B. split.
  - apply (c99_small Props_Whole.noNum 1000 Props_Whole.session (narInit []) 1 10 50 true w a ltac:(lia) (fresh_init [] (fun o (K : In o []) => match K with end)) H A).
  - apply (c99_exact Props_Whole.noNum Props_Whole.session [] 1 10%nat 50 true w a b (fun o (K : In o []) => match K with end) H); auto. vm_compute. reflexivity.
Qed.
(** beyond the range the result is another one *)
Example c99_ex_wrap : wrap64 (2 ^ 63 - 1 + 1) = - 2 ^ 63 /\ wrap64 (2 ^ 62 + 2 ^ 62) <> 2 ^ 62 + 2 ^ 62.
Proof. split; [reflexivity|discriminate]. Qed.

Print Assumptions c99_small.
Print Assumptions c99_exact.
Print Assumptions c99_forever_refuted.
