(** Property C93: the program in which only one thread moves at a time is the
    sequential program of Nar_Model.v. *)
From Coq Require Import String Ascii ZArith Bool Lia List.
From Verif Require Import Base F64_Model Term_Model Sentence_Model Mem_Model Cycle_Model Sched_Model PMem_Model Goal_Model Proc_Model ProcS_Model ProcX_Model Parser_Model Nar_Model Nar_Spec
  Whole_Model Props_Whole Serial_Spec Serial_Proofs.
Import ListNotations.
Local Open Scope string_scope.
Local Open Scope list_scope.
Local Open Scope Z_scope.

(** A line that is read while the others rest is processed as the sequential reading
    says, with the same panics, and then the main thread waits again. *)
Theorem c93_line : forall pf w n line r, standsAs w n -> w_quit w = false -> room n line r ->
  exists k, forall k', (k <= k')%nat ->
    match facade pf n line r with
    | Ok (n', q, _) => exists w', wrun pf (ARead line r :: repeat (AMain (ln_smp r)) k') w = Ok w' /\ standsAs w' n' /\ w_quit w' = q /\
                                  y_worker (w_decl w') = y_worker (w_decl w) /\ y_work (w_proc w') = y_work (w_proc w)
    | Panic => wrun pf (ARead line r :: repeat (AMain (ln_smp r)) k') w = Panic
    end.
Proof.
  intros pf w n line r S Q Rm. destruct (line_alone pf w n line r S Q Rm) as (k & K). exists k. intros k' L. replace k' with (k + (k' - k))%nat by lia.
  change (ARead line r :: repeat (AMain (ln_smp r)) (k + (k' - k))) with ([ARead line r] ++ repeat (AMain (ln_smp r)) (k + (k' - k))). rewrite repeat_app, app_assoc.
  change ([ARead line r] ++ repeat (AMain (ln_smp r)) k) with (ARead line r :: repeat (AMain (ln_smp r)) k). rewrite wrun_split.
  destruct (facade pf n line r) as [[[n' q] x]|]; [|now rewrite K]. destruct K as (w' & R & S' & K). exists w'. rewrite R. cbn [rbind]. split; [|auto]. exact (rests pf w' n' (ln_smp r) _ S').
Qed.
(** A worker that is left alone handles its next message as the sequential reading says. *)
Theorem c93_derive : forall pf w n, standsAs w n -> y_worker (w_decl w) = Sched_Model.WIdle -> (forall m, In m (nr_dq n) -> (primary m < length (heap (nr_decl n)))%nat) ->
  exists k, match declWork n with
            | Ok n' => exists w', wrun pf (repeat ADerive k) w = Ok w' /\ standsAs w' n' /\ w_quit w' = w_quit w /\
                                  y_worker (w_decl w') = Sched_Model.WIdle /\ y_work (w_proc w') = y_work (w_proc w)
            | Panic => wrun pf (repeat ADerive k) w = Panic
            end.
Proof. exact derive_alone. Qed.
Theorem c93_store : forall pf w n draws, standsAs w n -> y_work (w_proc w) = ProcS_Model.WIdle ->
  exists k, match procWork n draws with
            | Ok n' => exists w', wrun pf (repeat (AStore draws) k) w = Ok w' /\ standsAs w' n' /\ w_quit w' = w_quit w /\
                                  y_worker (w_decl w') = y_worker (w_decl w) /\ y_work (w_proc w') = ProcS_Model.WIdle
            | Panic => wrun pf (repeat (AStore draws) k) w = Panic
            end.
Proof. exact store_alone. Qed.
Lemma ops_init : forall ops, setOps (narInit []) ops = narInit ops. Proof. reflexivity. Qed.
Lemma start_session : forall ops verb wired, Nar_Spec.session [] (mkNar (narInit ops) sharedMake 0 verb 20 64 [] [] wired).
Proof.
  intros ops verb wired. pose proof (ss_ops [] createNar ops ss_start) as S0. unfold createNar, withProc in S0. cbn [nr_proc nr_decl nr_time nr_verb nr_nB nr_maxC nr_dq nr_pq nr_wired] in S0. rewrite ops_init in S0.
  apply (ss_verb [] _ verb) in S0. cbn [nr_proc nr_decl nr_time nr_nB nr_maxC nr_dq nr_pq nr_wired] in S0. destruct wired; [|exact S0].
  apply ss_wire in S0. unfold wireUp in S0. cbn [nr_proc nr_decl nr_time nr_verb nr_nB nr_maxC nr_dq nr_pq] in S0. exact S0.
Qed.
Lemma start_stands : forall ops verb wired, standsAs (wholeMake (narInit ops) verb 20 64 wired) (mkNar (narInit ops) sharedMake 0 verb 20 64 [] [] wired).
Proof. intros ops verb wired. constructor; try reflexivity. now exists []. Qed.
(** So every session of the sequential program, with any operators and with or without
    the two parts linked, is one of the program with threads. *)
Theorem c93_sessions : forall pf ts ops verb wired,
  let n := mkNar (narInit ops) sharedMake 0 verb 20 64 [] [] wired in
  rooms pf ts n -> exists acts, oneByOne ts acts /\
    match takeTurns pf ts n with
    | Ok (n', q) => exists w, wrun pf acts (wholeMake (narInit ops) verb 20 64 wired) = Ok w /\ standsAs w n' /\ w_quit w = q /\
                               y_worker (w_decl w) = Sched_Model.WIdle /\ y_work (w_proc w) = ProcS_Model.WIdle
    | Panic => wrun pf acts (wholeMake (narInit ops) verb 20 64 wired) = Panic
    end.
Proof.
  intros pf ts ops verb wired n Rm.
  apply (turns_alone pf ts [] (wholeMake (narInit ops) verb 20 64 wired) n (start_session ops verb wired)); [apply start_stands|reflexivity|reflexivity|reflexivity|exact Rm].
Qed.

(** ** examples *)
Definition hears (l : string) : turn := TLine (tx l) (mkRnd (fun _ => []) pick0 (mkIn 0 [] 1 (fun _ => f1) [(f0, f0, draw0)]) (fun _ => f1) (fun _ => f0) (fun _ => Ok [])).
Definition files1 : turn := TStore (repeat 3%nat 24).
(** The lesson of C87 and a syllogism, one after the other. *)
Definition dialogue : list turn :=
  [hears "!por NOP ^left"; hears "<{cup} --> [near]>. :|:"; hears "!sp"; hears "<{({SELF} * cup)} --> ^left>. :|:"; hears "!sp"; hears "<{cup} --> [held]>. :|:"; hears "!sp"; files1;
   hears "<a --> b>."; hears "<b --> c>."; hears "<a --> c>? :|:"; hears "!s2"; TDerive; TDerive;
   hears "<{cup} --> [held]>! :|:"; hears "!sp"; hears "<{cup} --> [near]>. :|:"; hears "!sp"; hears "!QQ"; hears "!sp"].
Definition apart : nar := mkNar (narInit []) sharedMake 0 1 20 64 [] [] true.
Example c93_ex : match takeTurns noNum dialogue apart with
  | Ok (n, q) => q = true /\ map ev_name (n_trace (nr_proc n)) = [cup "near"; grasp; cup "held"; cup "near"; grasp] /\ nr_time n = 2 /\ length (judg (nr_decl n)) <> 0%nat
  | Panic => False
  end.
Proof. vm_compute. repeat split; discriminate. Qed.
Example c93_ex_rooms : rooms noNum dialogue apart.
Proof. apply roomsB_ok. vm_compute. reflexivity. Qed.
Example c93_ex_threads : exists acts w, oneByOne dialogue acts /\ wrun noNum acts (wholeMake (narInit []) 1 20 64 true) = Ok w /\ w_quit w = true /\
  map ev_name (n_trace (y_nar (w_proc w))) = [cup "near"; grasp; cup "held"; cup "near"; grasp].
Proof.
  destruct (c93_sessions noNum dialogue [] 1 true c93_ex_rooms) as (acts & O & K). pose proof c93_ex as E. unfold apart in E. destruct (takeTurns noNum dialogue _) as [[n q]|]; [|destruct E].
  destruct K as (w & R & S & Q & _). destruct E as (-> & E & _). exists acts, w. split; [auto|]. split; [auto|]. split; [auto|]. rewrite (sa_proc _ _ S). exact E.
Qed.
(** Finding: without room in the channel the main thread waits in the middle of a line,
    however long, until the deriver moves; the sequential reading does not show this. *)
Definition six : list turn := map (fun c => hears ("<" ++ c ++ " --> z>.")) ["a"; "b"; "c"; "d"; "e"; "f"]%string.
Definition full : nar := match takeTurns noNum six apart with Ok (n, _) => n | Panic => apart end.
Definition fullW : whole := match wrun noNum (flat_map (fun t => match t with TLine l r => ARead l r :: repeat (AMain (ln_smp r)) 40 | _ => [] end) six) (wholeMake (narInit []) 1 20 64 true) with Ok w => w | Panic => wholeMake (narInit []) 1 20 64 true end.
Lemma full_stands : standsAs fullW full.
Proof. constructor; try (vm_compute; reflexivity). exists (procMem (y_sh (w_decl fullW))). vm_compute. reflexivity. Qed.
Lemma comesOut : forall X (r : res X) (P : X -> bool), (match r with Ok x => P x | Panic => false end) = true -> exists x, r = Ok x /\ P x = true.
Proof. intros X [x|] P H; [eauto|discriminate]. Qed.
Definition crowded (o : nar * bool * info) : bool := let '(n, q, x) := o in negb q && (match x with INone => true | _ => false end) && Nat.eqb (length (nr_dq n)) 5.
Definition stuck (w : whole) : bool :=
  (match wstep noNum (AMain (ln_smp rnd1)) w with Ok None => true | _ => false end) && (match y_clients (w_decl w) with [CIdle] => false | _ => true end).
Theorem c93_crowded_refuted : exists w n line r n' w' k, standsAs w n /\ w_quit w = false /\ facade noNum n line r = Ok (n', false, INone) /\ length (nr_dq n') = 5%nat /\
  forall k', (k <= k')%nat -> wrun noNum (ARead line r :: repeat (AMain (ln_smp r)) k') w = Ok w' /\ y_clients (w_decl w') <> [CIdle].
Proof.
  destruct (comesOut _ (facade noNum full (tx "!s5") rnd1) crowded) as ([[n' q] x] & F & C); [vm_compute; reflexivity|].
  destruct (comesOut _ (wrun noNum (ARead (tx "!s5") rnd1 :: repeat (AMain (ln_smp rnd1)) 200) fullW) stuck) as (w' & R & B); [vm_compute; reflexivity|].
  unfold crowded in C. apply andb_prop in C. destruct C as (C & L). apply andb_prop in C. destruct C as (Cq & Cx). destruct q; [discriminate Cq|]. destruct x; try discriminate Cx. apply Nat.eqb_eq in L.
  unfold stuck in B. apply andb_prop in B. destruct B as (St & Cl). destruct (wstep noNum (AMain (ln_smp rnd1)) w') as [[w2|]|] eqn:E; try discriminate St.
  exists fullW, full, (tx "!s5"), rnd1, n', w', 200%nat. split; [exact full_stands|]. split; [vm_compute; reflexivity|]. split; [exact F|]. split; [exact L|].
  intros k' Lk. split; [|intros K; rewrite K in Cl; discriminate Cl].
  assert (Sy : forall m, wrun noNum (repeat (AMain (ln_smp rnd1)) m) w' = Ok w') by (intros m; induction m as [|m IH]; [reflexivity|]; cbn [repeat wrun]; rewrite E; exact IH).
  assert (G : forall m, wrun noNum (ARead (tx "!s5") rnd1 :: repeat (AMain (ln_smp rnd1)) (200 + m)) fullW = Ok w').
  { intros m. rewrite (repeat_app (AMain (ln_smp rnd1)) 200 m). rewrite app_comm_cons, wrun_split, R. cbn [rbind]. apply Sy. }
  replace k' with (200 + (k' - 200))%nat by lia. apply G.
Qed.

Print Assumptions c93_line. Print Assumptions c93_derive. Print Assumptions c93_store. Print Assumptions c93_sessions. Print Assumptions c93_crowded_refuted.
