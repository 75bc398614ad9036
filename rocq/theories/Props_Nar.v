(** Properties C41, C42 and C69-C71: input to the complete reasoner. *)
From Coq Require Import String Ascii ZArith Bool Lia List.
From Verif Require Import Base F64_Model Term_Model Term_Spec Stamp_Model Stamp_Proofs Tv_Model Sentence_Model Infer_Spec Mem_Model Mem_Spec Mem_Proofs Cycle_Model Cycle_Spec Run_Proofs Deriv_Proofs
  PMem_Model Goal_Model Goal_Spec Goal_Proofs Goal3_Proofs Proc_Model Proc_Spec ProcV_Proofs ProcS_Proofs Parser_Model Parser_Spec Nar_Model Nar_Spec Nar_Proofs Nar2_Proofs Nar3_Proofs.
Import ListNotations.
Local Open Scope string_scope.
Local Open Scope list_scope.
Local Open Scope Z_scope.

(** ** sample sessions *)
Inductive call := KIn (t : term) (p : punct) (ev : bool) | KStep1 (r : step1In) | KStep0 (rs : nat -> smp) | KProc | KDecl | KCycle | KOps (l : list op).
Definition tv9 : tv := mkTv f1 (f_frac 9 10).
Definition doCall (st : nar * list input) (c : call) : res (nar * list input) :=
  let '(n, log) := st in
  match c with
  | KIn t p e => do n' <- inputT2 n t p tv9 e []; Ok (n', log ++ [mkInput t p tv9 e false])
  | KStep1 r => do calls <- nlpOf (nr_proc n) r; do n' <- procStep1 n r; Ok (n', log ++ relInputs calls)
  | KStep0 rs => do n' <- procStep0 n rs; Ok (n', log)
  | KProc => do n' <- procWork n []; Ok (n', log)
  | KDecl => do n' <- declWork n; Ok (n', log)
  | KCycle => do n' <- cycle (fun _ => f1) f0 n; Ok (n', log)
  | KOps l => Ok (withProc n (setOps (nr_proc n) l), log)
  end.
Definition calls (cs : list call) : res (nar * list input) := rfold doCall cs (createNar, []).
Lemma calls_session : forall cs n log, calls cs = Ok (n, log) -> session log n.
Proof.
  intros cs n log. unfold calls. assert (G : forall cs m l, session l m -> rfold doCall cs (m, l) = Ok (n, log) -> session log n).
  2:{ apply G. apply ss_start. }
  clear cs. induction cs as [|c cs IH]; intros m l R H; cbn [rfold] in H; [injection H as <- <-; auto|].
  destruct (doCall (m, l) c) as [[m1 l1]|] eqn:E; [|discriminate]. cbn [rbind] in H. apply IH in H; auto. clear H IH.
  unfold doCall in E. destruct c.
  - destruct (inputT2 _ _ _ _ _ _) eqn:K; [|discriminate]. cbn [rbind] in E. injection E as <- <-. eapply ss_input; eauto.
  - destruct (nlpOf _ _) eqn:K0; [|discriminate]. cbn [rbind] in E. destruct (procStep1 _ _) eqn:K; [|discriminate]. cbn [rbind] in E. injection E as <- <-. eapply ss_step1; eauto.
  - destruct (procStep0 _ _) eqn:K; [|discriminate]. cbn [rbind] in E. injection E as <- <-. eapply ss_step0; eauto.
  - destruct (procWork _ _) eqn:K; [|discriminate]. cbn [rbind] in E. injection E as <- <-. eapply ss_procWork; eauto.
  - destruct (declWork _) eqn:K; [|discriminate]. cbn [rbind] in E. injection E as <- <-. eapply ss_declWork; eauto.
  - destruct (cycle _ _ _) eqn:K; [|discriminate]. cbn [rbind] in E. injection E as <- <-. eapply ss_cycle; eauto.
  - injection E as <- <-. now apply ss_ops.
Qed.
Definition inh (a b : string) : term := Stmt INH (Name a) (Name b).
Definition stepIn (babbleTo : nat) : step1In := mkIn 0 [] babbleTo (fun _ => f1) [].

(** ** C41 *)
Theorem c41_counter : forall log n, session log n -> stampCtr (nr_decl n) = Z.of_nat (length log).
Proof. intros log n H. apply (session_run _ _ H). Qed.
(** Every task and every belief of the declarative reasoner follows from the
    inputs by inference and revision; input number k has exactly the stamp [k]. *)
Theorem c41_sources : forall log n s, session log n -> inDecl (nr_decl n) s ->
  derivable (given log) s /\ s_punct s = JUGEMENT /\ calcComplexity (s_term s) <= 64.
Proof. exact session_derivable. Qed.
(** evidence ids are numbers of inputs, and of eternal judgements only *)
Theorem c41_genuine : forall log n s i, session log n -> inDecl (nr_decl n) s -> In i (s_stamp s) ->
  exists k x, i = Z.of_nat k /\ nth_error log k = Some x /\ in_punct x = JUGEMENT /\ in_event x = false.
Proof. exact session_ids. Qed.
(** the next input is independent of everything that is known *)
Theorem c41_fresh : forall log n s, session log n -> inDecl (nr_decl n) s -> ~ In (stampCtr (nr_decl n)) (s_stamp s).
Proof. exact session_fresh. Qed.
Definition demo : list call := [KIn (inh "a" "b") JUGEMENT false; KIn (Name "e") JUGEMENT true; KIn (inh "b" "c") JUGEMENT false; KCycle; KDecl; KIn (inh "a" "b") JUGEMENT false].
Example c41_ex : match calls demo with
  | Ok (n, log) => session log n /\ length log = 4%nat /\ map (fun t => (s_term (tk_s t), s_stamp (tk_s t))) (heap (nr_decl n)) =
      [(inh "a" "b", [0]); (inh "b" "c", [2]); (inh "a" "c", [0; 2]); (inh "a" "b", [3]); (inh "a" "b", [0; 3])]
  | Panic => False
  end.
Proof.
  assert (E : match calls demo with Ok (n, log) => length log = 4%nat /\ map (fun t => (s_term (tk_s t), s_stamp (tk_s t))) (heap (nr_decl n)) =
      [(inh "a" "b", [0]); (inh "b" "c", [2]); (inh "a" "c", [0; 2]); (inh "a" "b", [3]); (inh "a" "b", [0; 3])] | Panic => False end) by (vm_compute; auto).
  destruct (calls demo) as [[n log]|] eqn:C; [|exact E]. split; [|exact E]. now apply calls_session with demo.
Qed.
(** Ids of inputs and times of events are the same numbers: a goal from input
    number 0 and a belief learnt from three events at time 0 are taken for
    dependent, and the goal is not derived. With any other number it is. *)
Definition leftCall : term := Stmt INH (SetExt [Prod [SetExt [Name "SELF"]]]) (Name "^left").
Definition clash : list call := [KOps [mkOp "^left" false 3 OpPlain]; KIn (Name "g") GOAL true; KIn (Name "a") JUGEMENT true; KIn leftCall JUGEMENT true; KIn (Name "g") JUGEMENT true;
  KStep0 (fun _ => mkSmp false [0%nat] 0 false 0); KProc].
Theorem c41_events_refuted : exists log n e b, session log n /\ In e (retEntries (n_goals (nr_proc n))) /\ In b (cells (n_mem (nr_proc n))) /\
  nth_error log 0 = Some (mkInput (Name "g") GOAL tv9 true false) /\ s_stamp (e_sentence e) = [0] /\
  s_term b = Stmt PREDIMPL (Seq [Name "a"; leftCall]) (Name "g") /\ infGoalBelief (e_sentence e) b 0 = Ok None /\
  match infGoalBelief (newEternalSentenceByTv (Name "g") GOAL tv9 [1] 0) b 0 with Ok (Some c) => s_term c = Seq [Name "a"; leftCall] | _ => False end.
Proof.
  assert (E : match calls clash with
    | Ok (n, log) => match retEntries (n_goals (nr_proc n)), cells (n_mem (nr_proc n)) with
        | e :: _, b :: _ => nth_error log 0 = Some (mkInput (Name "g") GOAL tv9 true false) /\ s_stamp (e_sentence e) = [0] /\
            s_term b = Stmt PREDIMPL (Seq [Name "a"; leftCall]) (Name "g") /\ infGoalBelief (e_sentence e) b 0 = Ok None /\
            match infGoalBelief (newEternalSentenceByTv (Name "g") GOAL tv9 [1] 0) b 0 with Ok (Some c) => s_term c = Seq [Name "a"; leftCall] | _ => False end
        | _, _ => False
        end
    | Panic => False end) by (vm_compute; repeat split).
  destruct (calls clash) as [[n log]|] eqn:C; [|destruct E]. apply calls_session in C.
  destruct (retEntries (n_goals (nr_proc n))) as [|e es] eqn:G; [destruct E|]. destruct (cells (n_mem (nr_proc n))) as [|b bs] eqn:B; [destruct E|].
  exists log, n, e, b. split; [exact C|]. rewrite G, B. split; [now left|]. split; [now left|]. exact E.
Qed.

(** ** C42 *)
Theorem c42_event : forall n t v draws n', inputT2 n t JUGEMENT v true draws = Ok n' ->
  onlyCounted (nr_decl n) (nr_decl n') /\ sameRest n n' /\
  nr_proc n' = setTrace (nr_proc n) (n_trace (nr_proc n) ++ [mkEvent t (n_t (nr_proc n)) (n_t (nr_proc n))]).
Proof. intros n t v draws n' H. apply input_cases in H. subst n'. repeat split. Qed.
Theorem c42_goal : forall log n t v draws n', session log n -> inputT2 n t GOAL v true draws = Ok n' ->
  onlyCounted (nr_decl n) (nr_decl n') /\ sameRest n n' /\ (exists g, nr_proc n' = setGoals (nr_proc n) g) /\
  (exists x, stored (n_goals (nr_proc n')) x /\ e_term x = t /\ e_stamp x = [Z.of_nat (length log)]) /\
  forall x, stored (n_goals (nr_proc n)) x -> stored (n_goals (nr_proc n')) x.
Proof.
  intros log n t v draws n' R H. apply input_cases in H. destruct H as (g & A & ->). assert (G := session_goals _ _ R). split; [apply counted_only|]. split; [repeat split|].
  split; [exists g; reflexivity|]. split.
  - destruct (add_there _ _ _ _ _ _ G A) as (x & X1 & X2 & X3). exists x. split; auto. split; auto. rewrite X3. cbn. now rewrite (c41_counter _ _ R).
  - intros x Hx. change (stored g x). apply stored_iff. apply stored_iff in Hx.
    destruct (addHs_from (n_t (nr_proc n)) [mkH (inSentence n t GOAL v) None 0] (n_goals (nr_proc n)) g) as (_ & K & _); auto. cbn [rfold h_goal h_evi h_depth]. now rewrite A.
Qed.
(** questions about events are remembered unless they are too complex *)
Theorem c42_question : forall log n t v draws n', session log n -> inputT2 n t QUESTION v true draws = Ok n' ->
  nr_proc n' = nr_proc n /\ sameRest n n' /\
  (64 < calcComplexity t -> onlyCounted (nr_decl n) (nr_decl n')) /\
  (calcComplexity t <= 64 -> exists q, q_s q = mkSentence t None QUESTION [Z.of_nat (length log)] None None (nextU (nr_decl n)) /\
     onlyCounted (nr_decl n) (setQuestions (questions (nr_decl n)) (nr_decl n')) /\ questions (nr_decl n') = questions (nr_decl n) ++ [q]).
Proof.
  intros log n t v draws n' R H. apply input_cases in H. destruct H as (d' & -> & H). destruct (session_run _ _ R) as ((C & _) & E1 & E2). rewrite E1 in H.
  apply add_question in H; auto. change (s_term (inSentence n t QUESTION v)) with t in H.
  split; [reflexivity|]. split; [repeat split|]. destruct (Z.gtb_spec (calcComplexity t) 64) as [L|L]; subst d'.
  - split; [intros _; apply counted_only|lia].
  - split; [lia|]. intros _. eexists. split; [|split]; [|apply counted_only|reflexivity].
    unfold inSentence, newEternalSentenceByTv, shallowCopySentence. cbn [q_s s_term s_t s_punct s_stamp s_expDt s_evi s_usage punct_eqb negb]. now rewrite C.
Qed.
(** eternal judgements become tasks with their own number as evidence *)
Theorem c42_judgement : forall log n t v draws n', session log n -> ~ temporal t -> calcComplexity t <= 64 -> inputT2 n t JUGEMENT v false draws = Ok n' ->
  nr_proc n' = nr_proc n /\ sameRest n n' /\
  (forall t' st, queued (nr_decl n) t' st -> queued (nr_decl n') t' st) /\
  exists a, In a (judg (nr_decl n')) /\ ~ In a (judg (nr_decl n)) /\
    tk_s (hget (heap (nr_decl n')) a) = mkSentence t None JUGEMENT [Z.of_nat (length log)] None (Some (TV v)) (nextU (nr_decl n)) /\
    forall u, occurs u t -> indexed (nr_decl n') u a.
Proof.
  intros log n t v draws n' R Nt Cx H. apply input_cases in H. destruct H as [(_ & d' & -> & H)|(K & _)]; [|contradiction].
  destruct (session_run _ _ R) as ((C & Rn) & E1 & E2). rewrite E1 in H.
  split; [reflexivity|]. split; [repeat split|]. cbn [nr_decl withDecl].
  destruct (session_tasks _ _ R) as (T & MO).
  assert (T' : tasksOk 64 (counted (nr_decl n))) by (destruct T as [A1 A2 A3 A4 A5 A6 A7 A8 A9 A10]; constructor; assumption).
  split.
  - intros t' st Q. eapply add_keeps; [exact T'|exact MO|exact H|exact Q].
  - destruct (add_admits (counted (nr_decl n)) (inSentence n t JUGEMENT v) true 64 (nr_nB n) f1 (n_t (nr_proc n)) d' T') as (a & A1 & A2 & A3 & A4 & _); auto.
    + intros (a & Ha & Et & Es). apply (session_fresh log n (tk_s (hget (heap (nr_decl n)) a)) R).
      * left. exists a. split; [exact (ok_judg _ _ T a Ha)|reflexivity].
      * change (s_stamp (tk_s (hget (heap (nr_decl n)) a)) = [stampCtr (nr_decl n)]) in Es. rewrite Es. now left.
    + exists a. split; [exact A1|]. split; [exact A2|]. split; [|exact A4]. rewrite A3.
      unfold inSentence, newEternalSentenceByTv. cbn [punct_eqb negb]. now rewrite C.
Qed.
Theorem c42_too_complex : forall log n t v draws n', session log n -> ~ temporal t -> 64 < calcComplexity t -> inputT2 n t JUGEMENT v false draws = Ok n' ->
  nr_proc n' = nr_proc n /\ sameRest n n' /\ onlyCounted (nr_decl n) (nr_decl n').
Proof.
  intros log n t v draws n' R Nt Cx H. apply input_cases in H. destruct H as [(_ & d' & -> & H)|(K & _)]; [|contradiction].
  destruct (session_run _ _ R) as (_ & E1 & _). rewrite E1, add_rejects in H by (cbn; lia). injection H as <-. split; [reflexivity|]. split; [repeat split|apply counted_only].
Qed.
(** temporal judgements are filed in the procedural memory only: the belief
    itself and its generalisation, with ten of ten as evidence *)
Theorem c42_temporal : forall log n t v draws n', session log n -> temporal t -> inputT2 n t JUGEMENT v false draws = Ok n' ->
  onlyCounted (nr_decl n) (nr_decl n') /\ sameRest n n' /\ (exists m, nr_proc n' = setMem (nr_proc n) m) /\
  exists x b vs, matchandintro_var1_sentence b draws = Ok vs /\ b = mkSentence t None JUGEMENT [Z.of_nat (length log)] None (Some (CNT 10 10)) (nextU (nr_decl n)) /\
    cells (n_mem (nr_proc n')) = cells (n_mem (nr_proc n)) ++ x /\ forall s, In s x -> In s (b :: vs).
Proof.
  intros log n t v draws n' R Te H. apply input_cases in H. destruct H as [(K & _)|(_ & m & H & ->)]; [contradiction|].
  destruct (session_run _ _ R) as ((C & _) & _). split; [apply counted_only|]. split; [repeat split|]. split; [exists m; reflexivity|].
  apply evidence_new in H. destruct H as (x & vs & H1 & H2 & H3). rewrite C in *. eexists x, _, vs. split; [exact H1|]. split; [reflexivity|]. split; [exact H2|exact H3].
Qed.
(** everything else is dropped: eternal goals and questions *)
Theorem c42_dropped : forall n t p v draws n', p <> JUGEMENT -> inputT2 n t p v false draws = Ok n' ->
  nr_proc n' = nr_proc n /\ sameRest n n' /\ onlyCounted (nr_decl n) (nr_decl n').
Proof.
  intros n t p v draws n' P H. apply input_cases in H. destruct p; [contradiction| |]; red in H; subst n'; (split; [reflexivity|]; split; [repeat split|apply counted_only]).
Qed.
Theorem c42_rejected : forall pf n i draws, parseNarsese pf i = Ok None -> inputN pf n i draws = Ok (n, false).
Proof. intros pf n i draws H. unfold inputN. rewrite H. reflexivity. Qed.
Theorem c42_accepted : forall pf n i draws n' b, inputN pf n i draws = Ok (n', b) ->
  (b = false /\ n' = n /\ parseNarsese pf i = Ok None) \/
  (b = true /\ exists t v p ev, parseNarsese pf i = Ok (Some (t, v, p, ev)) /\ inputT2 n t p v ev draws = Ok n').
Proof.
  intros pf n i draws n' b H. unfold inputN in H. destruct (parseNarsese pf i) as [[[[[t v] p] ev]|]|]; [| |discriminate]; cbn [rbind] in H.
  - destruct (inputT2 n t p v ev draws) as [n2|] eqn:E; [|discriminate]. cbn [rbind] in H. injection H as <- <-. right. split; auto. exists t, v, p, ev. auto.
  - injection H as <- <-. auto.
Qed.
(** Finding: a question about eternal knowledge is accepted and forgotten; only
    a question typed as an event is asked. *)
Theorem c42_question_refuted : exists n t, session [] n /\
  (forall v draws n', inputT2 n t QUESTION v false draws = Ok n' -> questions (nr_decl n') = []) /\
  (exists n', inputT2 n t QUESTION tv9 false [] = Ok n') /\
  match inputT2 n t QUESTION tv9 true [] with Ok n' => length (questions (nr_decl n')) = 1%nat | Panic => False end.
Proof.
  exists createNar, (inh "a" "b"). split; [apply ss_start|]. split.
  - intros v draws n' H. apply input_cases in H. red in H. subst n'. reflexivity.
  - split; [eexists; reflexivity|]. vm_compute. reflexivity.
Qed.
(** Questions about implications in time are answered from the beliefs of the
    procedural memory, and only where main.rs has wired the two parts together.
    Finding: without that (server, environments) the memory is empty for good. *)
Theorem c42_answers : forall log n expf sv now sh' now' ans m q s, session log n ->
  reasonCycle expf sv (linked n) now = Ok (sh', now', ans, m) -> In (q, s) ans -> temporal q ->
  nr_wired n = true /\ exists u c a, occurs u q /\ In (u, c) (pcs (n_mem (nr_proc n))) /\ (In a (pExp c) \/ In a (pUse c)) /\ rd (cells (n_mem (nr_proc n))) a = s.
Proof. intros log n expf sv now sh' now' ans m q s R H Hx T. exact (wired_answers _ _ _ _ _ _ _ _ _ (q, s) R H Hx T). Qed.
Theorem c42_unlinked : forall log n, session log n -> nr_wired n = false -> procMem (nr_decl n) = [].
Proof. exact session_procMem. Qed.
Definition mixed : list call := [KIn (inh "a" "b") JUGEMENT false; KIn (Name "e") JUGEMENT true; KIn (Name "g") GOAL true; KIn (inh "a" "b") QUESTION true;
  KIn (Stmt PREDIMPL (Seq [Name "e"; leftCall]) (Name "g")) JUGEMENT false; KIn (inh "x" "y") GOAL false].
Definition timely : term := Stmt PREDIMPL (Seq [Name "e"; leftCall]) (Name "g").
Example c42_wired_ex : match calls [KIn timely JUGEMENT false; KIn timely QUESTION true] with
  | Ok (n, log) =>
      (match reasonCycle (fun _ => f1) f0 (linked (wireUp n)) 0 with Ok (_, _, ans, _) => map (fun a => (fst a, s_stamp (snd a))) ans = [(timely, [0])] | Panic => False end) /\
      (match reasonCycle (fun _ => f1) f0 (linked n) 0 with Ok (_, _, ans, _) => ans = [] | Panic => False end)
  | Panic => False
  end.
Proof. vm_compute. split; reflexivity. Qed.
Example c42_ex : match calls mixed with
  | Ok (n, log) => length log = 6%nat /\ length (judg (nr_decl n)) = 1%nat /\ length (n_trace (nr_proc n)) = 1%nat /\ length (retEntries (n_goals (nr_proc n))) = 1%nat /\
      length (questions (nr_decl n)) = 1%nat /\ map s_stamp (cells (n_mem (nr_proc n))) = [[4]; [4]; [4]; [4]]
  | Panic => False
  end.
Proof. vm_compute. repeat split. Qed.

(** ** C69 *)
(** [did]: the table of commands, in Nar_Spec.v. Lines keep the session, so
    C41 holds for everything that is typed. *)
Theorem c69_lines : forall pf n line r n' q x, facade pf n line r = Ok (n', q, x) ->
  exists i, trimmed line i /\ did pf n i r n' q x.
Proof. intros pf n line r n' q x H. exists (trimNewline line). split; [apply trim_spec|now apply facade_did]. Qed.
Theorem c69_session : forall pf log n line r n' q x, session log n -> facade pf n line r = Ok (n', q, x) -> exists l, session (log ++ l) n'.
Proof. exact facade_session. Qed.
Theorem c69_quit : forall pf n line r n' q x, facade pf n line r = Ok (n', q, x) -> (q = true <-> trimmed line (tx "!QQ")).
Proof. exact facade_quit. Qed.
Theorem c69_comment : forall pf n line r i, trimmed line i -> utf8 i -> starts (tx "//") i -> facade pf n line r = Ok (n, false, INone).
Proof. exact facade_comment. Qed.
Theorem c69_empty : forall pf n line r, Forall newline line -> facade pf n line r = Ok (n, false, INone).
Proof. exact facade_empty. Qed.
Theorem c69_cycles : forall pf n line r w z, trimmed line (tx "!s" ++ w) -> numeral w z -> - 2 ^ 63 <= z < 2 ^ 63 ->
  facade pf n line r = (do n' <- cycles (Z.to_nat z) r n; Ok (n', false, INone)).
Proof. exact facade_cycles. Qed.
(** and a cycle advances the time by one *)
Theorem c69_time : forall k r log n n', session log n -> cycles k r n = Ok n' -> nr_time n' = nr_time n + Z.of_nat k /\ cycleCtr (nr_decl n') = cycleCtr (nr_decl n) + Z.of_nat k.
Proof. exact cycles_time. Qed.
Theorem c69_narsese : forall pf n line r c i, trimmed line (c :: i) -> c <> "!"%char -> ~ starts (tx "//") (c :: i) -> asciiText (c :: i) ->
  facade pf n line r = (do x <- inputN pf n (c :: i) (ln_draws r 0); Ok (fst x, false, INone)).
Proof.
  intros pf n line r c i T N1 N2 A. assert (S : forall k, ~ splits (c :: i) k).
  { intros k (d & E & C). apply nth_error_In in E. unfold asciiText in A. rewrite Forall_forall in A. apply A in E. unfold contByte in C. lia. }
  apply facade_narsese; auto.
Qed.
(** Findings: a wrong number and a character outside ASCII end the program,
    and two commands cannot be reached. *)
Theorem c69_number_panics : forall pf n line r c w, trimmed line (tx "!s" ++ c :: w) -> c <> "p"%char ->
  (forall z, numeral (c :: w) z -> ~ - 2 ^ 63 <= z < 2 ^ 63) -> facade pf n line r = Panic.
Proof. exact facade_bad_number. Qed.
Theorem c69_foreign_panics : forall pf n line r c i, trimmed line (c :: i) -> c <> "!"%char -> ~ starts (tx "//") (c :: i) -> ~ asciiText (c :: i) ->
  facade pf n line r = Panic.
Proof. exact facade_foreign. Qed.
Theorem c69_unreachable : forall pf n line r, trimmed line (tx "!spA") \/ trimmed line (tx "!spB") ->
  facade pf n line r = (do n1 <- procStep0 n (ln_smp r); do n2 <- procStep1 n1 (ln_step r); Ok (n2, false, INone)).
Proof. exact facade_unreachable. Qed.
Definition rnd0 : lineRnd := mkRnd (fun _ => []) (fun _ => mkSmp false [] 0 false 0) (stepIn 0) (fun _ => f1) (fun _ => f0) (fun _ => Ok []).
Definition noNum : text -> option f64 := fun _ => None.
Definition typed (ls : list string) : res nar :=
  rfold (fun n l => do '(n', _, _) <- facade noNum n (tx l ++ ["013"%char; "010"%char]) rnd0; Ok n') ls createNar.
Example c69_ex : match typed ["// test"; "<a --> b>."; "<b --> c>."; ""; "!s25"; "!s-3"; "!s"; "!por NOP ^left"; "^left"; "!dt"] with
  | Ok n => nr_time n = 26 /\ length (heap (nr_decl n)) = 2%nat /\ map op_name (n_ops (nr_proc n)) = ["^left"] /\ length (nr_dq n) = 2%nat
  | Panic => False
  end /\ typed ["!s x"] = Panic /\ typed ["!s 5"] = Panic.
Proof. vm_compute. repeat split. Qed.

(** ** C70 *)
Theorem c70_repeat : forall pf n last line r, Forall newline line -> interactive pf n last line r =
  (do '(n', q, _) <- facade pf n last r; Ok (n', last, q)).
Proof. exact interactive_repeat. Qed.
Theorem c70_new : forall pf n last line r c i, trimmed line (c :: i) -> interactive pf n last line r =
  (do '(n', q, _) <- facade pf n (c :: i) r; Ok (n', c :: i, q)).
Proof. exact interactive_new. Qed.
(** Finding: at the end of the input [read_line] returns empty lines, so the
    last line is executed again and again and the loop does not end. *)
Theorem c70_eof_refuted : forall pf rs n last n' last' q, ~ trimmed last (tx "!QQ") ->
  loop pf n last (map (fun r => ([], r)) rs) = Ok (n', last', q) -> q = false /\ last' = last.
Proof. exact loop_eof. Qed.
(** a file is read up to the first line that quits *)
Theorem c70_file : forall pf lines n n' q, readFile pf lines n = Ok (n', q) ->
  exists pre rest, Forall (fun e => ~ trimmed (fst e) (tx "!QQ")) pre /\
    if q then exists l r, lines = pre ++ (l, r) :: rest /\ trimmed l (tx "!QQ") /\ fed pf (pre ++ [(l, r)]) n n' else lines = pre /\ rest = [] /\ fed pf pre n n'.
Proof. exact readFile_spec. Qed.
Example c70_file_ex : match readFile noNum [(tx "!s2", rnd0); (tx "!QQ", rnd0); (tx "!s3", rnd0)] createNar with
  | Ok (n, q) => nr_time n = 2 /\ q = true
  | Panic => False
  end.
Proof. vm_compute. split; reflexivity. Qed.
Example c70_ex : match loop noNum createNar [] ((tx "!s2", rnd0) :: map (fun r => ([], r)) (repeat rnd0 10)) with
  | Ok (n, last, q) => nr_time n = 22 /\ last = tx "!s2" /\ q = false
  | Panic => False
  end.
Proof. vm_compute. repeat split. Qed.

(** ** C71 *)
(** What the operator ^nlpRel0 puts in is a judgement with certainty 0.9 ... *)
Theorem c71_relation : forall rel r, rewriteRel rel = Ok r ->
  match rel with
  | Stmt INH (Prod (a :: b :: _)) p => r = Stmt INH (Prod [a; b]) p \/
      exists x y, b = Seq [x; Name "and"; y] /\ r = Stmt INH (Prod [a; ExtInt [x; y]]) p
  | _ => r = rel
  end.
Proof. exact rewrite_spec. Qed.
Theorem c71_panics : forall rel, rewriteRel rel = Panic <-> exists l p, rel = Stmt INH (Prod l) p /\ (length l < 2)%nat.
Proof. exact rewrite_panic. Qed.
(** a run in which the operator is executed *)
Definition nlpCall (rel : term) : term := Stmt INH (SetExt [Prod [SetExt [Name "SELF"]; rel]]) (Name "^nlpRel0").
Definition told (rel : term) : list call :=
  [KOps [mkOp "^nlpRel0" false 3 OpNlpRel]; KIn (Stmt PREDIMPL (Seq [Name "a"; nlpCall rel]) (Name "g")) JUGEMENT false; KIn (Name "g") GOAL true; KIn (Name "a") JUGEMENT true; KStep1 (stepIn 100)].
Definition pair_ (a b r : string) : term := Stmt INH (Prod [Name a; Name b]) (Name r).
Example c71_ex : match calls (told (pair_ "x" "y" "r")) with
  | Ok (n, log) => map in_term log = [Stmt PREDIMPL (Seq [Name "a"; nlpCall (pair_ "x" "y" "r")]) (Name "g"); Name "g"; Name "a"; pair_ "x" "y" "r"] /\
      map (fun t => (s_term (tk_s t), s_stamp (tk_s t))) (heap (nr_decl n)) = [(pair_ "x" "y" "r", [3])]
  | Panic => False
  end.
Proof. vm_compute. repeat split. Qed.
(** The relations told in a half step are those of the one operation that is
    carried out in it, in order; the events it leaves are its injections and
    itself. *)
Theorem c71_calls : forall n r calls n', nlpOf n r = Ok calls -> narStep1 n true r = Ok n' ->
  exists evs, n_trace n' = lastEvents 20 (n_trace n ++ evs) /\
    ((evs = [] /\ calls = []) \/ exists t inj, evs = map (fun e => mkEvent e (n_t n) (n_t n)) (inj ++ [t]) /\ performs (n_ops n) t inj calls).
Proof. exact step1_calls. Qed.
(** an operation that tells two relations *)
Definition twoT : term := Stmt INH (SetExt [Prod [SetExt [Name "SELF"]; Seq [nlpCall (pair_ "x" "y" "r"); nlpCall (pair_ "u" "v" "r")]; Name "said"]]) (Name "^go").
Example c71_calls_ex : match calls [KOps [mkOp "^nlpRel0" false 3 OpNlpRel; mkOp "^go" false 3 OpExecAndInject]; KIn (Stmt PREDIMPL (Seq [Name "a"; twoT]) (Name "g")) JUGEMENT false;
    KIn (Name "g") GOAL true; KIn (Name "a") JUGEMENT true; KStep1 (stepIn 100)] with
  | Ok (n, log) => skipn 3 (map in_term log) = [pair_ "x" "y" "r"; pair_ "u" "v" "r"] /\ map ev_name (n_trace (nr_proc n)) = [Name "a"; Name "said"; twoT]
  | Panic => False
  end.
Proof. vm_compute. split; reflexivity. Qed.
(** Findings: a third component is lost, a single one ends the program, and
    the limit of beliefs per concept is not kept. *)
Theorem c71_lost_refuted : exists log n a, session log n /\ In (mkInput (pair_ "x" "y" "r") JUGEMENT tv9 false true) log /\ In a (judg (nr_decl n)) /\
  s_term (tk_s (hget (heap (nr_decl n)) a)) = pair_ "x" "y" "r" /\
  nth_error (n_trace (nr_proc n)) 1 = Some (mkEvent (nlpCall (Stmt INH (Prod [Name "x"; Name "y"; Name "z"]) (Name "r"))) 0 0).
Proof.
  assert (E : match calls (told (Stmt INH (Prod [Name "x"; Name "y"; Name "z"]) (Name "r"))) with
    | Ok (n, log) => nth_error log 3 = Some (mkInput (pair_ "x" "y" "r") JUGEMENT tv9 false true) /\ judg (nr_decl n) = [0%nat] /\
        s_term (tk_s (hget (heap (nr_decl n)) 0)) = pair_ "x" "y" "r" /\
        nth_error (n_trace (nr_proc n)) 1 = Some (mkEvent (nlpCall (Stmt INH (Prod [Name "x"; Name "y"; Name "z"]) (Name "r"))) 0 0)
    | Panic => False end) by (vm_compute; repeat split).
  destruct (calls _) as [[n log]|] eqn:C; [|destruct E]. apply calls_session in C. destruct E as (E1 & E2 & E3 & E4).
  exists log, n, 0%nat. split; [exact C|]. split; [eapply nth_error_In; exact E1|]. split; [rewrite E2; now left|]. auto.
Qed.
Theorem c71_single_refuted : exists log n r, session log n /\ procStep1 n r = Panic /\ exists p, narStep1 (nr_proc n) true r = Ok p.
Proof.
  set (cs := [KOps [mkOp "^nlpRel0" false 3 OpNlpRel]; KIn (Stmt PREDIMPL (Seq [Name "a"; nlpCall (Stmt INH (Prod [Name "x"]) (Name "r"))]) (Name "g")) JUGEMENT false; KIn (Name "g") GOAL true; KIn (Name "a") JUGEMENT true]).
  assert (E : match calls cs with Ok (n, log) => procStep1 n (stepIn 100) = Panic /\ match narStep1 (nr_proc n) true (stepIn 100) with Ok _ => True | Panic => False end | Panic => False end) by (vm_compute; repeat split).
  destruct (calls cs) as [[n log]|] eqn:C; [|destruct E]. apply calls_session in C. destruct E as (E1 & E2). exists log, n, (stepIn 100). split; [exact C|]. split; [exact E1|].
  destruct (narStep1 (nr_proc n) true (stepIn 100)) as [p|]; [exists p; reflexivity|destruct E2].
Qed.
Definition many : list call := map (fun k => KIn (Stmt INH (Name (String (ascii_of_nat (97 + k)) "")) (Name "r")) JUGEMENT false) (seq 0 25) ++ told (pair_ "x" "y" "r").
Theorem c71_limit_refuted : exists log n c, session log n /\ nr_nB n = 20%nat /\ In (Name "r", c) (memory (nr_decl n)) /\ length (byExp c) = 21%nat.
Proof.
  assert (E : match calls many with Ok (n, log) => nr_nB n = 20%nat /\ match mget (Name "r") (memory (nr_decl n)) with Some c => length (byExp c) = 21%nat | None => False end | Panic => False end) by (vm_compute; repeat split).
  destruct (calls many) as [[n log]|] eqn:C; [|destruct E]. apply calls_session in C. destruct E as (E1 & E2). destruct (mget _ _) as [c|] eqn:G; [|destruct E2].
  exists log, n, c. split; [exact C|]. split; [exact E1|]. split; [now apply mget_in|exact E2].
Qed.

Print Assumptions c41_counter. Print Assumptions c41_sources. Print Assumptions c41_genuine. Print Assumptions c41_fresh. Print Assumptions c41_events_refuted.
Print Assumptions c42_event. Print Assumptions c42_goal. Print Assumptions c42_question. Print Assumptions c42_judgement. Print Assumptions c42_too_complex.
Print Assumptions c42_temporal. Print Assumptions c42_dropped. Print Assumptions c42_accepted. Print Assumptions c42_question_refuted. Print Assumptions c42_unlinked.
Print Assumptions c69_lines. Print Assumptions c69_session. Print Assumptions c69_quit. Print Assumptions c42_answers. Print Assumptions c70_file. Print Assumptions c69_cycles. Print Assumptions c69_narsese.
Print Assumptions c69_number_panics. Print Assumptions c69_foreign_panics. Print Assumptions c70_eof_refuted. Print Assumptions c71_relation. Print Assumptions c71_limit_refuted.
Print Assumptions c71_calls.
