(** From typed lines to the operations of the declarative reasoner. *)
From Coq Require Import String Ascii ZArith Bool Lia List.
From Verif Require Import Base F64_Model Term_Model Term_Spec Unify_Spec Stamp_Model Tv_Model Sentence_Model Infer_Spec Mem_Model Mem_Spec Cycle_Model Sched_Model Sched_Spec
  Proc_Model ProcS_Model ProcX_Model Parser_Model Nar_Model Whole_Model Whole_Spec Whole_Proofs Whole3_Proofs Hear_Proofs Live2_Proofs Reply_Spec Reply_Proofs Reply2_Proofs Typed_Spec.
Import ListNotations.
Local Open Scope list_scope.
Local Open Scope Z_scope.

(** * Lines *)
Lemma starts_app : forall a b i, starts (a ++ b) i = true -> starts a i = true.
Proof.
  intros a b i H. unfold starts in *. destruct (list_eq_dec _ _ (a ++ b)) as [E|]; [|discriminate]. destruct (list_eq_dec _ _ a) as [|N]; auto. destruct N.
  apply (f_equal (firstn (length a))) in E. rewrite firstn_firstn, firstn_app, Nat.sub_diag, firstn_all, app_nil_r, app_length in E. rewrite Nat.min_l in E by lia. exact E.
Qed.
Lemma bang_no : forall w i, starts (tx "!") i = false -> starts (tx "!" ++ w) i = false.
Proof. intros w i H. destruct (starts (tx "!" ++ w) i) eqn:E; auto. apply starts_app in E. congruence. Qed.
Lemma bang_same : forall w i, starts (tx "!") i = false -> text_eqb i (tx "!" ++ w) = false.
Proof.
  intros w i H. rewrite eqb_same. unfold same. destruct (list_eq_dec _ _ _) as [E|]; auto. rewrite <- E in H. discriminate H.
Qed.
Lemma line_plain : forall line r, plainText line -> lineJobs line r = Ok [JText (trimNewline line) (ln_draws r O)].
Proof.
  intros line r (A & C & B & N). unfold lineJobs. set (i := trimNewline line) in *. clearbody i. rewrite !bw_ok by auto. rewrite C. cbn [rbind].
  change (tx "!sp") with (tx "!" ++ tx "sp"). rewrite (bang_no _ _ B). cbn [rbind]. change (tx "!s") with (tx "!" ++ tx "s"). rewrite (bang_no _ _ B). cbn [rbind].
  change (tx "!dtf") with (tx "!" ++ tx "dtf"). rewrite (bang_same _ _ B). change (tx "!por ") with (tx "!" ++ tx "por "). rewrite (bang_no _ _ B). cbn [rbind].
  change (tx "!pse") with (tx "!" ++ tx "pse"). rewrite (bang_same _ _ B). change (tx "!peb 0") with (tx "!" ++ tx "peb 0"). rewrite (bang_same _ _ B).
  change (tx "!peb 1") with (tx "!" ++ tx "peb 1"). rewrite (bang_same _ _ B). change (tx "!.nlp ") with (tx "!" ++ tx ".nlp "). rewrite (bang_no _ _ B).
  replace (if Nat.ltb 6 (length i) then Ok false else Ok false) with (Ok false) by (destruct (Nat.ltb 6 (length i)); reflexivity). cbn [rbind].
  change (tx "!dt") with (tx "!" ++ tx "dt"). rewrite (bang_same _ _ B). change (tx "!dmd") with (tx "!" ++ tx "dmd"). rewrite (bang_same _ _ B).
  change (tx "!QQ") with (tx "!" ++ tx "QQ"). rewrite (bang_same _ _ B). rewrite eqb_same. unfold same. destruct (list_eq_dec _ _ _) as [E|]; [congruence|reflexivity].
Qed.
Lemma line_cycles : forall line r k, cycleLine line k -> lineJobs line r = Ok (map (fun n => JCycle (ln_exp r) (ln_sel r n)) (List.rev (seq 0 k))).
Proof.
  intros line r k H. unfold lineJobs, cycleLine in *. set (i := trimNewline line) in *. clearbody i. destruct H as [[-> ->]|(d & -> & A & P & N & z & Z & ->)]; [reflexivity|].
  rewrite !bw_ok by auto.
  assert (E1 : starts (tx "//") (tx "!s" ++ d) = false) by reflexivity.
  assert (E2 : starts (tx "!sp") (tx "!s" ++ d) = false).
  { unfold starts. change (tx "!sp") with (tx "!s" ++ tx "p"). destruct (list_eq_dec _ _ _) as [E|]; auto. rewrite app_length, firstn_app in E.
    change (length (tx "!s") + length (tx "p"))%nat with 3%nat in E. change (3 - length (tx "!s"))%nat with 1%nat in E. change (firstn 3 (tx "!s")) with (tx "!s") in E.
    apply app_inv_head in E. unfold starts in P. change (length (tx "p")) with 1%nat in P. rewrite E in P. destruct (list_eq_dec _ _ _); [discriminate|congruence]. }
  assert (E3 : starts (tx "!s") (tx "!s" ++ d) = true).
  { unfold starts. rewrite firstn_app. change (firstn (length (tx "!s")) (tx "!s")) with (tx "!s"). rewrite Nat.sub_diag. rewrite firstn_O, app_nil_r. destruct (list_eq_dec _ _ _); [auto|congruence]. }
  rewrite E1, E2, E3. cbn [rbind]. destruct (Nat.ltb_spec 2 (length (tx "!s" ++ d))) as [L|L].
  - change (skipn 2 (tx "!s" ++ d)) with d. rewrite Z. cbn [unwrap rbind]. reflexivity.
  - exfalso. rewrite app_length in L. change (length (tx "!s")) with 2%nat in L. destruct d; [congruence|simpl in L; lia].
Qed.

(** * What was done *)
Definition ofEntry (nB : nat) (h : term * tv * punct) (x : addArgs) : Prop :=
  ar_n x = nB /\ exists id u, ar_s x = newEternalSentenceByTv (entryTerm h) (snd h) (snd (fst h)) [id] u.
Definition jobDid (pf : text -> option f64) (nB : nat) (j : job) (l : list (nat * Sched_Model.op)) : Prop :=
  match j with
  | JText i _ => match heard pf i with [] => l = [] | h :: _ => exists x, l = [(0%nat, OpAdd x)] /\ ofEntry nB h x end
  | JCycle _ _ => exists y, l = [(0%nat, OpCycle y)]
  | _ => False
  end.
Definition easyJob (j : job) : Prop := match j with JText _ _ | JCycle _ _ => True | _ => False end.
Definition idsOf (ops : list (nat * Sched_Model.op)) : list Z := flat_map (fun o => match snd o with OpAdd x => s_stamp (ar_s x) | _ => [] end) ops.
Definition lineGives (line : text) (js : list job) : Prop := exists r, lineJobs line r = Ok js.
Lemma idsOf_app : forall a b, idsOf (a ++ b) = idsOf a ++ idsOf b.
Proof. intros a b. unfold idsOf. apply flat_map_app. Qed.

Lemma nodup_left : forall l r : list Z, NoDup (l ++ r) -> NoDup l.
Proof. induction l as [|x l IH]; intros r H; [constructor|]. cbn [app] in H. inversion H; subst. constructor; [|eauto]. intros K. apply H2, in_or_app. auto. Qed.

Section Typed.
  Variables (pf : text -> option f64) (nB : nat) (maxC : Z).
  Record tinv (lines : list text) (w : whole) : Prop := mkTinv {
    ti_cfg : w_maxC w = maxC /\ w_nB w = nB;
    ti_done : exists Js done ls, Forall2 lineGives lines Js /\ concat Js = done ++ w_jobs w /\ Forall2 (jobDid pf nB) done ls /\
      spath maxC nB (concat ls) (sysMake 1) (w_decl w) /\ NoDup (idsOf (concat ls)) /\ Forall (fun i => i < stampCtr (y_sh (w_decl w))) (idsOf (concat ls))
  }.
  (** the declarative part before and after a step *)
  Definition moved (ops : list (nat * Sched_Model.op)) (w w' : whole) : Prop :=
    (w_maxC w' = w_maxC w /\ w_nB w' = w_nB w) /\ stampCtr (y_sh (w_decl w)) <= stampCtr (y_sh (w_decl w')) /\
    forall ops0 st0, spath (w_maxC w) (w_nB w) ops0 st0 (w_decl w) -> spath (w_maxC w) (w_nB w) (ops0 ++ ops) st0 (w_decl w').
  Lemma same_moved : forall w w', w_decl w' = w_decl w -> w_maxC w' = w_maxC w -> w_nB w' = w_nB w -> moved [] w w'.
  Proof. intros w w' E1 E2 E3. split; [auto|]. rewrite E1. split; [lia|]. intros ops0 st0 P. now rewrite app_nil_r. Qed.
  Lemma credits_refl : forall h, creditsOnly h h.
  Proof. split; auto. Qed.
  Lemma seen_path : forall w ops st0 mc n, spath mc n ops st0 (w_decl w) -> spath mc n ops st0 (seen w).
  Proof.
    intros w ops st0 mc n P. unfold seen. destruct (w_wired w); auto.
    exact (sp_env mc n ops st0 (w_decl w) (heap (y_sh (w_decl w))) (usages (y_sh (w_decl w))) (viewMem (n_mem (y_nar (w_proc w)))) (stampCtr (y_sh (w_decl w))) (nextU (y_sh (w_decl w))) P (credits_refl _)).
  Qed.
  Lemma seen_stamp : forall w, stampCtr (y_sh (seen w)) = stampCtr (y_sh (w_decl w)).
  Proof. intros w. unfold seen. destruct (w_wired w); reflexivity. Qed.
  Lemma decl_moved : forall w c w', declStep (w_maxC w) w c = Ok (Some w') -> moved (begun c) w w' /\ w_jobs w' = w_jobs w.
  Proof.
    intros w c w' H. apply decl_inv in H. destruct H as (d & Ed & ->). split; [|reflexivity]. split; [auto|]. cbn [wDecl w_decl]. split.
    - rewrite (exec_stamp _ _ _ _ _ Ed), seen_stamp. lia.
    - intros ops0 st0 P. eapply sp_move; [apply seen_path; exact P|exact Ed].
  Qed.
  Lemma proc_moved : forall w a w', procStep w a = Ok (Some w') -> moved [] w w' /\ w_jobs w' = w_jobs w.
  Proof. intros w a w' H. apply proc_inv in H. destruct H as (p & _ & ->). split; [now apply same_moved|reflexivity]. Qed.
  Lemma text_moved : forall w i draws w', startJob pf w (JText i draws) = Ok (Some w') ->
    exists l, jobDid pf (w_nB w) (JText i draws) l /\ moved l w w' /\ w_jobs w' = w_jobs w /\ NoDup (idsOf l) /\
      Forall (fun k => stampCtr (y_sh (w_decl w)) <= k < stampCtr (y_sh (w_decl w'))) (idsOf l).
  Proof.
    intros w i draws w' H. cbn [startJob] in H. cbn [jobDid]. unfold heard. destruct (parseNarsese pf i) as [r|] eqn:P; [|discriminate]. cbn [rbind] in H.
    destruct r as [[[[t v] p] ev]|].
    2:{ injection H as <-. exists []. split; auto. split; [now apply same_moved|]. split; [reflexivity|]. split; constructor. }
    unfold putIn, takeId in H. set (id := stampCtr (y_sh (w_decl w))) in *. set (u := nextU (y_sh (w_decl w))) in H.
    set (d := setNextU (Datatypes.S u) (setStampCtr (id + 1) (y_sh (w_decl w)))) in H. set (w1 := wDecl w (withSh (w_decl w) d)) in H.
    cbn zeta in H. set (s := newEternalSentenceByTv t p v (newStamp [id]) u) in H.
    destruct (if w_verb w1 >=? 1 then printSentence s else Ok tt) as [[]|]; [|discriminate]. cbn [rbind] in H.
    assert (M1 : moved [] w w1).
    { split; [auto|]. split; [cbn; lia|]. intros ops0 st0 Q. rewrite app_nil_r.
      exact (sp_env (w_maxC w) (w_nB w) ops0 st0 (w_decl w) (heap (y_sh (w_decl w))) (usages (y_sh (w_decl w))) (procMem (y_sh (w_decl w))) (id + 1) (Datatypes.S u) Q (credits_refl _)). }
    assert (MM : forall l w2, moved l w1 w2 -> moved l w w2).
    { intros l w2 (C2 & S2 & P2). destruct M1 as (C1 & S1 & P1). split; [exact C2|]. split; [lia|]. intros ops0 st0 Q. apply P2. rewrite <- (app_nil_r ops0). apply P1, Q. }
    assert (Nt : w1 = w' -> moved [] w w' /\ w_jobs w' = w_jobs w) by (intros <-; auto).
    assert (Pr : forall a, procStep w1 a = Ok (Some w') -> moved [] w w' /\ w_jobs w' = w_jobs w).
    { intros a Ha. destruct (proc_moved _ _ _ Ha) as [A1 A2]. split; [now apply MM|exact A2]. }
    assert (No : moved [] w w' /\ w_jobs w' = w_jobs w -> exists l, l = [] /\ moved l w w' /\ w_jobs w' = w_jobs w /\ NoDup (idsOf l) /\ Forall (fun k => id <= k < stampCtr (y_sh (w_decl w'))) (idsOf l)).
    { intros [A1 A2]. exists []. split; auto. split; auto. split; auto. split; constructor. }
    assert (Ad : declStep (w_maxC w1) w1 (ChStart 0 (OpAdd (mkAddArgs s true f1 (w_nB w1) (n_t (y_nar (w_proc w1)))))) = Ok (Some w') ->
      exists l, (exists x, l = [(0%nat, OpAdd x)] /\ ofEntry (w_nB w) (t, v, p) x) /\ moved l w w' /\ w_jobs w' = w_jobs w /\ NoDup (idsOf l) /\ Forall (fun k => id <= k < stampCtr (y_sh (w_decl w'))) (idsOf l)).
    { intros Hd. destruct (decl_moved _ _ _ Hd) as [A1 A2]. cbn [begun] in A1. eexists. split; [exists (mkAddArgs s true f1 (w_nB w1) (n_t (y_nar (w_proc w1)))); split; [reflexivity|]; split; [reflexivity|exists id, u; reflexivity]|].
      split; [apply MM, A1|]. split; [exact A2|]. unfold idsOf. cbn. split; [constructor; [intros []|constructor]|]. constructor; [|constructor]. destruct A1 as (_ & S1 & _).
      change (stampCtr (y_sh (w_decl w1))) with (id + 1) in S1. lia. }
    destruct ev.
    - destruct p.
      + destruct (No (Pr _ H)) as (l & E & K); exists l; auto.
      + exact (Ad H).
      + destruct (No (Pr _ H)) as (l & E & K); exists l; auto.
    - destruct (isTemporal t) eqn:T.
      + assert (Q : moved [] w w' /\ w_jobs w' = w_jobs w) by (destruct p; [exact (Pr _ H)|apply Nt; congruence|apply Nt; congruence]).
        destruct (No Q) as (l & E & K). exists l. split; [|exact K]. destruct p; auto. destruct t; try discriminate T. destruct c; try discriminate T. exact E.
      + destruct p; [|destruct (No (Nt ltac:(congruence))) as (l & E & K); exists l; auto|destruct (No (Nt ltac:(congruence))) as (l & E & K); exists l; auto].
        destruct (Ad H) as (l & E & K). exists l. split; [|exact K]. destruct t; try exact E. destruct c; try exact E. discriminate T.
  Qed.

  Lemma nodup_snoc : forall (l r : list Z) b, NoDup l -> NoDup r -> Forall (fun i => i < b) l -> Forall (fun i => b <= i) r -> NoDup (l ++ r).
  Proof.
    induction l as [|x l IH]; intros r b N1 N2 F1 F2; [exact N2|]. cbn [app]. inversion N1; subst. inversion F1; subst. constructor; [|eapply IH; eauto].
    intros H. apply in_app_or in H. destruct H as [H|H]; [auto|]. rewrite Forall_forall in F2. specialize (F2 _ H). lia.
  Qed.
  Lemma tinv_step : forall lines lines' w w' a, tinv lines w -> (forall line r, a = ARead line r -> lines' = lines ++ [line]) -> ((forall line r, a <> ARead line r) -> lines' = lines) ->
    Forall (fun l => forall js, lineGives l js -> Forall easyJob js) lines -> wstep pf a w = Ok (Some w') -> tinv lines' w'.
  Proof.
    intros lines lines' w w' a [[C1 C2] (Js & done & ls & FJ & EJ & FD & SP & ND & FI)] L1 L2 EZ H.
    assert (Keep : (forall line r, a <> ARead line r) -> forall w', moved [] w w' -> w_jobs w' = w_jobs w -> tinv lines' w').
    { clear w' H. intros Na w' ((M1 & M2) & S1 & P1) Ej. rewrite (L2 Na). split; [split; congruence|]. exists Js, done, ls. split; auto. split; [congruence|]. split; auto. split.
      - rewrite <- (app_nil_r (concat ls)). rewrite <- C1, <- C2. apply P1. rewrite C1, C2. exact SP.
      - split; auto. eapply Forall_impl; [|exact FI]. cbn beta. intros z Hz. lia. }
    destruct a as [line r|rs| |draws]; cbn [wstep] in H.
    - rewrite (L1 _ _ eq_refl). destruct (mainFree w); [|discriminate]. destruct (w_jobs w) as [|j0 jl] eqn:J; [|discriminate]. destruct (w_quit w); [discriminate|].
      destruct (lineJobs line r) as [l|] eqn:EL; [|discriminate]. cbn [rbind] in H. injection H as <-. split; [split; [exact C1|exact C2]|]. exists (Js ++ [l]), done, ls.
      split; [apply Forall2_app; [exact FJ|constructor; [exists r; exact EL|constructor]]|]. split.
      { rewrite concat_app. cbn [concat wJobs w_jobs]. rewrite app_nil_r, EJ, app_nil_r. reflexivity. }
      split; [exact FD|]. split; [exact SP|]. split; [exact ND|exact FI].
    - assert (Na : forall line r, AMain rs <> ARead line r) by discriminate.
      assert (Cl : declStep (w_maxC w) w (ChClient 0) = Ok (Some w') -> tinv lines' w') by (intros Hd; destruct (decl_moved _ _ _ Hd) as [M E]; exact (Keep Na w' M E)).
      assert (Pr : procStep w (XMain (w_nB w) rs) = Ok (Some w') -> tinv lines' w') by (intros Hp; destruct (proc_moved _ _ _ Hp) as [M E]; exact (Keep Na w' M E)).
      destruct (y_main (w_proc w)); try exact (Pr H). destruct (y_clients (w_decl w)) as [|c0 cs]; [exact (Cl H)|]. destruct c0; try exact (Cl H). clear Cl Pr.
      destruct (w_jobs w) as [|j jl] eqn:J; [discriminate|].
      assert (EJ1 : easyJob j).
      { assert (I : In j (concat Js)) by (rewrite EJ; apply in_elt). apply in_concat in I. destruct I as (js & I1 & I2).
        clear - FJ EZ I1 I2. induction FJ; [contradiction|]. inversion EZ; subst. destruct I1 as [<-|I1]; [|auto]. specialize (H2 _ H). rewrite Forall_forall in H2. auto. }
      assert (K : exists l, jobDid pf nB j l /\ moved l w w' /\ w_jobs w' = jl /\ NoDup (idsOf l) /\ Forall (fun k => stampCtr (y_sh (w_decl w)) <= k < stampCtr (y_sh (w_decl w'))) (idsOf l)).
      { destruct j; try contradiction.
        - destruct (text_moved _ _ _ _ H) as (l & D & M & E & N & F). exists l. split; [rewrite <- C2; exact D|]. split; [exact M|]. split; [exact E|]. split; [exact N|exact F].
        - cbn [startJob] in H. destruct (decl_moved (wTime (wJobs w jl) (w_time (wJobs w jl) + 1)) _ _ H) as [M E]. eexists. split; [eexists; reflexivity|]. split; [exact M|]. split; [exact E|]. split; constructor. }
      destruct K as (l & D & ((M1 & M2) & S1 & P1) & E & N & F). rewrite (L2 Na). split; [split; congruence|]. exists Js, (done ++ [j]), (ls ++ [l]). split; [exact FJ|].
      split; [rewrite EJ, E, <- app_assoc; reflexivity|]. split; [apply Forall2_app; [exact FD|constructor; [exact D|constructor]]|].
      rewrite concat_app. cbn [concat]. rewrite app_nil_r. split; [rewrite <- C1, <- C2; apply P1; rewrite C1, C2; exact SP|]. rewrite idsOf_app. split.
      + apply (nodup_snoc _ _ (stampCtr (y_sh (w_decl w)))); auto. eapply Forall_impl; [|exact F]. cbn beta. intros z Hz. lia.
      + apply Forall_app. split; [eapply Forall_impl; [|exact FI]|eapply Forall_impl; [|exact F]]; cbn beta; intros z Hz; lia.
    - destruct (decl_moved _ _ _ H) as [M E]. apply Keep; auto. discriminate.
    - destruct (proc_moved _ _ _ H) as [M E]. apply Keep; auto. discriminate.
  Qed.
  Lemma talk_inv : forall lines w0 w, talk pf lines w0 w -> tinv [] w0 -> Forall (fun l => forall js, lineGives l js -> Forall easyJob js) lines -> tinv lines w.
  Proof.
    intros lines w0 w T. induction T as [w|lines w w1 line r w2 T IH H|lines w w1 a w2 T IH N H]; intros I F; auto.
    - apply Forall_app in F. destruct F as [F _]. eapply tinv_step; [apply IH; auto| | |exact F|exact H]; [intros line' r' E; congruence|]. intros K. destruct (K _ _ eq_refl).
    - eapply tinv_step; [apply IH; auto| | |exact F|exact H]; auto. intros line r ->. destruct (N _ _ eq_refl).
  Qed.
  Lemma easy_jobs : forall line js, easyLine line -> lineGives line js -> Forall easyJob js.
  Proof.
    intros line js [P|(k & P)] (r & E); [rewrite (line_plain _ _ P) in E|rewrite (line_cycles _ _ _ P) in E]; injection E as <-.
    - repeat constructor.
    - apply Forall_forall. intros j Hj. apply in_map_iff in Hj. destruct Hj as (n & <- & _). exact Logic.I.
  Qed.
  Lemma tinv_make : forall p0 verb wired, tinv [] (wholeMake p0 verb nB maxC wired).
  Proof. intros p0 verb wired. split; [split; reflexivity|]. exists [], [], []. split; [constructor|]. split; [reflexivity|]. split; [constructor|]. split; [constructor|]. split; constructor. Qed.

  Lemma plain_adds : forall texts, Forall plainText texts -> forall Js ls, Forall2 lineGives texts Js -> Forall2 (jobDid pf nB) (concat Js) ls ->
    exists xs, concat ls = map (fun x => (0%nat, OpAdd x)) xs /\ Forall2 (ofEntry nB) (heardAll pf texts) xs.
  Proof.
    intros texts PT. induction PT as [|line texts P PT IH]; intros Js ls FJ FD.
    - inversion FJ; subst. inversion FD; subst. exists []. split; constructor.
    - inversion FJ as [|? js ? Js' (r & E) FJ']; subst. rewrite (line_plain _ _ P) in E. injection E as <-. cbn [concat app] in FD. inversion FD as [|? l ? ls' D FD']; subst.
      destruct (IH _ _ FJ' FD') as (xs & E & F). cbn [heardAll flat_map concat]. cbn [jobDid] in D. fold (heardAll pf texts). rewrite E.
      assert (LN : forall h l0, heard pf (trimNewline line) = h :: l0 -> l0 = []).
      { intros h l0. unfold heard. destruct (parseNarsese _ _) as [[[[[t v] p] ev]|]|]; try discriminate. destruct p, ev; try discriminate; [|intros X; now injection X].
        destruct t; try (intros X; now injection X). destruct c; try discriminate; intros X; now injection X. }
      destruct (heard pf (trimNewline line)) as [|h l0].
      + subst l. exists xs. split; auto.
      + rewrite (LN _ _ eq_refl). destruct D as (x & -> & D). exists (x :: xs). split; [reflexivity|]. constructor; auto.
  Qed.
  Lemma easy_fair : (1 <= nB)%nat -> forall js ls, Forall2 (jobDid pf nB) js ls -> Forall (fair nB 0) (concat ls).
  Proof.
    intros N js ls F. induction F as [|j l js ls D F IH]; [constructor|]. cbn [concat]. apply Forall_app. split; [|exact IH]. destruct j; try contradiction; cbn [jobDid] in D.
    - destruct (heard pf i) as [|h l0]; [subst l; constructor|]. destruct D as (x & -> & D & _). constructor; [|constructor]. unfold fair. cbn [snd]. lia.
    - destruct D as (y & ->). constructor; [reflexivity|constructor].
  Qed.
  Lemma talk_session : forall p0 verb wired texts cl k more w, talk pf (texts ++ cl :: more) (wholeMake p0 verb nB maxC wired) w -> atEase w -> (1 <= nB)%nat ->
    Forall plainText texts -> cycleLine cl k -> (1 <= k)%nat -> Forall easyLine more ->
    exists xs y rest, spath maxC nB (map (fun x => (0%nat, OpAdd x)) xs ++ (0%nat, OpCycle y) :: rest) (sysMake 1) (w_decl w) /\ Forall (fair nB 0) rest /\ quiet 0 (w_decl w) /\
      Forall2 (ofEntry nB) (heardAll pf texts) xs /\ NoDup (flat_map (fun x => s_stamp (ar_s x)) xs).
  Proof.
    intros p0 verb wired texts cl k more w T (MF & JN & WI & QN) HN PT CL HK EM.
    assert (FE : Forall (fun l => forall js, lineGives l js -> Forall easyJob js) (texts ++ cl :: more)).
    { apply Forall_app. split; [|constructor]; [eapply Forall_impl; [|exact PT]| |eapply Forall_impl; [|exact EM]].
      - intros l P js G. eapply easy_jobs; [left; exact P|exact G].
      - intros js G. eapply easy_jobs; [right; exists k; exact CL|exact G].
      - intros l P js G. eapply easy_jobs; eauto. }
    destruct (talk_inv _ _ _ T (tinv_make p0 verb wired) FE) as [_ (Js & done & ls & FJ & EJ & FD & SP & ND & _)]. rewrite JN, app_nil_r in EJ. subst done.
    apply Forall2_app_inv_l in FJ. destruct FJ as (J1 & J2 & F1 & F2 & ->). inversion F2 as [|? jc ? J3 (r & Ec) F3]; subst. rewrite (line_cycles _ _ _ CL) in Ec. injection Ec as <-.
    destruct k as [|k]; [lia|]. rewrite seq_S, rev_app_distr in FD. cbn [List.rev app map] in FD.
    rewrite concat_app in FD. apply Forall2_app_inv_l in FD. destruct FD as (l1 & l2 & D1 & D2 & ->). cbn [concat app] in D2. inversion D2 as [|? lc ? l3 Dc D3]; subst. destruct Dc as (y & ->).
    destruct (plain_adds _ PT _ _ F1 D1) as (xs & E & F). rewrite concat_app in SP, ND. cbn [concat app] in SP, ND. rewrite E in SP, ND.
    exists xs, y, (concat l3). split; [exact SP|]. split; [eapply easy_fair; eauto|]. split; [|split; [exact F|]].
    - unfold mainFree in MF. split; [|auto]. destruct (y_main (w_proc w)); try discriminate MF. destruct (y_clients (w_decl w)) as [|c0 cs]; [discriminate|]. destruct c0; try discriminate MF. reflexivity.
    - rewrite idsOf_app in ND. unfold idsOf at 1 in ND. rewrite flat_map_concat_map, map_map in ND. rewrite flat_map_concat_map. cbn [snd] in ND. exact (nodup_left _ _ ND).
  Qed.
End Typed.
