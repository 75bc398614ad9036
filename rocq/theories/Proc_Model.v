(** Model of the procedural reasoner: src/NarProc.rs, the variable
    introduction of src/NarInfProcedural.rs and the operators of src/OpLib.rs.

    Beliefs are cells of the procedural memory ([PMem_Model]); anticipations
    and goals hold their addresses. Random numbers, [exp()] and the number of
    derivations that fit into the time budget are arguments. Text that is
    printed is only modelled where building it can panic. *)
From Coq Require Import String Ascii ZArith Bool List.
From Verif Require Import Base F64_Model Term_Model Unify_Model Stamp_Model Tv_Model Sentence_Model Mem_Model PMem_Model Goal_Model.
Import ListNotations.
Local Open Scope list_scope.
Local Open Scope Z_scope.

(** NarProc.rs 1157-1164: [SimpleSentence] *)
Record event := mkEvent { ev_name : term; ev_evi : Z; ev_occ : Z }.

(** What [call] does to the reasoner (NarProc.rs 1217-1225). [OpPlain]: nothing
    (OpLib.rs 17-29, OpPong, OpCheckers). [OpExecAndInject]: OpLib.rs 34-83.
    [OpNlpRel]: OpLib.rs 86-160; it only touches the declarative memory, see
    Nar_Model.v. *)
Inductive opKind := OpPlain | OpExecAndInject | OpNlpRel.
(** the operator trait: [retName], [isBabbleable], [ret_evi_cnt], [call] *)
Record op := mkOp { op_name : string; op_babble : bool; op_evi : Z; op_kind : opKind }.

(** NarProc.rs 23-70: the configuration that is used. The integers are never
    negative. *)
Record pcfg := mkPcfg {
  c_window : nat;
  c_thresh : f64;
  c_nOpsMax : nat;
  c_samples : nat;
  c_babble : bool;
  c_anticipate : bool;
  c_nConcepts : nat;
  c_nBeliefs : nat
}.

(** NarProc.rs 71-107. [n_ant]: address of the belief and deadline. *)
Record pnar := mkPnar {
  n_cfg : pcfg;
  n_ops : list op;
  n_table : list Z;
  n_t : Z;
  n_trace : list event;
  n_ant : list (nat * Z);
  n_mem : pmem;
  n_goals : gsys
}.
Definition setMem (n : pnar) (m : pmem) : pnar :=
  mkPnar (n_cfg n) (n_ops n) (n_table n) (n_t n) (n_trace n) (n_ant n) m (n_goals n).
Definition setAnt (n : pnar) (a : list (nat * Z)) : pnar :=
  mkPnar (n_cfg n) (n_ops n) (n_table n) (n_t n) (n_trace n) a (n_mem n) (n_goals n).
Definition setGoals (n : pnar) (g : gsys) : pnar :=
  mkPnar (n_cfg n) (n_ops n) (n_table n) (n_t n) (n_trace n) (n_ant n) (n_mem n) g.
Definition setTrace (n : pnar) (tr : list event) : pnar :=
  mkPnar (n_cfg n) (n_ops n) (n_table n) (n_t n) tr (n_ant n) (n_mem n) (n_goals n).
Definition setTime (n : pnar) (t : Z) : pnar :=
  mkPnar (n_cfg n) (n_ops n) (n_table n) t (n_trace n) (n_ant n) (n_mem n) (n_goals n).

(** * Interval table *)
(** NarProc.rs 445-462. [pw i] is [cfgIntervalExpBase.powf(i) as i64]; [fuel]
    bounds the loop. *)
Fixpoint buildTable (fuel : nat) (pw : nat -> Z) (max : Z) (i : nat) (last : Z) : list Z :=
  match fuel with
  | O => []
  | S f =>
      let this := pw i in
      if this >? max then []
      else if this >? last then this :: buildTable f pw max (S i) this
      else buildTable f pw max (S i) last
  end.
(** 1.3^i rounded down, the maximum is 20 (NarProc.rs 333-334) *)
Definition pow13 (i : nat) : Z := 13 ^ Z.of_nat i / 10 ^ Z.of_nat i.
Definition defaultTable : list Z := buildTable 100 pow13 20 0 0.

(** NarProc.rs 1178-1186 *)
Fixpoint findFrom (interval : Z) (i : nat) (rest : list Z) : option Z :=
  match rest with
  | [] => None
  | x :: rest' => if x >? interval then Some (Z.of_nat i - 1) else findFrom interval (S i) rest'
  end.
Definition findMinTableIdx (interval : Z) (table : list Z) : Z :=
  match findFrom interval 1 (skipn 1 table) with
  | Some r => r
  | None => Z.of_nat (length table) - 1
  end.

(** * Terms *)
(** NarProc.rs 1034-1042 *)
Definition ret_op_by_name (ops : list op) (name : string) : option op :=
  find (fun o => String.eqb (op_name o) name) ops.
(** NarProc.rs 1045-1060 *)
Definition checkIsCallableOp (ops : list op) (t : term) : bool :=
  match decodeOp t with
  | None => false
  | Some (_, name) => existsb (fun o => String.eqb (op_name o) name) ops
  end.
(** NarProc.rs 1065-1074 *)
Definition retPred (t : term) : res term :=
  match t with Stmt PREDIMPL _ pred => Ok (term_clone pred) | _ => Panic end.
(** NarProc.rs 1077-1086 *)
Definition retSubj (t : term) : res term :=
  match t with Stmt PREDIMPL subj _ => Ok (term_clone subj) | _ => Panic end.
(** NarProc.rs 1088-1100 *)
Definition retImplSeqOp (t : term) : res term :=
  match t with Stmt PREDIMPL (Seq sq) _ => idx sq 1 | _ => Panic end.
(** NarProc.rs 1102-1109 *)
Definition retSeqLast (t : term) : res term :=
  match t with Seq [] => Panic | Seq sq => idx sq (length sq - 1) | _ => Panic end.
(** NarProc.rs 1111-1123 *)
Definition retSeqCond (t : term) : res term :=
  match t with Stmt PREDIMPL (Seq sq) _ => idx sq 0 | _ => Panic end.
(** NarProc.rs 1125-1132 *)
Definition retSeqCond2 (t : term) : res term :=
  match t with Seq sq => idx sq 0 | _ => Panic end.
(** NarProc.rs 1135-1142 *)
Definition is_seq (t : term) : bool := match t with Seq _ => true | _ => false end.
(** NarProc.rs 1145-1153; [seq.len()-1] of an empty sequence panics. *)
Definition is_seqAndLastOp (t : term) : res bool :=
  match t with
  | Seq sq => do l <- retSeqLast (Seq sq); Ok (match decodeOp l with Some _ => true | None => false end)
  | _ => Ok false
  end.
(** NarProc.rs 1166-1175 *)
Definition calcIdxsOfOps (ops : list op) (trace : list event) : list nat :=
  filter (fun i => match nth_error trace i with Some e => checkIsCallableOp ops (ev_name e) | None => false end)
         (seq 0 (length trace)).

(** NarProc.rs 515-534. Slicing [1..len-1] panics for an empty slice; the
    assertion needs at least three events. *)
Definition try_build_implSeq (ops : list op) (events : list term) : res (option term) :=
  if Nat.ltb (length events) 3 then Panic
  else
    let middle := firstn (length events - 2) (skipn 1 events) in
    do e0 <- idx events 0;
    do el <- idx events (length events - 1);
    Ok (if forallb (checkIsCallableOp ops) middle && negb (checkIsCallableOp ops e0) &&
           negb (checkIsCallableOp ops el) && negb (checkEqTerm e0 el)
        then Some (api_s PREDIMPL (api_seq (term_clone e0 :: map term_clone middle)) el)
        else None).

(** * Perception *)
(** random numbers of one perception sample: try several operations? indices
    drawn by the selection loop; position of the first event; take the event
    before the last? address of the new usage cell *)
Record smp := mkSmp { r_multi : bool; r_draws : list nat; r_first : nat; r_prev : bool; r_usage : nat }.

(** NarProc.rs 185-200. [draws] are all numbers the loop draws; a list on which
    the loop does not finish does not describe a run ([None]). *)
Fixpoint selOps (idxs : list nat) (nSel : nat) (draws : list nat) (sel : list nat) : option (list nat) :=
  match draws with
  | [] => None
  | d :: draws' =>
      let i := nth (Nat.modulo d (length idxs)) idxs O in
      let sel' := if existsb (Nat.eqb i) sel then sel else sel ++ [i] in
      if Nat.eqb (length sel') nSel then Some sel' else selOps idxs nSel draws' sel'
  end.
Definition minOf (l : list nat) : nat := match l with [] => O | x :: r => fold_left Nat.min r x end.
Definition maxOf (l : list nat) : nat := fold_left Nat.max l O.

(** NarProc.rs 170-283: one sample; the result is the sentence sent to the
    worker. *)
Definition perceive (n : pnar) (r : smp) : res (option sentence) :=
  let tr := n_trace n in
  let idxs := calcIdxsOfOps (n_ops n) tr in
  match idxs with
  | [] => Ok None
  | _ =>
      let nSel := if Nat.eqb (c_nOpsMax (n_cfg n)) 1 then 1%nat
                  else if r_multi r then Nat.min (length idxs) (c_nOpsMax (n_cfg n)) else 1%nat in
      match selOps idxs nSel (r_draws r) [] with
      | None => Ok None
      | Some sel =>
          if Nat.ltb 0 (minOf sel) then
            let idxFirst := Nat.modulo (r_first r) (minOf sel) in
            do prev <- idx tr (length tr - 1 - 1);
            let idxLast :=
              if r_prev r && Nat.ltb (maxOf sel) (length tr - 1 - 1) && negb (checkIsCallableOp (n_ops n) (ev_name prev))
              then (length tr - 1 - 1)%nat else (length tr - 1)%nat in
            let is := sort_by Nat.ltb (idxFirst :: sel ++ [idxLast]) in
            do items <- rmapM (idx tr) is;
            do cand <- try_build_implSeq (n_ops n) (map ev_name items);
            match cand with
            | None => Ok None
            | Some candidateTerm =>
                do iLast <- idx items (length items - 1);
                do iPrev <- idx items (length items - 2);
                let expDt := findMinTableIdx (ev_occ iLast - ev_occ iPrev) (n_table n) in
                do opT <- retImplSeqOp candidateTerm;
                do dec <- unwrap (decodeOp opT);
                let eviCnt := match ret_op_by_name (n_ops n) (snd dec) with Some o => op_evi o | None => 3 end in
                Ok (Some (mkSentence (term_clone candidateTerm) None JUGEMENT (newStamp (map ev_evi items)) (Some expDt)
                                     (Some (CNT eviCnt eviCnt)) (r_usage r)))
            end
          else Ok None
      end
  end.

(** a message to the worker: sentence and time *)
Definition msg := (sentence * Z)%type.
Definition somes {A} (l : list (option A)) : list A :=
  flat_map (fun o => match o with Some a => [a] | None => [] end) l.

(** NarProc.rs 152-288: the goal system after the step and the messages that
    are sent, in order. [rs i]: random numbers of sample [i]. *)
Definition traceStep (n : pnar) (rs : nat -> smp) : res (gsys * list msg) :=
  let g := match List.rev (n_trace n) with
           | [] => n_goals n
           | e :: _ => event_occurred (n_goals n) (ev_name e)
           end in
  if Nat.leb 3 (length (n_trace n)) then
    do os <- rmapM (fun i => perceive n (rs i)) (seq 0 (c_samples (n_cfg n)));
    Ok (g, map (fun s => (s, n_t n)) (somes os))
  else Ok (g, []).

(** NarProc.rs 290-296 *)
Definition traceLimit (tr : list event) : list event :=
  if Nat.ltb 20 (length tr) then skipn (length tr - 20) tr else tr.
(** NarProc.rs 299-301 *)
Definition event_happened (tr : list event) (e : event) : list event := tr ++ [e].
(** [trace_view[len-1-i].name] for a window index below the length *)
Definition recent (tr : list event) (i : nat) : option event :=
  if Nat.ltb i (length tr) then nth_error tr (length tr - 1 - i) else None.

(** * Anticipation *)
(** NarProc.rs 540-558 *)
Definition predIs (h : list sentence) (e : term) (a : nat * Z) : res bool :=
  do p <- retPred (s_term (rd h (fst a))); Ok (checkEqTerm p e).
Fixpoint rfilter {A} (f : A -> res bool) (l : list A) : res (list A) :=
  match l with
  | [] => Ok []
  | a :: l' => do b <- f a; do l2 <- rfilter f l'; Ok (if b then a :: l2 else l2)
  end.
Definition confirm (n : pnar) : res (list (nat * Z)) :=
  rfold (fun ant i =>
    match recent (n_trace n) i with
    | None => Ok ant
    | Some e => rfilter (fun a => do b <- predIs (cells (n_mem n)) (ev_name e) a; Ok (negb b)) ant
    end) (seq 0 (c_window (n_cfg n))) (n_ant n).

Definition setEvi (s : sentence) (st : stamp) (e : evidence) : sentence :=
  mkSentence (s_term s) (s_t s) (s_punct s) st (s_expDt s) (Some e) (s_usage s).
(** NarProc.rs 561-589 *)
Definition negConfirm (h : list sentence) (a : nat * Z) : res (list sentence) :=
  do e <- unwrap (s_evi (rd h (fst a)));
  match e with
  | CNT pos cnt => Ok (wr h (fst a) (setEvi (rd h (fst a)) (s_stamp (rd h (fst a))) (CNT pos (cnt + 1))))
  | _ => Panic
  end.

(** NarProc.rs 537-595 *)
Definition narStep0 (n : pnar) (rs : nat -> smp) : res (pnar * list msg) :=
  do ant <- confirm n;
  do h <- rfold negConfirm (filter (fun a => snd a <=? n_t n) ant) (cells (n_mem n));
  let n1 := setMem (setAnt n (filter (fun a => snd a >? n_t n) ant)) (mkPmem h (pcs (n_mem n))) in
  do '(g, ms) <- traceStep n1 rs;
  Ok (setGoals n1 g, ms).

(** * Storage worker *)
(** NarInfProcedural.rs 119-209: replaces every occurrence, except inside the
    relation of an image *)
Fixpoint introHelper (repl w t : term) : term :=
  if checkEqTerm t repl then w
  else
    match t with
    | Stmt c s p => Stmt c (introHelper repl w s) (introHelper repl w p)
    | Name _ | QVar _ | DepVar _ | IndepVar _ => t
    | Seq l => Seq (map (introHelper repl w) l)
    | SetInt l => SetInt (map (introHelper repl w) l)
    | SetExt l => SetExt (map (introHelper repl w) l)
    | Conj l => Conj (map (introHelper repl w) l)
    | Prod l => Prod (map (introHelper repl w) l)
    | Img r i l => Img (term_clone r) i (map (introHelper repl w) l)
    | IntInt l => IntInt (map (introHelper repl w) l)
    | ExtInt l => ExtInt (map (introHelper repl w) l)
    | Par l => Par (map (introHelper repl w) l)
    | Neg x => Neg (introHelper repl w x)
    end.
(** NarInfProcedural.rs 218-225. The 24 draws are from 0..16, the alphabet has
    15 characters. *)
Definition alphabet : string := "012456789ABCDEF"%string.
Definition create_random_varname (draws : list nat) : res term :=
  do name <- rfold (fun acc d => do c <- unwrap (String.get (Nat.modulo d 16) alphabet);
                                 Ok (String.append acc (String c EmptyString))) (firstn 24 draws) "Q"%string;
  Ok (IndepVar name).
(** NarInfProcedural.rs 115-216 *)
Definition intro_vars (t repl : term) (draws : list nat) : res (list term) :=
  if count_occurence_subterms t repl <? 2 then Ok []
  else do w <- create_random_varname draws; Ok [introHelper repl w t].
(** NarInfProcedural.rs 75-112 *)
Definition matchandintro_var1 (t : term) (draws : list nat) : res (list term) :=
  match t with
  | Stmt PREDIMPL (Seq [Stmt INH subj2 (SetInt _); _]) _ => intro_vars t subj2 draws
  | _ => Ok []
  end.
Definition setTerm (s : sentence) (t : term) : sentence :=
  mkSentence t (s_t s) (s_punct s) (s_stamp s) (s_expDt s) (s_evi s) (s_usage s).
(** NarInfProcedural.rs 64-72 *)
Definition matchandintro_var1_sentence (s : sentence) (draws : list nat) : res (list sentence) :=
  do ts <- matchandintro_var1 (s_term s) draws;
  Ok (map (fun t => setTerm (shallowCopySentence s) t) ts).

(** NarProc.rs 480-492 *)
Definition mem_add_evidence_internal (us : nat -> usage) (m : pmem) (s : sentence) (nBeliefs : nat) (now : Z) : res pmem :=
  do cond <- retSeqCond (s_term s);
  do pred <- retPred (s_term s);
  pStoreInConcepts2 us m s (retSubterms cond ++ retSubterms pred) nBeliefs now.
(** NarProc.rs 468-478 *)
Definition mem_add_evidence (us : nat -> usage) (m : pmem) (s : sentence) (nBeliefs : nat) (now : Z) (draws : list nat) : res pmem :=
  do m1 <- mem_add_evidence_internal us m s nBeliefs now;
  do vs <- matchandintro_var1_sentence s draws;
  rfold (fun m s => mem_add_evidence_internal us m s nBeliefs now) vs m1.

(** NarProc.rs 401-434: one stored belief against the new evidence; the flag
    says whether it was revised. *)
Definition mergeInto (s : sentence) (h : list sentence) (a : nat) : res (list sentence * bool) :=
  let e := rd h a in
  if checkOverlap (s_stamp e) (s_stamp s) then Ok (h, false)
  else
    do d1 <- unwrap (s_expDt e);
    do d2 <- unwrap (s_expDt s);
    if (d1 >=? d2) && checkEqTerm (s_term e) (s_term s) then
      do es <- unwrap (s_evi s);
      match es with
      | CNT p c =>
          do ee <- unwrap (s_evi e);
          match ee with
          | CNT pos cnt => Ok (wr h a (setEvi e (merge (s_stamp e) (s_stamp s)) (CNT (pos + p) (cnt + c))), true)
          | _ => Panic
          end
      | _ => Panic
      end
    else Ok (h, false).
(** NarProc.rs 401: the beliefs to look at *)
Definition mergeTargets (m : pmem) (s : sentence) : res (list nat) :=
  do cond <- retSeqCond (s_term s);
  do pred <- retPred (s_term s);
  Ok (pBeliefs m [term_clone cond; term_clone pred]).
Definition mergeStep (s : sentence) (st : list sentence * bool) (a : nat) : res (list sentence * bool) :=
  do '(h, b) <- mergeInto s (fst st) a; Ok (h, snd st || b).
(** NarProc.rs 393-440: one message, without other threads in between *)
Definition storeEvidence (us : nat -> usage) (m : pmem) (s : sentence) (now : Z) (nBeliefs : nat) (draws : list nat) : res pmem :=
  do as_ <- mergeTargets m s;
  do '(h, revised) <- rfold (mergeStep s) as_ (cells m, false);
  let m1 := mkPmem h (pcs m) in
  if revised then Ok m1 else mem_add_evidence us m1 s nBeliefs now draws.

(** * Decision making *)
(** NarProc.rs 605-609 *)
Record best := mkBest { b_seq : term; b_exp : f64; b_evi : option nat }.
(** NarProc.rs 637-656 and 760-776: a strictly better entry wins *)
Definition better (cur : option best) (b : best) : option best :=
  match cur with
  | Some c => if fgtb (b_exp b) (b_exp c) then Some b else cur
  | None => Some b
  end.
(** NarProc.rs 621-661 *)
Definition bestByState (n : pnar) : res (option best) :=
  rfold (fun cur i =>
    match recent (n_trace n) i with
    | None => Ok cur
    | Some e =>
        do '(exp, r) <- selHighestExpGoalByState (n_goals n) (term_clone (ev_name e));
        Ok (match r with
            | Some (en, ut) => better cur (mkBest (term_clone ut) exp (e_evi en))
            | None => cur
            end)
    end) (seq 0 (c_window (n_cfg n))) None.

(** NarProc.rs 727-750: from the goal that was hit back through the chain *)
Definition chainBack (m : pmem) (u : nat) (hit : sentence) (predicted : term) (exec : list nat) : res (tv * option term) :=
  do v <- unwrap (retTv hit);
  do '(vf, _, r) <- rfold (fun '(ctv, cterm, _) a =>
      do c <- infGoalBelief (newEternalSentenceByTv cterm GOAL ctv (newStamp [-1]) u) (rd (cells m) a) u;
      do concl <- unwrap c;
      do ctv' <- unwrap (retTv concl);
      do cterm' <- retSeqCond2 (s_term concl);
      Ok (ctv', cterm', Some (s_term concl))) (List.rev exec) (v, predicted, None);
  Ok (vf, r).
(** NarProc.rs 718-820: remaining steps, [first] on the first one. [rs]: the
    random choices among the beliefs. *)
Fixpoint plan (k : nat) (first : bool) (n : pnar) (u : nat) (predicted : term) (exec : list nat) (rs : list nat) (cur : option best) : res (option best) :=
  match k with
  | O => Ok cur
  | S k' =>
      let advance :=
        do qr <- query_by_antecedent predicted (n_mem n);
        match qr with
        | [] => Ok cur
        | _ =>
            do sel <- idx qr (Nat.modulo (hd O rs) (length qr));
            do p <- retPred (s_term (rd (cells (n_mem n)) sel));
            plan k' false n u p (exec ++ [sel]) (tl rs) cur
        end in
      if first then advance
      else
        match query (n_goals n) predicted with
        | Some hit =>
            match exec with
            | [] => advance
            | first0 :: _ =>
                do '(v, us) <- chainBack (n_mem n) u (e_sentence hit) predicted exec;
                match us with
                | Some sq => do _ <- convTermToStr sq; Ok (better cur (mkBest sq (calcExp v) (Some first0)))
                | None => Ok cur
                end
            end
        | None => advance
        end
  end.
(** NarProc.rs 693-824 *)
Definition planForward (n : pnar) (u : nat) (rs : list nat) (cur : option best) : res (option best) :=
  match recent (n_trace n) 0 with
  | None => Ok cur
  | Some e => plan 3 true n u (term_clone (ev_name e)) [] rs cur
  end.

(** Utils.rs 5-9 *)
Definition enforce (b : bool) : res unit := if b then Ok tt else Panic.
(** NarSentence.rs 125-136 builds the text of a sentence; only the panics. *)
Definition sentenceText (s : sentence) : res unit :=
  do _ <- convTermToStr (s_term s);
  if negb (punct_eqb (s_punct s) QUESTION) then do _ <- unwrap (retTv s); Ok tt else Ok tt.
(** NarProc.rs 826-865: the operation of the best entry becomes a goal.
    [decl]: is there a declarative memory? *)
Definition decide (n : pnar) (decl : bool) (u : nat) (b : option best) : res pnar :=
  match b with
  | Some (mkBest sq exp (Some evi)) =>
      if fgtb exp (c_thresh (n_cfg n)) then
        do _ <- convTermToStr sq;
        do _ <- enforce (is_seq sq);
        do l <- is_seqAndLastOp sq;
        do _ <- enforce l;
        do opT <- retSeqLast sq;
        let e := rd (cells (n_mem n)) evi in
        do _ <- sentenceText e;
        do _ <- convTermToStr opT;
        do v <- unwrap (retTv e);
        do _ <- enforce decl;
        do g <- addEntry (n_goals n) (n_t n) (newEternalSentenceByTv (term_clone opT) GOAL v (s_stamp e) u) (Some evi) 0;
        Ok (setGoals n g)
      else Ok n
  | _ => Ok n
  end.

(** NarProc.rs 868-884: best desired operator goal and its index *)
Definition pickStep (thresh : f64) (st : f64 * option (nat * entry) * nat) (e : entry) : res (f64 * option (nat * entry) * nat) :=
  let '(bestExp, r, i) := st in
  if is_desired e then
    do v <- unwrap (retTv (e_sentence e));
    let exp := calcExp v in
    Ok (if fgtb exp bestExp && fgtb exp thresh then (exp, Some (i, e), S i) else (bestExp, r, S i))
  else Ok (bestExp, r, S i).
Definition pickGoal (g : gsys) (thresh : f64) : res (option (nat * entry)) :=
  do '(_, r, _) <- rfold (pickStep thresh) (g_active g) (f0, None, O); Ok r.
(** NarProc.rs 887-941 *)
Definition execGoal (n : pnar) : res (pnar * option term) :=
  do r <- pickGoal (n_goals n) (c_thresh (n_cfg n));
  match r with
  | Some (i, e) =>
      match e_evi e, decodeOp (s_term (e_sentence e)) with
      | Some evi, Some _ =>
          let n1 := setGoals n (setActive (n_goals n) (remove_at i (g_active (n_goals n)))) in
          let k := match s_expDt (rd (cells (n_mem n)) evi) with Some d => d | None => 0 end in
          do interval <- idxZ (n_table n) k;
          Ok (if c_anticipate (n_cfg n) then setAnt n1 (n_ant n ++ [(evi, n_t n + interval)]) else n1,
              Some (term_clone (s_term (e_sentence e))))
      | _, _ => Ok (n, None)
      end
  | None => Ok (n, None)
  end.
(** NarProc.rs 945-966; [p] is drawn from 0..ops*9. *)
Definition babble (n : pnar) (p : nat) (picked : option term) : res (option term) :=
  match picked with
  | Some _ => Ok picked
  | None =>
      if c_babble (n_cfg n) && Nat.ltb 0 (length (n_ops n)) then
        let p' := Nat.modulo p (length (n_ops n) * 9) in
        if Nat.ltb p' (length (n_ops n)) then
          do o <- idx (n_ops n) p';
          Ok (if op_babble o then Some (encodeOp [SetExt [Name "SELF"%string]] (op_name o)) else None)
        else Ok None
      else Ok None
  end.
(** OpLib.rs 38-83: the events injected by a call, in order. Nested calls are
    inside the arguments; [fuel] bounds the nesting. *)
Fixpoint callOp (fuel : nat) (ops : list op) (t : Z) (k : opKind) (args : list term) : list event :=
  match fuel with
  | O => []
  | S f =>
      match k, args with
      | OpExecAndInject, [_; Seq sq; inj] =>
          flat_map (fun o =>
            match decodeOp o with
            | Some (a, name) => match ret_op_by_name ops name with Some o' => callOp f ops t (op_kind o') a | None => [] end
            | None => []
            end) sq ++ [mkEvent inj t t]
      | _, _ => []
      end
  end.
(** depth of nesting of a term, enough fuel for [callOp] *)
Fixpoint height (t : term) : nat :=
  let hl := fun l => fold_right (fun x m => Nat.max (height x) m) O l in
  match t with
  | Stmt _ s p => S (Nat.max (height s) (height p))
  | Name _ | QVar _ | DepVar _ | IndepVar _ => 1
  | Seq l | SetInt l | SetExt l | Conj l | Prod l | IntInt l | ExtInt l | Par l => S (hl l)
  | Img r _ l => S (Nat.max (height r) (hl l))
  | Neg x => S (height x)
  end%nat.
(** NarProc.rs 969-988 *)
Definition execAction (n : pnar) (picked : option term) : res pnar :=
  match picked with
  | None => Ok n
  | Some t =>
      do dec <- unwrap (decodeOp t);
      match ret_op_by_name (n_ops n) (snd dec) with
      | Some o =>
          let n1 := setTrace n (n_trace n ++ callOp (height t) (n_ops n) (n_t n) (op_kind o) (fst dec)) in
          do _ <- convTermToStr t;
          Ok (setTrace n1 (event_happened (n_trace n1) (mkEvent (term_clone t) (n_t n) (n_t n))))
      | None => Ok n
      end
  end.

(** random numbers and times of a second half step *)
Record step1In := mkIn {
  i_u : nat;
  i_plan : list nat;
  i_babble : nat;
  i_decay : Z -> f64;
  i_derive : list (f64 * f64 * (nat -> roundRnd))
}.
(** NarProc.rs 600-1031. The loop over the time budget makes [i_derive]
    derivations. *)
Definition narStep1 (n : pnar) (decl : bool) (r : step1In) : res pnar :=
  do b0 <- bestByState n;
  do b1 <- planForward n (i_u r) (i_plan r) b0;
  do n1 <- decide n decl (i_u r) b1;
  do '(n2, picked) <- execGoal n1;
  do picked' <- babble n2 (i_babble r) picked;
  do n3 <- execAction n2 picked';
  let n4 := setTrace n3 (traceLimit (n_trace n3)) in
  do n5 <- (if Z.rem (n_t n4) 101 =? 1 then do m <- pLimit (n_mem n4) (c_nConcepts (n_cfg n4)); Ok (setMem n4 m) else Ok n4);
  do n6 <- (if Z.rem (n_t n5) 13 =? 1 then
              do _ <- enforce decl; do g <- limitGoals (i_decay r) (n_goals n5) (n_t n5); Ok (setGoals n5 g) else Ok n5);
  do g <- rfold (fun g d => do _ <- enforce decl; sampleAndInference (i_u r) g (n_t n6) (n_mem n6) (fst (fst d)) (snd (fst d)) (snd d))
                (i_derive r) (n_goals n6);
  Ok (setTime (setGoals n6 g) (n_t n6 + 1)).

(** NarProc.rs 331-374 (default configuration) *)
Definition defaultCfg : pcfg := mkPcfg 2 (f_frac 58 100) 1 4 true true 1000 100.
Definition narInit (ops : list op) : pnar :=
  mkPnar defaultCfg ops defaultTable 0 [] [] pmemMake (makeGoalSystem 20 8).
