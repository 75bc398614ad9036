(** Model of src/Nar.rs, src/NarInputFacade.rs, src/NarInteractive.rs,
    src/NarModuleNlp3.rs and the operator [Op__nlp_rel_0] of src/OpLib.rs.

    - Texts are lists of bytes.
    - [parse::<f64>] and the outcome of the network of ModNlpA.rs (text to list
      of Narsese texts, or a panic) are arguments, and so are random numbers,
      [exp()] and times. Nlp_Model.v models the network.
    - Messages to the two background workers are appended to [nr_dq] and
      [nr_pq]; here the workers run between two lines of input, one message at
      a time. Finer interleavings are in ProcS_Model.v and Sched_Model.v.
    - Output is modelled where building it can panic, and as far as it is
      returned to the caller. *)
From Coq Require Import String Ascii ZArith Bool List.
From Verif Require Import Base F64_Model Term_Model Unify_Model Stamp_Model Tv_Model Sentence_Model Mem_Model Cycle_Model PMem_Model Goal_Model Proc_Model Parser_Model.
Import ListNotations.
Local Open Scope list_scope.
Local Open Scope Z_scope.

(** Nar.rs 22-41 *)
Record nar := mkNar {
  nr_proc : pnar;
  nr_decl : shared;
  nr_time : Z;
  nr_verb : Z;
  nr_nB : nat;
  nr_maxC : Z;
  nr_dq : list workMsg;
  nr_pq : list msg;
  nr_wired : bool (* main.rs 19: the declarative part reads the procedural memory for questions about time *)
}.
Definition withProc (n : nar) (p : pnar) : nar := mkNar p (nr_decl n) (nr_time n) (nr_verb n) (nr_nB n) (nr_maxC n) (nr_dq n) (nr_pq n) (nr_wired n).
Definition withDecl (n : nar) (d : shared) : nar := mkNar (nr_proc n) d (nr_time n) (nr_verb n) (nr_nB n) (nr_maxC n) (nr_dq n) (nr_pq n) (nr_wired n).
Definition withTime (n : nar) (t : Z) : nar := mkNar (nr_proc n) (nr_decl n) t (nr_verb n) (nr_nB n) (nr_maxC n) (nr_dq n) (nr_pq n) (nr_wired n).
Definition withDq (n : nar) (q : list workMsg) : nar := mkNar (nr_proc n) (nr_decl n) (nr_time n) (nr_verb n) (nr_nB n) (nr_maxC n) q (nr_pq n) (nr_wired n).
Definition withPq (n : nar) (q : list msg) : nar := mkNar (nr_proc n) (nr_decl n) (nr_time n) (nr_verb n) (nr_nB n) (nr_maxC n) (nr_dq n) q (nr_wired n).
(** Nar.rs 45-57 *)
Definition createNar : nar := mkNar (narInit []) sharedMake 0 0 20 64 [] [] false.
(** main.rs 18-19 *)
Definition wireUp (n : nar) : nar := mkNar (nr_proc n) (nr_decl n) (nr_time n) (nr_verb n) (nr_nB n) (nr_maxC n) (nr_dq n) (nr_pq n) true.
(** the procedural memory as the declarative part sees it *)
Definition viewMem (m : pmem) : mem :=
  map (fun e => (fst e, mkConcept (pc_name (snd e)) (map (rd (cells m)) (pExp (snd e))) (map (rd (cells m)) (pUse (snd e))))) (pcs m).
Definition setProcMem (m : mem) (sh : shared) : shared :=
  mkShared (heap sh) (judg sh) (byTerm sh) (questions sh) (memory sh) m (stampCtr sh) (taskCtr sh) (cycleCtr sh) (usages sh) (nextU sh).
Definition linked (n : nar) : shared := if nr_wired n then setProcMem (viewMem (n_mem (nr_proc n))) (nr_decl n) else nr_decl n.

(** the fresh sentence of Nar.rs 68-70 and OpLib.rs 143-147: takes an evidence id and a usage cell *)
Definition takeId (d : shared) : Z * nat * shared := (stampCtr d, nextU d, setNextU (S (nextU d)) (setStampCtr (stampCtr d + 1) d)).

(** Nar.rs 66-124 *)
Definition inputT2 (n : nar) (t : term) (p : punct) (v : tv) (isEvent : bool) (draws : list nat) : res nar :=
  let '(id, u, d) := takeId (nr_decl n) in
  let n := withDecl n d in
  let s := newEternalSentenceByTv t p v (newStamp [id]) u in
  do _ <- (if nr_verb n >=? 1 then printSentence s else Ok tt);
  let pr := nr_proc n in
  let addTask := do d' <- memAddTask (nr_decl n) s true (nr_maxC n) (nr_nB n) f1 (n_t pr); Ok (withDecl n d') in
  if isEvent then
    match p with
    | GOAL => do g <- addEntry (n_goals pr) (n_t pr) s None 0; Ok (withProc n (setGoals pr g))
    | QUESTION => addTask
    | JUGEMENT => Ok (withProc n (setTrace pr (event_happened (n_trace pr) (mkEvent t (n_t pr) (n_t pr)))))
    end
  else if isTemporal t then
    match p with
    | JUGEMENT =>
        let s' := mkSentence (s_term s) (s_t s) (s_punct s) (s_stamp s) (s_expDt s) (Some (CNT 10 10)) (s_usage s) in
        do m <- mem_add_evidence (usages (nr_decl n)) (n_mem pr) s' (nr_nB n) (n_t pr) draws;
        Ok (withProc n (setMem pr m))
    | _ => Ok n
    end
  else
    match p with
    | JUGEMENT => addTask
    | _ => Ok n
    end.

(** Nar.rs 129-141 *)
Definition inputN (pf : text -> option f64) (n : nar) (i : text) (draws : list nat) : res (nar * bool) :=
  do r <- parseNarsese pf i;
  match r with
  | Some (t, v, p, ev) => do n' <- inputT2 n t p v ev draws; Ok (n', true)
  | None => Ok (n, false)
  end.

(** Nar.rs 148-150 *)
Definition cycle (expf : f64 -> f64) (selVal : f64) (n : nar) : res nar :=
  do '(d, now, _, m) <- reasonCycle expf selVal (linked n) (nr_time n);
  Ok (withDq (withTime (withDecl n d) now) (nr_dq n ++ match m with Some m => [m] | None => [] end)).

(** ** the operator ^nlpRel0 *)
(** OpLib.rs 103-133 *)
Definition rewriteRel (rel : term) : res term :=
  match rel with
  | Stmt INH (Prod arr) pred =>
      do right <- idx arr 1;
      let right' := match right with
                    | Seq [a; b; c] => if checkEqTerm b (Name "and"%string) then ExtInt [a; c] else right
                    | _ => right
                    end in
      do left <- idx arr 0;
      Ok (Stmt INH (Prod [left; right']) pred)
  | _ => Ok rel
  end.
(** OpLib.rs 92-160 with a declarative memory; complexity limit 64 and 60
    beliefs per concept are fixed there *)
Definition nlpRel (t : Z) (d : shared) (args : list term) : res shared :=
  match args with
  | [_; rel] =>
      do rel' <- rewriteRel rel;
      do _ <- convTermToStr rel;
      do _ <- convTermToStr rel';
      let '(id, u, d') := takeId d in
      memAddTask d' (newEternalSentenceByTv rel' JUGEMENT (mkTv f1 (f_frac 9 10)) (newStamp [id]) u) true 64 60 f1 t
  | _ => Ok d
  end.
(** the calls of ^nlpRel0 inside one operator call, in order: OpLib.rs 38-83 *)
Fixpoint nlpCalls (fuel : nat) (ops : list op) (k : opKind) (args : list term) : list (list term) :=
  match fuel with
  | O => []
  | S f =>
      match k, args with
      | OpNlpRel, _ => [args]
      | OpExecAndInject, [_; Seq sq; _] =>
          flat_map (fun o =>
            match decodeOp o with
            | Some (a, name) => match ret_op_by_name ops name with Some o' => nlpCalls f ops (op_kind o') a | None => [] end
            | None => []
            end) sq
      | _, _ => []
      end
  end.
(** the operation that narStep1 executes: NarProc.rs 600-968 *)
Definition chosen (n : pnar) (r : step1In) : res (pnar * option term) :=
  do b0 <- bestByState n;
  do b1 <- planForward n (i_u r) (i_plan r) b0;
  do n1 <- decide n true (i_u r) b1;
  do '(n2, picked) <- execGoal n1;
  do picked' <- babble n2 (i_babble r) picked;
  Ok (n2, picked').
Definition nlpOf (n : pnar) (r : step1In) : res (list (list term)) :=
  do '(n2, picked) <- chosen n r;
  match picked with
  | None => Ok []
  | Some t =>
      do dec <- unwrap (decodeOp t);
      Ok (match ret_op_by_name (n_ops n2) (snd dec) with
          | Some o => nlpCalls (height t) (n_ops n2) (op_kind o) (fst dec)
          | None => []
          end)
  end.
(** NarProc.rs 600-1031 as called with the declarative memory *)
Definition procStep1 (n : nar) (r : step1In) : res nar :=
  do calls <- nlpOf (nr_proc n) r;
  do d <- rfold (nlpRel (n_t (nr_proc n))) calls (nr_decl n);
  do p <- narStep1 (nr_proc n) true r;
  Ok (withDecl (withProc n p) d).
(** NarProc.rs 537-595 *)
Definition procStep0 (n : nar) (rs : nat -> smp) : res nar :=
  do '(p, ms) <- narStep0 (nr_proc n) rs;
  Ok (withPq (withProc n p) (nr_pq n ++ ms)).

(** ** background workers between two lines *)
Definition declWork (n : nar) : res nar :=
  match nr_dq n with
  | [] => Ok n
  | m :: q => do '(d, _) <- workerStep (nr_maxC n) (nr_nB n) (nr_decl n) m; Ok (withDq (withDecl n d) q)
  end.
Definition procWork (n : nar) (draws : list nat) : res nar :=
  match nr_pq n with
  | [] => Ok n
  | (s, now) :: q =>
      do m <- storeEvidence (usages (nr_decl n)) (n_mem (nr_proc n)) s now (c_nBeliefs (n_cfg (nr_proc n))) draws;
      Ok (withPq (withProc n (setMem (nr_proc n) m)) q)
  end.

(** ** lines of input: NarInputFacade.rs 18-229 *)
(** [&input[..k]] panics if byte k is inside a character *)
Definition isCont (c : ascii) : bool := inRange 128 191 (nat_of_ascii c).
Definition prefix (k : nat) (i : text) : res text :=
  match nth_error i k with
  | Some c => if isCont c then Panic else Ok (firstn k i)
  | None => if Nat.eqb (length i) k then Ok i else Panic
  end.
Definition text_eqb (a b : text) : bool := if list_eq_dec ascii_dec a b then true else false.
(** [input.len() >= k && &input[..k] == w], k the length of w *)
Definition beginsWith (w : text) (i : text) : res bool :=
  if Nat.leb (length w) (length i) then do p <- prefix (length w) i; Ok (text_eqb p w) else Ok false.
(** 223-229 *)
Fixpoint dropNl (i : text) : text :=
  match i with c :: i' => if Ascii.eqb c "010" || Ascii.eqb c "013" then dropNl i' else i | [] => [] end.
Definition trimNewline (i : text) : text := List.rev (dropNl (List.rev i)).
(** [parse::<i64>] *)
Definition digit (c : ascii) : option Z := if inRange 48 57 (nat_of_ascii c) then Some (Z.of_nat (nat_of_ascii c) - 48) else None.
Fixpoint digits (acc : Z) (i : text) : option Z :=
  match i with [] => Some acc | c :: i' => match digit c with Some d => digits (10 * acc + d) i' | None => None end end.
Definition parseI64 (i : text) : option Z :=
  let '(sign, i') := match i with
                     | c :: i' => if Ascii.eqb c "-" then (-1, i') else if Ascii.eqb c "+" then (1, i') else (1, i)
                     | [] => (1, i)
                     end in
  match i' with
  | [] => None
  | _ => match digits 0 i' with
         | Some z => let z := sign * z in if (-(2^63) <=? z) && (z <? 2^63) then Some z else None
         | None => None
         end
  end.
(** [str::split_whitespace] on ASCII *)
Fixpoint words (i : text) : list text :=
  match i with
  | [] => []
  | c :: i' =>
      if isSpace c then words i'
      else match i' with
           | [] => [[c]]
           | d :: _ => if isSpace d then [c] :: words i' else match words i' with w :: ws => (c :: w) :: ws | [] => [[c]] end
           end
  end.
(** what is returned to the caller *)
Inductive info := INone | ITasks (lines : nat) | IConcepts (n : nat).
(** random numbers and times of one line; [ln_net]: what the language network
    makes of a sentence, see Nlp_Model.v *)
Record lineRnd := mkRnd {
  ln_draws : nat -> list nat;
  ln_smp : nat -> smp;
  ln_step : step1In;
  ln_exp : f64 -> f64;
  ln_sel : nat -> f64;
  ln_net : text -> res (list text)
}.
(** NarModuleNlp3.rs 15-33: every text of the network is put in *)
Definition nlpProcess (pf : text -> option f64) (n : nar) (i : text) (r : lineRnd) : res nar :=
  do l <- ln_net r i;
  do '(n', _) <- rfold (fun st j => do x <- inputN pf (fst st) j (ln_draws r (snd st)); Ok (fst x, S (snd st))) l (n, O);
  Ok n'.
(** NarProc.rs 494-513 and 1189-1205: only whether it panics *)
Definition debugEvidence (m : pmem) : res unit :=
  rfold (fun _ a => do _ <- convTermToStr (s_term (rd (cells m) a));
                    match s_evi (rd (cells m) a) with Some (CNT _ _) => Ok tt | _ => Panic end)
        (flat_map (fun kc => pExp (snd kc) ++ pUse (snd kc)) (pcs m)) tt.
(** NarWorkingCycle.rs 1978-2000 *)
Definition debugTasks (d : shared) : res nat :=
  do _ <- rmapM (fun a => printSentence (tk_s (hget (heap d) a))) (judg d); Ok (length (judg d)).
Definition setOps (p : pnar) (ops : list op) : pnar :=
  mkPnar (n_cfg p) ops (n_table p) (n_t p) (n_trace p) (n_ant p) (n_mem p) (n_goals p).
Definition setBabble (p : pnar) (b : bool) : pnar :=
  let c := n_cfg p in
  mkPnar (mkPcfg (c_window c) (c_thresh c) (c_nOpsMax c) (c_samples c) b (c_anticipate c) (c_nConcepts c) (c_nBeliefs c))
    (n_ops p) (n_table p) (n_t p) (n_trace p) (n_ant p) (n_mem p) (n_goals p).
(** 60-86; OpLib.rs 17-29, 36, 86: the operators *)
Definition registered (args : list text) : option op :=
  match args with
  | [a] => if text_eqb a (tx "execinj") then Some (mkOp "^nal9_exeAndInject" false 3 OpExecAndInject)
           else if text_eqb a (tx "nlpRel0") then Some (mkOp "^nlpRel0" false 3 OpNlpRel) else None
  | [a; b] => if text_eqb a (tx "NOP") then Some (mkOp (str b) true 3 OpPlain) else None
  | _ => None
  end.
Fixpoint cycles (k : nat) (r : lineRnd) (n : nar) : res nar :=
  match k with
  | O => Ok n
  | S k' => do n' <- cycle (ln_exp r) (ln_sel r k') n; cycles k' r n'
  end.
(** 18-221; result: state, quit flag, returned information. The branches "!spA"
    and "!spB" (42-47) come after the prefix "!sp". *)
Definition facade (pf : text -> option f64) (n : nar) (line : text) (r : lineRnd) : res (nar * bool * info) :=
  let i := trimNewline line in
  do b <- beginsWith (tx "//") i;
  if b then Ok (n, false, INone) else
  do b <- beginsWith (tx "!sp") i;
  if b then do n1 <- procStep0 n (ln_smp r); do n2 <- procStep1 n1 (ln_step r); Ok (n2, false, INone) else
  if text_eqb i (tx "!spA") then do n1 <- procStep0 n (ln_smp r); Ok (n1, false, INone) else
  if text_eqb i (tx "!spB") then do n1 <- procStep1 n (ln_step r); Ok (n1, false, INone) else
  do b <- beginsWith (tx "!s") i;
  if b then
    do k <- (if Nat.ltb 2 (length i) then unwrap (parseI64 (skipn 2 i)) else Ok 1);
    do n' <- cycles (Z.to_nat k) r n; Ok (n', false, INone)
  else
  if text_eqb i (tx "!dtf") then Ok (withDecl n (flushTasks (nr_decl n)), false, INone) else
  do b <- beginsWith (tx "!por ") i;
  if b then
    Ok (match registered (words (skipn 5 i)) with
        | Some o => withProc n (setOps (nr_proc n) (n_ops (nr_proc n) ++ [o]))
        | None => n
        end, false, INone)
  else
  if text_eqb i (tx "!pse") then do _ <- debugEvidence (n_mem (nr_proc n)); Ok (n, false, INone) else
  if text_eqb i (tx "!peb 0") then Ok (withProc n (setBabble (nr_proc n) false), false, INone) else
  if text_eqb i (tx "!peb 1") then Ok (withProc n (setBabble (nr_proc n) true), false, INone) else
  do b <- (if Nat.ltb 6 (length i) then beginsWith (tx "!.nlp ") i else Ok false);
  if b then do n' <- nlpProcess pf n (skipn 6 i) r; Ok (n', false, INone) else
  if text_eqb i (tx "!dt") then do k <- debugTasks (nr_decl n); Ok (n, false, ITasks k) else
  if text_eqb i (tx "!dmd") then Ok (n, false, IConcepts (length (memory (nr_decl n)))) else
  if text_eqb i (tx "!QQ") then Ok (n, true, INone) else
  if text_eqb i [] then Ok (n, false, INone) else
  do x <- inputN pf n i (ln_draws r O); Ok (fst x, false, INone).

(** NarInteractive.rs 8-44, one round: [read_line] gives [line] (empty at the
    end of the input); result: state, the input to repeat, quit *)
Definition interactive (pf : text -> option f64) (n : nar) (lastInput line : text) (r : lineRnd) : res (nar * text * bool) :=
  let i := trimNewline line in
  let '(i, lastInput) := match i with [] => (lastInput, lastInput) | _ => (i, i) end in
  do '(n', quit, _) <- facade pf n i r;
  Ok (n', lastInput, quit).

(** NarUtilReadn.rs 11-25: the lines of a file until one quits *)
Fixpoint readFile (pf : text -> option f64) (lines : list (text * lineRnd)) (n : nar) : res (nar * bool) :=
  match lines with
  | [] => Ok (n, false)
  | (line, r) :: rest =>
      do '(n', quit, _) <- facade pf n line r;
      if quit then Ok (n', true) else readFile pf rest n'
  end.
