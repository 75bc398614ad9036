(** Independent vocabulary for the complete reasoner and its input lines. *)
From Coq Require Import String Ascii ZArith Bool List.
From Verif Require Import Base F64_Model Term_Model Stamp_Model Tv_Model Sentence_Model Mem_Model Cycle_Model PMem_Model Goal_Model Proc_Model
  Parser_Model Nar_Model.
Import ListNotations.
Local Open Scope list_scope.
Local Open Scope Z_scope.

(** * Sessions *)
(** one accepted input; [in_op]: it came from the operator ^nlpRel0 *)
Record input := mkInput { in_term : term; in_punct : punct; in_tv : tv; in_event : bool; in_op : bool }.
(** relations that the operator ^nlpRel0 puts in *)
Definition relInputs (calls : list (list term)) : list input :=
  flat_map (fun args => match args with
    | [_; rel] => match rewriteRel rel with Ok r => [mkInput r JUGEMENT (mkTv f1 (f_frac 9 10)) false true] | Panic => [] end
    | _ => []
    end) calls.
(** [session log n]: state [n] is reached from a new reasoner by a sequence of
    calls of its interface; [log] lists the accepted inputs in order. The two
    workers handle one message at a time between calls. *)
Inductive session : list input -> nar -> Prop :=
| ss_start : session [] createNar
| ss_input : forall log n t p v ev draws n', session log n -> inputT2 n t p v ev draws = Ok n' ->
    session (log ++ [mkInput t p v ev false]) n'
| ss_cycle : forall log n expf sv n', session log n -> cycle expf sv n = Ok n' -> session log n'
| ss_step0 : forall log n rs n', session log n -> procStep0 n rs = Ok n' -> session log n'
| ss_step1 : forall log n r calls n', session log n -> nlpOf (nr_proc n) r = Ok calls -> procStep1 n r = Ok n' ->
    session (log ++ relInputs calls) n'
| ss_declWork : forall log n n', session log n -> declWork n = Ok n' -> session log n'
| ss_procWork : forall log n draws n', session log n -> procWork n draws = Ok n' -> session log n'
| ss_flush : forall log n, session log n -> session log (withDecl n (flushTasks (nr_decl n)))
| ss_ops : forall log n ops, session log n -> session log (withProc n (setOps (nr_proc n) ops))
| ss_babble : forall log n b, session log n -> session log (withProc n (setBabble (nr_proc n) b))
| ss_verb : forall log n v, session log n ->
    session log (mkNar (nr_proc n) (nr_decl n) (nr_time n) v (nr_nB n) (nr_maxC n) (nr_dq n) (nr_pq n) (nr_wired n))
| ss_wire : forall log n, session log n -> session log (wireUp n).

Definition temporal (t : term) : Prop := exists a b, t = Stmt PREDIMPL a b.
(** the sentence of input number [k] of the log, as the declarative reasoner gets it *)
Definition given (log : list input) (s : sentence) : Prop :=
  exists k i, nth_error log k = Some i /\ s_stamp s = [Z.of_nat k] /\ s_term s = in_term i /\ s_punct s = in_punct i /\
    s_t s = None /\ s_expDt s = None /\
    ((in_punct i = JUGEMENT /\ in_event i = false /\ (in_op i = true \/ ~ temporal (in_term i)) /\ s_evi s = Some (TV (in_tv i))) \/
     (in_punct i = QUESTION /\ in_event i = true /\ s_evi s = None)).
(** sentences of the declarative reasoner: the tasks and the beliefs *)
Definition inDecl (d : shared) (s : sentence) : Prop :=
  (exists a, (a < length (heap d))%nat /\ s = tk_s (hget (heap d) a)) \/
  (exists t c, In (t, c) (memory d) /\ (In s (byExp c) \/ In s (byUsage c))).

(** * Frames *)
(** an input number is taken, otherwise the declarative reasoner is unchanged *)
Definition onlyCounted (d d' : shared) : Prop :=
  heap d' = heap d /\ judg d' = judg d /\ byTerm d' = byTerm d /\ questions d' = questions d /\ memory d' = memory d /\
  procMem d' = procMem d /\ stampCtr d' = stampCtr d + 1 /\ taskCtr d' = taskCtr d /\ cycleCtr d' = cycleCtr d /\ usages d' = usages d.
(** time, configuration and queues are unchanged *)
Definition sameRest (n n' : nar) : Prop :=
  nr_time n' = nr_time n /\ nr_verb n' = nr_verb n /\ nr_nB n' = nr_nB n /\ nr_maxC n' = nr_maxC n /\ nr_dq n' = nr_dq n /\ nr_pq n' = nr_pq n.

(** * Lines of input *)
(** strings of Rust are sequences of whole characters *)
Definition contByte (c : ascii) : Prop := (128 <= nat_of_ascii c <= 191)%nat.
Inductive utf8 : text -> Prop :=
| u8_nil : utf8 []
| u8_one : forall c i, (nat_of_ascii c < 128)%nat -> utf8 i -> utf8 (c :: i)
| u8_more : forall c cs i, (192 <= nat_of_ascii c)%nat -> (1 <= length cs <= 3)%nat -> Forall contByte cs -> utf8 i -> utf8 (c :: cs ++ i).
Definition asciiText (i : text) : Prop := Forall (fun c => (nat_of_ascii c < 128)%nat) i.
(** the first [k] bytes exist and end inside a character *)
Definition splits (i : text) (k : nat) : Prop := exists c, nth_error i k = Some c /\ contByte c.
Definition starts (w i : text) : Prop := exists r, i = w ++ r.
Definition newline (c : ascii) : Prop := c = "010"%char \/ c = "013"%char.
(** [i] is [line] without line ends *)
Definition trimmed (line i : text) : Prop :=
  exists e, line = i ++ e /\ Forall newline e /\ forall i' c, i = i' ++ [c] -> ~ newline c.
Fixpoint decimal (acc : Z) (ds : list nat) : Z := match ds with [] => acc | d :: ds' => decimal (10 * acc + Z.of_nat d) ds' end.
(** a number as a text *)
Definition numeral (i : text) (z : Z) : Prop :=
  exists sg ds, ds <> [] /\ Forall (fun d => (d < 10)%nat) ds /\
    ((sg = [] /\ z = decimal 0 ds) \/ (sg = ["+"%char] /\ z = decimal 0 ds) \/ (sg = ["-"%char] /\ z = - decimal 0 ds)) /\
    i = sg ++ map (fun d => ascii_of_nat (48 + d)) ds.
(** what a line can do; NarInputFacade.rs tells the commands by these texts *)
Definition command (i : text) : Prop :=
  starts (tx "//") i \/ starts (tx "!s") i \/ starts (tx "!por ") i \/ (exists c w, i = tx "!.nlp " ++ c :: w) \/
  In i (map tx ["!dtf"; "!pse"; "!peb 0"; "!peb 1"; "!dt"; "!dmd"; "!QQ"]%string).
Inductive did (pf : text -> option f64) (n : nar) (i : text) (r : lineRnd) : nar -> bool -> info -> Prop :=
| did_comment : starts (tx "//") i -> did pf n i r n false INone
| did_steps : forall n1 n2, starts (tx "!sp") i -> procStep0 n (ln_smp r) = Ok n1 -> procStep1 n1 (ln_step r) = Ok n2 -> did pf n i r n2 false INone
| did_cycle : forall n', i = tx "!s" -> cycles 1 r n = Ok n' -> did pf n i r n' false INone
| did_cycles : forall z w n', i = tx "!s" ++ w -> numeral w z -> - 2 ^ 63 <= z < 2 ^ 63 -> cycles (Z.to_nat z) r n = Ok n' -> did pf n i r n' false INone
| did_flush : i = tx "!dtf" -> did pf n i r (withDecl n (flushTasks (nr_decl n))) false INone
| did_reg : forall w o, i = tx "!por " ++ w -> registered (words w) = Some o -> did pf n i r (withProc n (setOps (nr_proc n) (n_ops (nr_proc n) ++ [o]))) false INone
| did_noreg : forall w, i = tx "!por " ++ w -> registered (words w) = None -> did pf n i r n false INone
| did_show : i = tx "!pse" -> did pf n i r n false INone
| did_babble0 : i = tx "!peb 0" -> did pf n i r (withProc n (setBabble (nr_proc n) false)) false INone
| did_babble1 : i = tx "!peb 1" -> did pf n i r (withProc n (setBabble (nr_proc n) true)) false INone
| did_nlp : forall w n', i = tx "!.nlp " ++ w -> w <> [] -> nlpProcess pf n w r = Ok n' -> did pf n i r n' false INone
| did_tasks : i = tx "!dt" -> did pf n i r n false (ITasks (length (judg (nr_decl n))))
| did_concepts : i = tx "!dmd" -> did pf n i r n false (IConcepts (length (memory (nr_decl n))))
| did_quit : i = tx "!QQ" -> did pf n i r n true INone
| did_empty : i = [] -> did pf n i r n false INone
| did_narsese : forall n' b, i <> [] -> ~ command i -> inputN pf n i (ln_draws r 0) = Ok (n', b) -> did pf n i r n' false INone.
