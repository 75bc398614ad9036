{
 "C03": {
  "note": "Positivity holds for terms without empty compounds; the unconditional claim is refuted (empty compounds have complexity 0)."
 },
 "C10": {
  "note": "Exact below the 120-id bound; above it the overlap claim is refuted with a witness."
 },
 "C13": {
  "note": "Describes the breakdown at confidence 1.0; rounding can reach 1.0 from lower confidences."
 },
 "C14": {
  "note": "Exact laws over the rationals, range in binary64; bit-exact involution in binary64 is refuted."
 },
 "C16": {
  "note": "Exact characterisation against the schemas, which detach only the first four conjuncts; the unrestricted reading is refuted with a five-conjunct witness. The swapped premise order uses unswapped truth values (C17)."
 },
 "C17": {
  "note": "Findings: c17_order_refuted, c17_swapped_truth_refuted (abduction and induction use the values of the wrong premises in the swapped call)."
 },
 "C18": {
  "note": "Exact characterisation; the product rule drops components after the second (refuted for ternary products)."
 },
 "C19": {
  "note": "Panics are characterised exactly; witnesses for questions and short products are proved."
 },
 "C24": {
  "note": "Also proved: revision does not restore the order by expectation, and a judgement that revises is not filed under forgotten concepts (both refuted with reachable witnesses)."
 },
 "C26": {
  "note": "A reachable state in which the maintenance cycle panics (credit not a number) is proved as a refutation of unconditional totality."
 },
 "C27": {
  "note": "Zero-credit entries are skipped unless the threshold is zero; the unconditional claim is refuted with random value 0."
 },
 "C55": {
  "note": "Whole cycles and whole worker messages are atomic steps here; finer interleavings are the subject of C49."
 },
 "C57": {
  "note": "Also proved: with more than 51 tasks under a term newer tasks are never selected through it (refutation of completeness in general)."
 },
 "C59": {
  "note": "Also proved: a conclusion with the statement and stamp of a queued task is dropped whatever its truth value."
 },
 "C29": {
  "note": "Operator goals are counted twice by limitMemory, so a store within its bound can lose a goal (refuted with a reachable witness)."
 },
 "C30": {
  "note": "Findings: c30_refuted, c30_opener_refuted (only first goals of a term are indexed, so later ones are stored again and again)."
 },
 "C33": {
  "note": "Choice among stored goals, forward planning, the threshold and the choice among operation goals. Refuted: an operation given as a goal blocks the others."
 },
 "C61": {
  "note": "A belief stored under several concepts has several cells; an update through one pointer leaves the others unchanged (refuted with a witness)."
 },
 "C62": {
  "note": "Also proved: some desired goals are never sampled for any random numbers, and the random number 0 selects level 0 even if it is empty (both refuted with witnesses)."
 },
 "C63": {
  "note": ""
 },
 "C34": {
  "note": "For the trace of every run; the bound is applied by the second half step only."
 },
 "C35": {
  "note": "Over all interleavings of the main thread and the worker at the granularity of their lock sections."
 },
 "C36": {
  "note": "Refuted: an old event still in the window settles a new anticipation; only one stored copy of the belief gets the miss."
 },
 "C38": {
  "note": "Refuted: the decomposition panics on implications without a sequence, which can be typed in."
 },
 "C64": {
  "note": "Refuted: events of one moment share one evidence id."
 },
 "C65": {
  "note": "Refuted: one of sixteen draws panics and kills the worker; the operation name itself can be replaced."
 },
 "C66": {
  "note": "Refuted: unregistered operation goals are consumed and punished; a typed-in belief without an operation makes the decision panic; without declarative memory the step panics whenever the time is 1 modulo 13."
 },
 "C67": {
  "note": "Refuted: the worker panics on an observation of a typed-in implication; generalised beliefs do not count later observations."
 },
 "C39": {
  "note": "Round trip proved exactly for the plain terms (iff); refuted for the other compounds and for names above 512 characters."
 },
 "C40": {
  "note": "The parser is sound, complete and total for an independent grammar; refuted: trailing text is silently ignored."
 },
 "C68": {
  "note": "parse::<f64> is a parameter of the model, the theorems hold for every such function. Values are not checked to be in range (c68_unchecked); bad numbers panic."
 },
 "C41": {
  "note": "Over all sessions of inputs, cycles, worker steps and operator executions. Refuted for events: events of one session share ids with inputs."
 },
 "C42": {
  "note": "One theorem per kind of input with its frame condition; refuted: eternal questions are accepted and forgotten, without the wiring of main.rs temporal questions read a memory that is never filled (c42_unlinked); with it the answers are beliefs of the procedural memory (c42_answers)."
 },
 "C69": {
  "note": "parse::<f64> and the language network are parameters. The command table is the inductive relation did in Nar_Spec.v."
 },
 "C70": {
  "note": "The end of input gives empty reads (std read_line)."
 },
 "C71": {
  "note": "The panic condition is exact; the executions are found by the decision procedure of C66."
 },
 "C43": {
  "note": "True part: buffer contents, order, completeness for the last 50 messages at a read, bound without answers, FIFO lines, over all interleavings. Refuted: exactly once (c43_again, c43_once_refuted), no loss (c43_lost_refuted), bounded buffer (c43_bound_refuted); one bad line stops the service (c43_dead)."
 },
 "C44": {
  "note": "The lines of the board are given by coordinates in Env_Spec.v. The moves of the reasoner, the opponent and the human are an argument; the counters and the reasoner between the moves are in C109."
 },
 "C45": {
  "note": "The way of the ball is given in closed form (c45_flight, c45_top, c45_spawn), a landing by the column it happens in (c45_hit), the bat by c45_moves. Refuted parts: the bat leaves the field on the right (c45_bat_refuted), never reaches the leftmost columns (c45_left_refuted), the ball leaves the field when mulVX is not 0 (c45_mul_refuted); ^L moves right (c45_names_refuted)."
 },
 "C46": {
  "note": "All maps whose array has the size w*h. Findings: a circle's radius is the square root of the argument; a line from a point to itself paints nothing; a long line misses all but its first cells."
 },
 "C72": {
  "note": "Order of summation is the order of the loops, f64 bit-exact. Finding: odd kernels lose their last row and column. generateGaborKernel: C102."
 },
 "C47": {
  "note": "Both classifiers (truth values: ModVisionB, real vectors: ModVisionD), any history. Similarity of B in exact rationals, everything else bit-exact. Findings: panics for differing numbers of channels (iff for B), a stimulus of frequency 0.5 is never recognised, a stimulus without channels matches, a shorter stimulus shortens the prototype."
 },
 "C48": {
  "note": "ad.rs formulas over the real numbers (the same generic definitions also have an f64 instance). Sum, difference, product, exponential, dot product, ReLU away from 0 and a ReLU neuron carry the exact derivative. Findings: the quotient is right iff numerator or derivative of the denominator is 0; the sigmoid's derivative is 1+2e^v times too large (right sign)."
 },
 "C73": {
  "note": "Layout and panics for any arithmetic; derivatives over the reals. Finding: a marked bias has derivative 1 although the bias is 15 (8) times the parameter."
 },
 "C74": {
  "note": "f64 bit-exact. vecLen and calcCosineSim: C103."
 },
 "C49": {
  "note": "Any number of clients, one worker, each atomic step one lock-protected section; other code may change credits at any moment. Proved at every moment: task ids, index, size and order of the tables, origin of beliefs and tasks, queue bound, answers, progress. Findings (refuted): one belief per statement and no duplicate task, which hold for sequential runs, fail under interleaving, and two cycling clients can make the selection panic. Lock-order deadlocks inside the RwLocks are not modelled."
 },
 "C75": {
  "note": "Input, signs and panics for any arithmetic; f64 is what runs. split_whitespace on ASCII."
 },
 "C76": {
  "note": "f64 bit-exact. Only the existence of logX.txt is kept of the log. Findings: the second run in the same directory always panics (the log file exists); more than eleven words panic; of the sentences in the comments beside the lessons four use unknown words and one is of other kinds than the lesson."
 },
 "C77": {
  "note": "Display and parsing of the numbers 1 and 0.998 are arguments that fit together. Finding: a relation with a question mark as a word is silently lost."
 },
 "C78": {
  "note": "SQLite is the list of rows in order of insertion; NaN violates NOT NULL, -0.0 becomes 0.0; other SQL failures not modelled. Finding: NaN truncates the stored network silently (c78_nan_refuted loses a layer)."
 },
 "C79": {
  "note": "Derivative and error over the reals; shape, panics and the whole training bit-exact in f64 for every sine (argument, bounded) and any number of epochs. Findings: steps on another output neuron or on a weight with input 0 change nothing."
 },
 "C80": {
  "note": "All interleavings with the deriver worker (schedule model of C49). Findings: an answer given while the file was read is not counted (c80_early_refuted), an answer the worker derives after the last cycle comes too late (c80_late_refuted)."
 },
 "C81": {
  "note": "Over the reals (exp from the standard library). Finding: without runs or files the doubles give NaN (c81_no_runs_refuted)."
 },
 "C82": {
  "note": "\"it\" is proved; the chaos environment is refuted: it always panics (c82_chaos_refuted)."
 },
 "C83": {
  "note": "Finding: the list is not sorted by the function, so the best item may be dropped (c83_salient_refuted)."
 },
 "C84": {
  "note": "Conditions: well-formed input terms (conjunctions and products have two components, other compounds one), truth values in range, nothing derivable has confidence 1.0 (shown for up to 120 one-piece inputs of confidence at most 0.999999), one thread runs cycles, counters below 2^63. Findings: a one-component product, an input of confidence 1.0, or 241 observations of 0.9 break them (c84_short_refuted, c84_full_refuted, c84_overflow_refuted); two cycling threads: c49_select_refuted."
 },
 "C85": {
  "note": "c85_never_panics assumes of every passed state that all remembered events are safe and counters fit 64 bits; c85_runs derives this from the inputs when no operation injects events. Conditions: goals with truth values, decay factors in [0,1], no drawn 15 for variable names, declarative memory present, no typed temporal beliefs. Findings: c85_lost_op_refuted, c85_empty_refuted, c85_typed_refuted, c85_no_decl_refuted, c85_draw_refuted."
 },
 "C86": {
  "note": "shape/typable are a predicate on terms written without the parser. c86_derived_refuted: a derived judgement that cannot be typed."
 },
 "C87": {
  "note": "Conditions of c87_runs: operators that inject nothing (registered by the first lines, c87_register), ASCII lines, readable numbers, truth values in range and at most 0.999999 sure, no typed temporal statements, no event giving a property to a part of an operation, at most 120 statements, counters fit 64 bits, no drawn 15. c87_no_deadlock and c87_finishes need none of them. Threads interleave at critical sections. Findings: c87_number_refuted, c87_rule_refuted, c87_sure_refuted, c87_property_refuted. Locks are taken without waiting here; that they are given back is C95, where \"!dt\" is the exception."
 },
 "C88": {
  "note": "No condition on the lines. ^nlpRel0 is excluded (finding c88_rel_refuted). The evidence of a sentence is its place among the sentences read, in the order of the lines that were accepted. Answers to questions about time come from the procedural memory; for them see C92."
 },
 "C89": {
  "note": "The life is the list of events, typed goals and beliefs and executed operations; restsOn in Live_Spec.v says what a belief rests on. Once a stamp is full (120 ids) the sums still hold; that no event is shared then is C91. Generalising replaces the subject by a variable; going back needs that the drawn variable does not occur already."
 },
 "C90": {
  "note": "Subgoals are the goalStep relation of Goal_Spec.v with learned beliefs. What an operation injects is the relation performs of Proc_Spec.v. A reason is a matter of what is believed and wanted; desires and times are not part of it."
 },
 "C91": {
  "note": "Why it holds: merging interleaves the stamps, so the ids of the latest observations stay among the first 120, the queue between the threads is in order, and an observation covers the last events only, so the ids that were dropped are older than anything that can still arrive. c_nOpsMax is 1 in the program; with more than 24 operations per observation nothing is claimed."
 },
 "C92": {
  "note": "For the wiring of main.rs 19 (the declarative part reads the procedural memory). ^nlpRel0 is excluded as in C88. A question is typed with \"? :|:\"; eternal questions are refused by the program. The belief is taken as it was when the answer was given."
 },
 "C93": {
  "note": "Relates the two models of the program: Nar_Model.v (sequential) and Whole_Model.v (threads). The calls of ^nlpRel0 come after the second half step in Whole_Model.v and before its end in Nar_Model.v; the theorem shows that this makes no difference. c93_crowded_refuted shows what the condition on room excludes."
 },
 "C94": {
  "note": "The session theorem is about a program that has learned nothing else; c94_act is the step in any state. c94_distracted_refuted and c94_fulfilled_refuted are findings: only the last event counts as the situation, and a goal that has been satisfied is still pursued."
 },
 "C95": {
  "note": "Lock programs are read off the source by hand; data is left open, so every run of the program is covered as far as locks go. parking_lot locks prefer waiting writers; fairness between threads is not assumed. c95_dt_refuted is a finding: \"!dt\" reads the task table twice, and a deriver asking to write in between stops the program for ever; c95_dt_ex reaches the moment in the model with data."
 },
 "C96": {
  "note": "Over the schedule model (any number of clients, the deriver, any interleaving). c96_handled and c96_cycle hold for every reachable state in which one client runs the cycles; c96_session allows anything to be added or run after the first cycle and bounds the number of parts by 51 because a cycle looks at the first 51 tasks of each subterm. Questions enter the reasoner only when typed as events; other typed questions are dropped (C42)."
 },
 "C97": {
  "note": "Over the model of the whole program. The lines typed first are neither commands nor comments, the lines after the first cycle line are such lines or further cycle lines; lines for the procedural part (!sp) are not covered, because operators can then add statements of their own. That the program comes to wait again is C87. c97_eternal_refuted: a question without the event mark is not answered although the answer was derived."
 },
 "C98": {
  "note": "Proved from any state in which the program waits (not only reachable ones), for any lines after the question and the cycles. The temporal corollary starts from the lesson of C94, taken in turns, and then allows all interleavings. Findings: with a second question open, one cycle looks up only one of them; a question made of variables only is never looked up."
 },
 "C99": {
  "note": "A step of a thread counts one and so does each derivation of goals made for a line. Ids of evidence and the interval index are only copied and compared, so they are not among the numbers. The lengths of vectors (usize) are not counted; they are limited by memory."
 },
 "C100": {
  "note": "The calls are counted on a second description of the parser, a list of what each alternative looks for; it is shown to read the same texts and leave the same rests as the model of the parser for all texts. The work inside nom (tag, taking the characters of a name) is not counted; it is at most linear in the text for each call."
 },
 "C101": {
  "note": "The bound on waiting effects needs the order in which half steps come: it is shown that the second half of a step is only ever begun right after the first half, so at most one effect is added per tick of the clock. Statements put in by ^nlpRel0 have limits of their own (complexity 64, 60 beliefs), so the last part is for programs that do not register it. The number of concepts and of tasks is bounded at the times of maintenance by C53 and C56, between them by the work done."
 },
 "C102": {
  "note": "Cosine, sine and exponential are arguments of the model; what is asked of them is in Gabor_Spec.v. The claims about exact symmetry need only that the cosine is even."
 },
 "C103": {
  "note": "[powf(2.0)] is an argument of the model. The two functions are not used by the code that lib.rs compiles. The refutations use x * x for the square."
 },
 "C104": {
  "note": "Overflow is modelled as a panic, as in a debug build; a release build wraps around. drawLine and distPow2 have no i32 arithmetic beyond reading and writing cells."
 },
 "C105": {
  "note": "What was typed as truth value of a rule plays no role (src/Nar.rs:103-121 enters every rule with 10 of 10 observations): the examples follow a rule typed as never working. The three-step case is the finding: the three steps of the loop (src/NarProc.rs:717-718) check three situations, so use two beliefs; the plan is not seen in that step, c105_ex_later shows it begun one step later in one session. Rules with variables and more than nine rules are not covered; which of several competing rules is drawn is the random choice, so it is a disjunction."
 },
 "C106": {
  "note": "At exactly 50p = 29c+4 (or 45p(2p-c) = 8c(c+1)) rounding decides; nothing is claimed there. wants and noneFor say that no operation goals or derived sequences are left from before; c106_stale_refuted shows that such goals keep their old strength, so a rule is tried longer than its counts allow."
 },
 "C107": {
  "note": "This is a finding: src/Map2d.rs:93-94 multiplies the projected length with the difference of the end points instead of its normalised form, so all cells but the first are compared with points far along the line."
 },
 "C108": {
  "note": "The threads are the main thread of src/Reasoner1Entry.rs and the storage worker; the declarative worker gets no message in this program. Random numbers are arguments. The panic for missing evidence at the end (src/Reasoner1Entry.rs:101-103) is a finding: it is reached when no operator happens to be tried out."
 },
 "C109": {
  "note": "The threads are the main thread of src/ProcTicTacToe.rs and the storage worker. Random numbers are arguments; printing is left out, as are the branches for a human and a random player, which the constant at line 32 switches off. Findings: run(n) plays n+1 games (c109_rounds_refuted), and a move that the reasoner calls while it only watches is made at its next turn (c109_does)."
 },
 "C110": {
  "note": "The checked step is a second model of the same lines in which every i64 operation panics outside its range, as in a debug build. Findings: with a large multiplier of the speed (a public field, 0 in the program) or at the end of the clock the step does panic (c110_fast_refuted, c110_clock_refuted). moveCnt of src/ProcTicTacToe.rs is never read and not modelled; it grows by at most one per step."
 },
 "C111": {
  "note": "No variables are introduced: that needs statements as events, which these programs never perceive. The two programs are those of C108 and C109; for tic-tac-toe the bound on the number of steps is that of C109."
 },
 "C112": {
  "note": "About the terms that are remembered, not their truth values. Where the effect is a board nothing is said about the operator: one that is called while the reasoner only watches may stand between the two boards (see C109). The bound on the number of steps is that of C109."
 },
 "C113": {
  "note": "Goals that call an operator are not covered: one that was decided on earlier and not carried out may remain in the active set. Winnable means that some moves of both players lead to a win, not that the win can be forced. The bound on the number of steps is that of C109."
 },
 "C114": {
  "note": "Finding: src/Nar.rs:67 numbers typed sentences from 0, src/NarProc.rs takes the time of an event, also from 0, as its evidence, and src/NarStamp.rs compares both as one kind of number (c114_independent_refuted). Operator goals are left out of the first part: they have the evidence of the belief they were decided on."
 },
 "C115": {
  "note": "Chance means the number that is drawn for trying operators (i_babble, an argument of the model); nothing is said about its distribution. That the move is a legal one is checked by the game afterwards (C109). The bound on the number of steps is that of C109."
 },
 "C116": {
  "note": "Lives are those of C111 (confined): typed goals and perceived events are names of the vocabulary, and beliefs come only from what was perceived and done. A call of an operator that was decided earlier may still be wanted when the board has changed; c116_ttt_wins is about the decisions there are to choose from at the turn. For the tic-tac-toe program the bound on the number of steps is that of C109. Finding: right after its move the program still has the board from before it in its trace (src/ProcTicTacToe.rs flushes the trace only at its turn, line 184), so while it waits it can decide on the same move again; the move is kept and, at its next turn, a cell that is taken is tried (c116_ttt_possible_refuted)."
 },
 "C117": {
  "note": "relevant, advises, wants and noneFor are those of C94 (Teach_Spec). That nothing is wanted that says what to do is the case as long as no goals were derived (c117_ex); c117_reached_ex proves that all premises of c117_wins hold in a state that is reached. The bound on the number of steps is that of C109."
 },
 "C118": {
  "note": "candidate is that of Proc_Spec, winnable that of C113. A decision that is left or a move that was kept is a premise because of c116_held_ex. The bound on the number of steps is that of C109."
 }
}
