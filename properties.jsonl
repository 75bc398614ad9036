{"id": "C01", "title": "Term equality decides identity", "statement": "checkEqTerm(a,b) returns true exactly when a and b are the same Narsese term (same constructor, copula, names, image index and components in order); it therefore agrees with the derived equality that the concept and task hash maps use as key equality.", "quantifier": "all pairs of terms, of any nesting depth and arity", "why_tests_cant": "terms are an unbounded recursive type with 15 constructors; tests only compare a handful of pairs", "anchors": ["src/Term.rs: checkEqTerm, Term"]}
{"id": "C02", "title": "Subterm enumeration is exact", "statement": "retSubterms(t) lists t first and contains x iff x is t or occurs (at any depth, including the relation of an image) inside t; retUniqueSubterms(t) lists exactly the same terms, each exactly once.", "quantifier": "all terms", "why_tests_cant": "completeness and absence of duplicates quantify over all nested positions of all terms", "anchors": ["src/Term.rs: retSubterms, retSubterms2, retUniqueSubterms"]}
{"id": "C03", "title": "Complexity measure", "statement": "calcComplexity is monotone in the subterm relation, is at least 1 for every term without empty compounds, and bounds the number of atoms; consequently divCreditByComplexity never divides by zero on such terms.", "quantifier": "all terms (with and without empty compounds)", "why_tests_cant": "the claim is an induction over all terms; the exceptional empty-compound terms are never exercised by tests", "anchors": ["src/Term.rs: calcComplexity", "src/NarWorkingCycle.rs: divCreditByComplexity"]}
{"id": "C04", "title": "Unification is sound", "statement": "If unify(a,b) returns assignments u then applying them with unifySubst(a,u) yields exactly b.", "quantifier": "all pairs of terms", "why_tests_cant": "soundness must hold for every pair of terms and every order in which variables repeat", "anchors": ["src/NarUnify.rs: unify, unify2, unifySubst"]}
{"id": "C05", "title": "Unification is complete for instances", "statement": "If b can be obtained from a by replacing variables consistently by non-variable terms, unify(a,b) succeeds; and it succeeds only in that case.", "quantifier": "all pairs of terms and all substitutions", "why_tests_cant": "failure to match is a negative statement over all substitutions", "anchors": ["src/NarUnify.rs: unify, unify2, checkAssigned, checkSameVal"]}
{"id": "C06", "title": "Unifier contents", "statement": "The returned assignments bind every variable occurring in a exactly once, bind nothing else, and never bind a variable to a variable; for a variable-free a, unify(a,b) succeeds iff a equals b and then returns no assignments.", "quantifier": "all pairs of terms", "why_tests_cant": "uniqueness and totality of bindings hold for arbitrarily many repeated variables", "anchors": ["src/NarUnify.rs: unify, Asgnment"]}
{"id": "C07", "title": "Substitution laws", "statement": "unifySubst leaves variable-free terms unchanged, is the identity for an empty substitution, removes every bound variable when values are variable-free, and preserves the shape (constructors and arities) of non-variable positions.", "quantifier": "all terms and all assignment lists", "why_tests_cant": "law over an unbounded domain of terms and assignment lists", "anchors": ["src/NarUnify.rs: unifySubst"]}
{"id": "C08", "title": "Operator encoding round trip", "statement": "decodeOp(encodeOp(args,name)) returns (args,name) for every non-empty argument list, and decodeOp(t)=Some((args,name)) only for t = encodeOp(args,name).", "quantifier": "all argument lists, names and terms", "why_tests_cant": "both directions quantify over all terms", "anchors": ["src/TermUtils.rs: decodeOp, encodeOp"]}
{"id": "C09", "title": "Stamp overlap test is exact", "statement": "checkOverlap(a,b) is true iff the two stamps share at least one evidence id, is symmetric, and checkSame(a,b) is true iff the id lists are identical.", "quantifier": "all stamps", "why_tests_cant": "negative answers are claims about every pair of ids", "anchors": ["src/NarStamp.rs: checkOverlap, checkSame"]}
{"id": "C10", "title": "Stamp merge keeps evidence", "statement": "merge(a,b) has min(120, |a|+|b|) ids, all from a or b; when |a|+|b|<=120 it contains every id of both with the same multiplicity, so overlap with a third stamp is detected iff it overlaps a or b. Beyond 120 ids this fails (evidence is forgotten).", "quantifier": "all pairs of stamps of any length", "why_tests_cant": "depends on stamp length; the truncation boundary and beyond is unbounded", "anchors": ["src/NarStamp.rs: merge"]}
{"id": "C11", "title": "Truth functions stay in range (IEEE double)", "statement": "For premises with frequency in [0,1] and confidence in [0,1], deduction, goal deduction, abduction, induction, comparison, intersection and negation return, in IEEE binary64 arithmetic, finite frequency and confidence in [0,1]; revision does so whenever both confidences are below 1.", "quantifier": "all pairs of binary64 truth values in range", "why_tests_cant": "2^128 input pairs with rounding; tests sample a few", "anchors": ["src/Tv.rs: ded, dedGoal, abd, ind, rev, comp, int, neg, w2c, c2w, or"]}
{"id": "C12", "title": "Revision laws", "statement": "Revision is commutative, its frequency lies between the two premise frequencies, and its confidence is not lower than either premise's; revision with a zero-confidence truth value changes nothing (in exact arithmetic).", "quantifier": "all pairs of truth values with confidence below 1", "why_tests_cant": "algebraic laws over a continuum", "anchors": ["src/Tv.rs: rev, c2w, w2c"]}
{"id": "C13", "title": "Revision at full confidence breaks down", "statement": "Revising a truth value of confidence 1.0 with any other confident one yields NaN components, which makes any later sort by expectation panic; so full confidence input must be excluded for the memory guarantees.", "quantifier": "the boundary c = 1.0 of binary64", "why_tests_cant": "shows the range property cannot be extended to the closed interval", "anchors": ["src/Tv.rs: rev, c2w", "src/NarMem.rs: storeInConcepts2"]}
{"id": "C14", "title": "Expectation range and negation", "statement": "calcExp of a truth value in range lies in [0,1]; negation is an involution that mirrors expectation around 0.5, and is monotone (exact arithmetic); in binary64 the expectation of an in-range truth value is still in [0,1].", "quantifier": "all truth values in range", "why_tests_cant": "continuum of inputs and rounding", "anchors": ["src/Tv.rs: calcExp, neg"]}
{"id": "C15", "title": "No inference on overlapping evidence", "statement": "inference(pa,pb) returns no conclusion when the premises' stamps share an evidence id; otherwise every conclusion carries the merge of both stamps, is a judgement, eternal, and has a truth value.", "quantifier": "all pairs of sentences", "why_tests_cant": "every rule and premise combination must respect it", "anchors": ["src/NarWorkingCycle.rs: inference, inference2"]}
{"id": "C16", "title": "Binary rules only derive licensed conclusions", "statement": "Every conclusion of infBinary is an instance of one of the documented NAL rule schemas (set union, conjunctive/implicative detachment, question instantiation, extensional intersection, comparison, transitivity, abduction, induction) applied to the two premises in one of the two orders; and whenever a schema is applicable its conclusion is returned.", "quantifier": "all pairs of terms, punctuations and truth values", "why_tests_cant": "soundness and completeness with respect to an independent rule specification over all term shapes", "anchors": ["src/NarWorkingCycle.rs: infBinary, infBinaryInner, inf3, inf5, infImplDed, inf7, inf10, infCompPred, infCompSubj, infGeneralizedJudgJudg"]}
{"id": "C17", "title": "What swapping the premises changes", "statement": "infBinary(b,a) derives the same terms with the same truth functions as infBinary(a,b), up to order; each truth function gets the truth values in the order of the call. So the truth values agree unless both premises are inheritance/similarity statements (the only ones with asymmetric functions). Refuted: that a user gets the same truth values in general, and that the value of a rule whose premises were swapped is the one the rule prescribes.", "quantifier": "all pairs of premises", "why_tests_cant": "needs a comparison of all rule outcomes in both orders", "anchors": ["src/NarWorkingCycle.rs: infBinary"]}
{"id": "C18", "title": "Structural rules", "statement": "Every conclusion of infSinglePremise is licensed by a structural schema (negation elimination, intersection decomposition, product/image transformation, singleton set similarity, parallel decomposition), keeps the premise truth value (negation mirrors it) and stamp, and product/image transformations are mutually inverse.", "quantifier": "all single premises", "why_tests_cant": "all term shapes and truth values", "anchors": ["src/NarWorkingCycle.rs: infSinglePremise, infSinglePremise2, infNeg, infStructPred1, infStructSubj1, infStructProd0, infStructProd1, infStructImg0, infStructImg1, infStructSetInt, infStructSetExt, infStructDecomposePar"]}
{"id": "C19", "title": "Inference does not crash on judgements", "statement": "infBinary and infSinglePremise return normally for every pair of judgements with truth values; the panicking inputs (questions matching an image or implication schema; products with fewer than two components) are exactly characterised.", "quantifier": "all terms, punctuations and optional truth values", "why_tests_cant": "absence of panics over all inputs", "anchors": ["src/NarWorkingCycle.rs: infBinary, infSinglePremise, infStructProd0, infStructImg0, inf7"]}
{"id": "C20", "title": "Belief tables are bounded and ordered", "statement": "After any sequence of stores with limit n>=1 every concept has between 1 and n beliefs in its expectation table and in its usage table, and the expectation table is sorted by non-increasing expectation (new concepts start with one belief).", "quantifier": "all sequences of stored sentences, any limit", "why_tests_cant": "history-dependent invariant over unbounded sequences", "anchors": ["src/NarMem.rs: storeInConcepts, storeInConcepts2"]}
{"id": "C21", "title": "Beliefs are judgements and never duplicate evidence", "statement": "Only judgements are stored; within one table no two beliefs about the same term share evidence.", "quantifier": "all store histories", "why_tests_cant": "invariant over histories", "anchors": ["src/NarMem.rs: storeInConcepts2"]}
{"id": "C22", "title": "Stored knowledge is reachable by every component", "statement": "After storing a judgement in a memory, the concept of every subterm exists; a new concept contains the judgement in both tables, and retrieval by terms returns exactly the beliefs of the concepts of all subterms. Storing never removes a concept.", "quantifier": "all memories and judgements", "why_tests_cant": "quantifies over all memories and all subterms", "anchors": ["src/NarMem.rs: storeInConcepts, ret_beliefs_of_concept, ret_beliefs_by_terms_nonunique"]}
{"id": "C23", "title": "Concept forgetting keeps the best", "statement": "limitMemory(n) leaves at most n concepts, leaves the memory unchanged if it has at most n, changes no retained concept, and never drops a concept rated higher than a retained one - for every hash map iteration order.", "quantifier": "all memories, limits and iteration orders", "why_tests_cant": "iteration order of the hash map is not under test control", "anchors": ["src/NarMem.rs: limitMemory"]}
{"id": "C24", "title": "Belief revision is sound", "statement": "Revising memory with a judgement only combines sentences about the same term whose stamps do not overlap; the produced belief carries the merged stamp and revised truth value; the number of beliefs per table does not grow.", "quantifier": "all memories and judgements", "why_tests_cant": "history and content dependent", "anchors": ["src/NarWorkingCycle.rs: memReviseBelief"]}
{"id": "C25", "title": "Task admission", "statement": "Adding a task rejects judgements above the configured complexity and duplicates (same term, same stamp) already queued; an admitted judgement task appears in the task list and under each of its unique subterms; task ids are pairwise distinct along every history.", "quantifier": "all histories of task additions", "why_tests_cant": "history-dependent uniqueness", "anchors": ["src/NarWorkingCycle.rs: memAddTask, populateTaskByTermLookup"]}
{"id": "C26", "title": "Attention bound of the declarative reasoner", "statement": "After each maintenance cycle at most 30 judgement tasks remain, they are those with the highest credit, and the term index refers only to tasks in the list.", "quantifier": "all task tables and times", "why_tests_cant": "depends on state reached after arbitrary histories", "anchors": ["src/NarWorkingCycle.rs: reasonCycle"]}
{"id": "C27", "title": "Task selection", "statement": "taskSelByCreditTop returns the index of a task with maximal credit (first one on ties); random selection always returns a valid index for a non-empty list, is monotone in the random value, and skips tasks of zero credit.", "quantifier": "all task lists, random values and times", "why_tests_cant": "all random values", "anchors": ["src/NarWorkingCycle.rs: taskSelByCreditTop, taskSelByCreditRandom, task2SelByCreditRandom, conceptSelByAvRandom, tasksSelHighestCreditIdx"]}
{"id": "C28", "title": "Answers improve strictly and match the question", "statement": "For a question, every answer reported to the handlers unifies with the question and has strictly higher expectation than all answers reported before; the recorded best expectation never decreases and equals the maximum of the reported ones.", "quantifier": "all sequences of candidate answers", "why_tests_cant": "history property over unbounded sequences", "anchors": ["src/NarWorkingCycle.rs: qaTryAnswer"]}
{"id": "C29", "title": "Goal store bound", "statement": "After limitMemory the goal system holds at most the configured number of goals, filed under their own derivation depth, and keeps the most desired ones; only goals are ever stored.", "quantifier": "all goal stores and limits", "why_tests_cant": "history dependent", "anchors": ["src/NarGoalSystem.rs: limitMemory, addEntry, addEntry2, retEntries"]}
{"id": "C30", "title": "Which goals are recognised as already stored", "statement": "Operator goals with the same term and stamp are never stored twice. Any other goal is recognised only if it has the stamp of the first goal of its term at some level, and such a first goal is recognised unless it shares evidence with the first one of another level; with one level per term, exactly the first goal is recognised. An added goal is there afterwards. Refuted: that no goal with the same term and stamp is stored twice.", "quantifier": "all sequences of additions", "why_tests_cant": "history dependent; fails on a three-step history", "anchors": ["src/NarGoalSystem.rs: addEntry, checkSetContains"]}
{"id": "C31", "title": "Goal satisfaction", "statement": "event_occurred marks exactly the goals whose term equals the event as no longer desired and leaves all other goals unchanged.", "quantifier": "all goal stores and events", "why_tests_cant": "frame condition over arbitrary stores", "anchors": ["src/NarGoalSystem.rs: event_occurred"]}
{"id": "C32", "title": "Goal derivation is sound", "statement": "Every goal derived from a goal and a belief is the antecedent of a predictive implication whose consequent equals the goal, carries the merged stamp and the goal-deduction truth, and is one level deeper; a sequence goal yields its first element; overlapping evidence yields nothing. Every goal stored by a derivation cycle is reached by a chain of such steps from a stored goal through stored beliefs, and all direct subgoals of the sampled goal are stored.", "quantifier": "all goals and beliefs", "why_tests_cant": "all term shapes", "anchors": ["src/NarInfProcedural.rs: infGoalBelief, infGoalDetach", "src/NarGoalSystem.rs: sampleAndInference, deriveGoalsHelper"]}
{"id": "C33", "title": "Decision making picks the best", "statement": "The goal chosen for execution has maximal expectation among all candidates that match the current events, and is chosen only if its expectation exceeds the threshold.", "quantifier": "all goal stores and event windows", "why_tests_cant": "maximality over unbounded candidates", "anchors": ["src/NarGoalSystem.rs: selHighestExpGoalByState", "src/NarProc.rs: narStep1"]}
{"id": "C34", "title": "Perception window", "statement": "The event trace keeps the most recent events in order, never more than its bound, and event_happened appends without disturbing older ones.", "quantifier": "all event sequences", "why_tests_cant": "unbounded sequences", "anchors": ["src/NarProc.rs: TraceDefault"]}
{"id": "C35", "title": "Evidence counts stay consistent", "statement": "For every piece of procedural evidence 0 <= positive count <= total count and total count >= 1 along every sequence of observations, merges and missed predictions; the derived frequency and confidence therefore lie in [0,1].", "quantifier": "all histories of procedural evidence operations", "why_tests_cant": "history invariant", "anchors": ["src/NarProc.rs: mem_add_evidence, narInit, narStep0", "src/NarSentence.rs: retFreq, retConf"]}
{"id": "C36", "title": "Anticipations are settled exactly once", "statement": "Each anticipation is removed when its event is perceived in the window or when its deadline passes, in the latter case with exactly one unit of negative evidence; after the step all remaining deadlines lie in the future.", "quantifier": "all anticipation sets and event traces", "why_tests_cant": "all schedules of events and deadlines", "anchors": ["src/NarProc.rs: narStep0"]}
{"id": "C37", "title": "Interval quantisation", "statement": "findMinTableIdx returns the last index whose entry does not exceed the interval (index 0 if the interval is below the second entry), so it is monotone in the interval and correct for every increasing table; the built-in table is increasing.", "quantifier": "all tables and intervals", "why_tests_cant": "all integers", "anchors": ["src/NarProc.rs: findMinTableIdx, narInit"]}
{"id": "C38", "title": "Impl-seq decomposition", "statement": "For a predictive implication <(c1,...,op) =/> e>, retSeqCond, retImplSeqOp and retPred return condition, operation and effect from which the term can be rebuilt; checkIsCallableOp accepts exactly operator terms with a registered name.", "quantifier": "all terms and operator registries", "why_tests_cant": "all terms", "anchors": ["src/NarProc.rs: retSeqCond, retSeqCond2, retImplSeqOp, retPred, checkIsCallableOp, ret_op_by_name"]}
{"id": "C39", "title": "Parser accepts what it prints", "statement": "For every term in the canonical fragment, parsing its printed form yields the same term; for the other compounds the printed form is not accepted again.", "quantifier": "all terms", "why_tests_cant": "round trip over all terms", "anchors": ["src/NarseseParser.rs: parseNarsese, parseSubjOrPred", "src/Term.rs: convTermToStr"]}
{"id": "C40", "title": "Parser terminates without side effects", "statement": "Parsing terminates on every input, consumes a prefix of the text, and the result depends only on that prefix (trailing text is ignored).", "quantifier": "all input strings", "why_tests_cant": "all strings", "anchors": ["src/NarseseParser.rs: parseNarsese, parse0"]}
{"id": "C41", "title": "Evidence ids are unique", "statement": "Every sentence accepted from outside carries a fresh single-element stamp; ids of inputs are strictly increasing along every session, so independent inputs never overlap.", "quantifier": "all input sessions", "why_tests_cant": "history property", "anchors": ["src/Nar.rs: inputT2", "src/NarWorkingCycle.rs: DeclarativeShared.stampIdCounter"]}
{"id": "C42", "title": "Input dispatch", "statement": "An accepted input changes exactly the store it is meant for: event judgements go to the trace, event goals to the goal system, eternal judgements to the task memory or procedural memory (temporal), questions to the question list; rejected input changes nothing.", "quantifier": "all sentences and states", "why_tests_cant": "frame conditions", "anchors": ["src/Nar.rs: inputT2, inputN"]}
{"id": "C43", "title": "Server broadcast", "statement": "Every connected client receives each broadcast message exactly once and in order, and the message buffer stays bounded.", "quantifier": "all interleavings of clients, messages and reads", "why_tests_cant": "interleavings of an async server", "anchors": ["src/NarServer.rs: connectionLoop, run, QHandlerImpl"]}
{"id": "C44", "title": "Tic-tac-toe environment", "statement": "A move only fills an empty cell and changes nothing else; the game result reported agrees with the rules for every board.", "quantifier": "all boards and moves", "why_tests_cant": "all boards", "anchors": ["src/ProcTicTacToe.rs: tryMove"]}
{"id": "C45", "title": "Pong environment", "statement": "The bat and the ball stay inside the field and hit/miss counters only grow, for every sequence of operator calls and random numbers. Between two starts the ball moves one row per step and one column at every odd time, and turns only at the top row; it is put back into play, at the drawn place of the upper half, exactly when it comes to the bottom row or a side column; a landing is a hit exactly when the bat covers that column; an operator call moves the bat by three columns up to its bounds.", "quantifier": "all runs", "why_tests_cant": "unbounded runs", "anchors": ["src/EnvPong3.rs: simStep"]}
{"id": "C46", "title": "2D map access", "statement": "readAt after writeAt returns the written value at that position and leaves all other positions unchanged; out of range accesses never panic; crop copies exactly the addressed rectangle.", "quantifier": "all maps and coordinates", "why_tests_cant": "all coordinates including negative ones", "anchors": ["src/Map2d.rs: readAt, writeAt, crop, map2dDrawBox"]}
{"id": "C47", "title": "Prototype classifier", "statement": "classify returns an index into the prototype list whose similarity is maximal and at least 0.5, or adds exactly one prototype; existing prototypes never disappear. Every stimulus that is learned counts as evidence of exactly one prototype.", "quantifier": "all classifiers and stimuli", "why_tests_cant": "maximality and history", "anchors": ["src/ModVisionB.rs: classify, classify_max, calc_sims", "src/ModVisionD.rs:27-120"]}
{"id": "C48", "title": "Automatic differentiation", "statement": "Each dual-number operation propagates the exact derivative; this holds for sum, difference, product and exponential but fails for the quotient and therefore the sigmoid.", "quantifier": "all differentiable inputs", "why_tests_cant": "derivatives over the reals", "anchors": ["src/ad.rs: add, sub, mul, div, exp, sigmoidAct"]}
{"id": "C49", "title": "Worker schedules preserve memory invariants", "statement": "For every interleaving of input, reasoning cycles and the background deriver, the belief table and task invariants hold and the work queue never exceeds its bound.", "quantifier": "all schedules", "why_tests_cant": "thread interleavings", "anchors": ["src/NarWorkingCycle.rs: createMem2, reasonCycle, memAddTask"]}
{"id": "C50", "title": "Copying a term preserves it", "statement": "Term::clone (hand written) returns a term equal to the original, so beliefs, tasks and map keys built from clones refer to the same statement.", "quantifier": "all terms", "why_tests_cant": "The term type is recursive with 15 constructors; a test only covers the nestings it lists.", "anchors": ["src/Term.rs:Clone for Term"]}
{"id": "C51", "title": "Strength and symmetry of truth functions (IEEE double)", "statement": "Deduction and intersection do not depend on premise order, deduction never increases confidence over either premise, and abduction/induction never give more than confidence 0.5 - bit-exactly in binary64 arithmetic.", "quantifier": "all pairs of binary64 truth values in range", "why_tests_cant": "Rounding behaviour over 2^128 pairs of doubles cannot be enumerated.", "anchors": ["src/Tv.rs:ded", "src/Tv.rs:abd", "src/Tv.rs:ind", "src/Tv.rs:int"]}
{"id": "C52", "title": "Counters give valid truth values and usefulness", "statement": "For evidence counters 0 <= pos <= cnt, cnt >= 1 the frequency and confidence reported for a sentence lie in [0,1]; the usefulness of a usage record with a non-negative use count lies in [0,1] for any pair of times.", "quantifier": "all 63-bit counters and times", "why_tests_cant": "Conversion from i64 to f64 rounds; the extreme values are outside any sample.", "anchors": ["src/NarSentence.rs:retFreq", "src/NarSentence.rs:retConf", "src/NarSentence.rs:calcUsageUsefulness"]}
{"id": "C53", "title": "Occurrence counting", "statement": "count_occurence_subterms is never negative, is 1 for the term itself, and is positive exactly if the searched term occurs in the term outside of image relations; a term with two different parts containing the searched term counts at least 2.", "quantifier": "all pairs of terms", "why_tests_cant": "recursive structure with 15 constructors of arbitrary depth", "anchors": ["src/Term.rs: count_occurence_subterms"]}
{"id": "C54", "title": "Truth functions are the NAL formulas", "statement": "In exact arithmetic deduction, abduction, induction, comparison, intersection, negation, goal deduction and revision compute the frequencies and confidences of the published NAL truth functions with evidential horizon 1.", "quantifier": "all rational truth values", "why_tests_cant": "an algebraic identity over an infinite domain", "anchors": ["src/Tv.rs: ded, dedGoal, abd, ind, comp, int, neg, rev"]}
{"id": "C55", "title": "No belief out of thin air", "statement": "In every run of the declarative reasoner (tasks added, questions asked, cycles, worker steps, flushes in any order) every task and every stored belief is derivable from the input judgements by the single-premise rules, the two-premise rules and revision; all evidence ids come from the inputs and no stamp contains an id twice.", "quantifier": "all runs, inputs, random values and schedules of whole steps", "why_tests_cant": "history property over unbounded runs", "anchors": ["src/NarWorkingCycle.rs: memAddTask, memReviseBelief, reasonCycle", "src/NarMem.rs: storeInConcepts"]}
{"id": "C56", "title": "One belief per statement", "statement": "In every run each belief table of each concept holds between one and the configured number of beliefs, at most one per statement, all of them judgements within the complexity limit about the concept's term, each with a truth value.", "quantifier": "all runs, inputs, random values and schedules of whole steps", "why_tests_cant": "history property over unbounded runs", "anchors": ["src/NarWorkingCycle.rs: memAddTask, memReviseBelief", "src/NarMem.rs: storeInConcepts"]}
{"id": "C57", "title": "Premise selection", "statement": "The second premises collected for a selected task are distinct, at most 300, ordered by complexity, and each shares a subterm with it; a task among the first 51 under a shared subterm is only left out in favour of 300 tasks of no higher complexity; for small task tables the selection is exactly the tasks sharing a subterm.", "quantifier": "all consistent task tables and terms", "why_tests_cant": "the cut-offs only matter for large tables reached after long histories", "anchors": ["src/NarWorkingCycle.rs: reasonCycle"]}
{"id": "C58", "title": "Credit and usage bookkeeping", "statement": "In a cycle the question credit of a task grows by the priorities of exactly the questions sharing an indexed subterm with it, the base credit of exactly the queued tasks is raised by 0.5 and divided by complexity, and exactly the usage counters of the selected premises are advanced, once per use.", "quantifier": "all consistent task tables, questions, messages", "why_tests_cant": "quantifies over all tables and questions", "anchors": ["src/NarWorkingCycle.rs: reasonCycle, Task"]}
{"id": "C59", "title": "The deriver is complete", "statement": "After the worker handled a message, every conclusion of a one- or two-premise inference schema from the selected task and any of its partners (secondary tasks, beliefs of its concept) with independent evidence and admissible complexity is queued with the merged stamp, and no queued task is lost.", "quantifier": "all runs and messages", "why_tests_cant": "all states reachable by unbounded runs", "anchors": ["src/NarWorkingCycle.rs: workerThread, memAddTask", "src/NarWorkingCycle.rs:38-990"]}
{"id": "C60", "title": "Answers reach all questions", "statement": "Each derived judgement is offered to each open question and each question ends with its best answer; the sampled question is tried against exactly the beliefs of the concepts of its subterms, in the procedural memory for temporal questions and the declarative memory otherwise.", "quantifier": "all question lists, conclusions and memories", "why_tests_cant": "unbounded lists and histories", "anchors": ["src/NarWorkingCycle.rs: reasonCycle, qaTryAnswer"]}
{"id": "C61", "title": "Procedural memory refines concept memory", "statement": "The procedural memory, whose beliefs are shared mutable cells, behaves like the concept memory when its cells are read: storing, forgetting and retrieval commute with reading. No two table slots ever share a cell, so a write through a shared pointer changes exactly one slot.", "quantifier": "all histories of stores, forgetting and writes", "why_tests_cant": "unbounded histories and aliasing patterns", "anchors": ["src/NarMem.rs: storeInConcepts2, limitMemory, ret_beliefs_by_terms_nonunique", "src/NarGoalSystem.rs: query_by_antecedent, query_by_consequence"]}
{"id": "C62", "title": "Goal sampling is safe", "statement": "In every reachable goal store with at least one level, sampling never panics (all accumulated weights are non-negative numbers and the running sums never decrease) and only returns stored goals with their own depth, for all random numbers. With n filled levels, a random number r picks the j-th filled level whenever j + 1/4 <= r*n <= j + 1, and such numbers exist for every j.", "quantifier": "all reachable goal stores and all pairs of floating point numbers", "why_tests_cant": "all reachable stores and all random draws, including rounding", "anchors": ["src/NarGoalSystem.rs: sample, addEntry2", "src/BinSearch.rs"]}
{"id": "C63", "title": "Look-ups by term return exactly the matching entries", "statement": "A goal look-up by term returns a stored goal with exactly that term whenever there is one, a look-up of beliefs by antecedent returns exactly the stored implications of that concept whose sequence begins with the term, and a look-up by consequence returns exactly the stored implications of that concept whose effect is the term.", "quantifier": "all goal stores, procedural memories and terms", "why_tests_cant": "all stores and all terms", "anchors": ["src/NarGoalSystem.rs: query, query_by_antecedent, query_by_consequence"]}
{"id": "C64", "title": "Perception is sound and complete", "statement": "Every message the trace sampling sends to the worker is a real observation: three events of the trace in order, condition and effect no operations, operations callable, with the evidence ids of exactly these events and the quantised interval. With one operation per window, every such triple ending in one of the last two events can be drawn.", "quantifier": "all traces, registries, interval tables and random draws", "why_tests_cant": "all traces and all random draws", "anchors": ["src/NarProc.rs: narStep0, perceive, calcIdxs"]}
{"id": "C65", "title": "Variable introduction", "statement": "A variable is introduced only into an implication whose condition gives its subject a property and whose subject occurs at least twice; putting the subject back for a fresh variable gives the original term, no occurrence of the subject remains visible, and everything else of the sentence is copied. A random name is made exactly if none of the draws is 15.", "quantifier": "all sentences and random draws", "why_tests_cant": "all terms and all draws", "anchors": ["src/NarProc.rs: matchandintro_var1_sentence, create_random_varname, mem_add_evidence"]}
{"id": "C66", "title": "Only motivated, registered operations are carried out", "statement": "In every second half step the events added to the trace are a call of a registered operation preceded by what that operation injects, and the call is the best eligible operation goal (which is removed and anticipated at its own interval) or one babbled operation; the goal comes from a stored goal or from a forward plan of at most two beliefs.", "quantifier": "all states and random draws of the second half step", "why_tests_cant": "all goal stores, memories, traces and draws", "anchors": ["src/NarProc.rs: narStep1"]}
{"id": "C67", "title": "The worker counts each observation once", "statement": "Storing an observation adds its counts exactly once to every belief of the involved concepts with the same implication and interval and no shared evidence, changes no other belief, and adds a new belief only if there is none to support; afterwards none of these beliefs can count the same observation again.", "quantifier": "all well-formed procedural memories and observations", "why_tests_cant": "all memories, aliasing of stored copies", "anchors": ["src/NarProc.rs: worker in narInit, mem_add_evidence"]}
{"id": "C68", "title": "Sentences are read exactly as written", "statement": "A sentence written as term, punctuation, optional truth value in braces and optional event mark is read as exactly that term, punctuation, truth value and event flag, for every way of writing the term and every implementation of number parsing; removing spaces around stars terminates, removes nothing but spaces and leaves tidy text alone; reading panics exactly when a byte is not ASCII or the text ends in a truth value whose parts are no numbers.", "quantifier": "all texts, terms, numbers and number parsers", "why_tests_cant": "The grammar is recursive and the set of texts is infinite; an exact panic condition is a statement about all texts.", "anchors": ["src/NarseseParser.rs: parseNarsese, parseNarseseRetTv"]}
{"id": "C69", "title": "Every line of input does what the command table says", "statement": "A line given to the reasoner does exactly the action of the command table for the text without its line ends: nothing for empty lines and comments, z cycles (each advancing the time by one) for !s with the decimal number z, quitting exactly for !QQ, Narsese input for everything that is no command. Every accepted line keeps the reasoner in a state reachable by the documented inputs. Findings: a number that does not fit or is none, and any byte outside ASCII in Narsese, end the program; !spA and !spB run both half steps.", "quantifier": "all lines of bytes, states, random draws, number parsers and language networks", "why_tests_cant": "The set of lines is infinite; the panic conditions are exact statements over all byte strings.", "anchors": ["src/NarInputFacade.rs: inputLine", "src/Nar.rs: cycle"]}
{"id": "C70", "title": "The interactive loop repeats the last line", "statement": "In the interactive mode an empty line repeats the last non-empty one and any other line replaces it. Finding: at the end of the input the loop repeats the last line forever and never ends.", "quantifier": "all numbers of reads and all states", "why_tests_cant": "Non-termination is a statement about unboundedly many reads.", "anchors": ["src/NarInteractive.rs: runInteractive"]}
{"id": "C71", "title": "Relations put in by the operator ^nlpRel0", "statement": "Executing ^nlpRel0 puts its relation into the declarative memory as a judgement with a fresh evidence id; a product subject keeps its first two components, with a sequence (x, and, y) turned into an intersection. Findings: further components are lost, a product with fewer than two components panics (iff), and the limit of 20 beliefs per concept is not kept.", "quantifier": "all relations and all sessions", "why_tests_cant": "exact panic condition over all terms; the limit breaks only after long sessions", "anchors": ["src/OpLib.rs: Op__nlp_rel_0"]}
{"id": "C72", "title": "Image arithmetic and convolution", "statement": "Sums, differences and quotients of maps are taken cell by cell, the squared length sums every cell once, and a convolution with a kernel of even size sums over the whole kernel centred at each cell. Finding: with a kernel of odd size the last row and column of the kernel never count.", "quantifier": "all maps and kernels", "why_tests_cant": "all sizes and contents; the loss for odd kernels is a property of every image", "anchors": ["src/Map2d.rs: map2dSub, map2dAdd, map2dDivScalar, map2dDistPow2", "src/ModVisionC.rs: convWithoutBorder, convo"]}
{"id": "C73", "title": "Network built from a parameter vector", "statement": "A two-layer network built from a parameter vector reads each parameter exactly once in order, panics exactly when the vector is too short, marks exactly the chosen parameter, and every weight's mark is its derivative; the mark of a bias is not its derivative (bias = 15 or 8 times the parameter).", "quantifier": "all vectors, sizes and marked indices", "why_tests_cant": "unbounded sizes; derivatives over the reals", "anchors": ["src/Nn.rs: buildNnFromParameters"]}
{"id": "C74", "title": "Vector helpers", "statement": "Vector addition, scaling and dot product give the pointwise result in order, panic exactly when the second vector is shorter, and addition and dot product commute bit for bit on vectors of the same length.", "quantifier": "all vectors of f64", "why_tests_cant": "unbounded vectors, all bit patterns", "anchors": ["src/mlutils.rs: vecAddScale, vecAdd, vecScale, vecDot"]}
{"id": "C75", "title": "Input and output of the language network", "statement": "The input for a sequence of signs is 12 blocks of 34 numbers with exactly one 1 each, filled from the end; more than 12 signs or a sign above 33 panic and nothing else does; different sequences give different inputs; a sentence has signs exactly when every word is known; the outputs are the two-layer affine formula, operation by operation, and forward panics exactly on a wrong shape.", "quantifier": "all sign sequences, all word lists, all networks, any arithmetic", "why_tests_cant": "unbounded sequences and weights, all f64 bit patterns", "anchors": ["src/ModNlpA.rs: conv_seq_to_nninput, encode_onehot, forward, dot, prot_pos0, conv_tokens_to_poss"]}
{"id": "C76", "title": "Run of the language network", "statement": "The winner is the first greatest output (above 1 counts as 1; 0 if none is positive). A run succeeds exactly when the network can be loaded, the log file is missing, all words are known and the dialogue of the network with itself ends (action 0 or ten steps) with all words needed present; log and relations are then exactly those of the dialogue. A second run always panics. More than eleven words panic. A network that answers all training samples repeats every lesson for any words of the right kinds; such a network of the size used exists.", "quantifier": "all networks, sentences and files", "why_tests_cant": "all f64 weights; all sentences", "anchors": ["src/ModNlpA.rs: network_run, calc_max_onehot_idx, train (samples)"]}
{"id": "C77", "title": "Relations of the language network in the reasoner", "statement": "Every relation of a run is written as a text the reasoner parses to the judgement <(a*b)-->h> with frequency 1 and confidence 0.998, except that a relation with a question mark is lost; processing a natural sentence is exactly running the network and feeding these judgements.", "quantifier": "all runs, all sentences, all reasoner states", "why_tests_cant": "all combinations of words and states", "anchors": ["src/ModNlpA.rs: convRelToNarsese", "src/NarModuleNlp3.rs: process"]}
{"id": "C78", "title": "Storing and loading the language network", "statement": "Loading what was stored gives the network back without derivatives and signs of zeros (trailing empty layers are lost); loading panics exactly if the network is empty or has an empty layer before a non-empty one; with a NaN the store stops there, its result is ignored and the rest of the network is missing.", "quantifier": "all networks", "why_tests_cant": "all shapes and all f64 values", "anchors": ["src/ModNlpA.rs: nn_store, nn_load"]}
{"id": "C79", "title": "Training of the language network", "statement": "One epoch changes exactly the chosen number, by the learning rate times error times the exact derivative of the chosen output; over the reals the error shrinks by the factor 1 - lr*g^2; numbers of other output neurons and weights of zero inputs stay; a step panics exactly for invalid choices; the training never panics, keeps the shape and leaves no derivative marked, for every sine and any number of epochs, and what it stores can be run unless a number is NaN.", "quantifier": "all networks, choices, samples, learning rates, numbers of epochs", "why_tests_cant": "unbounded epochs; derivative over the reals", "anchors": ["src/ModNlpA.rs: train, rng_genint"]}
{"id": "C80", "title": "The Q&A benchmark reports exactly the first cycle after which an answer had been given", "statement": "Eval::run, interleaved in any way with the deriver worker, returns Some(i) only if an answer was reported since it began, it has done exactly i+1 cycles and none of the checks after earlier cycles saw an answer; it returns None only after 180 cycles none of which saw one; every interleaving ends, until then some thread can move unless one panicked, and every answer it counts is an instance of a question that follows from the input.", "quantifier": "every system state with an idle client, every schedule of main thread and worker, every cycle argument", "why_tests_cant": "Which cycle sees the answer depends on the interleaving with the worker thread; tests see a few schedules.", "anchors": ["src/Eval.rs:12-53", "src/NarWorkingCycle.rs"]}
{"id": "C81", "title": "The benchmark score rewards more and sooner answers and stays in its range", "statement": "The score of bQA2 is the sum of exp(-cycles/500) over the answered evaluations divided by the number of runs; with k files it is between 0 and k, and equals k exactly if everything was answered in the first cycle; answering more or sooner never lowers it; the unanswered ratio is in [0,1], 0 iff all and 1 iff nothing was answered.", "quantifier": "all result tables, over the reals; the empty tables also in doubles", "why_tests_cant": "Bounds and monotonicity quantify over all result tables.", "anchors": ["src/bin/main.rs:82-123"]}
{"id": "C82", "title": "The interactive program feeds all files in order and stops at the first quit; the chaos program checks memory management", "statement": "\"it\" feeds the lines of all files in order up to and including the first quit command, which ends the program, and otherwise continues with the lines of the user in the state the files left. Refuted for the chaos environment: whatever is drawn and whatever the storage worker does, it panics within its first two rounds because it passes no declarative memory.", "quantifier": "all files, all lines, all random draws, all worker interference", "why_tests_cant": "The draws, files and worker interference are unbounded.", "anchors": ["src/bin/main.rs:18-32", "src/NarInteractive.rs:8-44", "src/ProcChaosEntry.rs:17-65"]}
{"id": "C83", "title": "The perception limit keeps the beginning of the list", "statement": "AeraishPerceptionComp::limit returns the first min(maxLen,len) items unchanged; if the list was sorted by some order, nothing dropped is above anything kept. Refuted without sorting: the most salient item may be dropped.", "quantifier": "all lists, lengths and orders", "why_tests_cant": "Universal over lists and limits.", "anchors": ["src/AeraishPerceptionComp.rs:11-19"]}
{"id": "C84", "title": "No step of the declarative reasoner panics", "statement": "In every state that clients and the deriver worker can reach in any schedule, no next step of any thread panics (sorting, indexing, unwrapping, printing, division), provided input terms are well formed, input truth values are in range, nothing derivable has confidence 1.0, one thread runs cycles, and the counters fit 64 bits. At most 120 one-piece observations of confidence at most 0.999999 never lead to confidence 1.0. The benchmark is never stuck. Refuted without the conditions: a one-component product, inputs of confidence 1.0, 241 observations.", "quantifier": "all input sets, all schedules, all credits and usage counters written by others, any number of clients and beliefs", "why_tests_cant": "Panics depend on the interleaving and on values of all stored beliefs; a test tries a few runs.", "anchors": ["src/NarWorkingCycle.rs:1016-2015", "src/NarMem.rs:1-235", "src/Tv.rs:1-82", "src/NarStamp.rs:1-60", "src/Term.rs:1-240"]}
{"id": "C85", "title": "No step of the procedural reasoner or its storage worker panics", "statement": "As long as every remembered event has a text and gives no property to a part of an operation call, and all counters fit 64 bits, no next step of the main thread (input, both half steps, sending) or of the storage worker panics, in any interleaving; with operations that inject nothing this holds for every run of inputs of that kind shorter than the counters allow. Refuted without the conditions: a property of an operation name, an empty compound, a typed temporal belief, no declarative reasoner, a drawn 15.", "quantifier": "all configurations, operations, interleavings, inputs and random numbers, runs of any length", "why_tests_cant": "The panics need a learned, generalised and derived belief to meet a later event; interleavings and stored states are unbounded.", "anchors": ["src/NarProc.rs:100-1186", "src/NarGoalSystem.rs:30-865", "src/NarInfProcedural.rs:1-244", "src/NarMem.rs:1-235"]}
{"id": "C86", "title": "Exactly the terms of a given shape can be typed", "statement": "A term is read from some text, as a term or inside a sentence of any kind, exactly when its names have 1 to 512 legal characters, its sets have one element, its images one component at place 1 or 2, its conjunctions two to four, its intersections two, its sequences and products at least two components, and it has no parallel compound. Every term that is read has the components the rules index into and can be printed. Refuted: the reasoner concludes judgements that no text reads as (a thing with two properties).", "quantifier": "all texts and all terms", "why_tests_cant": "There are infinitely many texts and terms; that no text gives a term cannot be observed by running the parser.", "anchors": ["src/NarseseParser.rs:1-958", "src/Term.rs:150-330", "src/NarWorkingCycle.rs:457-500"]}
{"id": "C87", "title": "No thread of the whole program panics, gets stuck or runs on for ever", "statement": "Take the program as started, with any plain operators, and any interleaving of the main thread (reading and doing lines), the deriver worker and the storage worker. If every line is ASCII with readable numbers, statements have truth values in range that are at most 0.999999 sure and are not temporal, and events give no property to a part of an operation, no step of any thread panics while at most 120 statements are typed and the counters fit 64 bits. In every state, whatever was typed, only finitely many steps follow before the next line is read, and when no thread can go on, all jobs are done, both workers are idle, both queues are empty and the next line can be read. Refuted without the conditions: an unreadable number, a typed temporal belief, two statements of confidence 1.0, a property of an operator name.", "quantifier": "all lines, random numbers, configurations of plain operators and interleavings of three threads, runs of any length up to the counters", "why_tests_cant": "The interleavings of three threads with unboundedly many lines and stored beliefs cannot be enumerated; a hang or a panic needs one bad schedule.", "anchors": ["src/Nar.rs:1-150", "src/NarInputFacade.rs:1-221", "src/NarInteractive.rs:1-44", "src/NarProc.rs:370-1031", "src/NarWorkingCycle.rs:1016-2015", "src/NarModuleNlp3.rs:1-33"]}
{"id": "C88", "title": "Whatever the whole program believes or answers follows from typed statements", "statement": "Take any run of the whole program: any lines, random numbers and interleaving of the main thread, the deriver worker and the storage worker, with any operators except ^nlpRel0. Every declarative belief and task, and every answer to a question that is not about time, is obtained from statements that were typed (with the typed term and truth value) by the inference schemas and revision. Its stamp has no id twice, and every id in it is the place of a typed statement among the sentences read. The id of the next sentence was never used before. Every answer is an instance of its question. Refuted with ^nlpRel0: carrying it out makes the program believe what nobody stated.", "quantifier": "all lines, random numbers, operators, limits and interleavings of three threads, runs of any length", "why_tests_cant": "A belief from nowhere or evidence counted twice needs one bad schedule among unboundedly many; tests see single runs and no provenance.", "anchors": ["src/Nar.rs:60-150", "src/NarInputFacade.rs:1-228", "src/NarWorkingCycle.rs:1016-2015", "src/NarStamp.rs:1-60", "src/OpLib.rs:92-156"]}
{"id": "C89", "title": "Every temporal belief rests on events that happened in this order", "statement": "Take any life of the procedural reasoner: any events, goals, temporal beliefs, steps and random numbers, with the main thread and the storage worker interleaved in any way. The trace holds the last events of the life. Every belief in the procedural memory says, or generalises with a variable, what a typed belief says or what was observed: an event, then one or more operations, then another event, in this order in the life. Its positive evidence is the sum of the evidence of such sources, whose intervals are compatible, and its total evidence exceeds that by the predictions that were not fulfilled. As long as the stamp has room, it is the stamps of the sources put together and no two sources share an event.", "quantifier": "all inputs, random numbers, operators, configurations and interleavings of the main thread and the storage worker, lives of any length", "why_tests_cant": "Beliefs are merged, generalised and weakened over thousands of steps; a test sees the result and cannot tell whether every unit of evidence has an event behind it.", "anchors": ["src/NarProc.rs:1-1225", "src/NarGoalSystem.rs:1-897", "src/NarMem.rs:1-235", "src/NarStamp.rs:1-60"]}
{"id": "C90", "title": "Nothing is done without a reason that was there before", "statement": "In every life as in C89: each goal that is kept was typed, or is a subgoal of such a goal by beliefs of C89, or is an operation that such beliefs say leads to one; and the belief it was derived with says so. Whenever an operation is carried out that was not drawn at random from the operators that may be tried, it is such a goal, there is such a belief, and both only use what happened before. So nothing but random operations is done before a goal was typed, and before a belief was typed or three events happened. Every run of the whole program is such a life; what is typed into it are the sentences about time among the texts that were read, each once and in order.", "quantifier": "all inputs, random numbers, operators, configurations and interleavings, all runs of the whole program of any length", "why_tests_cant": "An action without a reason would need a stale goal, a belief of another goal or a race with the storage worker; tests cannot reconstruct the reasons of an action.", "anchors": ["src/NarProc.rs:1-1225", "src/NarGoalSystem.rs:1-897", "src/Nar.rs:60-150", "src/NarInputFacade.rs:1-228"]}
{"id": "C91", "title": "No event is ever counted twice for a temporal belief, although stamps forget", "statement": "Take any life as in C89, or any run of the whole program, with at most 24 operations per observation (the program is configured with 1). The sources a belief was counted from share no evidence id, that is no event, even when its stamp had to drop ids because it holds only 120. Hence n merged observations took at least 3n different events, and the positive evidence of a belief that was not merely typed is at most a third of the number of events times the largest evidence of an operator.", "quantifier": "all inputs, random numbers, operators, configurations and interleavings, lives of any length", "why_tests_cant": "Ids are dropped only after 40 merges, and double counting would need an observation old enough to be forgotten and still in the trace or the queue; tests do not reach or notice it.", "anchors": ["src/NarProc.rs:1-1225", "src/NarStamp.rs:1-60"]}
{"id": "C92", "title": "Only typed questions are answered, and an answer about time says what was learned", "statement": "In every run of the whole program each answered question was typed before, as a question about an event; its answer is a judgement and an instance of the question. It follows from the typed statements, or else the question is about time and the answer is a temporal belief that rests, as in C89, on typed beliefs and on events in this order in the same run. So nothing is answered when no question was typed, and without typed temporal beliefs such an answer generalises a sequence of events that did happen in this order.", "quantifier": "all lines typed, all random numbers, all interleavings of the threads, all operators except ^nlpRel0, all configurations", "why_tests_cant": "Answers about time are looked up in a memory another thread changes at the same time; tests see single schedules and single lessons.", "anchors": ["src/Nar.rs:60-150", "src/NarWorkingCycle.rs:1016-2015", "src/NarProc.rs:1-1225", "src/bin/main.rs:15-25"]}
{"id": "C93", "title": "One thread at a time, the program is the sequential one", "statement": "If a line is read while both workers rest and the channels have room, the main thread brings the program with threads into exactly the state the sequential reading of the line gives, with the same panics and the same decision to quit, and then waits for the next line; a worker left alone handles its next message as the sequential reading says. So every session in which lines and messages are handled one after the other is a run of the program with threads that ends in the same state. Without room in the channel the main thread stops in the middle of a line until the deriver moves.", "quantifier": "all lines, all random numbers, all operators, all states of both parts, all sequences of turns", "why_tests_cant": "Tests compare single sessions and cannot show that the stepwise and the sequential behaviour agree for every line and every state.", "anchors": ["src/Nar.rs:60-150", "src/NarInputFacade.rs:18-221", "src/NarWorkingCycle.rs:1016-2015", "src/NarProc.rs:376-1031", "src/NarModuleNlp3.rs:15-33"]}
{"id": "C94", "title": "What was shown once is done when it is wanted", "statement": "In a freshly started program with babbling switched off, say a situation A, an operation O and an effect C as events of three steps, let the storage worker handle at least one message, say that C is wanted and that A is the case again: the next step carries O out and expects C one step later, because of the belief that O after A leads to C. Whatever only concerns the declarative half may come in between. In any state, if the last event is A, every belief starting from A recommends O for the only goal C, and no goal for O is left, the next step carries O out. If another event follows A, the lesson is not used in this step; and the operation is carried out again when the wish has already come true.", "quantifier": "all variable-free situations and effects, all plain operations, all lines that say them, all random numbers, all declarative input in between, every number of handled messages", "why_tests_cant": "Tests run one lesson with the random numbers of one run; that nothing else can come of it for any terms and any random choices is a statement about all runs.", "anchors": ["src/Nar.rs:60-150", "src/NarInputFacade.rs:18-221", "src/NarProc.rs:537-1031", "src/NarGoalSystem.rs:163-314", "src/Operators.rs:17-29"]}
{"id": "C95", "title": "No thread waits for ever for a lock, except with \"!dt\"", "statement": "Consider all locks and channels of the main thread, the deriver, the storage worker and any number of server connections, with locks that let a waiting writer go before new readers. As long as \"!dt\" is not typed, no thread ever waits, directly or through others, for itself; whenever a thread can neither move nor rests, a thread it waits for can move; and from every reachable state all threads can finish what they do, after which every lock is given back and both channels are empty. With \"!dt\" this is false: the main thread holds the task table for reading and asks to read it again; if the deriver asks to write it in between, no thread ever moves again.", "quantifier": "all interleavings of any number of threads, all outcomes of tests, all numbers of loop rounds, all choices of tasks, beliefs and goals", "why_tests_cant": "A deadlock needs one particular interleaving of two threads within microseconds; running the program shows its absence for none of the others.", "anchors": ["src/NarWorkingCycle.rs:1064-1305", "src/NarWorkingCycle.rs:1531-1999", "src/NarProc.rs:152-288", "src/NarProc.rs:376-600", "src/NarProc.rs:600-1031", "src/NarGoalSystem.rs:145-483", "src/NarInputFacade.rs:205-207", "src/NarServer.rs:39-120"]}
{"id": "C96", "title": "What follows from added statements is reported as an answer", "statement": "Whenever the deriver takes a message, then by the time it waits again every question that was open has been answered by a judgement that is an instance of it and whose expectation is at least that of each positive-expectation conclusion that follows, by one rule, from the chosen task alone or with any of its partners; other threads may move in between. A cycle that chooses a task sends every task among the first 51 of each subterm as partner (up to 300 tasks). So after adding different statements with at most 51 parts and questions to an empty reasoner, one cycle answers every question as well as what follows from the chosen statement; in particular A-->C is answered from A-->B and B-->C with the expectation of the deduction, whichever of the two is chosen.", "quantifier": "all reachable states, all interleavings of all threads, all statements, questions, truth values, rules, credits and selections", "why_tests_cant": "That an answer always arrives, for every rule, every truth value and every interleaving of the adding thread, the cycle and the deriver, cannot be seen from single sessions.", "anchors": ["src/NarWorkingCycle.rs:1064-1305", "src/NarWorkingCycle.rs:1430-1600", "src/NarWorkingCycle.rs:1660-1999", "src/NarWorkingCycle.rs:20-1060", "src/Tv.rs:7-25"]}
{"id": "C97", "title": "What follows from typed statements is reported as an answer", "statement": "When statements (different from each other) and questions marked as events with at most 51 parts in all are typed, then cycles are asked for, and then more statements, questions and cycles may follow, then, as soon as the program waits for a line and the deriver waits, each of the first questions has been answered by a judgement that is an instance of it, with an expectation at least that of every positive-expectation conclusion following by one rule from one of the typed statements (which one depends on the run), alone or with another one sharing a part. In particular typing A-->B, B-->C and the question A-->C gives an answer with the expectation of the deduction, however the three threads interleave. Questions not marked as events are refused and never answered.", "quantifier": "all texts, number readings, interleavings of the main thread, the deriver and the storage worker, random numbers, configurations with at least one belief per concept", "why_tests_cant": "It is about every text that parses, every number of lines and every interleaving of three threads; a session shows one of them.", "anchors": ["src/Nar.rs:45-135", "src/NarInteractive.rs:8-44", "src/NarWorkingCycle.rs:1064-1305", "src/NarWorkingCycle.rs:1430-1600", "src/NarseseParser.rs:1-400"]}
{"id": "C98", "title": "What is known is told when it is asked for", "statement": "Let the program wait, in whatever state, with no question open. When a question is typed, then cycles are asked for, and then any lines follow, then by the time the main thread waits for a line again every belief with positive expectation that is an instance of the question and is remembered at a part of it has been reported, or one with at least its expectation. Questions about time are looked up in the procedural memory, all others in the declarative one. In particular, after one lesson (situation A, operation O, then C) every question about time that mentions A and has (A, O) =/> C as an instance is answered. With another question open one cycle may leave the new one unanswered, and a question without names is not looked up at all.", "quantifier": "all states of the program with threads, reachable or not, all questions, beliefs and following lines, all interleavings of the three threads, all random numbers", "why_tests_cant": "It is about every content of both memories and every interleaving after the question was typed; a test sees one memory and one order.", "anchors": ["src/NarWorkingCycle.rs:1700-1750", "src/NarWorkingCycle.rs:1600-1660", "src/Nar.rs:45-135", "src/NarInteractive.rs:8-44", "src/NarMem.rs:1-200"]}
{"id": "C99", "title": "The integers of the program stay in the range of 64 bits", "statement": "Every integer that the program keeps and adds to or subtracts from another one (ids, counters, clocks, times of derivation and use, use counts, deadlines of anticipations, creation times and depths of goals, counts of evidence, in all data and in what the threads carry along) is not negative and at most 1000 times the number of steps made so far plus one, for intervals and operators with values up to 1000. So during the first 2^52 steps sums and differences computed with 64 bits are the exact ones and the unbounded integers of the model are those of the program. Without a limit on the number of steps it is false: a program asked for cycles again and again counts beyond every bound.", "quantifier": "all lines, number readings, random numbers, interleavings of the three threads of any length, operators and configurations", "why_tests_cant": "It bounds every integer of every reachable state, growing with a run of any length; a test would have to be run for 2^52 steps and watch all of them.", "anchors": ["src/NarWorkingCycle.rs:1064-1977", "src/NarProc.rs:376-1031", "src/NarGoalSystem.rs:1-500", "src/NarSentence.rs:1-300", "src/Nar.rs:45-150"]}
{"id": "C100", "title": "How much work reading a text takes", "statement": "The parser tries its alternatives one after the other and starts again at the same place when one fails. The number of calls of parseSubjOrPred made for a text is at least one and at most 11 to the power of its length, so reading always ends. A text without an opening parenthesis takes at most one call more than it has characters. With parentheses the work explodes: n opening parentheses take (9^(n+1) - 1) / 8 calls before they are rejected, and the correct line ((...(a*b)*b)...*b). of 4n + 2 characters takes (5 * 4^n - 2) / 3 calls. So the hope that correct lines are read in a time bounded by some power of their length is false; one line of 82 characters takes more than 10^12 calls. The calls are also nested: n pairs of braces need room for exactly n + 1 calls inside each other, so no depth of the stack is enough for all correct texts, although the work for them is small.", "quantifier": "all texts, all depths of nesting and all powers", "why_tests_cant": "The bounds are for texts of every length, and the texts for which the work explodes cannot be run: the interesting ones never finish.", "anchors": ["src/NarseseParser.rs:491-958"]}
{"id": "C101", "title": "What the program keeps in mind stays small", "statement": "In every reachable state: no more effects are waited for than the longest interval of the table is long (17 for the program as it is started), each of them will be settled within that many steps, and at most that many are counted as missed in one step; at most four messages wait for the deriver and four for the storage worker; the observations still to be sent are at most as many as are sampled in a step; after the clock has moved at most 20 events are remembered. If ^nlpRel0 is not registered, every concept has from one to nB beliefs in each of its two tables, and no belief and no task is more complex than the limit or carries more than 120 evidence ids. Two things have no bound: questions are never dropped (each keeps its place for ever), so typing one again and again makes their list as long as you like, and so can the events typed between two steps be.", "quantifier": "all lines, number readings, random numbers, interleavings of the three threads of any length, operators, configurations and interval tables", "why_tests_cant": "The bounds hold after runs of every length and at every moment between two critical sections; a test sees finitely many moments of one run.", "anchors": ["src/NarProc.rs:290-296", "src/NarProc.rs:376-440", "src/NarProc.rs:537-595", "src/NarProc.rs:600-1031", "src/NarWorkingCycle.rs:1411-1620", "src/NarWorkingCycle.rs:1900-1902"]}
{"id": "C102", "title": "Filter kernels are centred and bounded", "statement": "A Gabor kernel has the size asked for; a negative width gives an empty one. For an odd width and no phase it is, bit for bit, the same when turned by 180 degrees, for every angle, wavelength and aspect. For wavelengths between 2^-100 and 2^100 in absolute value and aspect and phase up to 2^100, every entry is a number between -1 and 1 and the entry in the middle is the cosine of the phase. A kernel of even width is not centred, and wavelength 0 gives entries that are not numbers.", "quantifier": "all widths, angles, wavelengths, phases and aspects, and all libraries whose cosine and sine lie between -1 and 1, whose cosine is even and whose exponential maps numbers that are not positive into 0 to 1", "why_tests_cant": "The parameters are five doubles and an integer, and the functions of the mathematical library differ between platforms.", "anchors": ["src/ModVisionC.rs:49-80"]}
{"id": "C103", "title": "Lengths and similarities of vectors", "statement": "The length of a vector is never below zero and does not change when the vector is turned around. The cosine similarity panics exactly if the second vector is shorter; it is symmetric, bit for bit, for vectors of the same length; turning one vector around gives the opposite similarity. Three things one would expect are false: the similarity to a zero vector is not a number, a vector can be more similar to itself than 1, and vectors of different lengths are compared in one order but not in the other.", "quantifier": "all vectors of doubles of all lengths, and all implementations of the square that ignore the sign", "why_tests_cant": "There are vectors of every length, and rounding makes the result depend on every bit.", "anchors": ["src/mlutils.rs:38-57"]}
{"id": "C104", "title": "Cells of maps are addressed within the range of 32 bits", "statement": "Every map that can be made has fewer than 2^31 cells. On such maps reading, writing, adding, subtracting and dividing never leave the range of i32, wherever the cell is; drawing a box and cutting out a rectangle do not as long as its corner is an i32; convolution does not as long as the sizes of image and kernel together do not exceed 2^31; circles do not for a squared radius up to 32766 and positions up to 2^30; kernels do not up to a width of 46340. In all these cases the functions with checked arithmetic equal those of C46, C72 and C102. A circle with squared radius 32767 or more overflows on every map, even where nothing is drawn; so does a box whose far corner is not an i32, a map of 2^31 cells, and a kernel wider than 46340.", "quantifier": "all maps, cells, boxes, radii, kernels and values", "why_tests_cant": "Overflow happens at sizes no test allocates or loops over; there are 2^64 pairs of coordinates.", "anchors": ["src/Map2d.rs:8-139", "src/ModVisionC.rs:4-80"]}
{"id": "C105", "title": "Typed rules are followed, also two in a row, but not three", "statement": "A freshly started program is told up to nine rules without variables, each with any truth value, then a wish and a situation. If the rules about the situation all say that one operation leads to what is wanted, the next step carries out this operation and expects its effect one step later. If they lead to a second situation, and the rules about that one to what is wanted, the next step carries out the first operation and expects the second situation. If rules compete, what is done is the operation of a rule whose effect is what is wanted or leads to it by a further rule, this effect is expected, and only when some choice of rules does not lead to the wish within two steps may nothing be done. If what is wanted is three rules away, the next step does nothing. Lines and commands that only concern the declarative half may come in between, and the other threads may run at any time. In any state: plans look two beliefs ahead and no further.", "quantifier": "all rules, situations, wishes, truth values, random choices, things said in between and schedules; for the last part all states", "why_tests_cant": "A test plans with one set of rules and the random numbers of one run; that no choice of beliefs or order of threads leads to another deed is a statement about all of them.", "anchors": ["src/Nar.rs:66-150", "src/NarProc.rs:600-1031", "src/NarGoalSystem.rs:163-314", "src/NarInputFacade.rs:18-221"]}
{"id": "C106", "title": "How often something must have worked to be done again", "statement": "The expectation of a belief that came true p times out of c is (p+1/2)/(c+1), within 2^-50, for all counts below 2^53. It exceeds the threshold of the default configuration if 50p > 29c+4 and only if 50p >= 29c+4 (c below 2^40). A wish typed without a truth value reaches the operation through such a belief if 45p(2p-c) > 8c(c+1) and only if 45p(2p-c) >= 8c(c+1) (c below 2^20). So in any state with that threshold, where only C is wanted and A is the last event: if every belief about A says that O leads to C and worked that often, the next step carries O out; if none worked that often, nothing is done on purpose. A typed rule is followed while its copies failed at most five times, and given up when they failed six times. Wishes derived earlier do not notice: with them a rule is tried even after seven failures.", "quantifier": "all counts, states, beliefs and random choices", "why_tests_cant": "There are 2^80 pairs of counts, and rounding could tip the comparison for any of them; the step must not depend on which of the copies is drawn.", "anchors": ["src/NarSentence.rs:98-122", "src/Tv.rs:7-25", "src/NarProc.rs:600-1031"]}
{"id": "C107", "title": "Which cells a line paints", "statement": "A line between two different points of a map paints its first end if that is on the map, and apart from it at most the eight cells around that end, however long the line is and whatever its direction. A line along a row or a column paints exactly the three cells across its first end, and, if it is at most two long, the three across the next cell. So a line never reaches an end that is two or more away.", "quantifier": "all maps, values and end points (coordinates up to 2^15, along rows and columns up to 2^20), with the rounding of every operation", "why_tests_cant": "A test draws some lines; that no direction, length or rounding paints a cell further away is a statement about all of them.", "anchors": ["src/Map2d.rs:63-107"]}
{"id": "C108", "title": "The Pong program plays to the end", "statement": "In the program that lets the reasoner play Pong, no interleaving of its threads and no random numbers make anything panic before the game is over; afterwards only the check for missing evidence can. Until then one of the threads can always go on. The clocks of program, reasoner and environment agree. Before every decision the last event the reasoner remembers is the present position of the ball, and the bat is moved exactly when the call of that operator is remembered. The result is the share of the balls hit in 5001 rounds, at least one ball has landed, so it is a number from 0 to 1 and never NaN, and so is the average of several runs.", "quantifier": "all interleavings of main thread and storage worker, all random numbers, all numbers of steps below 2^63/3", "why_tests_cant": "A run of the program shows one interleaving and one sequence of random numbers out of infinitely many.", "anchors": ["src/Reasoner1Entry.rs:19-141", "src/bin/main.rs:34-66", "src/EnvPong3.rs:27-176", "src/NarGoalSystem.rs:870-879"]}
{"id": "C109", "title": "The tic-tac-toe program plays all its games", "statement": "In the program that lets the reasoner play tic-tac-toe, no interleaving of its threads and no random numbers make anything panic, and until the end one of the threads can always go on. Every board arises by legal play. Before the reasoner thinks about a move, the board as it is now is the only event it remembers. It moves to a cell exactly if it has called the operator of that cell, while thinking or while watching since its last move; a move to a taken cell changes nothing. A new game begins without events and with the goal to win; the reasoner is shown the board after its opponent's move, and told that it has won exactly when it has. Operators are tried out only while it thinks about a move. It is given 50 steps after its own moves and wins, 51 after the opponent's moves and none after a game that is lost or drawn. The counted wins and losses are the numbers of games in which the reasoner and its opponent got a line. The declarative part never gets anything to do. The program ends after exactly one game more than it is asked for.", "quantifier": "all interleavings of main thread and storage worker, all random numbers, all numbers of games, all numbers of steps below 2^63/10000", "why_tests_cant": "A run of the program shows one interleaving and one sequence of random numbers out of infinitely many, and a game has no bound on its length as the opponent may draw taken cells any number of times.", "anchors": ["src/ProcTicTacToe.rs:27-400", "src/bin/main.rs:37-42", "src/NarProc.rs:303-305"]}
{"id": "C110", "title": "The integers of the Pong environment never leave their range", "statement": "Computed with 64-bit integers that panic on overflow, every step of the Pong environment and every percept gives exactly what it gives with unbounded integers, during the first 2^63-1 steps of the game the program sets up and of any other game on a court with sides up to 2^61; hence in every state of the Pong program. In any state whatever, the checked step panics or agrees with the unbounded one. The counters of the tic-tac-toe program stay below the number of steps.", "quantifier": "all courts, bats, scores, random numbers and operator calls, all numbers of steps; all interleavings of the programs' threads", "why_tests_cant": "Overflow needs sizes or running times that no test reaches, and the absence of it must hold for every one of the infinitely many states.", "anchors": ["src/EnvPong3.rs:52-176", "src/Reasoner1Entry.rs:51-63", "src/ProcTicTacToe.rs:71-102"]}
{"id": "C111", "title": "What the Pong and tic-tac-toe programs can learn, want and do", "statement": "A reasoner of two threads that perceives only names of a given vocabulary, tries one operator at a time and has only operators without arguments believes nothing but laws 'in situation a, after operator d, another situation b', wants nothing but situations, operators, or a situation and then an operator, and its past consists of situations and operators; its concepts are situations. In every state of the Pong program the situations are the three places of the ball and the operators ^L and ^R, so that it can never remember more than twelve different statements or three concepts, and never forgets a concept. In every state of the tic-tac-toe program the situations are winning and the boards of unfinished games reached by legal moves, and the operators are the nine moves.", "quantifier": "all vocabularies and operators, all sequences of events, goals and steps, all interleavings of the two threads, all random numbers", "why_tests_cant": "That nothing else is ever learned or wanted concerns every one of the infinitely many runs, with every interleaving and every random number.", "anchors": ["src/NarProc.rs:303-1010", "src/Reasoner1Entry.rs:22-117", "src/ProcTicTacToe.rs:27-349", "src/NarGoalSystem.rs:136-520"]}
{"id": "C112", "title": "What the tic-tac-toe program learns is true of the game", "statement": "In every state of the tic-tac-toe program: if the reasoner remembers that an operator on a board leads to winning, then the move of this operator is possible on this board and wins, in whatever game the board comes up; if it remembers that an operator on a board leads to another board, then the second is the first after one move of each player; the condition of everything it remembers is the board of an unfinished game, never winning itself.", "quantifier": "all states of all runs, with all moves of the opponent, all random numbers and all interleavings of the two threads", "why_tests_cant": "The claim is about every statement learned in any of infinitely many runs, including those where the reasoner calls operators while it is only watching.", "anchors": ["src/ProcTicTacToe.rs:71-349", "src/NarProc.rs:303-492"]}
{"id": "C113", "title": "What the tic-tac-toe program wants and considers can still be won", "statement": "In every state of the tic-tac-toe program: a board the reasoner wants to reach, or on which it wants to make a move, is the board of an unfinished game from which player a can win if the opponent lets it happen; when it decides on a move, every decision it can choose from is a move on the board in front of it, and that board can be won; on a board that cannot be won there is no candidate decision.", "quantifier": "all states of all runs, with all moves of the opponent, all random numbers and all interleavings of the two threads", "why_tests_cant": "The goals are derived over chains of learned statements of any length in any of infinitely many runs; a test sees the goals of a few games.", "anchors": ["src/ProcTicTacToe.rs:71-349", "src/NarProc.rs:600-865", "src/NarGoalSystem.rs:700-823", "src/NarInfProcedural.rs:24-61"]}
{"id": "C114", "title": "The numbers of typed goals are compared with the times of events", "statement": "In every state of the Pong and tic-tac-toe programs, everything wanted except calls of operators carries first in its evidence the number under which a sentence was typed; a goal is derived from it over a remembered statement only if that number is not the time of one of the statement's events. The two are not independent, as they should be: there is a run in which a board is wanted and a statement tells how to reach it, and the only evidence in common is number 0 of the goal and time 0 of the first turn, so nothing is derived.", "quantifier": "all states of all runs of both programs, with all random numbers and all interleavings of the two threads", "why_tests_cant": "The positive part is about every goal derived in any run; the confusion only shows when a typed number happens to equal a time, which a test does not look for.", "anchors": ["src/NarProc.rs:170-283", "src/NarStamp.rs:13-38", "src/NarInfProcedural.rs:24-61", "src/Nar.rs:60-120", "src/ProcTicTacToe.rs:80-102", "src/Reasoner1Entry.rs:46-48"]}
{"id": "C115", "title": "Before it has won, the tic-tac-toe program makes its moves by chance", "statement": "A reasoner of two threads as in C111 that is asked for nothing but w and never perceives w wants nothing else, whatever it learns about other situations, never has a decision to choose from, and calls exactly the operator that the drawn number stands for, or none. In every state of the tic-tac-toe program before its first won game: nothing remembered ends with winning, nothing is wanted but winning, and a move is made exactly if the number drawn is below nine modulo 81, and then it is the cell of this number.", "quantifier": "all vocabularies and operators without arguments, all lives of such a reasoner; all runs of the tic-tac-toe program, with all random numbers, opponents and interleavings of the two threads", "why_tests_cant": "The claim is that none of the unboundedly many histories of lost and drawn games, whatever was learned in them, has an effect on a move; a test sees some games.", "anchors": ["src/NarProc.rs:690-966", "src/NarGoalSystem.rs:145-330", "src/NarInfProcedural.rs:24-61", "src/ProcTicTacToe.rs:74-336"]}
{"id": "C116", "title": "Whatever is decided rests on something remembered, and a move that promises to win wins", "statement": "In every life of a reasoner of two threads with operators without arguments and a vocabulary of its own: everything wanted that is to be in a situation and then call an operator, every call of an operator that is wanted, and every decision there is to choose from carries the address of a belief that is remembered there and says where this operator leads from this situation; so no operator is ever wanted for which no experience is remembered. An operator that is called is the one that the drawn number stands for, while trying is on, or one that something remembered is about. All states of the Pong program are of such lives, and the same holds of the decisions of the tic-tac-toe program; each move it tries is the drawn one or one that something remembered is about, also if it was decided while it only watched and was kept for its turn. Whenever the tic-tac-toe program, at its turn, has a decision to choose from whose belief promises winning, then the move is possible on the board in front of it, and makes three in a row. (A move that was kept from before need not be possible: refuted.)", "quantifier": "all vocabularies and operators without arguments, all lives of such a reasoner; all runs of the Pong and tic-tac-toe programs, with all random numbers, opponents and interleavings of the two threads", "why_tests_cant": "Evidence is passed on as an address through derivation, sampling and planning while the other thread adds and revises what is remembered; that it always points to the belief it came from is a claim about all interleavings.", "anchors": ["src/NarGoalSystem.rs:145-330", "src/NarProc.rs:690-966", "src/ProcTicTacToe.rs:74-336", "src/EnvPong3.rs:52-176"]}
{"id": "C117", "title": "The tic-tac-toe program makes a winning move that it knows", "statement": "While the tic-tac-toe program thinks about its move, its memory of the past is not empty and consists of the board in front of it only. If, at its turn, everything remembered that starts from this board says with enough confidence that the move to a cell leads to what is wanted, nothing is wanted that says what to do, and no decision for this operator is left from before, then this move is tried, whatever numbers are drawn and also if another move was kept. If what it leads to is winning, then the move is possible on this board and wins the game, and the program makes it and counts the win in its next three steps, whenever the other thread runs.", "quantifier": "all runs of the tic-tac-toe program, with all random numbers, opponents and interleavings of the two threads; all boards, cells, wishes and strengths of wishes", "why_tests_cant": "The move has to follow from what is remembered for every drawn number, every plan and every other thing remembered; a test has some draws and some histories.", "anchors": ["src/ProcTicTacToe.rs:180-232", "src/NarProc.rs:690-966"]}
{"id": "C118", "title": "A game that cannot be won any more is played by chance", "statement": "If a reasoner has no decision to choose from and none is left from before, then the operator that the second half step calls is the one that the drawn number stands for if trying is on, and none otherwise. At its turn on a board that cannot be won any more the tic-tac-toe program has no decision to choose from, whatever it has learned and wants; so, if none is left from before and no move was kept, it tries the move to a cell exactly if the number drawn below 81 is the number of this cell.", "quantifier": "all states of a reasoner and all operators; all runs of the tic-tac-toe program, with all random numbers, opponents and interleavings of the two threads", "why_tests_cant": "That nothing learned in any earlier game decides a move on such a board is a statement about all histories of all games.", "anchors": ["src/NarProc.rs:690-966", "src/ProcTicTacToe.rs:180-232"]}
