# Formal model of 20NAR1 — design

Target: `/repo` (ARCJ137442/20NAR1, Rust). The prover is Rocq/Coq 8.16.1.
All theories live in `rocq/theories` (logical name `Verif`).

## Method

* The model is a set of total, computable Gallina functions that follow the Rust
  functions one by one. Every definition cites the file and lines it models, and
  says what it simplifies.
* A Rust panic is an explicit `Panic` value (type `res` in `Base.v`). `Option`
  values of the source stay `option`. `&mut` arguments become returned values.
* `f64` is modelled bit-exactly by `Coq.Floats.SpecFloat.spec_float` at
  precision 53 / emax 1024 (IEEE-754 binary64, round to nearest even, one NaN).
  These are plain Gallina functions, so the model executes and needs no axiom.
  Theorems about the range of rounded arithmetic go through Flocq and thus the
  classical reals of the standard library; `Print Assumptions` shows them.
  Algebraic laws that only hold without rounding are stated over exact
  rationals (`Q`), for a separate exact copy of the same formulas.
* `i64`/`u64`/`usize` are `Z`/`nat` without overflow.
* Names inside terms are `Coq.Strings.String.string` (bytes). Input text is a
  list of bytes; any byte may occur. The parser panics on non-ASCII text, as the
  source does, so no theorem assumes ASCII.
* A `HashMap` is an association list without duplicate keys. Where the source
  iterates over a map, the model takes the iteration order as an argument and
  the theorem quantifies over every permutation.
* Random numbers, `exp()` and wall clock time are arguments of the functions, so
  theorems hold for every possible value.
* `Arc<RwLock<_>>` sharing: `Usage` cells are shared between copies of a
  sentence, so a sentence carries the identity of its cell and the cells live
  in a heap passed to the functions that read them. Everything else is copied
  in the source when it is stored, and is a value in the model.
* Threads (`Sched_Model.v`, `ProcS_Model.v`, `Server_Model.v`): one transition is
  one section under a lock or one channel operation, and theorems quantify over
  all interleavings. That a section is not interrupted by a conflicting one is
  trusted. The locks themselves are modelled without the data (`Lock_Model.v`, C95):
  which function takes which lock in which mode and order, with any outcome of
  tests and any number of rounds of loops.

Files per area: `X_Model.v` (definitions only), `X_Spec.v` (independent
specification), `X_Proofs.v`, `X2_Proofs.v`, … (lemmas), `Props_X.v` (final
theorems, `Print Assumptions`, concrete examples). A theorem `cNN_…` belongs to
property CNN of `properties.jsonl`. `…_refuted` theorems state that a plausible
reading of the property is false and give a reachable witness; `…_partial`
theorems say in a comment what is missing.

## What is modelled

| source file | model | covered | left out |
|---|---|---|---|
| Term.rs, TermApi.rs, TermUtils.rs, Utils.rs | Term_Model | all functions; printing is `convTermToStr` | |
| NarUnify.rs | Unify_Model | all | |
| NarStamp.rs | Stamp_Model | `newStamp`, `checkOverlap`, `merge`, `checkSame` | `convToStr` |
| Tv.rs | Tv_Model | all, over binary64 and over Q | `convToStr` |
| NarSentence.rs | Sentence_Model | sentences, evidence, usage, truth access, printing | `deepCopySentence` (unused) |
| NarWorkingCycle.rs 38–975 | Infer_Model | all rules, single and two premise | debug output |
| NarWorkingCycle.rs 976–2015 | Cycle_Model, Sched_Model | tasks, selection, revision, Q&A, cycle, deriver worker | |
| all uses of locks and channels in Nar.rs, NarWorkingCycle.rs, NarMem.rs, NarProc.rs, NarGoalSystem.rs, OpLib.rs, NarServer.rs, Eval.rs | Lock_Model | order, mode and extent | the data; locks of the other entry points |
| NarMem.rs | Mem_Model, PMem_Model | all; once by value, once with cells | the branch "can't get_mut" (only prints) |
| NarGoalSystem.rs, BinSearch.rs | Goal_Model | all | the bridge queue (its only producer is commented out), debug text |
| NarInfProcedural.rs | Goal_Model, Proc_Model | all | |
| NarProc.rs, OpLib.rs | Proc_Model, ProcS_Model, ProcX_Model, Nar_Model | trace, anticipation, evidence, worker, decision, operators | console text except where building it can panic, wall-clock budget is an argument |
| NarseseParser.rs | Parser_Model, Cost_Model | all; `nom` combinators as written out recursive descent | `parse::<f64>` is an argument |
| Nar.rs, NarInputFacade.rs, NarInteractive.rs, NarUtilReadn.rs, NarModuleNlp3.rs | Nar_Model (one line after the other), Whole_Model (all threads) | all | the operating system (lines read are an argument); in Whole_Model the calls of ^nlpRel0 follow the step instead of happening inside it |
| ModNlpA.rs | Nlp_Model | see C75–C79 | printed output, contents of the log file |
| NarServer.rs | Server_Model | buffer, tasks, channel, handler | sockets, the async runtime |
| ProcTicTacToe.rs, EnvPong3.rs | Env_Model, Env64_Model (Pong, i64 checked) | rules, game loop, operators, percepts | printing, statistics |
| Reasoner1Entry.rs, bin/main.rs 34-66 | Play_Model | the whole program: both threads of the reasoner and the environment | printing that cannot panic; the declarative thread, which gets no messages |
| ProcTicTacToe.rs 27-400, bin/main.rs 37-42 | Ttt_Model | the whole program: both threads of the reasoner, opponent, games and counters | printing; human and random player (switched off); the declarative thread, which gets no messages |
| Map2d.rs, ModVisionC.rs | Map_Model, Gabor_Model, Map32_Model (i32 checked) | all | cos, sin and exp are arguments |
| ModVisionB.rs, ModVisionD.rs, TvVec.rs | Vision_Model | all | debug output |
| Eval.rs, ProcChaosEntry.rs, AeraishPerceptionComp.rs, bin/main.rs ("it", "bQA2") | Eval_Model | all | printing, the wall clock, `cfgNMaxEvidence` (set, never read) |
| ad.rs, Nn.rs, mlutils.rs | Ad_Model, Gabor_Model | all | `powf(2.0)` is an argument |

Not modelled at all: `Misc.rs` (only a struct of two numbers is not commented out), the remaining branches of `bin/main.rs` (they only
start an environment that is modelled above), and the files that lib.rs does not
compile (`NarModuleNlp.rs`, `NarModuleNlp2.rs`, `narPerception.rs`,
`expRepresent0.rs`). Also left out:
console output, timing instrumentation, memory exhaustion and stack depth.
Integers are unbounded; C99 shows that for the reasoner this makes no difference
during the first 2^52 steps (C104 does the same for the maps and C110 for
Pong and the counters of tic-tac-toe; the counts of the classifier of ModVisionD.rs
are at most the number of calls, C47).

## Per property plan

| id | proof idea |
|----|------------|
| C01–C03, C50, C53 | nested induction on terms; spec = inductive "occurs in" relation; refutation for empty compounds |
| C04–C07 | generalised invariant over the accumulated assignments; spec = substitution as a function on variables |
| C08 | case analysis |
| C09–C10 | list induction; permutation of the interleaving |
| C11, C13, C14, C51, C52 | Flocq: monotone rounding; vm_compute witnesses for the breakdown |
| C12, C14, C54 | exact rationals, field arithmetic |
| C15–C19 | spec = inductive rule relation written from the NAL schemas; both inclusions |
| C20–C23 | invariant by induction over store operations; sortedness of stable insertion sort; permutations for hash order |
| C24–C28, C55–C60 | invariants by induction over operations and runs; closure properties ("no belief out of thin air") for any predicate that single steps preserve |
| C29–C33, C62, C63 | goal store invariants; binary search; refutation of deduplication |
| C34–C38, C61, C64–C67 | procedural trace, evidence, anticipations; refinement of the value memory by the cell memory; transition system of two threads |
| C39–C40, C68 | fuel sufficiency; independent grammar as an inductive relation; induction on canonical terms |
| C41–C42, C69–C71 | session induction, frame conditions; command table as an inductive relation |
| C43 | transition system over all interleavings; refutation for "exactly once" |
| C44–C47, C72, C74 | invariants over runs; loops as folds over index lists |
| C48, C73 | derivability in the standard library reals; refutation for division and sigmoid |
| C49 | transition system, invariants over all schedules; well-founded order for termination; simulation of the sequential functions |
| C75–C79 | language network: encoding, winner, run, database, training step |
| C84, C85 | invariant of all reachable states under which every partial operation succeeds; bound on the evidence a stamp can carry, checked over Flocq |
| C86 | inversion of the grammar relation of C68; an independent predicate on term shapes |
| C87 | product of the invariants of C84 and C85 over one transition system with main thread, deriver and storage worker; lexicographic order for termination |
| C88 | invariant over the transition system of C87: the texts heard so far are the evidence of a reachable state of C49 |
| C89, C90 | a log of what happened is added to every run; invariant: each belief has its sources in the log, each goal its reasons |
| C91 | invariant: queued observations are ordered, each beside the last events; the ids a stamp dropped are older than what can still arrive |
| C92 | invariants: waiting questions were typed; every answer from the procedural memory is kept in a list whose members stay learned as the life goes on |
| C93 | simulation: each job of a line, run step by step, lands in the state of the sequential function; what the declarative part last saw of the procedural memory is left open where it looks again anyway |
| C94 | the memory after the lesson contains only beliefs with the evidence of the lesson, and of these only the lesson itself starts from the situation, so every random choice of the step ends with the same operation; turns of the declarative half leave the procedural half alone |
| C95 | every lock taken by more than one thread gets a rank, two of them depending on the state (the procedural memory once the main thread holds it, the task the deriver asks for); each function is checked to ask upwards; a waiting thread waits for one with a higher aim, so chains end in a thread that moves, and a cost that falls with every move towards rest bounds the way there |
| C96 | runs are labelled with the operations begun; a question is followed by its index through growing tables; stages collecting, sending, sent, answering, settled, each kept or left forwards by every move of every thread; the log has an answer as good as the best one recorded |
| C97 | runs of the whole program are labelled with the lines read; each finished job is matched with the operation it began on the declarative part, whose path then is one of C96; evidence ids are counted up, so typed statements share none |
| C98 | the question is the only one, so the cycle must choose it; its subterms are visited one by one; the storage worker and the deriver have nothing to do until the cycle sends its message, which is after the look-up, so both memories stay; the answer log only grows, whatever is typed later |
| C99 | one invariant with a number k bounds every integer of the declarative part, the procedural part and the jobs that wait; every step keeps it for k + 1, or k + 1 + the derivations made; what is asked for by a line is paid for when the line is read |
| C100 | the alternatives as lists of what they look for; same rests as the parser by induction on the fuel; upper bound by paying ten times the calls with powers of 11 for the characters read; the two families by solving their recurrences |
| C101 | invariant of all steps: deadlines end the earlier the more others follow them in the list, and lie after the clock; the clock only moves in the second half of a step, which comes right after the first; tables through C88 and C49 |
| C102 | opposite numbers stay opposite under every operation (zeros of any sign count as opposite), so squares and even functions agree; sizes as powers of two through every operation |
| C103 | folds over pairs; the same relation of opposite numbers |
| C104 | a second model with checked arithmetic; loops agree while the state stays small; a loop with one panicking cell panics |
| C105 | the memory after the typed rules as a list of entries, read back through the filing of C61; the two prediction steps of the planner unfolded for any state, then instantiated with that memory; C94's selection argument, made abstract over what was planned |
| C106 | every rounded operation is off by at most 2^-53, errors added up through the formula; integers differ by at least one, so the comparison is decided by them |
| C107 | integers are exact, so along rows and columns the formula is one over the integers; otherwise the errors are added up, and the squared distance, an integer plus a multiple of the projected length, stays away from the threshold |
| C108 | invariant of all steps of both threads: those of C85 with goals that have a text, the environment a state of C45, and the clocks; the first ball's way in closed form; average with the rounding of every operation |
| C109 | invariant of all steps of both threads: that of C85, an empty declarative part, the game by the place of the main thread, counters; an observer's tally of games and lines |
| C110 | a second model with checked arithmetic; an invariant that bounds every field of the environment |
| C111 | one invariant over cells, messages, trace and goals of the two threads, for any vocabulary; the two programs are instances |
| C112 | the invariant of C111 with a relation between the events of the past; an invariant of the program that links its past to the game |
| C113 | a second invariant on top of that of C111: every goal is linked to a win by relations that hold of the game; the candidates of a decision by induction over plans |
| C114 | a third invariant: the first evidence number of every goal is a typed one; a run of the program, computed, for the refuted part |
| C115 | the invariant of C111 with laws that do not end with what is wanted, all goals equal to it, and a past without it |
| C116 | the invariant of C111 with a second one: what goals and decisions carry as evidence is an address of a cell with the law they rest on, and cells never change what they say; then C112 and C113 |
| C117 | an invariant for the past while it thinks; then C94 for the step, C112 for the win |
| C118 | the step without a candidate is read off the model; C113 says that there is none |
| C80–C83 | benchmark over all schedules of C49; score over the reals; programs; truncation |

## Trusted base

* the Coq kernel (and `vm_compute`);
* the claim that the model mirrors the Rust source, which is by reading only (`RepoTests.v`
  replays the unit tests of the repository and the sentences of its sample sessions on the
  model; these are tests of the model, not proofs of properties);
* the axioms that `Print Assumptions` lists, all from the standard library:

| theorems | axioms |
|---|---|
| c11_ded_range, c11_dedGoal_range, c11_abd_range, c11_ind_range, c11_comp_range, c11_int_range, c11_neg_range, c11_rev_range, c13_full_confidence_nan, c14_exp_range_ieee, c15_range, c18_range, c22_storable_in_range, c22_usable_in_range, c27_random_monotone, c27_random_nonzero, c32_total, c35_truth, c47_recognised_D, c47_quantise, c47_quantise_mono, c47_quantise_ends, c47_vector, c47_image, c51_ded_not_stronger, c51_abd_weak, c51_ind_weak, c52_counts_range, c52_usefulness_range, c62_total, c62_level, c62_level_drawable, c81_bounds, c81_sooner, c84_never_panics, c84_runs, c84_tempered, c84_observed, c84_benchmark, c85_never_panics, c85_runs, c87_runs, c96_syllogism, c97_syllogism, c102_range, c102_middle, c102_even_refuted, c106_expectation, c106_strong, c106_wished, c106_followed, c106_given_up, c106_typed, c107_any, c107_row, c107_column, c107_end_refuted, c108_safe, c108_clock, c108_told, c108_does, c108_go_on, c108_score, c108_average, c109_safe, c109_legal, c109_told, c109_does, c109_plays, c109_tally, c109_tally_fun, c109_quiet, c109_go_on, c109_rounds_refuted, c109_settings, c109_begin, c109_seen, c109_reward, c109_pause, c110_program, c110_counters, c111_ttt_beliefs, c111_ttt_goals, c111_ttt_events, c111_ttt_concepts, c112_wins, c112_wins_there, c112_next, c112_condition, c113_wanted, c113_then, c113_considers, c113_hopeless, c114_ttt_number, c114_ttt_skips, c114_independent_refuted, c115_ttt_learns, c115_ttt_wants, c115_ttt_moves, c116_ttt_decision, c116_ttt_wins, c116_ttt_kept, c116_ttt_done, c116_ttt_possible_refuted, c117_board, c117_move, c117_wins, c117_counted, c118_lost | classic, functional_extensionality_dep, sig_forall_dec, sig_not_dec |
| c48_leaf, c48_add, c48_sub, c48_mul, c48_div, c48_div_error, c48_div_refuted, c48_dot, c48_relu, c73_derivative, c73_bias, c73_bias_refuted, c79_step, c79_error, c79_wasted, c79_silent, c81_ratio | functional_extensionality_dep, sig_forall_dec |
| c48_exp, c48_sigmoid_value, c48_sigmoid, c48_sigmoid_iff, c48_sigmoid_sign, c48_sigmoid_refuted, c48_neuron_relu, c48_neuron_sigmoid, c81_score | functional_extensionality_dep, sig_forall_dec, sig_not_dec |
| all other theorems | none ("Closed under the global context") |

The gate's list of library axioms is longer because it counts every axiom of the
loaded libraries (Reals, ssreflect), used or not.

## Findings

The refutations are collected here by area; each is a theorem with a witness.

* C03: `c03_complexity_positive_all_refuted`
* C10: `c10_merge_overlap_all_refuted`
* C13: `c13_rounds_to_full_refuted`
* C14: `c14_neg_involution_ieee_refuted`
* C16: `c16_fifth_conjunct_refuted`
* C17: `c17_order_refuted`, `c17_swapped_truth_refuted`
* C18: `c18_ternary_refuted`
* C19: `c19_judgement_question_refuted`, `c19_image_question_refuted`, `c19_short_product_refuted`
* C20: `c20_limit_zero_refuted`
* C22: `c22_nan_panic_refuted`
* C24: `c24_order_refuted`, `c24_refile_refuted`
* C26: `c26_nan_panic_refuted`
* C27: `c27_zero_refuted`
* C29: `c29_double_count_refuted`
* C30: `c30_opener_refuted`, `c30_refuted`
* C33: `c33_blocked_refuted`
* C36: `c36_old_event_refuted`, `c36_one_copy_refuted`
* C38: `c38_no_sequence_refuted`
* C39: `c39_refuted`, `c39_long_refuted`
* C40: `c40_trailing_refuted`
* C41: `c41_events_refuted`
* C42: `c42_question_refuted`
* C43: `c43_bound_refuted`, `c43_once_refuted`, `c43_lost_refuted`, `c43_dead_refuted`
* C45: `c45_bat_refuted`, `c45_mul_refuted`, `c45_left_refuted`, `c45_names_refuted`
* C46: `c46_circle_refuted`, `c46_line_refuted`
* C47: `c47_unrecognised_refuted`, `c47_empty_refuted`, `c47_shorter_refuted`
* C48: `c48_div_refuted`, `c48_sigmoid_refuted`
* C49: `c49_twins_refuted`, `c49_duplicate_refuted`, `c49_select_refuted`
* C57: `c57_flood_refuted`
* C59: `c59_truth_lost_refuted`
* C61: `c61_copies_refuted`
* C62: `c62_unreachable_refuted`, `c62_zero_refuted`
* C64: `c64_same_id_refuted`
* C65: `c65_panic_refuted`, `c65_lost_op_refuted`
* C66: `c66_unregistered_refuted`, `c66_no_op_refuted`, `c66_no_decl_refuted`
* C67: `c67_typed_refuted`, `c67_general_refuted`
* C68: `c68_number_refuted`
* C70: `c70_eof_refuted`
* C71: `c71_lost_refuted`, `c71_single_refuted`, `c71_limit_refuted`
* C72: `c72_odd_refuted`
* C73: `c73_bias_refuted`
* C78: `c78_nan_refuted`
* C80: `c80_early_refuted`, `c80_late_refuted`
* C81: `c81_no_runs_refuted`
* C82: `c82_chaos_refuted`
* C83: `c83_salient_refuted`
* C84: `c84_overflow_refuted`, `c84_short_refuted`, `c84_full_refuted`
* C85: `c85_lost_op_refuted`, `c85_empty_refuted`, `c85_typed_refuted`, `c85_no_decl_refuted`, `c85_draw_refuted`
* C86: `c86_derived_refuted`
* C87: `c87_number_refuted`, `c87_rule_refuted`, `c87_sure_refuted`, `c87_property_refuted`
* C88: `c88_rel_refuted`
* C93: `c93_crowded_refuted`
* C94: `c94_distracted_refuted`, `c94_fulfilled_refuted`
* C95: `c95_dt_refuted`
* C97: `c97_eternal_refuted`
* C98: `c98_second_refuted`, `c98_vague_refuted`
* C99: `c99_forever_refuted`
* C100: `c100_power_refuted`, `c100_stack_refuted`
* C101: `c101_events_refuted`, `c101_questions_refuted`
* C102: `c102_even_refuted`, `c102_wavelength_refuted`
* C103: `c103_zero_refuted`, `c103_one_refuted`, `c103_lengths_refuted`
* C104: `c104_box_refuted`, `c104_circle_refuted`, `c104_kernel_refuted`
* C106: `c106_stale_refuted`
* C107: `c107_end_refuted`
* C108: `c108_no_evidence_refuted`
* C109: `c109_rounds_refuted`
* C110: `c110_fast_refuted`, `c110_clock_refuted`
* C114: `c114_independent_refuted`
* C116: `c116_ttt_possible_refuted`
