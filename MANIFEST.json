{
 "claims": [
  {
   "property": "C01",
   "status": "proved",
   "theorems": [
    "c01_term_equality"
   ],
   "note": ""
  },
  {
   "property": "C02",
   "status": "proved",
   "theorems": [
    "c02_subterms_exact",
    "c02_subterms_first",
    "c02_unique_exact",
    "c02_unique_nodup"
   ],
   "note": ""
  },
  {
   "property": "C03",
   "status": "proved",
   "theorems": [
    "c03_complexity_exact",
    "c03_complexity_monotone",
    "c03_complexity_positive",
    "c03_complexity_positive_all_refuted"
   ],
   "note": "Positivity holds for terms without empty compounds; the unconditional claim is refuted (empty compounds have complexity 0)."
  },
  {
   "property": "C04",
   "status": "proved",
   "theorems": [
    "c04_unify_sound"
   ],
   "note": ""
  },
  {
   "property": "C05",
   "status": "proved",
   "theorems": [
    "c05_unify_complete"
   ],
   "note": ""
  },
  {
   "property": "C06",
   "status": "proved",
   "theorems": [
    "c06_unifier_domain",
    "c06_ground"
   ],
   "note": ""
  },
  {
   "property": "C07",
   "status": "proved",
   "theorems": [
    "c07_subst_is_inst",
    "c07_subst_ground",
    "c07_subst_empty",
    "c07_subst_removes_bound"
   ],
   "note": ""
  },
  {
   "property": "C08",
   "status": "proved",
   "theorems": [
    "c08_decode_encode",
    "c08_decode_only_ops"
   ],
   "note": ""
  },
  {
   "property": "C09",
   "status": "proved",
   "theorems": [
    "c09_overlap_exact",
    "c09_overlap_symmetric",
    "c09_same_exact"
   ],
   "note": ""
  },
  {
   "property": "C10",
   "status": "proved",
   "theorems": [
    "c10_merge_length",
    "c10_merge_from_premises",
    "c10_merge_keeps_all",
    "c10_merge_overlap",
    "c10_merge_keeps_first",
    "c10_merge_nodup",
    "c10_merge_overlap_all_refuted"
   ],
   "note": "Exact below the 120-id bound; above it the overlap claim is refuted with a witness."
  },
  {
   "property": "C11",
   "status": "proved",
   "theorems": [
    "c11_ded_range",
    "c11_dedGoal_range",
    "c11_abd_range",
    "c11_ind_range",
    "c11_comp_range",
    "c11_int_range",
    "c11_neg_range",
    "c11_rev_range"
   ],
   "note": ""
  },
  {
   "property": "C12",
   "status": "proved",
   "theorems": [
    "c12_rev_comm",
    "c12_rev_assoc",
    "c12_rev_between",
    "c12_rev_confidence",
    "c12_rev_neutral",
    "c12_rev_comm_ieee"
   ],
   "note": ""
  },
  {
   "property": "C13",
   "status": "proved",
   "theorems": [
    "c13_full_confidence_nan",
    "c13_nan_sort_panics",
    "c13_rounds_to_full_refuted"
   ],
   "note": "Describes the breakdown at confidence 1.0; rounding can reach 1.0 from lower confidences."
  },
  {
   "property": "C14",
   "status": "proved",
   "theorems": [
    "c14_exp_range_ieee",
    "c14_exp_range",
    "c14_neg_involution",
    "c14_neg_mirrors",
    "c14_exp_monotone_f",
    "c14_exp_monotone_c",
    "c14_neg_involution_ieee_refuted"
   ],
   "note": "Exact laws over the rationals, range in binary64; bit-exact involution in binary64 is refuted."
  },
  {
   "property": "C15",
   "status": "proved",
   "theorems": [
    "c15_no_overlap",
    "c15_shape",
    "c15_range"
   ],
   "note": ""
  },
  {
   "property": "C16",
   "status": "proved",
   "theorems": [
    "c16_binary_iff",
    "c16_fifth_conjunct_refuted"
   ],
   "note": "Exact characterisation against the schemas, which detach only the first four conjuncts; the unrestricted reading is refuted with a five-conjunct witness. The swapped premise order uses unswapped truth values (C17)."
  },
  {
   "property": "C17",
   "status": "proved",
   "theorems": [
    "c17_order_terms",
    "c17_order_truth",
    "c17_swap",
    "c17_order_refuted",
    "c17_swapped_truth_refuted"
   ],
   "note": "Findings: c17_order_refuted, c17_swapped_truth_refuted (abduction and induction use the values of the wrong premises in the swapped call)."
  },
  {
   "property": "C18",
   "status": "proved",
   "theorems": [
    "c18_struct_iff",
    "c18_sentences",
    "c18_product_image",
    "c18_image_product",
    "c18_range",
    "c18_ternary_refuted"
   ],
   "note": "Exact characterisation; the product rule drops components after the second (refuted for ternary products)."
  },
  {
   "property": "C19",
   "status": "proved",
   "theorems": [
    "c19_binary_total",
    "c19_binary_panic_iff",
    "c19_single_panic_iff",
    "c19_judgement_question_refuted",
    "c19_image_question_refuted",
    "c19_short_product_refuted"
   ],
   "note": "Panics are characterised exactly; witnesses for questions and short products are proved."
  },
  {
   "property": "C20",
   "status": "proved",
   "theorems": [
    "c20_bounded",
    "c20_sorted",
    "c20_usage_sorted",
    "c20_keeps_best",
    "c20_limit_zero_refuted"
   ],
   "note": ""
  },
  {
   "property": "C21",
   "status": "proved",
   "theorems": [
    "c21_judgements_only",
    "c21_no_double_evidence",
    "c21_about",
    "c21_unchanged"
   ],
   "note": ""
  },
  {
   "property": "C22",
   "status": "proved",
   "theorems": [
    "c22_reachable",
    "c22_new_concept",
    "c22_frame",
    "c22_retrieve_one",
    "c22_retrieve_many",
    "c22_map",
    "c22_no_panic",
    "c22_storable_in_range",
    "c22_usable_in_range",
    "c22_nan_panic_refuted"
   ],
   "note": ""
  },
  {
   "property": "C23",
   "status": "proved",
   "theorems": [
    "c23_limit"
   ],
   "note": ""
  },
  {
   "property": "C24",
   "status": "proved",
   "theorems": [
    "c24_table",
    "c24_memory",
    "c24_no_panic",
    "c24_panic_iff",
    "c24_order_refuted",
    "c24_refile_refuted"
   ],
   "note": "Also proved: revision does not restore the order by expectation, and a judgement that revises is not filed under forgotten concepts (both refuted with reachable witnesses)."
  },
  {
   "property": "C25",
   "status": "proved",
   "theorems": [
    "c25_too_complex",
    "c25_duplicate",
    "c25_admitted",
    "c25_tables",
    "c25_ids",
    "c25_revised_queued"
   ],
   "note": ""
  },
  {
   "property": "C26",
   "status": "proved",
   "theorems": [
    "c26_limit",
    "c26_index",
    "c26_cycle",
    "c26_message",
    "c26_nan_panic_refuted"
   ],
   "note": "A reachable state in which the maintenance cycle panics (credit not a number) is proved as a refutation of unconditional totality."
  },
  {
   "property": "C27",
   "status": "proved",
   "theorems": [
    "c27_top_max",
    "c27_top_valid",
    "c27_highest",
    "c27_random_exact",
    "c27_random_panic_iff",
    "c27_random_monotone",
    "c27_random_nonzero",
    "c27_zero_refuted"
   ],
   "note": "Zero-credit entries are skipped unless the threshold is zero; the unconditional claim is refuted with random value 0."
  },
  {
   "property": "C28",
   "status": "proved",
   "theorems": [
    "c28_answers",
    "c28_one"
   ],
   "note": ""
  },
  {
   "property": "C29",
   "status": "proved",
   "theorems": [
    "c29_bound",
    "c29_keeps_best",
    "c29_filed",
    "c29_only_goals",
    "c29_total",
    "c29_double_count_refuted"
   ],
   "note": "Operator goals are counted twice by limitMemory, so a store within its bound can lose a goal (refuted with a reachable witness)."
  },
  {
   "property": "C30",
   "status": "proved",
   "theorems": [
    "c30_ops",
    "c30_first",
    "c30_never_lost",
    "c30_recognised",
    "c30_opener",
    "c30_one_level",
    "c30_opener_refuted",
    "c30_refuted"
   ],
   "note": "Findings: c30_refuted, c30_opener_refuted (only first goals of a term are indexed, so later ones are stored again and again)."
  },
  {
   "property": "C31",
   "status": "proved",
   "theorems": [
    "c31_satisfied",
    "c31_others",
    "c31_kept",
    "c31_off"
   ],
   "note": ""
  },
  {
   "property": "C32",
   "status": "proved",
   "theorems": [
    "c32_detach",
    "c32_belief",
    "c32_sound",
    "c32_keeps",
    "c32_complete",
    "c32_bounded",
    "c32_total"
   ],
   "note": ""
  },
  {
   "property": "C33",
   "status": "proved",
   "theorems": [
    "c33_best",
    "c33_panics_iff",
    "c33_best",
    "c33_plan",
    "c33_decide",
    "c33_pick",
    "c33_blocked_refuted"
   ],
   "note": "Choice among stored goals, forward planning, the threshold and the choice among operation goals. Refuted: an operation given as a goal blocks the others."
  },
  {
   "property": "C34",
   "status": "proved",
   "theorems": [
    "c34_window",
    "c34_between",
    "c34_append",
    "c34_bound"
   ],
   "note": "For the trace of every run; the bound is applied by the second half step only."
  },
  {
   "property": "C35",
   "status": "proved",
   "theorems": [
    "c35_counts",
    "c35_truth",
    "c35_grows",
    "c35_channel"
   ],
   "note": "Over all interleavings of the main thread and the worker at the granularity of their lock sections."
  },
  {
   "property": "C36",
   "status": "proved",
   "theorems": [
    "c36_settled",
    "c36_future",
    "c36_total",
    "c36_old_event_refuted",
    "c36_one_copy_refuted"
   ],
   "note": "Refuted: an old event still in the window settles a new anticipation; only one stored copy of the belief gets the miss."
  },
  {
   "property": "C37",
   "status": "proved",
   "theorems": [
    "c37_quantised",
    "c37_unique",
    "c37_monotone",
    "c37_in_table",
    "c37_increasing",
    "c37_fuel"
   ],
   "note": ""
  },
  {
   "property": "C38",
   "status": "proved",
   "theorems": [
    "c38_decompose",
    "c38_recompose",
    "c38_callable",
    "c38_first",
    "c38_none",
    "c38_operation",
    "c38_no_sequence_refuted"
   ],
   "note": "Refuted: the decomposition panics on implications without a sequence, which can be typed in."
  },
  {
   "property": "C39",
   "status": "proved",
   "theorems": [
    "c39_print_read",
    "c39_plain_printed",
    "c39_sentence",
    "c39_refuted",
    "c39_long_refuted"
   ],
   "note": "Round trip proved exactly for the plain terms (iff); refuted for the other compounds and for names above 512 characters."
  },
  {
   "property": "C40",
   "status": "proved",
   "theorems": [
    "c40_total",
    "c40_fuel",
    "c40_sound",
    "c40_complete",
    "c40_fails",
    "c40_unambiguous",
    "c40_prefix",
    "c40_trailing_refuted"
   ],
   "note": "The parser is sound, complete and total for an independent grammar; refuted: trailing text is silently ignored."
  },
  {
   "property": "C41",
   "status": "proved",
   "theorems": [
    "c41_counter",
    "c41_sources",
    "c41_genuine",
    "c41_fresh",
    "c41_events_refuted"
   ],
   "note": "Over all sessions of inputs, cycles, worker steps and operator executions. Refuted for events: events of one session share ids with inputs."
  },
  {
   "property": "C42",
   "status": "proved",
   "theorems": [
    "c42_event",
    "c42_goal",
    "c42_question",
    "c42_judgement",
    "c42_too_complex",
    "c42_temporal",
    "c42_dropped",
    "c42_rejected",
    "c42_accepted",
    "c42_question_refuted",
    "c42_answers",
    "c42_unlinked"
   ],
   "note": "One theorem per kind of input with its frame condition; refuted: eternal questions are accepted and forgotten, without the wiring of main.rs temporal questions read a memory that is never filled (c42_unlinked); with it the answers are beliefs of the procedural memory (c42_answers)."
  },
  {
   "property": "C43",
   "status": "proved",
   "theorems": [
    "c43_buffer",
    "c43_order",
    "c43_complete",
    "c43_silent",
    "c43_bound",
    "c43_fifo",
    "c43_session",
    "c43_again",
    "c43_bound_refuted",
    "c43_dead",
    "c43_once_refuted",
    "c43_lost_refuted",
    "c43_dead_refuted"
   ],
   "note": "True part: buffer contents, order, completeness for the last 50 messages at a read, bound without answers, FIFO lines, over all interleavings. Refuted: exactly once (c43_again, c43_once_refuted), no loss (c43_lost_refuted), bounded buffer (c43_bound_refuted); one bad line stops the service (c43_dead)."
  },
  {
   "property": "C44",
   "status": "proved",
   "theorems": [
    "c44_move",
    "c44_winner",
    "c44_unique",
    "c44_counts",
    "c44_game",
    "c44_ends",
    "c44_no_panic",
    "c44_stimulus"
   ],
   "note": "The lines of the board are given by coordinates in Env_Spec.v. The moves of the reasoner, the opponent and the human are an argument; the counters and the reasoner between the moves are in C109."
  },
  {
   "property": "C45",
   "status": "proved",
   "theorems": [
    "c45_ball",
    "c45_bat",
    "c45_speed",
    "c45_score",
    "c45_counters",
    "c45_hit",
    "c45_flight",
    "c45_top",
    "c45_spawn",
    "c45_moves",
    "c45_pace",
    "c45_no_panic",
    "c45_percept",
    "c45_bat_refuted",
    "c45_mul_refuted",
    "c45_left_refuted",
    "c45_names_refuted"
   ],
   "note": "The way of the ball is given in closed form (c45_flight, c45_top, c45_spawn), a landing by the column it happens in (c45_hit), the bat by c45_moves. Refuted parts: the bat leaves the field on the right (c45_bat_refuted), never reaches the leftmost columns (c45_left_refuted), the ball leaves the field when mulVX is not 0 (c45_mul_refuted); ^L moves right (c45_names_refuted)."
  },
  {
   "property": "C46",
   "status": "proved",
   "theorems": [
    "c46_read",
    "c46_write",
    "c46_crop",
    "c46_crop_panic",
    "c46_box",
    "c46_circle",
    "c46_line",
    "c46_point",
    "c46_circle_refuted",
    "c46_line_refuted"
   ],
   "note": "All maps whose array has the size w*h. Findings: a circle's radius is the square root of the argument; a line from a point to itself paints nothing; a long line misses all but its first cells."
  },
  {
   "property": "C47",
   "status": "proved",
   "theorems": [
    "c47_max",
    "c47_B",
    "c47_B_panic",
    "c47_D",
    "c47_index",
    "c47_history_B",
    "c47_no_panic_B",
    "c47_history_D",
    "c47_evidence",
    "c47_evidence_each",
    "c47_sim_B",
    "c47_sim_D",
    "c47_recognised_D",
    "c47_recognised_B",
    "c47_quantise",
    "c47_quantise_mono",
    "c47_quantise_ends",
    "c47_vector",
    "c47_image",
    "c47_unrecognised_refuted",
    "c47_empty_refuted",
    "c47_shorter_refuted"
   ],
   "note": "Both classifiers (truth values: ModVisionB, real vectors: ModVisionD), any history. Similarity of B in exact rationals, everything else bit-exact. Findings: panics for differing numbers of channels (iff for B), a stimulus of frequency 0.5 is never recognised, a stimulus without channels matches, a shorter stimulus shortens the prototype."
  },
  {
   "property": "C48",
   "status": "proved",
   "theorems": [
    "c48_leaf",
    "c48_add",
    "c48_sub",
    "c48_mul",
    "c48_exp",
    "c48_div",
    "c48_div_error",
    "c48_div_refuted",
    "c48_dot",
    "c48_dot_panic",
    "c48_relu",
    "c48_sigmoid_value",
    "c48_sigmoid",
    "c48_sigmoid_iff",
    "c48_sigmoid_sign",
    "c48_sigmoid_refuted",
    "c48_neuron_relu",
    "c48_neuron_sigmoid",
    "c48_neuron_panic"
   ],
   "note": "ad.rs formulas over the real numbers (the same generic definitions also have an f64 instance). Sum, difference, product, exponential, dot product, ReLU away from 0 and a ReLU neuron carry the exact derivative. Findings: the quotient is right iff numerator or derivative of the denominator is 0; the sigmoid's derivative is 1+2e^v times too large (right sign)."
  },
  {
   "property": "C49",
   "status": "proved",
   "theorems": [
    "c49_tasks",
    "c49_ids",
    "c49_beliefs",
    "c49_heap",
    "c49_derivable",
    "c49_queue",
    "c49_answers",
    "c49_stamps",
    "c49_client_waits",
    "c49_worker_waits",
    "c49_no_deadlock",
    "c49_clients_finish",
    "c49_worker_finishes",
    "c49_add_alone",
    "c49_cycle_alone",
    "c49_worker_alone",
    "c49_select",
    "c49_twins_refuted",
    "c49_duplicate_refuted",
    "c49_select_refuted"
   ],
   "note": "Any number of clients, one worker, each atomic step one lock-protected section; other code may change credits at any moment. Proved at every moment: task ids, index, size and order of the tables, origin of beliefs and tasks, queue bound, answers, progress. Findings (refuted): one belief per statement and no duplicate task, which hold for sequential runs, fail under interleaving, and two cycling clients can make the selection panic. Lock-order deadlocks inside the RwLocks are not modelled."
  },
  {
   "property": "C50",
   "status": "proved",
   "theorems": [
    "c50_clone_identity",
    "c50_sentence_copy"
   ],
   "note": ""
  },
  {
   "property": "C51",
   "status": "proved",
   "theorems": [
    "c51_ded_symmetric",
    "c51_int_symmetric",
    "c51_comp_freq_symmetric",
    "c51_ded_not_stronger",
    "c51_abd_weak",
    "c51_ind_weak"
   ],
   "note": ""
  },
  {
   "property": "C52",
   "status": "proved",
   "theorems": [
    "c52_counts_range",
    "c52_usefulness_range"
   ],
   "note": ""
  },
  {
   "property": "C53",
   "status": "proved",
   "theorems": [
    "c53_count_positive",
    "c53_count_nonneg",
    "c53_count_self",
    "c53_count_stmt",
    "c53_count_two"
   ],
   "note": ""
  },
  {
   "property": "C54",
   "status": "proved",
   "theorems": [
    "c54_ded",
    "c54_abd",
    "c54_ind",
    "c54_int",
    "c54_neg",
    "c54_comp",
    "c54_rev",
    "c54_dedGoal"
   ],
   "note": ""
  },
  {
   "property": "C55",
   "status": "proved",
   "theorems": [
    "c55_tasks",
    "c55_beliefs",
    "c55_evidence",
    "c55_stamps_distinct"
   ],
   "note": "Whole cycles and whole worker messages are atomic steps here; finer interleavings are the subject of C49."
  },
  {
   "property": "C56",
   "status": "proved",
   "theorems": [
    "c56_tables",
    "c56_truth"
   ],
   "note": ""
  },
  {
   "property": "C57",
   "status": "proved",
   "theorems": [
    "c57_secondary",
    "c57_small_exact",
    "c57_flood_refuted"
   ],
   "note": "Also proved: with more than 51 tasks under a term newer tasks are never selected through it (refutation of completeness in general)."
  },
  {
   "property": "C58",
   "status": "proved",
   "theorems": [
    "c58_questions",
    "c58_base",
    "c58_usage",
    "c58_flush"
   ],
   "note": ""
  },
  {
   "property": "C59",
   "status": "proved",
   "theorems": [
    "c59_complete",
    "c59_keeps",
    "c59_truth_lost_refuted"
   ],
   "note": "Also proved: a conclusion with the statement and stamp of a queued task is dropped whatever its truth value."
  },
  {
   "property": "C60",
   "status": "proved",
   "theorems": [
    "c60_all_questions",
    "c60_best",
    "c60_worker",
    "c60_sampled"
   ],
   "note": ""
  },
  {
   "property": "C61",
   "status": "proved",
   "theorems": [
    "c61_store",
    "c61_limit",
    "c61_beliefs",
    "c61_history",
    "c61_private",
    "c61_write",
    "c61_copies_refuted"
   ],
   "note": "A belief stored under several concepts has several cells; an update through one pointer leaves the others unchanged (refuted with a witness)."
  },
  {
   "property": "C62",
   "status": "proved",
   "theorems": [
    "c62_stored",
    "c62_total",
    "c62_level",
    "c62_level_drawable",
    "c62_unreachable_refuted",
    "c62_zero_refuted",
    "c62_negative"
   ],
   "note": "Also proved: some desired goals are never sampled for any random numbers, and the random number 0 selects level 0 even if it is empty (both refuted with witnesses)."
  },
  {
   "property": "C63",
   "status": "proved",
   "theorems": [
    "c63_goal",
    "c63_antecedent",
    "c63_consequence"
   ],
   "note": ""
  },
  {
   "property": "C64",
   "status": "proved",
   "theorems": [
    "c64_sound",
    "c64_complete",
    "c64_messages",
    "c64_same_id_refuted"
   ],
   "note": "Refuted: events of one moment share one evidence id."
  },
  {
   "property": "C65",
   "status": "proved",
   "theorems": [
    "c65_intro",
    "c65_name",
    "c65_panic_refuted",
    "c65_lost_op_refuted"
   ],
   "note": "Refuted: one of sixteen draws panics and kills the worker; the operation name itself can be replaced."
  },
  {
   "property": "C66",
   "status": "proved",
   "theorems": [
    "c66_step",
    "c66_registered",
    "c66_performs_once",
    "c66_execute",
    "c66_unregistered_refuted",
    "c66_no_op_refuted",
    "c66_no_decl_refuted"
   ],
   "note": "Refuted: unregistered operation goals are consumed and punished; a typed-in belief without an operation makes the decision panic; without declarative memory the step panics whenever the time is 1 modulo 13."
  },
  {
   "property": "C67",
   "status": "proved",
   "theorems": [
    "c67_once",
    "c67_not_twice",
    "c67_alone",
    "c67_typed_refuted",
    "c67_general_refuted"
   ],
   "note": "Refuted: the worker panics on an observation of a typed-in implication; generalised beliefs do not count later observations."
  },
  {
   "property": "C68",
   "status": "proved",
   "theorems": [
    "c68_read",
    "c68_sound",
    "c68_squeeze",
    "c68_panics",
    "c68_number_refuted",
    "c68_unchecked"
   ],
   "note": "parse::<f64> is a parameter of the model, the theorems hold for every such function. Values are not checked to be in range (c68_unchecked); bad numbers panic."
  },
  {
   "property": "C69",
   "status": "proved",
   "theorems": [
    "c69_lines",
    "c69_session",
    "c69_quit",
    "c69_comment",
    "c69_empty",
    "c69_cycles",
    "c69_time",
    "c69_narsese",
    "c69_number_panics",
    "c69_foreign_panics",
    "c69_unreachable"
   ],
   "note": "parse::<f64> and the language network are parameters. The command table is the inductive relation did in Nar_Spec.v."
  },
  {
   "property": "C70",
   "status": "proved",
   "theorems": [
    "c70_repeat",
    "c70_new",
    "c70_eof_refuted",
    "c70_file"
   ],
   "note": "The end of input gives empty reads (std read_line)."
  },
  {
   "property": "C71",
   "status": "proved",
   "theorems": [
    "c71_relation",
    "c71_panics",
    "c71_calls",
    "c71_lost_refuted",
    "c71_single_refuted",
    "c71_limit_refuted"
   ],
   "note": "The panic condition is exact; the executions are found by the decision procedure of C66."
  },
  {
   "property": "C72",
   "status": "proved",
   "theorems": [
    "c72_sub",
    "c72_add",
    "c72_div",
    "c72_dist",
    "c72_convo",
    "c72_convo_any",
    "c72_border",
    "c72_odd",
    "c72_odd_refuted"
   ],
   "note": "Order of summation is the order of the loops, f64 bit-exact. Finding: odd kernels lose their last row and column. generateGaborKernel: C102."
  },
  {
   "property": "C73",
   "status": "proved",
   "theorems": [
    "c73_layout",
    "c73_panic",
    "c73_one_mark",
    "c73_no_mark",
    "c73_derivative",
    "c73_bias",
    "c73_bias_refuted"
   ],
   "note": "Layout and panics for any arithmetic; derivatives over the reals. Finding: a marked bias has derivative 1 although the bias is 15 (8) times the parameter."
  },
  {
   "property": "C74",
   "status": "proved",
   "theorems": [
    "c74_add_scale",
    "c74_add",
    "c74_scale",
    "c74_dot",
    "c74_two_steps",
    "c74_add_comm",
    "c74_dot_comm"
   ],
   "note": "f64 bit-exact. vecLen and calcCosineSim: C103."
  },
  {
   "property": "C75",
   "status": "proved",
   "theorems": [
    "c75_input",
    "c75_input_panic",
    "c75_distinct",
    "c75_signs",
    "c75_signs_panic",
    "c75_forward",
    "c75_forward_panic"
   ],
   "note": "Input, signs and panics for any arithmetic; f64 is what runs. split_whitespace on ASCII."
  },
  {
   "property": "C76",
   "status": "proved",
   "theorems": [
    "c76_winner",
    "c76_one_winner",
    "c76_run",
    "c76_run_panic",
    "c76_unready",
    "c76_only_once",
    "c76_long",
    "c76_samples",
    "c76_consistent",
    "c76_learned",
    "c76_learnable"
   ],
   "note": "f64 bit-exact. Only the existence of logX.txt is kept of the log. Findings: the second run in the same directory always panics (the log file exists); more than eleven words panic; of the sentences in the comments beside the lessons four use unknown words and one is of other kinds than the lesson."
  },
  {
   "property": "C77",
   "status": "proved",
   "theorems": [
    "c77_read",
    "c77_process",
    "c77_words",
    "c77_spoken",
    "c77_mark_lost"
   ],
   "note": "Display and parsing of the numbers 1 and 0.998 are arguments that fit together. Finding: a relation with a question mark as a word is silently lost."
  },
  {
   "property": "C78",
   "status": "proved",
   "theorems": [
    "c78_load",
    "c78_panic",
    "c78_again",
    "c78_nan",
    "c78_nan_refuted"
   ],
   "note": "SQLite is the list of rows in order of insertion; NaN violates NOT NULL, -0.0 becomes 0.0; other SQL failures not modelled. Finding: NaN truncates the stored network silently (c78_nan_refuted loses a layer)."
  },
  {
   "property": "C79",
   "status": "proved",
   "theorems": [
    "c79_step",
    "c79_error",
    "c79_wasted",
    "c79_silent",
    "c79_step_panic",
    "c79_train",
    "c79_first",
    "c79_draw",
    "c79_draw_panic",
    "c79_epochs"
   ],
   "note": "Derivative and error over the reals; shape, panics and the whole training bit-exact in f64 for every sine (argument, bounded) and any number of epochs. Findings: steps on another output neuron or on a weight with input 0 change nothing."
  },
  {
   "property": "C80",
   "status": "proved",
   "theorems": [
    "c80_found",
    "c80_none",
    "c80_ends",
    "c80_moves",
    "c80_sound",
    "c80_early_refuted",
    "c80_late_refuted"
   ],
   "note": "All interleavings with the deriver worker (schedule model of C49). Findings: an answer given while the file was read is not counted (c80_early_refuted), an answer the worker derives after the last cycle comes too late (c80_late_refuted)."
  },
  {
   "property": "C81",
   "status": "proved",
   "theorems": [
    "c81_score",
    "c81_bounds",
    "c81_sooner",
    "c81_ratio",
    "c81_no_runs_refuted"
   ],
   "note": "Over the reals (exp from the standard library). Finding: without runs or files the doubles give NaN (c81_no_runs_refuted)."
  },
  {
   "property": "C82",
   "status": "proved",
   "theorems": [
    "c82_it",
    "c82_chaos_refuted"
   ],
   "note": "\"it\" is proved; the chaos environment is refuted: it always panics (c82_chaos_refuted)."
  },
  {
   "property": "C83",
   "status": "proved",
   "theorems": [
    "c83_limit",
    "c83_best",
    "c83_salient_refuted"
   ],
   "note": "Finding: the list is not sorted by the function, so the best item may be dropped (c83_salient_refuted)."
  },
  {
   "property": "C84",
   "status": "proved",
   "theorems": [
    "c84_never_panics",
    "c84_runs",
    "c84_tempered",
    "c84_observed",
    "c84_benchmark",
    "c84_overflow_refuted",
    "c84_short_refuted",
    "c84_full_refuted"
   ],
   "note": "Conditions: well-formed input terms (conjunctions and products have two components, other compounds one), truth values in range, nothing derivable has confidence 1.0 (shown for up to 120 one-piece inputs of confidence at most 0.999999), one thread runs cycles, counters below 2^63. Findings: a one-component product, an input of confidence 1.0, or 241 observations of 0.9 break them (c84_short_refuted, c84_full_refuted, c84_overflow_refuted); two cycling threads: c49_select_refuted."
  },
  {
   "property": "C85",
   "status": "proved",
   "theorems": [
    "c85_acts",
    "c85_never_panics",
    "c85_runs",
    "c85_lost_op_refuted",
    "c85_empty_refuted",
    "c85_typed_refuted",
    "c85_no_decl_refuted",
    "c85_draw_refuted"
   ],
   "note": "c85_never_panics assumes of every passed state that all remembered events are safe and counters fit 64 bits; c85_runs derives this from the inputs when no operation injects events. Conditions: goals with truth values, decay factors in [0,1], no drawn 15 for variable names, declarative memory present, no typed temporal beliefs. Findings: c85_lost_op_refuted, c85_empty_refuted, c85_typed_refuted, c85_no_decl_refuted, c85_draw_refuted."
  },
  {
   "property": "C86",
   "status": "proved",
   "theorems": [
    "c86_typable",
    "c86_sentence",
    "c86_sentence_typed",
    "c86_wf",
    "c86_printed",
    "c86_derived_refuted"
   ],
   "note": "shape/typable are a predicate on terms written without the parser. c86_derived_refuted: a derived judgement that cannot be typed."
  },
  {
   "property": "C87",
   "status": "proved",
   "theorems": [
    "c87_runs",
    "c87_no_deadlock",
    "c87_finishes",
    "c87_register",
    "c87_number_refuted",
    "c87_rule_refuted",
    "c87_sure_refuted",
    "c87_property_refuted"
   ],
   "note": "Conditions of c87_runs: operators that inject nothing (registered by the first lines, c87_register), ASCII lines, readable numbers, truth values in range and at most 0.999999 sure, no typed temporal statements, no event giving a property to a part of an operation, at most 120 statements, counters fit 64 bits, no drawn 15. c87_no_deadlock and c87_finishes need none of them. Threads interleave at critical sections. Findings: c87_number_refuted, c87_rule_refuted, c87_sure_refuted, c87_property_refuted. Locks are taken without waiting here; that they are given back is C95, where \"!dt\" is the exception."
  },
  {
   "property": "C88",
   "status": "proved",
   "theorems": [
    "c88_beliefs",
    "c88_answers",
    "c88_evidence",
    "c88_fresh",
    "c88_typed",
    "c88_rel_refuted"
   ],
   "note": "No condition on the lines. ^nlpRel0 is excluded (finding c88_rel_refuted). The evidence of a sentence is its place among the sentences read, in the order of the lines that were accepted. Answers to questions about time come from the procedural memory; for them see C92."
  },
  {
   "property": "C89",
   "status": "proved",
   "theorems": [
    "c89_beliefs",
    "c89_trace",
    "c89_seen",
    "c89_misses"
   ],
   "note": "The life is the list of events, typed goals and beliefs and executed operations; restsOn in Live_Spec.v says what a belief rests on. Once a stamp is full (120 ids) the sums still hold; that no event is shared then is C91. Generalising replaces the subject by a variable; going back needs that the drawn variable does not occur already."
  },
  {
   "property": "C90",
   "status": "proved",
   "theorems": [
    "c90_goals",
    "c90_deeds",
    "c90_no_goal",
    "c90_no_lesson",
    "c90_step",
    "c90_whole"
   ],
   "note": "Subgoals are the goalStep relation of Goal_Spec.v with learned beliefs. What an operation injects is the relation performs of Proc_Spec.v. A reason is a matter of what is believed and wanted; desires and times are not part of it."
  },
  {
   "property": "C91",
   "status": "proved",
   "theorems": [
    "c91_once",
    "c91_bound",
    "c91_whole"
   ],
   "note": "Why it holds: merging interleaves the stamps, so the ids of the latest observations stay among the first 120, the queue between the threads is in order, and an observation covers the last events only, so the ids that were dropped are older than anything that can still arrive. c_nOpsMax is 1 in the program; with more than 24 operations per observation nothing is claimed."
  },
  {
   "property": "C92",
   "status": "proved",
   "theorems": [
    "c92_answers",
    "c92_silent",
    "c92_seen"
   ],
   "note": "For the wiring of main.rs 19 (the declarative part reads the procedural memory). ^nlpRel0 is excluded as in C88. A question is typed with \"? :|:\"; eternal questions are refused by the program. The belief is taken as it was when the answer was given."
  },
  {
   "property": "C93",
   "status": "proved",
   "theorems": [
    "c93_line",
    "c93_derive",
    "c93_store",
    "c93_sessions",
    "c93_crowded_refuted"
   ],
   "note": "Relates the two models of the program: Nar_Model.v (sequential) and Whole_Model.v (threads). The calls of ^nlpRel0 come after the second half step in Whole_Model.v and before its end in Nar_Model.v; the theorem shows that this makes no difference. c93_crowded_refuted shows what the condition on room excludes."
  },
  {
   "property": "C94",
   "status": "proved",
   "theorems": [
    "c94_act",
    "c94_taught",
    "c94_aside_derive",
    "c94_aside_comment",
    "c94_aside_cycles",
    "c94_aside_said",
    "c94_threads",
    "c94_distracted_refuted",
    "c94_fulfilled_refuted"
   ],
   "note": "The session theorem is about a program that has learned nothing else; c94_act is the step in any state. c94_distracted_refuted and c94_fulfilled_refuted are findings: only the last event counts as the situation, and a goal that has been satisfied is still pursued."
  },
  {
   "property": "C95",
   "status": "proved",
   "theorems": [
    "c95_waits",
    "c95_reason",
    "c95_no_circle",
    "c95_someone",
    "c95_finish",
    "c95_dt_refuted"
   ],
   "note": "Lock programs are read off the source by hand; data is left open, so every run of the program is covered as far as locks go. parking_lot locks prefer waiting writers; fairness between threads is not assumed. c95_dt_refuted is a finding: \"!dt\" reads the task table twice, and a deriver asking to write in between stops the program for ever; c95_dt_ex reaches the moment in the model with data."
  },
  {
   "property": "C96",
   "status": "proved",
   "theorems": [
    "c96_handled",
    "c96_cycle",
    "c96_session",
    "c96_syllogism"
   ],
   "note": "Over the schedule model (any number of clients, the deriver, any interleaving). c96_handled and c96_cycle hold for every reachable state in which one client runs the cycles; c96_session allows anything to be added or run after the first cycle and bounds the number of parts by 51 because a cycle looks at the first 51 tasks of each subterm. Questions enter the reasoner only when typed as events; other typed questions are dropped (C42)."
  },
  {
   "property": "C97",
   "status": "proved",
   "theorems": [
    "c97_typed",
    "c97_syllogism",
    "c97_eternal_refuted"
   ],
   "note": "Over the model of the whole program. The lines typed first are neither commands nor comments, the lines after the first cycle line are such lines or further cycle lines; lines for the procedural part (!sp) are not covered, because operators can then add statements of their own. That the program comes to wait again is C87. c97_eternal_refuted: a question without the event mark is not answered although the answer was derived."
  },
  {
   "property": "C98",
   "status": "proved",
   "theorems": [
    "c98_asked",
    "c98_taught",
    "c98_second_refuted",
    "c98_vague_refuted"
   ],
   "note": "Proved from any state in which the program waits (not only reachable ones), for any lines after the question and the cycles. The temporal corollary starts from the lesson of C94, taken in turns, and then allows all interleavings. Findings: with a second question open, one cycle looks up only one of them; a question made of variables only is never looked up."
  },
  {
   "property": "C99",
   "status": "proved",
   "theorems": [
    "c99_small",
    "c99_exact",
    "c99_forever_refuted"
   ],
   "note": "A step of a thread counts one and so does each derivation of goals made for a line. Ids of evidence and the interval index are only copied and compared, so they are not among the numbers. The lengths of vectors (usize) are not counted; they are limited by memory."
  },
  {
   "property": "C100",
   "status": "proved",
   "theorems": [
    "c100_same",
    "c100_fuel",
    "c100_upper",
    "c100_plain",
    "c100_opens",
    "c100_nested",
    "c100_power_refuted",
    "c100_depth",
    "c100_stack_refuted"
   ],
   "note": "The calls are counted on a second description of the parser, a list of what each alternative looks for; it is shown to read the same texts and leave the same rests as the model of the parser for all texts. The work inside nom (tag, taking the characters of a name) is not counted; it is at most linear in the text for each call."
  },
  {
   "property": "C101",
   "status": "proved",
   "theorems": [
    "c101_waits",
    "c101_started",
    "c101_channels",
    "c101_events",
    "c101_tables",
    "c101_asked",
    "c101_events_refuted",
    "c101_questions_refuted"
   ],
   "note": "The bound on waiting effects needs the order in which half steps come: it is shown that the second half of a step is only ever begun right after the first half, so at most one effect is added per tick of the clock. Statements put in by ^nlpRel0 have limits of their own (complexity 64, 60 beliefs), so the last part is for programs that do not register it. The number of concepts and of tasks is bounded at the times of maintenance by C53 and C56, between them by the work done."
  },
  {
   "property": "C102",
   "status": "proved",
   "theorems": [
    "c102_size",
    "c102_negative",
    "c102_turn",
    "c102_range",
    "c102_middle",
    "c102_even_refuted",
    "c102_wavelength_refuted"
   ],
   "note": "Cosine, sine and exponential are arguments of the model; what is asked of them is in Gabor_Spec.v. The claims about exact symmetry need only that the cosine is even."
  },
  {
   "property": "C103",
   "status": "proved",
   "theorems": [
    "c103_length",
    "c103_turned_length",
    "c103_panic",
    "c103_symmetric",
    "c103_opposite",
    "c103_zero_refuted",
    "c103_one_refuted",
    "c103_lengths_refuted"
   ],
   "note": "[powf(2.0)] is an argument of the model. The two functions are not used by the code that lib.rs compiles. The refutations use x * x for the square."
  },
  {
   "property": "C104",
   "status": "proved",
   "theorems": [
    "c104_made",
    "c104_too_large",
    "c104_access",
    "c104_box",
    "c104_box_refuted",
    "c104_crop",
    "c104_circle",
    "c104_circle_refuted",
    "c104_arithmetic",
    "c104_convolution",
    "c104_kernel",
    "c104_kernel_refuted"
   ],
   "note": "Overflow is modelled as a panic, as in a debug build; a release build wraps around. drawLine and distPow2 have no i32 arithmetic beyond reading and writing cells."
  },
  {
   "property": "C105",
   "status": "proved",
   "theorems": [
    "c105_ahead",
    "c105_horizon",
    "c105_rule",
    "c105_compete",
    "c105_plan",
    "c105_three",
    "c105_threads"
   ],
   "note": "What was typed as truth value of a rule plays no role (src/Nar.rs:103-121 enters every rule with 10 of 10 observations): the examples follow a rule typed as never working. The three-step case is the finding: the three steps of the loop (src/NarProc.rs:717-718) check three situations, so use two beliefs; the plan is not seen in that step, c105_ex_later shows it begun one step later in one session. Rules with variables and more than nine rules are not covered; which of several competing rules is drawn is the random choice, so it is a disjunction."
  },
  {
   "property": "C106",
   "status": "proved",
   "theorems": [
    "c106_expectation",
    "c106_strong",
    "c106_wished",
    "c106_followed",
    "c106_given_up",
    "c106_typed",
    "c106_stale_refuted"
   ],
   "note": "At exactly 50p = 29c+4 (or 45p(2p-c) = 8c(c+1)) rounding decides; nothing is claimed there. wants and noneFor say that no operation goals or derived sequences are left from before; c106_stale_refuted shows that such goals keep their old strength, so a rule is tried longer than its counts allow."
  },
  {
   "property": "C107",
   "status": "proved",
   "theorems": [
    "c107_any",
    "c107_row",
    "c107_column",
    "c107_end_refuted"
   ],
   "note": "This is a finding: src/Map2d.rs:93-94 multiplies the projected length with the difference of the end points instead of its normalised form, so all cells but the first are compared with points far along the line."
  },
  {
   "property": "C108",
   "status": "proved",
   "theorems": [
    "c108_safe",
    "c108_clock",
    "c108_told",
    "c108_does",
    "c108_go_on",
    "c108_lands",
    "c108_score",
    "c108_average",
    "c108_no_evidence_refuted"
   ],
   "note": "The threads are the main thread of src/Reasoner1Entry.rs and the storage worker; the declarative worker gets no message in this program. Random numbers are arguments. The panic for missing evidence at the end (src/Reasoner1Entry.rs:101-103) is a finding: it is reached when no operator happens to be tried out."
  },
  {
   "property": "C109",
   "status": "proved",
   "theorems": [
    "c109_safe",
    "c109_legal",
    "c109_told",
    "c109_does",
    "c109_plays",
    "c109_tally",
    "c109_tally_fun",
    "c109_quiet",
    "c109_settings",
    "c109_begin",
    "c109_seen",
    "c109_reward",
    "c109_pause",
    "c109_go_on",
    "c109_rounds_refuted"
   ],
   "note": "The threads are the main thread of src/ProcTicTacToe.rs and the storage worker. Random numbers are arguments; printing is left out, as are the branches for a human and a random player, which the constant at line 32 switches off. Findings: run(n) plays n+1 games (c109_rounds_refuted), and a move that the reasoner calls while it only watches is made at its next turn (c109_does)."
  },
  {
   "property": "C110",
   "status": "proved",
   "theorems": [
    "c110_same",
    "c110_courts",
    "c110_never_else",
    "c110_typed",
    "c110_program",
    "c110_counters",
    "c110_fast_refuted",
    "c110_clock_refuted"
   ],
   "note": "The checked step is a second model of the same lines in which every i64 operation panics outside its range, as in a debug build. Findings: with a large multiplier of the speed (a public field, 0 in the program) or at the end of the clock the step does panic (c110_fast_refuted, c110_clock_refuted). moveCnt of src/ProcTicTacToe.rs is never read and not modelled; it grows by at most one per step."
  },
  {
   "property": "C111",
   "status": "proved",
   "theorems": [
    "c111_beliefs",
    "c111_goals",
    "c111_concepts",
    "c111_pong_beliefs",
    "c111_pong_twelve",
    "c111_pong_concepts",
    "c111_pong_goals",
    "c111_pong_events",
    "c111_ttt_beliefs",
    "c111_ttt_concepts",
    "c111_ttt_goals",
    "c111_ttt_events"
   ],
   "note": "No variables are introduced: that needs statements as events, which these programs never perceive. The two programs are those of C108 and C109; for tic-tac-toe the bound on the number of steps is that of C109."
  },
  {
   "property": "C112",
   "status": "proved",
   "theorems": [
    "c112_wins",
    "c112_wins_there",
    "c112_next",
    "c112_condition"
   ],
   "note": "About the terms that are remembered, not their truth values. Where the effect is a board nothing is said about the operator: one that is called while the reasoner only watches may stand between the two boards (see C109). The bound on the number of steps is that of C109."
  },
  {
   "property": "C113",
   "status": "proved",
   "theorems": [
    "c113_wanted",
    "c113_then",
    "c113_considers",
    "c113_hopeless"
   ],
   "note": "Goals that call an operator are not covered: one that was decided on earlier and not carried out may remain in the active set. Winnable means that some moves of both players lead to a win, not that the win can be forced. The bound on the number of steps is that of C109."
  },
  {
   "property": "C114",
   "status": "proved",
   "theorems": [
    "c114_pong_number",
    "c114_ttt_number",
    "c114_pong_skips",
    "c114_ttt_skips",
    "c114_independent_refuted"
   ],
   "note": "Finding: src/Nar.rs:67 numbers typed sentences from 0, src/NarProc.rs takes the time of an event, also from 0, as its evidence, and src/NarStamp.rs compares both as one kind of number (c114_independent_refuted). Operator goals are left out of the first part: they have the evidence of the belief they were decided on."
  },
  {
   "property": "C115",
   "status": "proved",
   "theorems": [
    "c115_wants",
    "c115_undecided",
    "c115_chance",
    "c115_ttt_learns",
    "c115_ttt_wants",
    "c115_ttt_moves"
   ],
   "note": "Chance means the number that is drawn for trying operators (i_babble, an argument of the model); nothing is said about its distribution. That the move is a legal one is checked by the game afterwards (C109). The bound on the number of steps is that of C109."
  },
  {
   "property": "C116",
   "status": "proved",
   "theorems": [
    "c116_goal",
    "c116_operator",
    "c116_decision",
    "c116_done",
    "c116_pong",
    "c116_ttt_decision",
    "c116_ttt_kept",
    "c116_ttt_done",
    "c116_ttt_wins",
    "c116_ttt_possible_refuted"
   ],
   "note": "Lives are those of C111 (confined): typed goals and perceived events are names of the vocabulary, and beliefs come only from what was perceived and done. A call of an operator that was decided earlier may still be wanted when the board has changed; c116_ttt_wins is about the decisions there are to choose from at the turn. For the tic-tac-toe program the bound on the number of steps is that of C109. Finding: right after its move the program still has the board from before it in its trace (src/ProcTicTacToe.rs flushes the trace only at its turn, line 184), so while it waits it can decide on the same move again; the move is kept and, at its next turn, a cell that is taken is tried (c116_ttt_possible_refuted)."
  },
  {
   "property": "C117",
   "status": "proved",
   "theorems": [
    "c117_board",
    "c117_move",
    "c117_wins",
    "c117_counted"
   ],
   "note": "relevant, advises, wants and noneFor are those of C94 (Teach_Spec). That nothing is wanted that says what to do is the case as long as no goals were derived (c117_ex); c117_reached_ex proves that all premises of c117_wins hold in a state that is reached. The bound on the number of steps is that of C109."
  },
  {
   "property": "C118",
   "status": "proved",
   "theorems": [
    "c118_chance",
    "c118_lost"
   ],
   "note": "candidate is that of Proc_Spec, winnable that of C113. A decision that is left or a move that was kept is a premise because of c116_held_ex. The bound on the number of steps is that of C109."
  }
 ]
}