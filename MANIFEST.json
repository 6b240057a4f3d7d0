{
 "claims": [
  {
   "property": "C01",
   "status": "proved",
   "theorems": [
    "C01_contract_is_einsum",
    "C01_many_labels"
   ],
   "note": "Array library is a parameter satisfying backend_ok; a concrete instance is proved to satisfy it. A library's einsum takes at most 52 different labels: required of the whole equation (C01_contract_is_einsum) or only of each step (C01_many_labels)."
  },
  {
   "property": "C02",
   "status": "partial",
   "theorems": [
    "C02_every_option",
    "C02_total_options",
    "C02_without_limit_partial",
    "C02_dp_zero_dim_refuted",
    "C02_dp_memory_refuted",
    "C02_many_labels"
   ],
   "note": "Whatever any option returns is the Einstein sum; all options but dp and auto-hq always return; dp and auto-hq return if no dimension is 0 and there is no memory limit, and can raise RuntimeError otherwise (witnesses)."
  },
  {
   "property": "C03",
   "status": "proved",
   "theorems": [
    "C03_blas_and_backend_agree",
    "C03_without_einsum",
    "C03_many_labels"
   ],
   "note": ""
  },
  {
   "property": "C04",
   "status": "proved",
   "theorems": [
    "C04_can_blas_sound"
   ],
   "note": ""
  },
  {
   "property": "C05",
   "status": "proved",
   "theorems": [
    "C05_parse",
    "C05_names"
   ],
   "note": ""
  },
  {
   "property": "C06",
   "status": "partial",
   "theorems": [
    "C06_accepted_partial",
    "C06_rejects_malformed",
    "C06_comma_output_refuted",
    "C06_double_ellipsis_refuted",
    "C06_error_kinds"
   ],
   "note": "Holds except that a comma or a doubled ellipsis in the output is accepted (refuted witnesses). C06_error_kinds: a refusal is a ValueError, save an IndexError for an ellipsis in a term without operand."
  },
  {
   "property": "C07",
   "status": "proved",
   "theorems": [
    "C07_get_symbol",
    "C07_gen_unused"
   ],
   "note": ""
  },
  {
   "property": "C08",
   "status": "partial",
   "theorems": [
    "C08_surrogates_exactly_partial",
    "C08_no_surrogates_refuted"
   ],
   "note": "False in the code: 55156..55295 give surrogates; exact set proved."
  },
  {
   "property": "C09",
   "status": "partial",
   "theorems": [
    "C09_interleaved_partial",
    "C09_order_refuted"
   ],
   "note": "Explicit output: all label lists. Implicit output: proved up to 26 labels; false beyond (symbols a..z are followed by A..Z, which sort first): C09_order_refuted with 27 labels. Labels are integers in the model."
  },
  {
   "property": "C10",
   "status": "proved",
   "theorems": [
    "C10_label_names"
   ],
   "note": "Explicit outputs; an implicit output is sorted by name, so it legitimately depends on names."
  },
  {
   "property": "C11",
   "status": "proved",
   "theorems": [
    "C11_alpha_complete",
    "C11_alpha_canonical"
   ],
   "note": ""
  },
  {
   "property": "C12",
   "status": "proved",
   "theorems": [
    "C12_shapes_accepted",
    "C12_shapes_rejected"
   ],
   "note": ""
  },
  {
   "property": "C13",
   "status": "partial",
   "theorems": [
    "C13_output_shape_partial",
    "C13_output_shape_refuted"
   ],
   "note": "Proved when no label has both size 0 and size 1; false otherwise (max is used)."
  },
  {
   "property": "C14",
   "status": "proved",
   "theorems": [
    "C14_ssa_linear_ssa",
    "C14_linear_ssa_linear"
   ],
   "note": ""
  },
  {
   "property": "C15",
   "status": "proved",
   "theorems": [
    "C15_same_tree",
    "C15_result",
    "C15_converse_refuted"
   ],
   "note": "The converse (a complete linear path implies a complete SSA path) is false; see C15_converse_refuted."
  },
  {
   "property": "C16",
   "status": "proved",
   "theorems": [
    "C16_optimal_complete"
   ],
   "note": ""
  },
  {
   "property": "C17",
   "status": "partial",
   "theorems": [
    "C17_optimal_cheapest_partial",
    "C17_optimal_cheapest_pair_partial",
    "C17_cheapest_refuted"
   ],
   "note": "The full statement is false (result cache ignores the remaining tensors); proved when every label occurs in exactly two places, and for the search's own operation count when every label occurs in at most two."
  },
  {
   "property": "C18",
   "status": "partial",
   "theorems": [
    "C18_optimal_memory_partial",
    "C18_cheapest_within_partial",
    "C18_memory_refuted"
   ],
   "note": "The full statement is false (same cache); proved when every label occurs in at most two places. There also: no pairwise path that keeps the limit until its last step costs less (labels in exactly two places)."
  },
  {
   "property": "C19",
   "status": "proved",
   "theorems": [
    "C19_branch_complete",
    "C19_branch_cost"
   ],
   "note": ""
  },
  {
   "property": "C20",
   "status": "proved",
   "theorems": [
    "C20_greedy_ssa_complete",
    "C20_greedy_complete",
    "C20_simple_chooser",
    "C20_thermal_chooser",
    "C20_nbranch0_refuted"
   ],
   "note": "Inputs non-empty; every label has a size. Choosers must make progress: both choosers of the library do, thermal_chooser only for nbranch >= 1 (with nbranch = 0 the loop never ends: C20_nbranch0_refuted)."
  },
  {
   "property": "C21",
   "status": "proved",
   "theorems": [
    "C21_tree_realised"
   ],
   "note": "Trees without empty tuples whose leaves are 0..n-1."
  },
  {
   "property": "C22",
   "status": "proved",
   "theorems": [
    "C22_parts_connected"
   ],
   "note": "all iteration and pop orders; inputs non-empty (otherwise frozenset.union(*[]) raises TypeError)"
  },
  {
   "property": "C23",
   "status": "proved",
   "theorems": [
    "C23_dp_complete"
   ],
   "note": "all modes, including custom functions that add a cost of each contraction, computed from its operations and size; all set orders; also search_outer"
  },
  {
   "property": "C24",
   "status": "partial",
   "theorems": [
    "C24_dp_succeeds_partial",
    "C24_zero_dim_refuted",
    "C24_cap0_refuted"
   ],
   "note": "proved when no dimension is 0; with a dimension 0 the statement is false (RuntimeError), see C24_zero_dim_refuted"
  },
  {
   "property": "C25",
   "status": "proved",
   "theorems": [
    "C25_dp_optimal",
    "C25_dp_decides",
    "C25_combo_diverges",
    "C25_combo_refuted"
   ],
   "note": "optimality and limit for every mode; failure only if no tree is allowed for flops/size/write; combo/limit and custom functions do not terminate then"
  },
  {
   "property": "C26",
   "status": "partial",
   "theorems": [
    "C26_auto_complete",
    "C26_auto_hq_sound",
    "C26_auto_hq_succeeds_partial",
    "C26_auto_hq_refuted"
   ],
   "note": "auto always; auto-hq: every result is complete, and there is one without memory limit and with dimensions above 0; RuntimeError with a dimension 0 (witness)."
  },
  {
   "property": "C27",
   "status": "proved",
   "theorems": [
    "C27_history",
    "C27_none_better"
   ],
   "note": "Any sequence of calls, including failing trials, time-outs, executors and rejected arguments."
  },
  {
   "property": "C28",
   "status": "partial",
   "theorems": [
    "C28_parallel_count_partial",
    "C28_all_iff",
    "C28_serial",
    "C28_refuted"
   ],
   "note": "False in the code when max_repeats > pre_dispatch: repeats are dropped; the exact number is proved."
  },
  {
   "property": "C29",
   "status": "proved",
   "theorems": [
    "C29_path_info"
   ],
   "note": "size_list equals the sizes of the actual intermediates when every label has one size across operands."
  },
  {
   "property": "C30",
   "status": "partial",
   "theorems": [
    "C30_expression_partial",
    "C30_refuted",
    "C30_many_labels_partial"
   ],
   "note": "All call histories, libraries and shapes of the same ranks, except shapes different from the build shapes that broadcast a dimension 1: there a step planned as tensordot fails (C30_refuted)."
  },
  {
   "property": "C31",
   "status": "partial",
   "theorems": [
    "C31_constants_partial",
    "C31_same_as_without",
    "C31_all_constant_refuted",
    "C31_many_labels_partial"
   ],
   "note": "All constant subsets that leave at least one operand variable, all histories and library sequences (same shape condition as C30). An expression whose operands are all constant fails on every call (C31_all_constant_refuted)."
  },
  {
   "property": "C32",
   "status": "partial",
   "theorems": [
    "C32_exact",
    "C32_transparent_partial",
    "C32_refuted"
   ],
   "note": "transpose/tensordot exact after any history; einsum/contract transparent when all earlier einsum calls are valid; refuted in general: an optimize=False call with an ellipsis and a non-letter label stores a wrong value under a valid key"
  },
  {
   "property": "C33",
   "status": "proved",
   "theorems": [
    "C33_key_sound",
    "C33_key_complete"
   ],
   "note": "complete for distinct arrays (an array used twice is order sensitive, C33_same_array)"
  },
  {
   "property": "C34",
   "status": "partial",
   "theorems": [
    "C34_threads_partial",
    "C34_refuted"
   ],
   "note": "refuted when get_sharing_cache() is called outside every context: it leaves an empty stack and currently_sharing() is True afterwards"
  },
  {
   "property": "C35",
   "status": "partial",
   "theorems": [
    "C35_out_partial",
    "C35_sharing_refuted",
    "C35_scalar_refuted"
   ],
   "note": "refuted for a last einsum step inside a context (out dropped) and for a 0-d out after a tensordot (IndexError)"
  },
  {
   "property": "C36",
   "status": "partial",
   "theorems": [
    "C36_convert_partial",
    "C36_refuted"
   ],
   "note": "refuted when a converted array is dropped and its id recycled"
  },
  {
   "property": "C37",
   "status": "partial",
   "theorems": [
    "C37_any_partial",
    "C37_semiring_partial",
    "C37_empty_sum",
    "C37_broadcast_refuted",
    "C37_empty_refuted"
   ],
   "note": "Proved for any element type when every label has one dimension and sums are non-empty; false for size-1 broadcasting (last dimension wins) and for empty sums (TypeError)."
  },
  {
   "property": "C38",
   "status": "partial",
   "theorems": [
    "C38_partial",
    "C38_stop",
    "C38_einsum",
    "C38_refuted",
    "C38_invalid_refuted"
   ],
   "note": "Proved for every documented form of axes with at most 52 distinct axes; with more the call raises StopIteration, and arguments numpy rejects are accepted silently."
  },
  {
   "property": "C39",
   "status": "partial",
   "theorems": [
    "C39_history_partial",
    "C39_memory_limit_refuted"
   ],
   "note": "Completeness and the ValueError are proved for every history; honouring the memory limit of a later call is false (witness). A fresh instance honours it when labels occur at most twice (C19_branch_cost)."
  },
  {
   "property": "C40",
   "status": "partial",
   "theorems": [
    "C40_case_insensitive",
    "C40_kept_partial",
    "C40_duplicate",
    "C40_registered",
    "C40_refuted",
    "C40_spelling",
    "C40_known"
   ],
   "note": "Proved for names registered in lower case; a name with capitals replaces the existing option (witness). C40_known: exactly the thirteen names are known."
  },
  {
   "property": "C41",
   "status": "partial",
   "theorems": [
    "C41_accepted_in_bounds_partial",
    "C41_incomplete_path_refuted"
   ],
   "note": "Complete paths: C01. Incomplete explicit paths are accepted and give wrong values (refuted)."
  },
  {
   "property": "C42",
   "status": "proved",
   "theorems": [
    "C42_memory_limit",
    "C42_invalid_rejected"
   ],
   "note": ""
  },
  {
   "property": "C43",
   "status": "partial",
   "theorems": [
    "C43_no_optimization_partial",
    "C43_ellipsis_refuted",
    "C43_spaces_refuted"
   ],
   "note": "Positive for equations without spaces, and without ellipsis when a label is outside the 52 letters, given numpy's documented einsum. False otherwise: spaces and dots are renamed as labels."
  },
  {
   "property": "C44",
   "status": "proved",
   "theorems": [
    "C44_no_constants",
    "C44_brackets"
   ],
   "note": "For equations with at most one '-' sign sequence (lhs[->out]) and no brackets."
  },
  {
   "property": "C45",
   "status": "partial",
   "theorems": [
    "C45_get_shape_partial",
    "C45_empty_refuted",
    "C45_arrays_refuted",
    "C45_errors"
   ],
   "note": "Proved for all rectangular nested sequences of base values with no dimension 0; an empty sequence raises IndexError and arrays inside a list are not looked into. C45_errors: exactly when it fails and how."
  },
  {
   "property": "C46",
   "status": "partial",
   "theorems": [
    "C46_trial_cost",
    "C46_reported_partial",
    "C46_refuted"
   ],
   "note": "Proved when no label occurs only once; false otherwise (witness)."
  },
  {
   "property": "C47",
   "status": "proved",
   "theorems": [
    "C47_accepts",
    "C47_kinds",
    "C47_without_shapes",
    "C47_free_accepts",
    "C47_free_arity"
   ],
   "note": "The removed labels are those of the two terms that the result does not have. Also without shapes, when nothing counts as broadcast, and for other numbers of inputs."
  },
  {
   "property": "C48",
   "status": "proved",
   "theorems": [
    "C48_repeat",
    "C48_relabelled",
    "C48_entries_stay"
   ],
   "note": "Histories of C48_repeat do not delete the dictionary c (WForget); the dictionary outlives the context, so re-entering it is covered."
  },
  {
   "property": "C49",
   "status": "proved",
   "theorems": [
    "C49_outer_last",
    "C49_random_outer_last"
   ],
   "note": "Steps replayed on the real label sets; the label sets the search works with may have labels in excess, which no other operand has."
  },
  {
   "property": "C50",
   "status": "partial",
   "theorems": [
    "C50_first_step_partial",
    "C50_first_step_memory_partial",
    "C50_every_step_refuted"
   ],
   "note": "Proved for the first step, with ties; later steps are not always the cheapest, because only the best partner of each tensor is kept in the queue (d,ab,bc,bde-> with sizes 3,3,2,3,3)."
  },
  {
   "property": "C51",
   "status": "proved",
   "theorems": [
    "C51_auto",
    "C51_auto_hq",
    "C51_small_cheapest",
    "C51_medium"
   ],
   "note": "The table of 'auto' is the documented one; the documentation has no numbers for 'auto-hq', its table is the code's."
  },
  {
   "property": "C52",
   "status": "partial",
   "theorems": [
    "C52_no_worse_than_greedy_partial",
    "C52_best_of_runs",
    "C52_jitter_refuted"
   ],
   "note": "Proved when run 0 uses greedy's cost function; with the default 'memory-removed-jitter' the random factor applies to run 0 too and all runs can be worse than greedy (C52_jitter_refuted). C52_best_of_runs: by name, the answer is the first best of exactly 32 (or 128) runs."
  },
  {
   "property": "C53",
   "status": "partial",
   "theorems": [
    "C53_all_branches_best_partial",
    "C53_cutoff_refuted",
    "C53_outer_refuted"
   ],
   "note": "Proved without cutoff against all paths that contract pairs sharing a label while there are any; false for 'branch-all' (cutoff factor 4, C53_cutoff_refuted) and against paths with early outer products (C53_outer_refuted)."
  },
  {
   "property": "C54",
   "status": "proved",
   "theorems": [
    "C54_no_worse_than_one_branch"
   ],
   "note": ""
  },
  {
   "property": "C55",
   "status": "partial",
   "theorems": [
    "C55_one_branch_cheapest_partial",
    "C55_greedy_with_limit_partial",
    "C55_named_partial",
    "C55_cutoff_refuted"
   ],
   "note": "Proved for the candidates that pass the cutoff (added operations at most cutoff times those of the best candidate seen before); among all candidates it is false (C55_cutoff_refuted)."
  },
  {
   "property": "C56",
   "status": "partial",
   "theorems": [
    "C56_speedup_partial",
    "C56_options_partial",
    "C56_bounds",
    "C56_outer_refuted",
    "C56_ones_refuted",
    "C56_single_refuted",
    "C56_dp_refuted"
   ],
   "note": "True when some label is on two operands or nothing is summed, every dimension is at least two and no step takes a single operand (all options but dp and auto-hq); each condition is needed, and 'dp' breaks the last one."
  },
  {
   "property": "C57",
   "status": "partial",
   "theorems": [
    "C57_history_partial",
    "C57_auto",
    "C57_convert_partial",
    "C57_defaults_refuted",
    "C57_convert_refuted",
    "C57_names",
    "C57_modules"
   ],
   "note": "History independence holds if each function is always asked with the same default, as the library itself does; with different defaults a default stays in the cache and a library seems to have a function it lacks. has_backend ignores case, the conversion tables do not ('Torch' is announced, then a KeyError). C57_modules: the module every backend name stands for."
  },
  {
   "property": "C58",
   "status": "partial",
   "theorems": [
    "C58_network",
    "C58_returns_partial",
    "C58_contract",
    "C58_shapes",
    "C58_views",
    "C58_single_refuted",
    "C58_empty_refuted"
   ],
   "note": "Everything but two points holds: with one operand and a bond the loop that looks for a second operand never ends, and an operand stays without labels when there are fewer label ends than operands. Termination with two or more operands assumes that every operand is drawn again and again."
  },
  {
   "property": "C59",
   "status": "proved",
   "theorems": [
    "C59_smallest_first",
    "C59_random_smallest_first"
   ],
   "note": "Each step of the path is a contraction, a product of operands with the same labels, or such a product of two smallest operands taken when nothing is linked. Which of several equally small operands is taken is not stated."
  },
  {
   "property": "C60",
   "status": "proved",
   "theorems": [
    "C60_connected_best",
    "C60_outer_best",
    "C60_within_twice",
    "C60_named_best"
   ],
   "note": "Paths are compared by replaying them on label sets; single-operand steps cost nothing, as in the code. Networks of several parts are covered per part by C25. A custom cost function of the operations and the size of a contraction must not decrease when they grow."
  },
  {
   "property": "C61",
   "status": "partial",
   "theorems": [
    "C61_graph_partial",
    "C61_same_array_refuted",
    "C61_theano_refuted",
    "C61_shapes_refuted",
    "C61_old_id_refuted",
    "C61_many_labels_partial"
   ],
   "note": "Proved for histories whose calls with that backend have arrays of the same shapes (tensorflow) or ranks (theano), outside sharing contexts or without passing one array twice in a call and with ids that keep standing for arrays of one shape. False otherwise: in a sharing context two operands given the same array on the first call share one placeholder, and later calls silently feed one array to both (C61_same_array_refuted); theano refuses that first call; tensorflow refuses other shapes; a recycled id brings an old placeholder."
  },
  {
   "property": "C62",
   "status": "partial",
   "theorems": [
    "C62_pools_partial",
    "C62_results",
    "C62_failed_assignment_refuted",
    "C62_failing_trial_refuted"
   ],
   "note": "False in two cases: parallel = 0 is refused after the old pool was shut down, and leaves it in place, so every later call raises; when a trial raises, the other jobs submitted are neither waited for nor cancelled. All the rest is proved for every history."
  },
  {
   "property": "C63",
   "status": "partial",
   "theorems": [
    "C63_chooser",
    "C63_chooser_zero",
    "C63_zero_partial",
    "C63_zero_memory_partial",
    "C63_zero_refuted",
    "C63_plain_greedy_refuted"
   ],
   "note": "Proved for all networks in which no label that can be summed is on more than two operands; false in general: after two operands with the same labels are multiplied the search goes on with labels that are already summed and misjudges the cost (C63_zero_refuted). The claims about the chooser alone are proved in full. C63_plain_greedy_refuted shows that the default chooser does not have the property even for networks with labels on two operands."
  },
  {
   "property": "C64",
   "status": "partial",
   "theorems": [
    "C64_filter",
    "C64_keywords_partial",
    "C64_no_blas",
    "C64_result",
    "C64_expression",
    "C64_expression_refuses",
    "C64_path",
    "C64_tensordot_refuted",
    "C64_path_dependent_refuted",
    "C64_sharing_refuted",
    "C64_path_known"
   ],
   "note": "False in two ways: a step done by tensordot makes every keyword (even order='K') a TypeError, so whether a call is accepted depends on the path; in a sharing context keywords are dropped silently. Proved: outside contexts a call without tensordot steps (always with use_blas=False) is the call with the keywords bound; with such steps it fails, never drops a keyword."
  },
  {
   "property": "C65",
   "status": "partial",
   "theorems": [
    "C65_optimal_same_partial",
    "C65_optimal_grows_partial",
    "C65_dp_same_partial",
    "C65_dp_grows_partial",
    "C65_dp_outer_same_partial",
    "C65_named_same_partial",
    "C65_optimal_refuted",
    "C65_greedy_refuted",
    "C65_greedy_grows_refuted"
   ],
   "note": "False for optimal if a label is in three places (its cache again), and for greedy, whose cost depends on the order of the operands and can fall when a dimension grows. Proved: for optimal with labels in two places; for dp on connected networks, and with outer products without lone operands, in every mode and with any limit; for the named options."
  },
  {
   "property": "C66",
   "status": "partial",
   "theorems": [
    "C66_accepted_partial",
    "C66_value_partial",
    "C66_non_negative",
    "C66_indices_refuted",
    "C66_pointed_to_refuted",
    "C66_constants_refuted",
    "C66_expression_non_negative",
    "C66_expression_value_partial"
   ],
   "note": "False as stated: positions are taken out one by one, the largest first, so (-1,-2) of three operands contracts the last and the first, (-3,-1) is an IndexError, and with constants a step may be started in advance whose operands are not all there (TypeError). Proved: accepted if and only if each position exists at its turn (else IndexError), and then the value is the Einstein sum, negative and repeated positions included; for non-negative positions this is the model of the other properties. Expressions with constants: a value that is returned is the one contract returns (C66_expression_value_partial); with non-negative positions all is as in C31 (C66_expression_non_negative)."
  },
  {
   "property": "C67",
   "status": "partial",
   "theorems": [
    "C67_optimal_partial",
    "C67_named_partial",
    "C67_dp_partial",
    "C67_searches_refuted",
    "C67_optimal_refuted",
    "C67_zero_refuted"
   ],
   "note": "False for greedy, branch-1, branch-2 and branch-all even with labels in two places, for optimal if a label is in three places, and for optimal with limit zero. Proved: for optimal (also as auto and auto-hq) with labels in two places and positive limits; for dp on connected networks in every mode."
  },
  {
   "property": "C68",
   "status": "proved",
   "theorems": [
    "C68_rows",
    "C68_report",
    "C68_half_even"
   ],
   "note": "Numbers are proved to be within 1/2000 of the true value (the speedup, which is rounded twice, within 1/1999), as the half-unit rounding to four digits gives. C68_half_even: ties in the rounding go to the even digit."
  },
  {
   "property": "C69",
   "status": "partial",
   "theorems": [
    "C69_repr",
    "C69_str_partial",
    "C69_once_refuted"
   ],
   "note": "The keyword arguments are shown after every step instead of once (C69_once_refuted); all else is proved."
  },
  {
   "property": "C70",
   "status": "partial",
   "theorems": [
    "C70_paths_partial",
    "C70_dp_partial",
    "C70_arrays_partial",
    "C70_random_refuted",
    "C70_dp_parts_refuted",
    "C70_shared_refuted"
   ],
   "note": "Proved, for paths and for the arrays of the run, for auto, optimal, branch-*, greedy, eager, opportunistic, and auto-hq with at most 5 operands, when every label is in at most two places; for dp on connected networks even the result of the last contraction is within the limit. Refuted for random-greedy, for dp on networks of several parts, and for labels in three places."
  },
  {
   "property": "C71",
   "status": "proved",
   "theorems": [
    "C71_operand_order"
   ],
   "note": "Both calls may use different libraries, strategies, limits and set orders."
  },
  {
   "property": "C72",
   "status": "proved",
   "theorems": [
    "C72_two_calls"
   ],
   "note": "The example C72_lost_label shows that the condition on kept labels is needed."
  },
  {
   "property": "C73",
   "status": "proved",
   "theorems": [
    "C73_same_report",
    "C73_same_run",
    "C73_order_in_step",
    "C73_through_ssa",
    "C73_other_arrays"
   ],
   "note": "C73_other_arrays for the named options; the limit is not read when a path is given, but must be valid."
  },
  {
   "property": "C74",
   "status": "proved",
   "theorems": [
    "C74_axes"
   ],
   "note": "Operands and output at once."
  },
  {
   "property": "C75",
   "status": "proved",
   "theorems": [
    "C75_sum",
    "C75_multiple"
   ],
   "note": "Each of the calls may use its own library, strategy, limit."
  },
  {
   "property": "C76",
   "status": "proved",
   "theorems": [
    "C76_converted"
   ],
   "note": "Instance: natural numbers and 'is it not zero'."
  },
  {
   "property": "C77",
   "status": "proved",
   "theorems": [
    "C77_counter",
    "C77_operation",
    "C77_contract",
    "C77_outside",
    "C77_never_less"
   ],
   "note": "count_cached_ops is modelled on the caches of Sharing.v."
  },
  {
   "property": "C78",
   "status": "partial",
   "theorems": [
    "C78_valid",
    "C78_converted_partial",
    "C78_output",
    "C78_dots_refuted",
    "C78_order_refuted"
   ],
   "note": "False in two points: the dots of an ellipsis are renamed like a label (C78_dots_refuted), and with more than 26 labels the order is lost (C78_order_refuted). Proved for all strings without dots, the order with at most 26 labels."
  },
  {
   "property": "C79",
   "status": "proved",
   "theorems": [
    "C79_find_contraction",
    "C79_size",
    "C79_flops"
   ],
   "note": "Positions are distinct."
  },
  {
   "property": "C80",
   "status": "proved",
   "theorems": [
    "C80_matmul",
    "C80_matmul_implicit",
    "C80_matvec",
    "C80_bilinear",
    "C80_inner",
    "C80_outer",
    "C80_hadamard",
    "C80_scale",
    "C80_transpose",
    "C80_transpose_implicit",
    "C80_trace",
    "C80_trace_implicit",
    "C80_diagonal",
    "C80_row_sums",
    "C80_total",
    "C80_batch",
    "C80_kron",
    "C80_frobenius",
    "C80_matrix_trace",
    "C80_chain"
   ],
   "note": "Entries are given by formulas that do not mention labels; corollaries of contract_ok, without broadcasting of size 1."
  },
  {
   "property": "C81",
   "status": "proved",
   "theorems": [
    "C81_fixed",
    "C81_sum"
   ],
   "note": "At most 52 labels in all, as for C01. An operand in which the index is broadcast (size 1) is sliced at 0."
  },
  {
   "property": "C82",
   "status": "partial",
   "theorems": [
    "C82_one_partial",
    "C82_one_runs_partial",
    "C82_random_fails",
    "C82_random_refuted",
    "C82_none",
    "C82_no_parts"
   ],
   "note": "The full statement is false: 'random-greedy' and 'random-greedy-128' raise a ValueError on every single operand, because the cost of the path (0,) is computed by unpacking pairs (C82_random_fails). The exact path of every other name, and the exact outcome on no operands, are proved."
  },
  {
   "property": "C83",
   "status": "proved",
   "theorems": [
    "C83_ones",
    "C83_fresh",
    "C83_identity"
   ],
   "note": "Two calls related, each with its own equation, backend, path and limit. Both calls are assumed to satisfy the hypotheses of C01 (plain letters, agreeing sizes, at most 52 labels)."
  },
  {
   "property": "C84",
   "status": "partial",
   "theorems": [
    "C84_from_the_front_partial",
    "C84_value_partial",
    "C84_out_of_range",
    "C84_never_called",
    "C84_refuted"
   ],
   "note": "The full statement is false for positions counted from the end: they are accepted, the operand is not taken as a constant, and no call of the expression ever returns (C84_never_called, C84_refuted). Positions from the front give exactly the expression of C31, positions out of range are an IndexError."
  },
  {
   "property": "C85",
   "status": "proved",
   "theorems": [
    "C85_separate"
   ],
   "note": "Three calls related, each with its own equation, backend, path and limit; the calls satisfy the hypotheses of C01."
  },
  {
   "property": "C86",
   "status": "proved",
   "theorems": [
    "C86_range",
    "C86_sum"
   ],
   "note": "C86_range for kept indices, C86_sum for summed ones; each call has its own backend, path and limit and satisfies the hypotheses of C01."
  },
  {
   "property": "C87",
   "status": "proved",
   "theorems": [
    "C87_repeated",
    "C87_squeezed",
    "C87_dropped"
   ],
   "note": "Each call has its own backend, path and limit and satisfies the hypotheses of C01."
  },
  {
   "property": "C88",
   "status": "proved",
   "theorems": [
    "C88_grouped"
   ],
   "note": "One theorem for kept and summed pairs; each call has its own backend, path and limit and satisfies the hypotheses of C01."
  },
  {
   "property": "C89",
   "status": "proved",
   "theorems": [
    "C89_related"
   ],
   "note": "C76 is the case of a relation that is a function; both calls satisfy the hypotheses of C01."
  },
  {
   "property": "C90",
   "status": "proved",
   "theorems": [
    "C90_zeros",
    "C90_empty"
   ],
   "note": "Axes of size zero and one must not share a label (hypothesis good of C01)."
  }
 ]
}