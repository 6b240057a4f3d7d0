{"id": "C01", "title": "contract computes the einsum sum for every path", "statement": "contract(eq, *arrays, optimize=path) returns exactly the array the Einstein summation convention defines (sum over all non-output labels of the product of the operands, size-1 dimensions broadcast), whichever complete path is supplied.", "quantifier": "all equations, operand counts, shapes, entries in any commutative semiring, and all complete contraction paths (any number of operands per step)", "why_tests_cant": "paths grow factorially and shapes/entries are unbounded; tests compare a handful of paths numerically", "anchors": ["opt_einsum/contract.py: contract, contract_path, _core_contract", "opt_einsum/helpers.py: find_contraction"]}
{"id": "C02", "title": "the optimize strategy never changes the value", "statement": "For every built-in optimize option the path contract_path returns is complete, so contract gives the same array for optimize='optimal','branch-*','greedy','dp','auto','auto-hq','random-greedy' or False.", "quantifier": "all contractions with at least one operand, every option, every set-iteration order / heap order / random choice", "why_tests_cant": "hash seeds, tie breaking and random choices cannot be enumerated by tests", "anchors": ["opt_einsum/paths.py: optimal, BranchBound, greedy, DynamicProgramming, auto, auto_hq", "opt_einsum/path_random.py: RandomGreedy"]}
{"id": "C03", "title": "use_blas and the backend's capabilities never change the value", "statement": "Evaluating a contraction step with tensordot+transpose, or with einsum, yields the same array; so use_blas=True/False and backends with or without einsum agree.", "quantifier": "all pairwise steps, shapes and backends meeting the tensordot/transpose/einsum contract", "why_tests_cant": "the axis bookkeeping must be right for every pattern of kept and removed labels", "anchors": ["opt_einsum/contract.py: _core_contract", "opt_einsum/blas.py: can_blas"]}
{"id": "C04", "title": "can_blas only accepts contractions tensordot can do", "statement": "Whenever can_blas returns a BLAS kind, there are exactly two operands, neither has a repeated label, every shared label is summed and every unshared label is kept, and (shapes given) the summed dimensions agree.", "quantifier": "all pairs of label strings, result strings and shapes", "why_tests_cant": "label patterns are unbounded", "anchors": ["opt_einsum/blas.py: can_blas"]}
{"id": "C05", "title": "ellipsis and implicit output follow numpy's rules", "statement": "parse_einsum_input expands '...' right-aligned with fresh labels, one per broadcast dimension, puts them first in an implicit output followed by the labels occurring exactly once in sorted order, and leaves explicit labels alone.", "quantifier": "all subscripts strings and operand ranks", "why_tests_cant": "unbounded ranks, label sets and ellipsis placements", "anchors": ["opt_einsum/parser.py: parse_einsum_input, find_output_str, gen_unused_symbols"]}
{"id": "C06", "title": "malformed equations are rejected and accepted ones are well formed", "statement": "If parse_einsum_input returns, every output label is unique and occurs in the input, the number of terms equals the number of operands, and no arrow characters remain; otherwise it raises.", "quantifier": "all strings and operand lists", "why_tests_cant": "all malformed strings cannot be enumerated", "anchors": ["opt_einsum/parser.py: parse_einsum_input"]}
{"id": "C07", "title": "get_symbol and gen_unused_symbols never collide", "statement": "get_symbol is injective, never yields a reserved character (',', '-', '>', '.', ' '), and gen_unused_symbols(used, n) yields exactly n distinct symbols none of which is in used.", "quantifier": "all indices up to the unicode limit; all used strings and n", "why_tests_cant": "over a million symbols and every used-set", "anchors": ["opt_einsum/parser.py: get_symbol, gen_unused_symbols"]}
{"id": "C08", "title": "get_symbol skips surrogates", "statement": "get_symbol(i) is never a surrogate code point (the docstring says surrogates are skipped).", "quantifier": "all i", "why_tests_cant": "the failing window is 140 values out of a million", "anchors": ["opt_einsum/parser.py: get_symbol"]}
{"id": "C09", "title": "interleaved input means the same as the string form", "statement": "contract(A,[0,1],B,[1,2],[0,2]) denotes the contraction obtained by naming the labels injectively; with an implicit output the labels come out in the order of the user's labels.", "quantifier": "all label lists over any totally ordered label type", "why_tests_cant": "unbounded number of labels; the order claim fails only beyond 26 labels", "anchors": ["opt_einsum/parser.py: convert_interleaved_input, convert_subscripts"]}
{"id": "C10", "title": "the value does not depend on the label names", "statement": "Renaming labels injectively (in particular the temporary renaming of unicode labels into a-zA-Z before calling the backend) does not change the result.", "quantifier": "all equations and injective renamings; all equations with at most 52 distinct labels per step", "why_tests_cant": "all unicode strings", "anchors": ["opt_einsum/parser.py: convert_to_valid_einsum_chars, has_valid_einsum_chars_only", "opt_einsum/contract.py: _einsum"]}
{"id": "C11", "title": "alpha_canonicalize is a complete invariant of alpha-equivalence", "statement": "Two equations have the same alpha_canonicalize iff one is an injective label renaming of the other, and the canonical form is itself such a renaming.", "quantifier": "all pairs of strings", "why_tests_cant": "an iff over infinitely many strings", "anchors": ["opt_einsum/parser.py: alpha_canonicalize"]}
{"id": "C12", "title": "contract_path accepts exactly the broadcast-compatible shapes", "statement": "contract_path raises ValueError exactly when a term's length differs from the operand rank or two dimensions of one label are different and neither is 1; otherwise PathInfo.size_dict maps each label to its broadcast size.", "quantifier": "all terms and shapes", "why_tests_cant": "all shape combinations", "anchors": ["opt_einsum/contract.py: contract_path"]}
{"id": "C13", "title": "tracked intermediate shapes are the real ones", "statement": "find_output_shape(inputs, shapes, output) is the shape of the array einsum produces.", "quantifier": "all broadcast-compatible shapes, including 0", "why_tests_cant": "0-sized and broadcast combinations", "anchors": ["opt_einsum/parser.py: find_output_shape"]}
{"id": "C14", "title": "ssa_to_linear and linear_to_ssa are mutually inverse", "statement": "On complete paths linear_to_ssa(ssa_to_linear(p)) and ssa_to_linear(linear_to_ssa(p)) return p with every tuple sorted.", "quantifier": "all complete SSA / linear paths with any number of inputs and arbitrary arity per step", "why_tests_cant": "unbounded paths", "anchors": ["opt_einsum/paths.py: ssa_to_linear, linear_to_ssa"]}
{"id": "C15", "title": "ssa_to_linear preserves the contraction tree", "statement": "Executing the linear path ssa_to_linear returns creates exactly the tensors the SSA path names, step by step, so the contraction tree is the same and the linear path is complete whenever the SSA path is.", "quantifier": "all complete SSA paths", "why_tests_cant": "unbounded", "anchors": ["opt_einsum/paths.py: ssa_to_linear"]}
{"id": "C16", "title": "optimal returns a complete path", "statement": "optimal(inputs, output, size_dict, memory_limit) always returns a complete path that only ever contracts available tensors.", "quantifier": "all inputs, outputs, sizes, memory limits, set-iteration orders", "why_tests_cant": "factorial search space", "anchors": ["opt_einsum/paths.py: optimal, calc_k12_flops, _compute_oversize_flops"]}
{"id": "C17", "title": "optimal returns a cheapest pairwise path", "statement": "Without memory limit, no pairwise contraction order has a lower flop count than the path optimal returns.", "quantifier": "all inputs, outputs, sizes and all competing orders", "why_tests_cant": "minimum over factorially many paths for every input", "anchors": ["opt_einsum/paths.py: optimal, calc_k12_flops"]}
{"id": "C18", "title": "optimal respects the memory limit", "statement": "Every pairwise intermediate formed by the path optimal returns has at most memory_limit elements; only the last step, contracting everything left at once, may exceed it.", "quantifier": "all inputs, sizes and limits", "why_tests_cant": "all inputs and search orders", "anchors": ["opt_einsum/paths.py: optimal"]}
{"id": "C19", "title": "branch returns a complete path", "statement": "branch / BranchBound (any nbranch, cutoff factor, minimize, cost function) returns a complete path on a fresh optimizer.", "quantifier": "all inputs, parameters, heap orders, set-iteration orders", "why_tests_cant": "pruning and heap order interact", "anchors": ["opt_einsum/paths.py: BranchBound, branch"]}
{"id": "C20", "title": "greedy terminates with a complete path for every heuristic", "statement": "ssa_greedy_optimize terminates, raises no KeyError and returns a complete SSA path, whatever the cost function, chooser and tie breaking.", "quantifier": "all inputs (including repeated, scalar and hyper-edge terms), cost functions and choosers", "why_tests_cant": "random choices and stale candidates", "anchors": ["opt_einsum/paths.py: ssa_greedy_optimize, greedy, _simple_chooser, _update_ref_counts", "opt_einsum/path_random.py: thermal_chooser"]}
{"id": "C21", "title": "_tree_to_sequence realises its tree", "statement": "For any contraction tree whose leaves are 0..n-1, running the returned path contracts exactly the tree's nodes and ends with the root.", "quantifier": "all trees of any shape and arity", "why_tests_cant": "infinitely many trees", "anchors": ["opt_einsum/paths.py: _tree_to_sequence"]}
{"id": "C22", "title": "disconnected subgraphs are the connected components", "statement": "_find_disconnected_subgraphs partitions the inputs; two inputs are in one part iff linked by a chain of shared summed labels.", "quantifier": "all inputs, outputs, pop orders", "why_tests_cant": "all graphs", "anchors": ["opt_einsum/paths.py: _find_disconnected_subgraphs"]}
{"id": "C23", "title": "dp returns a complete path", "statement": "DynamicProgramming returns a complete path whenever it returns.", "quantifier": "all inputs, minimize modes, cost caps, memory limits", "why_tests_cant": "exponential search", "anchors": ["opt_einsum/paths.py: DynamicProgramming"]}
{"id": "C24", "title": "dp always succeeds without a memory limit", "statement": "Without memory limit and with default cost capping, DynamicProgramming terminates and never raises RuntimeError.", "quantifier": "all inputs, outputs, sizes (including 0 and 1)", "why_tests_cant": "termination for every input", "anchors": ["opt_einsum/paths.py: DynamicProgramming"]}
{"id": "C25", "title": "dp is optimal among outer-product-free trees and honours the memory limit", "statement": "The tree dp picks for each connected part has minimal cost among all trees without outer products whose intermediates all fit the memory limit.", "quantifier": "all inputs, sizes, limits and all competing trees", "why_tests_cant": "minimum over exponentially many trees", "anchors": ["opt_einsum/paths.py: DynamicProgramming, _dp_compare_flops, _dp_compare_size, _dp_compare_write"]}
{"id": "C26", "title": "auto and auto-hq cover every operand count", "statement": "auto and auto_hq dispatch every number of operands to some algorithm and so always return a complete path.", "quantifier": "all operand counts", "why_tests_cant": "unbounded n", "anchors": ["opt_einsum/paths.py: auto, auto_hq"]}
{"id": "C27", "title": "RandomOptimizer keeps the best trial over every history", "statement": "After any sequence of calls, path is the path of a trial whose (cost,size) no other trial beats, costs/sizes list every trial in order, and re-use with different arguments raises ValueError.", "quantifier": "all histories of calls, trial outcomes, and time-outs", "why_tests_cant": "history property", "anchors": ["opt_einsum/path_random.py: RandomOptimizer.__call__"]}
{"id": "C28", "title": "parallel random search runs every repeat", "statement": "With an executor the optimizer assesses exactly max_repeats trials, as in serial mode.", "quantifier": "all max_repeats and pre_dispatch", "why_tests_cant": "all parameter pairs", "anchors": ["opt_einsum/path_random.py: RandomOptimizer._gen_results_parallel"]}
{"id": "C29", "title": "PathInfo's numbers describe the path", "statement": "opt_cost is the sum over steps of flop_count, scale_list the number of labels per step, size_list the number of elements of each intermediate actually built, largest_intermediate their maximum.", "quantifier": "all contractions and complete paths", "why_tests_cant": "must hold for each path", "anchors": ["opt_einsum/contract.py: contract_path, PathInfo", "opt_einsum/helpers.py: flop_count, compute_size_by_dict"]}
{"id": "C30", "title": "a ContractExpression is reusable", "statement": "expr(*arrays) returns contract(eq,*arrays) for any sequence of calls with arrays of the original ranks and consistent dimensions, even when sizes differ from the build shapes, and raises ValueError on a wrong number of arrays.", "quantifier": "all call histories, shapes of equal rank", "why_tests_cant": "history and shape quantification", "anchors": ["opt_einsum/contract.py: ContractExpression, contract_expression"]}
{"id": "C31", "title": "constants do not change an expression's value", "statement": "An expression with constants at positions C, called with the remaining arrays in order, returns what the constant-free expression returns on the merged arrays, on every call and with every backend sequence.", "quantifier": "all constant subsets, call histories and backends", "why_tests_cant": "history dependent caching", "anchors": ["opt_einsum/contract.py: ContractExpression.evaluate_constants, _get_evaluated_constants, __call__, _core_contract"]}
{"id": "C32", "title": "sharing is transparent", "statement": "Inside shared_intermediates (with garbage collection recycling ids at any time) every einsum, tensordot and transpose returns the value it returns outside.", "quantifier": "all histories of operations, allocations and frees, all caches", "why_tests_cant": "requires all histories and id reuse schedules", "anchors": ["opt_einsum/sharing.py: einsum_cache_wrap, tensordot_cache_wrap, transpose_cache_wrap, _memoize, _save_tensors"]}
{"id": "C33", "title": "the sharing key is sound for commuted and renamed contractions", "statement": "Two einsum calls with the same cache key have the same value.", "quantifier": "all pairs of calls", "why_tests_cant": "all pairs of equations and operand orders", "anchors": ["opt_einsum/sharing.py: einsum_cache_wrap"]}
{"id": "C34", "title": "sharing is thread local and well nested", "statement": "currently_sharing() in a thread is true iff that thread is inside a shared_intermediates context, and get_sharing_cache() is the innermost one's cache, whatever other threads do.", "quantifier": "all interleavings of threads entering, leaving, raising and querying", "why_tests_cant": "all schedules", "anchors": ["opt_einsum/sharing.py: shared_intermediates, currently_sharing, get_sharing_cache, _add_sharing_cache, _remove_sharing_cache"]}
{"id": "C35", "title": "out= receives the result also inside a sharing context", "statement": "contract(..., out=o) fills o with the result and returns o, in or out of shared_intermediates.", "quantifier": "all contractions, out arrays and contexts", "why_tests_cant": "all final steps (BLAS or einsum, shared or not)", "anchors": ["opt_einsum/contract.py: _core_contract", "opt_einsum/sharing.py: einsum_cache_wrap"]}
{"id": "C36", "title": "backend conversion caching is sound under garbage collection", "statement": "Inside a sharing context, converting an array to a backend returns the conversion of that array.", "quantifier": "all histories of conversions, allocations and frees", "why_tests_cant": "id recycling schedules", "anchors": ["opt_einsum/sharing.py: to_backend_cache_wrap"]}
{"id": "C37", "title": "object_einsum is the mathematical definition", "statement": "object_einsum(eq,*arrays) equals the einsum definition, for any element type with + and *.", "quantifier": "all equations, shapes and element types", "why_tests_cant": "all shapes incl. empty and broadcast", "anchors": ["opt_einsum/backends/object_arrays.py: object_einsum"]}
{"id": "C38", "title": "torch tensordot fallback is tensordot", "statement": "The einsum-based tensordot of the torch backend equals numpy's tensordot.", "quantifier": "all ranks, axes specs", "why_tests_cant": "all axes permutations", "anchors": ["opt_einsum/backends/torch.py: tensordot"]}
{"id": "C39", "title": "a stateful optimizer instance honours the arguments of every call", "statement": "Calling a BranchBound instance again either raises ValueError (contraction changed) or returns a complete path honouring the memory_limit of that call.", "quantifier": "all histories of calls on one instance", "why_tests_cant": "history property", "anchors": ["opt_einsum/paths.py: PathOptimizer._check_args_against_first_call, BranchBound.__call__"]}
{"id": "C40", "title": "registered path functions are never silently replaced", "statement": "register_path_fn raises KeyError rather than replacing an existing option, and get_path_fn is case-insensitive.", "quantifier": "all registration histories and names", "why_tests_cant": "history property", "anchors": ["opt_einsum/paths.py: register_path_fn, get_path_fn"]}
{"id": "C41", "title": "an explicit path is either executed completely or rejected", "statement": "contract(..., optimize=path) never returns a wrong value: a path that is not complete raises.", "quantifier": "all lists of tuples", "why_tests_cant": "all malformed paths", "anchors": ["opt_einsum/contract.py: contract_path, _core_contract"]}
{"id": "C42", "title": "memory_limit argument is interpreted as documented", "statement": "None and -1 mean no limit, 'max_input' the largest operand or output, a positive integer itself; everything else raises ValueError.", "quantifier": "all arguments", "why_tests_cant": "all integers", "anchors": ["opt_einsum/contract.py: _choose_memory_arg"]}
{"id": "C43", "title": "optimize=False evaluates the given equation", "statement": "contract(eq,*arrays,optimize=False) denotes the same contraction as with optimization, including spaces, ellipsis and unicode labels.", "quantifier": "all equations", "why_tests_cant": "all strings mixing spaces, ellipsis and unicode", "anchors": ["opt_einsum/contract.py: contract, _einsum", "opt_einsum/parser.py: convert_to_valid_einsum_chars"]}
{"id": "C44", "title": "format_const_einsum_str only adds brackets", "statement": "Removing brackets from format_const_einsum_str(eq, constants) gives eq back, and exactly the constant terms are inside brackets.", "quantifier": "all equations and constant sets", "why_tests_cant": "all strings", "anchors": ["opt_einsum/contract.py: format_const_einsum_str"]}
{"id": "C45", "title": "get_shape of nested sequences", "statement": "For a rectangular nested sequence get_shape returns its dimensions, and the shape reported has the rank of the nesting; scalars have shape ().", "quantifier": "all nested sequences", "why_tests_cant": "unbounded nesting", "anchors": ["opt_einsum/parser.py: get_shape"]}
{"id": "C46", "title": "random trial cost is the cost PathInfo reports", "statement": "The flop count random-greedy minimises for a trial path equals the opt_cost contract_path reports for the same path.", "quantifier": "all inputs, paths", "why_tests_cant": "all paths", "anchors": ["opt_einsum/path_random.py: ssa_path_compute_cost", "opt_einsum/contract.py: contract_path"]}
{"id": "C47", "title": "can_blas accepts all that tensordot can do and names the right operation", "statement": "can_blas refuses a pair only if tensordot cannot do it (a repeated label, a shared label kept, an unshared label summed, or a summed dimension broadcast); otherwise it answers DOT for equal terms, DOT/EINSUM for permuted ones, OUTER/EINSUM when nothing is shared, GEMM exactly when the summed labels form one block, in the same order, at an end of both terms, GEMV/EINSUM when not so and one term is contained in the other, TDOT otherwise.", "quantifier": "all pairs of label strings, results and shapes", "why_tests_cant": "label patterns are unbounded", "anchors": ["opt_einsum/blas.py: can_blas"]}
{"id": "C48", "title": "In a sharing context nothing is computed twice", "statement": "If an operation (transpose, tensordot, einsum, conversion, or a whole contract call) was done in a context with cache c, then doing it again on the same arrays, by any thread in a context with cache c, returns the same object with the same value, makes no new array and leaves the caches as they are; for einsum also with operands in another order and labels renamed. No event of any thread in any schedule removes or replaces a cache entry.", "quantifier": "all histories before and between (leaving and re-entering contexts, dropping variables, garbage collection, address reuse, other threads), all operations, all libraries", "why_tests_cant": "histories, schedules and address reuse are unbounded", "anchors": ["opt_einsum/sharing.py: shared_intermediates, _memoize, _save_tensors, transpose_cache_wrap, tensordot_cache_wrap, einsum_cache_wrap, to_backend_cache_wrap"]}
{"id": "C49", "title": "Greedy contracts as long as something can be contracted", "statement": "Every step of the path greedy returns takes two operands that share a label that can be summed before the end (not in the output, missing from some input), or two operands with the same labels, or is taken when no two remaining operands share such a label: outer products come last.", "quantifier": "all inputs, sizes and cost functions (also random ones); the default chooser and the thermal chooser of RandomGreedy with any draws; no memory limit", "why_tests_cant": "networks, cost functions and random draws are unbounded; the queue holds only one candidate per tensor and candidates of re-created label sets are stale, so this rests on an invariant of the whole run", "anchors": ["opt_einsum/paths.py: ssa_greedy_optimize, _push_candidate, _update_ref_counts, greedy", "opt_einsum/path_random.py: thermal_chooser"]}
{"id": "C50", "title": "Greedy contracts a cheapest pair at every step", "statement": "At every step greedy (default chooser) contracts, of the pairs that share a label that can be summed, one with the least cost (by default the size of the result minus the sizes of the operands), ties going to the pair whose larger position, then whose smaller position, is least.", "quantifier": "all inputs with distinct label sets, sizes and cost functions of sizes and labels", "why_tests_cant": "networks are unbounded; the queue keeps only the best partner of each tensor, so which pairs are compared depends on the history", "anchors": ["opt_einsum/paths.py: ssa_greedy_optimize, _get_candidate, _push_candidate, cost_memory_removed"]}
{"id": "C51", "title": "The presets choose what is documented", "statement": "For n >= 1 operands, optimize='auto' returns what the documented option returns ('optimal' for n <= 4, 'branch-all' for n <= 6, 'branch-2' for n <= 8, 'branch-1' for n <= 14, 'greedy' above), and 'auto-hq' what 'optimal' (n <= 5), 'dp' (n <= 16) or 'random-greedy-128' return. So no pairwise path has fewer operations than that of 'auto' for n <= 4 and of 'auto-hq' for n <= 5, and for 5 to 14 operands the path of 'auto' is no worse than that of 'branch-1'.", "quantifier": "all networks, sizes, memory limits, set iteration orders and random draws; for the two consequences: networks where every label is in at most two places (the output counts as one), no memory limit", "why_tests_cant": "networks are unbounded, and a wrong threshold only changes path quality, never a value", "anchors": ["opt_einsum/paths.py: auto, auto_hq, get_path_fn, _PATH_OPTIONS", "docs/paths/introduction.md: 180-184"]}
{"id": "C52", "title": "Random-greedy is at least as good as greedy", "statement": "The path of RandomGreedy (any max_repeats >= 1, with or without an executor, any time limit, any nbranch and temperature) is no worse, for its own minimize ('flops' or 'size'), than the path of greedy with the same cost function.", "quantifier": "all networks of at least two operands, sizes, random draws, repeats, executors with pre_dispatch >= 1, time limits", "why_tests_cant": "random draws and networks are unbounded", "anchors": ["opt_einsum/path_random.py: RandomOptimizer.__call__, RandomGreedy, thermal_chooser, random_greedy", "opt_einsum/paths.py: greedy"]}
{"id": "C53", "title": "BranchBound with all branches finds a best path", "statement": "BranchBound(nbranch=None) without cutoff returns a path at least as good (for its minimize: operations then size, or size then operations) as every pairwise path; in particular 'branch-all' does.", "quantifier": "all networks where every label is in at most two places, all sizes, orders, cost functions; no memory limit, or one no intermediate exceeds", "why_tests_cant": "the number of paths grows super-exponentially; pruning depends on the whole history", "anchors": ["opt_einsum/paths.py: BranchBound.__call__, better_flops_first, better_size_first, branch"]}
{"id": "C54", "title": "More branches than one are never worse", "statement": "The path of BranchBound with any number of branches is at least as good, for its minimize, as the one with nbranch=1 and the same other parameters: 'branch-all' and 'branch-2' are no worse than 'branch-1'.", "quantifier": "all networks where every label is in at most two places, all sizes, orders, cutoffs, cost functions (also random ones); no memory limit, or one no intermediate exceeds", "why_tests_cant": "depends on the best values found so far along the whole search", "anchors": ["opt_einsum/paths.py: BranchBound.__call__, _branch_iterate, branch_1, branch_2, branch_all"]}
{"id": "C55", "title": "One branch takes the cheapest pair", "statement": "At each step 'branch-1' (and greedy with a memory limit) contracts, of the pairs that share a label or of all pairs if none do, one with the least cost, by default the memory added; ties go to the one with fewer operations.", "quantifier": "all networks where every label is in at most two places, all sizes, orders and cost functions of sizes and labels; no memory limit, or one no intermediate exceeds", "why_tests_cant": "networks and cost functions are unbounded", "anchors": ["opt_einsum/paths.py: BranchBound.__call__, _assess_candidate, greedy"]}
{"id": "C56", "title": "A chosen path never costs more than one step", "statement": "In every PathInfo the optimized cost is at most the naive cost, every intermediate (and the largest one reported) has at most as many entries as the index space has points, and every step's scaling is at most the number of labels.", "quantifier": "all expressions with every dimension at least 2 and a label shared by two operands (or nothing summed), all built-in optimizers without dynamic programming or explicit paths of steps with two or more operands, all memory limits", "why_tests_cant": "expressions, sizes and paths are unbounded", "anchors": ["opt_einsum/contract.py: contract_path, PathInfo", "opt_einsum/paths.py: optimal, branch, greedy, auto"]}
{"id": "C57", "title": "Backend dispatch does not depend on history", "statement": "Which function get_func returns, what has_einsum and has_tensordot answer, and which backend parse_backend chooses depend only on what is installed, never on what was asked before; a backend chosen automatically always has a tensordot; has_backend announces a conversion exactly when there is one.", "quantifier": "all sets of installed modules with any attributes, all sequences of calls of the four functions on any names, arrays of any classes", "why_tests_cant": "the caches are process-wide and the order of calls unbounded; one order is tested", "anchors": ["opt_einsum/backends/dispatch.py: _import_func, get_func, has_einsum, has_tensordot, has_backend, build_expression", "opt_einsum/contract.py: infer_backend, parse_backend"]}
{"id": "C58", "title": "Generated contractions are what was asked for", "statement": "rand_equation returns an equation with n operands, n*regularity//2 labels shared by exactly two operands and n_out labels on exactly one operand and in the output (plus the global label on all of them), no operand repeats a label, every dimension lies between d_min and d_max, every operand has a label, and the shapes fit the equation, so that contract accepts arrays of these shapes; it always returns. build_shapes gives every axis the dimension of its label.", "quantifier": "all n, regularity, n_out, ranges, and every outcome of the random draws; all equations with or without ellipses and all dimension dictionaries", "why_tests_cant": "the outcomes of the draws are unbounded; tests use a few seeds", "anchors": ["opt_einsum/testing.py: build_shapes, rand_equation"]}
{"id": "C59", "title": "Separate parts are multiplied smallest first", "statement": "When nothing is left to contract, the greedy searches multiply two operands than which no other remaining operand is smaller, where the size counts only the labels that are in the output or on another operand.", "quantifier": "all inputs, outputs, sizes, cost functions, and every draw of the random-greedy chooser", "why_tests_cant": "networks and sizes are unbounded; the tests only look at a few paths", "anchors": ["opt_einsum/paths.py: ssa_greedy_optimize (719-728)"]}
{"id": "C60", "title": "Dynamic programming finds a cheapest path", "statement": "On a network whose inputs all hang together, the path of dynamic programming is complete, has no outer product, keeps the memory limit, and costs no more in the chosen measure (flops, size, write, combo, limit, or a custom cost of each contraction that grows with its operations and size) than any other such path; with outer products allowed it costs no more than any path at all, and its operations as contract_path counts them are at most twice those of any pairwise path.", "quantifier": "all networks with dimensions of at least 1 (connected, or, with outer products, without inputs all of whose labels occur only there), all measures, cost caps, memory limits, iteration orders", "why_tests_cant": "the number of paths grows faster than exponentially and networks are unbounded; the tests compare a few costs", "anchors": ["opt_einsum/paths.py: DynamicProgramming (1108-1306)", "opt_einsum/paths.py: _tree_to_sequence (777-827)"]}
{"id": "C61", "title": "Expressions of graph libraries can be called again", "statement": "A ContractExpression (with or without constants) evaluated by a library that builds a graph on placeholders (theano, tensorflow in graph mode) returns, on every call, the contraction of the arrays of that call, although the graph was built on the first call; whatever was called before, with any backend, in or out of sharing contexts.", "quantifier": "all equations, strategies, constants, arrays, histories of calls, evaluations, conversions and sharing contexts", "why_tests_cant": "needs a history: the first call in a sharing context decides what later calls compute; the libraries are optional and their tests call an expression once", "anchors": ["opt_einsum/backends/tensorflow.py: to_tensorflow, build_expression_graph, evaluate_constants_graph (34-89)", "opt_einsum/backends/theano.py: to_theano, build_expression (9-37)", "opt_einsum/contract.py: ContractExpression._get_backend_expression, _contract_with_conversion, __call__ (798-905)", "opt_einsum/sharing.py: to_backend_cache_wrap (186-216)"]}
{"id": "C62", "title": "Worker pools and jobs of random optimizers", "statement": "In the whole life of a RandomOptimizer, whatever is assigned to `parallel` and however often it is called: every pool it starts is shut down exactly once, before it starts another; a pool supplied by the user is never shut down; jobs go to the pool assigned last; every job is waited for or cancelled when the call that submitted it ends; and an assignment that is refused leaves the optimizer usable.", "quantifier": "all sequences of assignments, calls and users' own shutdowns; all trial functions, time limits, pre_dispatch", "why_tests_cant": "leaks show only over sequences of assignments and failures, and in processes left behind; tests assign once and call once", "anchors": ["opt_einsum/path_random.py: RandomOptimizer.parallel (97-129)", "opt_einsum/path_random.py: RandomOptimizer._gen_results_parallel, _cancel_futures (131-149)", "opt_einsum/path_random.py: RandomOptimizer.__call__, __del__ (159-208)"]}
{"id": "C63", "title": "At temperature zero random-greedy contracts a cheapest pair at every step", "statement": "With temperature 0 (whatever nbranch >= 1 and whatever is drawn) every step of a random-greedy run contracts two operands that share a label that can be summed, such that no two other operands can be contracted at less cost; it multiplies operands with the same labels first and takes outer products only when nothing can be contracted. At any temperature, what the chooser returns is current, fewer than nbranch current candidates are cheaper, and nothing but obsolete entries is lost from the queue.", "quantifier": "all networks and sizes, all symmetric cost functions of sizes and label sets, all nbranch and draws", "why_tests_cant": "the claim is about every step and every other pair, in every random run; tests check that random runs are valid", "anchors": ["opt_einsum/path_random.py: thermal_chooser (211-277)", "opt_einsum/paths.py: ssa_greedy_optimize, _push_candidate (551-705)"]}
{"id": "C64", "title": "Keyword arguments of einsum reach the library", "statement": "contract(eq, *arrays, **kw) with einsum's keywords (dtype, order, casting, or a library's own) is contract with a library whose einsum has these keywords bound, less those that only say what is the default, for every strategy, in and out of sharing contexts; saying a default explicitly changes nothing. Keywords given to contract_expression act as if given to contract; out and backend are refused there; contract_path refuses all.", "quantifier": "all keyword dictionaries, equations, arrays, strategies, libraries", "why_tests_cant": "which calls a keyword reaches depends on the path and on the BLAS classification of every step; tests pass keywords to one or two equations", "anchors": ["opt_einsum/contract.py: _filter_einsum_defaults (124-141)", "opt_einsum/contract.py: contract_path (287-290), _einsum (432-451)", "opt_einsum/contract.py: contract (581-603), _core_contract (631-711)", "opt_einsum/contract.py: ContractExpression.__init__, _contract (744-825), contract_expression (1019-1043)", "opt_einsum/sharing.py: tensordot_cache_wrap, einsum_cache_wrap (132-183)"]}
{"id": "C65", "title": "The cost found is a property of the network", "statement": "The cost of the path found does not depend on the order in which the operands are listed, on the names of the labels or on the iteration order of sets, and does not fall when a dimension grows or, for the dynamic programming search, when the memory limit shrinks.", "quantifier": "all networks, reorderings of the operands, injective renamings of the labels, dimensions, iteration orders; for dp all modes, cost caps, limits", "why_tests_cant": "the relation is between pairs of problems over all reorderings and renamings; the tests fix one spelling of each network", "anchors": ["opt_einsum/paths.py: optimal (201-285)", "opt_einsum/paths.py: DynamicProgramming.__call__ (1148-1306)", "opt_einsum/paths.py: ssa_greedy_optimize, greedy (598-774)", "opt_einsum/paths.py: auto, auto_hq (1331-1362)"]}
{"id": "C66", "title": "Any integers as positions of an explicit path", "statement": "The positions of a step of an explicit path are Python indices into the operands then left: negative ones count from the end. A path whose positions exist and differ is accepted and contracts the operands pointed to, its value is the Einstein sum, with constants or without; any other path is an IndexError.", "quantifier": "all equations, operands, paths of integers (negative, repeated), libraries, set orders", "why_tests_cant": "tests use non-negative positions in range; the claim is over all integer paths", "anchors": ["opt_einsum/contract.py: contract_path (343-409)", "opt_einsum/contract.py: _core_contract (631-711)", "opt_einsum/helpers.py: find_contraction (50-103)"]}
{"id": "C67", "title": "More memory never makes the path more expensive", "statement": "If a search finds a path under a memory limit and another one under a larger limit, or without limit, for the same network, then the second path does not cost more than the first.", "quantifier": "all networks, dimensions, pairs of limits, iteration orders of sets; searches optimal (also as auto, auto-hq), dp in every mode, greedy and the branching searches", "why_tests_cant": "the relation is between the runs for two limits over all networks; the tests check a few limits on a few networks against recorded paths", "anchors": ["opt_einsum/paths.py: optimal (201-285)", "opt_einsum/paths.py: DynamicProgramming.__call__ (1148-1306)", "opt_einsum/paths.py: BranchBound (330-494), greedy (733-774)", "opt_einsum/contract.py: _choose_memory_arg (102-118)"]}
{"id": "C68", "title": "The report of a contraction tells how to go on", "statement": "Printing the PathInfo of a contraction gives ten lines and one line per step. In the line of a step, the equation gives the array put at the end from the arrays the step takes, and the remaining equation, shown while at most 20 arrays are left, gives the result of the whole contraction from the arrays then held; after the last step it is the output alone. Costs, speedup and size in the heading are the true numbers to four significant digits. Lines and words can be told apart, whatever the lengths of the equations.", "quantifier": "all contractions whose labels are not the newline character, complete paths, dimensions, array libraries, BLAS choices, iteration orders of sets", "why_tests_cant": "the tests compare one printed report with a recorded one; that every remaining equation continues the computation, and that padding never joins columns, ranges over all equations and paths", "anchors": ["opt_einsum/contract.py: PathInfo.__repr__ (64-99)", "opt_einsum/contract.py: contract_path (355-420)", "opt_einsum/contract.py: _core_contract (631-711)"]}
{"id": "C69", "title": "A printed expression shows its equation, constants and remaining steps", "statement": "The representation of an expression is its equation with exactly the terms of the constants in brackets, and the increasing list of the constants' positions. Printing it after any history of calls adds one line for each step that calls still do, in order, with its number, equation and kind of BLAS call, and the keyword arguments once.", "quantifier": "all equations, constants, keyword arguments without newlines, histories of calls with any libraries, paths", "why_tests_cant": "the tests check the representation of a few expressions before and after one call", "anchors": ["opt_einsum/contract.py: ContractExpression.__repr__, __str__ (907-921)", "opt_einsum/contract.py: format_const_einsum_str (714-737)", "opt_einsum/contract.py: ContractExpression.evaluate_constants (767-785)"]}
{"id": "C70", "title": "The memory limit bounds every array built on the way", "statement": "Whenever contract is called with a memory limit, no array it builds before the last step has more entries than the limit, whichever named option finds the path; the sizes are those reported in the path information.", "quantifier": "all equations, operands, limits (numbers or 'max_input'), named options, array libraries, iteration orders of sets", "why_tests_cant": "the tests check for a few networks that a limit changes the path; that no step of any path on any network is beyond the limit ranges over all networks and searches", "anchors": ["opt_einsum/contract.py: _choose_memory_arg (102-118), contract_path (329-344), _core_contract (631-711)", "opt_einsum/paths.py: optimal (201-285), BranchBound (330-494), greedy (733-774), DynamicProgramming (1148-1306), auto, auto_hq (1320-1362)", "opt_einsum/path_random.py: RandomOptimizer.__call__ (159-203), random_greedy (386-395)"]}
{"id": "C71", "title": "The value does not depend on the order of the operands", "statement": "Giving the operands of a contraction in another order, each with its own term of the equation, is accepted likewise and gives the same value, whatever strategies, limits and libraries the two calls use.", "quantifier": "all well formed equations (ellipses and implicit outputs included), operands, orders, strategies that find complete paths, memory limits, lawful array libraries, iteration orders of sets", "why_tests_cant": "a test compares a few orders of a few networks; the implicit output, the broadcasting of ellipses and the search all depend on the order and range over all equations", "anchors": ["opt_einsum/contract.py: contract (502-603), contract_path (292-429), _core_contract (631-711)", "opt_einsum/parser.py: parse_einsum_input"]}
{"id": "C72", "title": "A contraction can be done in two calls", "statement": "Contracting some of the operands first in a call of its own, and then the result with the remaining operands, gives the same value as one call with all the operands, provided the first result keeps every label that is still needed.", "quantifier": "all well formed equations with explicit outputs (ellipses included), all ways of splitting the operands, strategies, limits, lawful array libraries", "why_tests_cant": "tests compare single calls with numpy; that the calls compose ranges over all pairs of equations and operands", "anchors": ["opt_einsum/contract.py: contract (502-603), contract_path (292-429), _core_contract (631-711)", "opt_einsum/parser.py: parse_einsum_input"]}
{"id": "C73", "title": "A path that was found can be given back", "statement": "Giving contract_path the path of its own report as optimize, under any valid memory limit, gives the same report, and contract does the same operations as with the search; the order of the positions inside a step does not matter, the path may be turned into SSA form and back, and it serves for all other arrays and equations with as many operands.", "quantifier": "all strategies, equations, shapes, memory limits, array libraries, iteration orders of sets", "why_tests_cant": "tests give back a few found paths; equality of the whole report and validity for all other arrays ranges over all inputs and searches", "anchors": ["opt_einsum/contract.py: contract_path (292-429), contract (502-603)", "opt_einsum/paths.py: ssa_to_linear, linear_to_ssa"]}
{"id": "C74", "title": "Axes in another order only turn the result", "statement": "Transposing operands together with their terms, or writing the output labels in another order, gives the transposed result.", "quantifier": "all well formed equations (labels an ellipsis stands for included), operands, orders of axes, strategies, limits, lawful array libraries", "why_tests_cant": "the order of the axes decides whether and how BLAS is used and which transpositions are inserted; tests try a few orders", "anchors": ["opt_einsum/contract.py: contract (502-603), contract_path (292-429), _core_contract (631-711)", "opt_einsum/parser.py: parse_einsum_input", "opt_einsum/blas.py: can_blas"]}
{"id": "C75", "title": "contract is linear in each operand", "statement": "Contracting with a sum of two arrays in the place of one operand gives the sum of the two contractions, and with a multiple of an array the multiple.", "quantifier": "all well formed equations, operands over any commutative semiring, positions of the operand, strategies, limits, lawful array libraries", "why_tests_cant": "an algebraic law over all arrays, equations and strategies", "anchors": ["opt_einsum/contract.py: contract (502-603), contract_path (292-429), _core_contract (631-711)", "opt_einsum/parser.py: parse_einsum_input"]}
{"id": "C76", "title": "Entries may be converted before or after", "statement": "Applying a map that keeps zero, one, sums and products to all entries of the operands, and then contracting, gives the result of contracting first and applying the map to its entries.", "quantifier": "all pairs of commutative semirings and such maps, equations, operands, strategies, limits and lawful array libraries", "why_tests_cant": "a law over all entry types and arrays; tests use a few dtypes", "anchors": ["opt_einsum/contract.py: contract (502-603), contract_path (292-429), _core_contract (631-711)", "opt_einsum/parser.py: parse_einsum_input"]}
{"id": "C77", "title": "count_cached_ops tells what was computed", "statement": "count_cached_ops gives for each kind the number of its keys in the cache and nothing for kinds that have none. In a sharing context each operation adds one to its own kind exactly when the array library was called and succeeded, and nothing to any other kind but the saved operands; a contraction of n steps adds at most n einsum and tensordot calls and n transpositions; outside a context nothing is counted, and counts never go down while the cache lives.", "quantifier": "all histories of operations in all threads, array libraries, allocators, equations, paths", "why_tests_cant": "the tests count the keys after a few expressions; which operations are reused ranges over all histories", "anchors": ["opt_einsum/sharing.py: count_cached_ops (84-88), _save_tensors, _memoize (91-110), transpose_cache_wrap, tensordot_cache_wrap, einsum_cache_wrap, to_backend_cache_wrap (113-216)"]}
{"id": "C78", "title": "The equation helpers rename and sort as documented", "statement": "has_valid_einsum_chars_only accepts exactly the letters a-z, A-Z and the signs of an equation. convert_to_valid_einsum_chars renames the labels of every equation one to one and keeps the signs; with at most 52 labels the result has valid characters only, and the labels keep their order. find_output_str gives the labels that occur exactly once, in increasing order.", "quantifier": "all strings", "why_tests_cant": "tests convert a few strings; one-to-one renaming and order range over all strings and all numbers of labels", "anchors": ["opt_einsum/parser.py: is_valid_einsum_char, has_valid_einsum_chars_only (25-54), convert_to_valid_einsum_chars (102-115), find_output_str (137-153)"]}
{"id": "C79", "title": "The step helpers say what a step does", "statement": "find_contraction gives the labels involved, those summed away (in no other operand and not in the output), those of the result, and the other operands in their order followed by the result; a position that does not exist is an IndexError, no position a TypeError. compute_size_by_dict is the number of values the indices have together, or a KeyError; flop_count of such a step is that number times one less than the number of operands (at least one), plus one if labels are summed.", "quantifier": "all distinct positions, label sets, outputs, sizes", "why_tests_cant": "tests have a few steps; the relation of kept, summed and remaining labels ranges over all networks", "anchors": ["opt_einsum/helpers.py: compute_size_by_dict (22-47), find_contraction (50-103), flop_count (106-144)"]}
{"id": "C80", "title": "The common operations are what they are taken for", "statement": "contract of 'ab,bc->ac' is the matrix product, 'ab->ba' the transpose, 'aa->' the trace, and likewise for the diagonal, inner, outer, entrywise, Kronecker and batched products, bilinear forms, sums over axes and scalar multiples, also with the output left out; a chain of any number of matrices is their iterated product. This holds with every strategy, path and memory limit, and every entry and the shape are as in the textbook formula.", "quantifier": "all semirings, array libraries meeting their contract, sizes, entries, strategies, limits; chains of up to 51 matrices with any labels", "why_tests_cant": "tests compare a few random arrays with numpy.einsum itself, at fixed sizes and up to rounding", "anchors": ["opt_einsum/contract.py: contract (502-603), _core_contract (631-711)"]}
{"id": "C81", "title": "An index can be fixed before or after", "statement": "Contracting the operands with one index fixed to a value (its axes taken out of every operand that has it) gives the result with that index fixed, for an index of the output; for a summed index, the result is the sum over its values of the contractions with the index fixed. The calls may differ in strategy, limits and array library.", "quantifier": "all equations, operands, indices (named or of an ellipsis), values, semirings, array libraries meeting their contract, strategies", "why_tests_cant": "tests never compare a contraction with its slices; the relation ranges over all equations and all ways of contracting both sides", "anchors": ["opt_einsum/contract.py: contract (502-603), _core_contract (631-711)"]}
{"id": "C82", "title": "Path functions on one operand or none", "statement": "Called directly on a single operand, every named path function returns a path that contracts it: the empty path or the path that names it. Called on no operands, each name answers or raises one fixed error, whatever the output and limit.", "quantifier": "all names in any case, label sets, outputs, sizes, limits, set orders, random draws", "why_tests_cant": "tests call the path functions on networks of three or more operands, contract never looks a name up for fewer; the statement is about every name, label set and limit", "anchors": ["opt_einsum/paths.py: optimal (201-283), BranchBound (331-494), ssa_greedy_optimize (598-730), greedy (733-774), DynamicProgramming (1148-1306), auto (1320-1340), auto_hq (1343-1362)", "opt_einsum/path_random.py: ssa_path_compute_cost (280-302), random_greedy (386-398)"]}
{"id": "C83", "title": "Ones and identity matrices change nothing", "statement": "Adding an operand of ones on labels that are already present, or inserting an identity matrix between an operand's axis and its label (with a new label on the other side), leaves the result of contract unchanged. A vector of n ones on a label of its own adds every entry to itself n times.", "quantifier": "all equations, shapes, operands, positions of the extra operand, backends, paths, limits and entries from any semiring", "why_tests_cant": "the statement relates two calls on networks of different size, for every network, every place where the operand is inserted and every pair of paths", "anchors": ["opt_einsum/contract.py: contract (502-603), _core_contract (631-711)"]}
{"id": "C84", "title": "Positions of constants", "statement": "Every position given to contract_expression as that of a constant is either rejected when the expression is built or makes the operand at that position, as Python counts it, a constant of the expression.", "quantifier": "all lists of integers as positions, operands, equations, paths, limits, backends and histories of calls", "why_tests_cant": "tests name constants by non-negative positions; the statement is about every list of integers and about every later call of the expression", "anchors": ["opt_einsum/contract.py: contract_expression (956-1043), shape_only (923-927), ContractExpression (740-920)"]}
{"id": "C85", "title": "Separate networks multiply", "statement": "If the operands fall into two groups without a common label and the output of one group follows that of the other, the result of contract is the outer product of the results of the two groups, however the operands are mixed and whatever path is taken through both groups at once.", "quantifier": "all pairs of equations without common labels, operands in any order, backends, paths (also ones that join the groups early), limits and entries from any semiring", "why_tests_cant": "the statement relates three calls for every pair of networks and every path; tests only contract one network at a time", "anchors": ["opt_einsum/contract.py: contract (502-603), _core_contract (631-711)"]}
{"id": "C86", "title": "Ranges of an index", "statement": "Contracting operands of which only a range of the values of a kept index is given yields that range of the full result; contracting the two parts of operands cut in two along a summed index yields two results that add up to the full one. Axes of size one, which are repeated, are left uncut.", "quantifier": "all equations, indices, ranges and cutting points, backends, paths and limits (different ones for each call) and entries from any semiring", "why_tests_cant": "the statement relates two or three calls for every cutting point, including parts of one value, where a cut axis becomes an axis of size one", "anchors": ["opt_einsum/contract.py: contract (502-603), _core_contract (631-711)"]}
{"id": "C87", "title": "Axes of size one", "statement": "An axis of size one stands for that entry repeated: repeating it to the full size of its label before the call, or leaving the axis and its label out of the term when the label is also on another operand or is summed and nowhere else, gives the same result.", "quantifier": "all equations and operands with axes of size one (any number of them repeated), summed and kept labels, backends, paths and limits (different ones for both calls) and entries from any semiring", "why_tests_cant": "the two calls take different routes through the code (tensordot refuses broadcast axes, einsum takes them), for every place of the axis and every path", "anchors": ["opt_einsum/contract.py: contract (502-603), _core_contract (631-711)", "opt_einsum/blas.py: can_blas (10-122)"]}
{"id": "C88", "title": "Two indices taken as one", "statement": "If two indices stand next to each other, in the same order, on every operand that has one of them and in the output if they are kept, reshaping the operands so that the pair is one index gives the result reshaped likewise; if the pair is summed, the result is the same.", "quantifier": "all equations, pairs of indices (the pair any number of times, summed or kept), sizes including 0 and 1, backends, paths and limits (different ones for both calls) and entries from any semiring", "why_tests_cant": "the statement relates two calls on arrays of different ranks, which take different routes through the code, for every equation and size", "anchors": ["opt_einsum/contract.py: contract (502-603), _core_contract (631-711)"]}
{"id": "C89", "title": "Bounds on the entries carry over", "statement": "If the entries of two lists of operands of the same shapes are related by a relation that zero, one, sums and products keep (less or equal for non-negative numbers, a number enclosed by an interval, zero patterns), so are the entries of the two results of contract.", "quantifier": "all relations between any two semirings kept by the operations, equations and operands, and for both calls all backends, paths and limits", "why_tests_cant": "the statement quantifies over relations and kinds of entries; tests compare single numbers", "anchors": ["opt_einsum/contract.py: contract (502-603), _core_contract (631-711)"]}
{"id": "C90", "title": "Zeros and empty indices", "statement": "An operand of zeros, or a summed index of size zero, gives a result of zeros; a kept index of size zero gives a result without entries. Neither makes a call fail.", "quantifier": "all equations, operands, backends, paths and limits, and entries from any semiring", "why_tests_cant": "empty axes reach every routine of the library along every path; tests hardly use them", "anchors": ["opt_einsum/contract.py: contract (502-603), _core_contract (631-711)"]}
