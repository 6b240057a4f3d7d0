# A Rocq (Coq 8.16.1) model of opt_einsum

Guide: `/root/guide.md`. Source modelled: `/repo/opt_einsum` (pinned, read as text, never run).
Development: `/verif/rocq/theories`, logical name `Verif`. Libraries: Coq stdlib and std++ (finite sets/maps, lists).

## 1. Modelling conventions

* Characters are unicode code points `N`, strings are `list N`; label sets (`frozenset`) are std++ `gset N`
  (extensional equality); dictionaries are `gmap` or association lists when insertion order is observable.
* Python exceptions are values: `res A := Ok a | Err e`.
* Loops are structural recursion or folds; searches whose termination is not structural run on explicit fuel and
  return an "out of fuel" value that theorems exclude (a termination theorem shows enough fuel exists).
* Iteration order of Python sets, heap tie breaking, random choices and user-supplied cost functions are *oracles*
  (function arguments constrained only to return permutations / members), so theorems hold for every order.
* Numbers: dimensions, sizes and costs are unbounded `nat` (Python ints are unbounded); `float("inf")` is `None`.
* Arrays are `shape : list nat` plus an entry function; entries live in an arbitrary commutative semiring, so the
  theorems are about exact arithmetic (ints, Fractions, symbolic objects, booleans...). Floating-point rounding is not modelled.
* Array libraries are external: a backend is a record of `einsum`, `tensordot`, `transpose` functions, and theorems
  assume the (spelled out) numpy contract of these three functions; a concrete backend meeting the contract is exhibited.

## 2. Plan per property

| id | modelled | how proved |
|----|----------|-----------|
| C01 C03 | parse, contract_path, _core_contract with strings, pops, BLAS flags, tensordot axes, transposes | einsum spec over arbitrary label types; distributivity lemma for one step; induction over the path; PropsMany.v: more than 52 labels, if no step has more |
| C02 C26 | all path finders | each returns a complete path (C16,C19,C20,C23), composed with C01 |
| C04 | can_blas | case analysis, characterisation theorem |
| C05 C06 C09 | parse_einsum_input, interleaved conversion | spec on labels `letter | k-th broadcast axis from the right`, injective renaming |
| C07 C08 | get_symbol, gen_unused_symbols | arithmetic; C08 refuted by witness |
| C10 C11 | convert_to_valid_einsum_chars, alpha_canonicalize | einsum invariance under injective renaming; first-occurrence numbering lemma |
| C12 C13 | size_dict loop, find_output_shape | fold invariant; C13 refuted for 0 vs 1, proved for non-zero dims |
| C14 C15 C21 | ssa_to_linear, linear_to_ssa, _tree_to_sequence | list-machine simulation invariants |
| C16 C17 C18 | optimal with its result cache | branch-and-bound invariant; C17/C18 refuted in general (cache key ignores remaining tensors), proved for networks where each label occurs at most twice |
| C19 C39 | BranchBound | DFS invariant with oracle heap order |
| C20 | ssa_greedy_optimize with choosers as oracles | loop invariant, lexicographic measure |
| C22-C25 | DP | components by graph search invariant; DP table invariant; minimality by induction on competing trees |
| C27 C28 C46 | RandomOptimizer | history fold invariant; generator model |
| C29 | contract_path costs | induction over path |
| C30 C31 | ContractExpression state machine | simulation against the full contraction |
| C32-C36 | sharing stack, memo table, object heap with id recycling | invariant over histories |
| C37 C38 | object_einsum, torch.tensordot | equality with spec |
| C40-C45 | registry, custom paths, memory arg, optimize=False, format string, get_shape | direct |
| C47 | can_blas | case analysis against the block structure of the labels |
| C48 | sharing hits | the first call leaves its entry; entries and their arrays survive every action; the same key finds them |
| C49 | greedy: outer products last | the real label sets are tracked by the ones of the search; the queue connects every group of operands that share a label |
| C50 | greedy: cheapest pair | first step: every pair is beaten by an entry of the queue; later steps refuted |
| C51 | auto, auto_hq | table lookup; consequences from C17 and C54 |
| C52 | random-greedy against greedy | run 0 is greedy and is always collected, also by the executor generator; nothing beats the first best |
| C53 | BranchBound, all branches | whatever node a path passes is visited or pruned by a best that is no worse; both best values only improve |
| C54 | BranchBound, more branches | the first leaf of any search is the leaf of the one-branch search |
| C55 | BranchBound, one branch | the heap's head; the cutoff is relative to the best candidate assessed so far |
| C56 | PathInfo | a step that sums a label at least halves the volume of what is left, which pays for its factor two |
| C57 | backends/dispatch.py | every cache entry is what the uncached lookup gives; the entries made on import never disappear |
| C58 | testing.py | invariant of the placing loop (what is placed is a prefix of the shuffled list, no repeats on an operand); the contraction theorems of C02 for the rest |
| C59 | ssa_greedy_optimize | the invariant of C49; with nothing linked the size of an operand over the labels the search keeps is its size over the labels still needed |
| C60 | DynamicProgramming, _tree_to_sequence | the cost of a replayed path is the value of the tree it comes from; any other path gives a binary tree that costs no more than the path; then C25 |
| C61 | graph libraries | invariant: the graph kept has the constants and the steps of the expression and distinct placeholders; then a call is an eager call on the converted arrays, so C31 applies |
| C62 | RandomOptimizer pools | the log of a life is accepted by a two-state automaton (a pool of its own runs, or none); jobs settled and left in the deque are those submitted; with a working pool the loop is that of C27 |
| C63 | random-greedy at temperature zero | invariant: the queue has an entry, with its current cost, for every two remaining tensors that share a free label; the keys of the search differ from the real label sets only by labels the cost does not see when labels are on two operands |
| C64 | keyword arguments | step by step: an einsum step is the step of the library with the keywords bound, a tensordot step with keywords fails; induction on the steps |
| C65 | the cost is a property of the network | a path of one problem is carried to the other (same operands and results at each step); costs and measures are monotone in the sizes; so cheapest paths (C17, C60) cost the same |
| C66 | any integers as positions | the loop of contract_path and the run over IntPath.v keep the same invariant as for C01: whatever operands a step takes out, sum and labels are kept |
| C67 | more memory, no more cost | the larger limit allows every candidate of the smaller one, except the remainders contracted in one step; such a remainder holds a result over the limit, so its volume pays for going on by pairs |
| C68 | the report of a contraction | the loop of contract_path keeps `remaining equation of the held arrays = result`; numbers: rounding half to even of a decimal is within half a unit; lines and words: newline and space occur in no cell |
| C69 | printed expressions | formatting adds brackets only (C44); the steps left after evaluating constants are a suffix of all steps, whatever the history |
| C70 | the memory limit bounds every array on the way | C18/C19/C60 for the paths by name, C14 to pass from paths to the arrays of the run; counterexamples by computation |
| C71 | the value does not depend on the order of the operands | C01 for both calls; the Einstein sum of a permuted list of operands, with ellipses |
| C72 | a contraction in two calls | C01 for the three calls; the sum over all labels split into the sum inside the first call and the sum outside |
| C73 | a path that was found can be given back | inversion of a successful contract_path; the loop reads each step sorted; C14; C01 for other arrays |
| C74 | axes in another order only turn the result | the Einstein sum of transposed operands, and C01 for both calls |
| C75 | linear in each operand | distributivity through the nested sums, C01 for the calls |
| C76 | entries converted before or after | homomorphisms commute with the nested sums, C01 for both calls |
| C77 | count_cached_ops tells what was computed | the counter as sizes of filtered maps; each wrapper inserts at most one key of its kind; induction over the steps and C35 for histories |
| C78 | the equation helpers rename and sort as documented | injectivity of get_symbol on the sorted labels; the order with at most 26 labels; refutations by computation |
| C79 | the step helpers say what a step does | popping in decreasing order as choosing; tuples counted by induction |
| C80 | the common operations are what they are taken for | the sum of C01 without broadcasting, computed for the fixed equations; chains by induction on the inner labels |
| C81 | an index can be fixed before or after | sizes and terms of sliced operands agree off the index; the sum taken over that index first |
| C82 | path functions on one operand or none | each search symbolically executed on a list of one or no sets; parts and tables of a single operand |
| C83 | ones and identity matrices change nothing | C01 for both calls; the sum over the new label picks one value (identity), repeats the entry (fresh ones), or is absent (ones on known labels) |
| C84 | positions of constants | keys from the end are counted but never found, so more operands are missing than arrays may be given, after every history; keys from the front give the model of C31 |
| C85 | separate networks multiply | C01 for the three calls; a sum over both groups of labels of a product is the product of the sums |
| C86 | ranges of an index | C01 for the calls; a part of the operands is the operands at shifted coordinates, and a sum over n1 + n2 values splits |
| C87 | axes of size one | C01 for the calls; the operands have the same entry at every assignment of the labels, and the same sizes |
| C88 | two indices taken as one | C01 for the calls; quotient and remainder as coordinates, and a sum over da * db values is a double sum |
| C89 | bounds on the entries carry over | C01 for both calls; induction over the sums and products |
| C90 | zeros and empty indices | C01; a product with a zero factor and a sum without terms are zero |

No property is "not applicable".

## 3. Trusted base

* Coq 8.16.1's kernel (including `vm_compute`, used in Examples and a few witness computations), and coqc's parser.
* Axioms: `Print Assumptions` of every theorem named in `MANIFEST.json` prints "Closed under the global context": no axiom,
  neither from the standard library nor from elsewhere. `vcheck` reports `Coq.ssr.ssrunder.*` as "in scope" because std++ loads
  ssreflect; no theorem depends on them.
* The model: that the definitions in the files of section 4 compute what the Python text they cite computes. Every such
  definition cites file and lines; simplifications are in its comment and collected in section 5.
* The specification files: `Spec.v` (einsum over any label type, complete paths, what a conforming array library is),
  the other `*Spec.v` files, and the definitions at the head of the `Props*.v` files. They do not use the model's helpers
  (exceptions are data types such as strings, label sets, paths and options).
* Facts about the outside world that appear as *hypotheses* of theorems (never as axioms): an array library's functions do
  what numpy documents (`backend_ok`; `ref_backend` meets it), Python's set iteration and heap orders are some permutation,
  random numbers are arbitrary.

## 4. What is modelled

| source (opt_einsum/) | modelled in | not modelled |
|---|---|---|
| parser.py | Parser.v, Api.v (`get_shape`) | `possibly_convert_to_numpy` (only that operands have shapes); numpy scalars; regex character classes beyond code points |
| blas.py | Helpers.v (with shapes, as contract_path calls it), BlasFree.v (without shapes) | |
| helpers.py | Helpers.v | `has_array_interface` |
| contract.py `PathInfo`, `contract_path` | Contract.v, IntPath.v (negative positions), Keywords.v (keyword check), Report.v (`__repr__`) | numbers of the report beyond the exponent range of Python's decimals |
| contract.py `_choose_memory_arg`, `contract`, `_core_contract` | Contract.v, Api.v, SharingOut.v (`out`), Keywords.v (other keywords) | the private keywords `_gen_expression` and `_constants_dict` given by a user |
| contract.py `format_const_einsum_str` | Api.v | |
| contract.py `ContractExpression`, `contract_expression` | Expression.v, ExprIndex.v (any integers as positions of constants), Graph.v (theano, tensorflow 1), ExprReport.v (`__repr__`, `__str__`) | the text of the keyword arguments, which is Python's; a shape in the place of a constant array; in Expression.v an array that is not a constant counts as its shape |
| paths.py `ssa_to_linear`, `linear_to_ssa` | Ssa.v | |
| paths.py `optimal` | Optimal.v | |
| paths.py `BranchBound`, `branch*` | Branch.v | `cost_memory_removed_jitter`'s random numbers are an arbitrary cost function |
| paths.py `ssa_greedy_optimize`, `greedy` | Greedy.v | |
| paths.py `_tree_to_sequence` | Tree.v | |
| paths.py `DynamicProgramming` | Dp.v (`DpLocal cost`: a callable `minimize` that does what `_dp_compare_combo` does with a cost function of its own) | other callables, which may store anything |
| paths.py `auto`, `auto_hq`, registry | Random.v, Api.v | |
| path_random.py | Random.v, Executor.v (pools and jobs) | what a pool does inside; wall-clock time (an oracle decides "time is up") |
| sharing.py | Sharing.v, Threads.v, SharingOut.v, SharingCount.v | - |
| backends/object_arrays.py | ObjectEinsum.v | |
| backends/torch.py | Torch.v | device moves; `torch.tensordot` itself |
| backends/theano.py, backends/tensorflow.py | Graph.v (graph mode), Expression.v (eager mode) | devices, sessions, static shape inference of the library |
| backends/dispatch.py | Dispatch.v (look-up and caches), Expression.v (which library a name stands for) | module import is an oracle: name to attributes, constant over time; an AttributeError raised inside an import is not modelled |
| testing.py | Testing.v (build_shapes, rand_equation) | draws are an oracle; a negative `n`, `regularity` or dimension is not modelled; build_views and build_arrays_from_tuples only fill the shapes with random numbers |

Proofs are in the files named `*Facts`, `*Proof` and in the per-topic proof files; theorems about properties are in `Props*.v`, each
followed by an `Example` with concrete data meeting its hypotheses.

## 5. Simplifications

* Integers: dimensions, positions and path entries are natural numbers. Negative path entries (Python indexes from the end) are
  in IntPath.v (C66) only, negative positions of constants in ExprIndex.v (C84) only; `memory_limit=-1` is, as the documented "no limit". Cost functions of the branch and greedy searches return
  integers (Z) instead of floats; only their order is used.
* Interleaved labels are integers (Python accepts any hashable; sortable ones are renamed in sorted order, unsortable ones by
  a fall-back order that is not modelled). `str.lower` is ASCII only.
* `str.find` giving -1 used as an index is an IndexError in the model (numpy would take the last axis). The theorems show that it
  never happens on the paths they cover.
* Arrays are immutable values, except for `out`. Array functions are deterministic and return new objects.
* Sharing: operations are atomic with respect to threads; thread identifiers are not reused; a user does not edit the cache
  dictionary; generators that enter and leave contexts out of order are not modelled; keyword arguments and interleaved input are
  outside the sharing model; the `constants` flag of conversions is part of the name.
* `out`: no casting, no aliasing with operands; `einsum(..., out=)` wants exactly the shape; `out[:] =` broadcasts but does not drop
  leading axes of size 1.
* Object arrays: indexing with fewer indices than axes is an error. Torch: `axes` tuples of length other than two are not modelled.
* Graph libraries (theano, tensorflow 1): building a graph never fails on its contractions, running it does them on the values fed;
  theano refuses a repeated input when the graph is built, tensorflow a fed value of another shape than its placeholder's.
* Path finders run on fuel. Theorems either hold for every fuel ("whatever is returned …") or state that a computable fuel
  suffices; `NoFuel` is never counted as success.

## 6. Properties that are false, and what is proved instead

Each has a `_refuted` theorem with a concrete witness, and a `_partial` theorem with the largest part we found true.

| id | what goes wrong |
|----|------------------|
| C02, C24, C26 | `dp` (so `auto-hq` for 6 to 16 operands) raises RuntimeError when a dimension is 0, or the limit is too small: the cost cap starts from a cost of 0 and doubles to 0 |
| C06 | a comma or a second ellipsis in the output is accepted |
| C08 | `get_symbol(55156..55295)` returns surrogates |
| C09 | implicit output with more than 26 interleaved labels: the symbols after `z` are `A…`, which sort first |
| C13 | a label with sizes 0 and 1: the tracked shape says 1 |
| C17, C18 | `optimal`'s result cache ignores which tensors remain: with a label in three places it can return a path that is not the cheapest or is above the limit |
| C25 | minimising `combo`/`limit` under an unmeetable limit never returns |
| C28 | with an executor and `max_repeats > pre_dispatch` some repeats are dropped |
| C30 | an expression called with shapes that broadcast where the build shapes did not fails |
| C31 | an expression of constants only fails on every call |
| C32 | an `optimize=False` call with an ellipsis and a non-letter label stores a wrong value under a valid key |
| C34 | `get_sharing_cache()` outside contexts leaves an empty stack; `currently_sharing()` is then True |
| C35 | `out` is ignored if the last step is an einsum inside a context; a 0-d `out` after a tensordot raises IndexError |
| C36 | a conversion cached under the id of a dropped array is returned for a new array with that id |
| C37 | object einsum: broadcasting size-1 dimensions, sums over nothing |
| C38 | torch fallback: more than 52 axes; invalid `axes` accepted |
| C39 | a reused `BranchBound` returns a path found under an earlier, larger limit |
| C40 | a name registered with capitals replaces the option of the same lower-case name |
| C41 | an incomplete explicit path is executed, and the value is wrong |
| C43 | `optimize=False` renames spaces and dots like labels when a label is not a letter |
| C45 | `get_shape` of an empty list; of a list of arrays |
| C46 | the cost of random trials differs from PathInfo's when a label occurs once |
| C50 | after the first step greedy may contract a pair that is not the cheapest: only the best partner of each tensor is queued |
| C52 | the jitter of random-greedy's default cost also applies to run 0: all runs can be worse than greedy |
| C53 | the cutoff of `branch-all` (4 times) drops the best path; outer products are not tried while some pair shares a label |
| C55 | the cutoff drops the pair with the least memory added |
| C56 | the optimized cost can exceed the naive one: `a,b->`, dimensions of one, steps with one operand (which `dp` makes) |
| C57 | a default given once stays cached for calls without one; `has_backend` ignores case, the lookup that follows does not |
| C58 | `rand_equation(1, 2)` never returns; `rand_equation(3, 1)` gives an operand without labels although the code means to exclude that |
| C61 | graph libraries in a sharing context: one array passed twice on the first call gets one placeholder, later calls feed one array to both operands; tensorflow refuses other shapes than the first call's |
| C62 | `parallel = 0` raises after shutting the old pool down and leaves it in place: later calls raise RuntimeError; when a trial raises, submitted jobs are neither waited for nor cancelled |
| C63 | with a label on three operands the search keeps labels that are already summed in its keys and contracts a pair that is not the cheapest, also at temperature zero |
| C64 | a keyword argument of einsum (dtype, order, casting) is a TypeError if a step is done by tensordot, also if it says the default; in a sharing context it is dropped silently |
| C65 | the cost of `optimal` depends on the order of the operands: 'ab,bc,b->ac' costs 100, 'bc,ab,b->ac' 84 (a=b=2, c=10); that of `greedy` too ('ab,bc,cd,de,ef->af'), and a larger dimension can make its path cheaper |
| C66 | positions are taken out one by one, the largest first: (-1,-2) of three operands contracts the last and the first; (-3,-1) is an IndexError; `contract_expression` with constants 1, 2 and path [(-1,-2),(0,1)] fails with a TypeError |
| C67 | with labels in two places 'aedb,cb,c,e->ad' costs `greedy` and the branching searches less with limit 16 (138) than without limit (186, 168); 'ab,a,cad->cdb' costs `optimal` 100 with limit 16, 120 without; 'ab,bc,ca->' with dimensions 1 costs 3 with limit 0 and 4 with limit 1 |
| C69 | `str` of an expression of two steps shows `einsum_kwargs=...` twice (the line is in the loop over steps) |
| C70 | 'ab,bc,cd->ad' with limit 16 by 'random-greedy' (limit never read); 'a,b,c->abc' with limit 5 by 'dp' (parts are joined whatever the limit); the network of C18 with a label in three places by 'optimal' |
| C78 | `convert_to_valid_einsum_chars('...b')` is 'aaab'; with 27 labels the one after `z` becomes `A`, which sorts first |
| C82 | a single operand 'ab' with output 'a' by 'random-greedy': `for i, j in ssa_path` cannot unpack (0,), a ValueError |
| C84 | `contract_expression('ab,b->a', (2, 1), np.array([1]), constants=[-1])` is built (the vector is read as the shape (1,)) and every call raises: with one array StopIteration, else ValueError |

Seen in the code but not stated as theorems: random-greedy and auto-hq above 16 operands ignore `memory_limit`; random-greedy on
one input raises ValueError; greedy on no inputs TypeError, BranchBound KeyError; a plain function as `optimize` is taken for an
explicit path; `contract(optimize=False)` ignores `backend`; the example in `format_const_einsum_str`'s docstring does not match;
ragged nested lists use first elements only; `has_backend` lower-cases its argument but `CONVERT_BACKENDS[backend]` does not;
`contract_expression(optimize=None)` raises ValueError though `contract` takes None for auto; `random_seed` reseeds Python's global generator.

## 7. Mutation tests

`seeded/LOG.jsonl` has one line per wrong program tried: a definition of the model was edited in a scratch copy, everything rebuilt, and the
first lemmas that no longer compile recorded, with the theorems of the manifest that depend on them.
