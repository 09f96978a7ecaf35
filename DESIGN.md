# Design: a Rocq model of isl

Technique: executable Gallina models of the C functions (`theories/*Model.v`), small separate specifications, proofs, and property files (`theories/Props*.v`) that contain only theorem statements closed by `exact`, each followed by `Print Assumptions`.

## Plan per property

* **C01** Integer arithmetic is exact across the small/big representation switch — IntModel.v: tagged 64-bit word + heap-free big value; every isl_sioimath_* function with explicit 32/64-bit wraps. Theorems by case analysis on representation + lia.
* **C02** Integer division rounds as its name says — same model; C truncating division is Z.quot/Z.rem; prove equality with Z.div / ceiling.
* **C03** Integer observations do not depend on representation — same model; digits of big numbers modelled little-endian with a parametric digit width.
* **C04** Subtracting an unsigned long from an isl_int is exact — same model; expected to be refuted (guard constant has its operands swapped).
* **C05** Conversion of an isl_int to double returns the number — same model, exact-rational reading of the Horner loop; expected refuted for numbers of two or more digits.
* **C06** isl_val arithmetic is exact extended-rational arithmetic in canonical form — ValModel.v on Z pairs; spec is Q plus three special values.
* **C07** isl_val special values follow extended-real rules — ValModel.v; truth table spec on an inductive type ext := NaN | PInf | NInf | Fin Q.
* **C08** isl_val comparisons form the usual order — ValModel.v; comparison spec through Qcompare.
* **C09** Integer functions on isl_val meet their definitions — ValModel.v; gcdext loop with well-founded recursion; Z.gcd as spec.  isl_val_gcd sign refuted for equal negative arguments.
* **C10** Printing and re-reading a value is the identity — Val printer and value reader on token/character lists.
* **C11** Chunk export and import of isl_val round-trip — chunk model on byte lists with explicit previous contents (sioimath refuted, gmp proved).
* **C12** The hash table behaves as a finite map for every operation history — HashModel.v: array of (hash,data option); refinement to a finite map for all histories.
* **C13** Sorting returns a sorted stable permutation — SortModel.v: index-level merge loop with buffer; spec = Permutation + StronglySorted + stability.
* **C14** SCC decomposition is correct and topologically ordered — TarjanModel.v: exact DFS state; spec = mutual reachability + order.
* **C15** An error in the edge callback aborts the SCC decomposition — same model with tri-state callback; expected refuted: the recursive call's status is ignored.
* **C16** List operations refine sequence operations — ListModel.v: heap of list objects.
* **C17** Objects have value semantics under copy-on-write — same heap model; per-handle abstract value is unchanged by operations on other handles.
* **C18** Reference counting frees each object exactly once — same heap model; refcount = number of owners invariant.
* **C19** Identifiers are unique per context — IdModel.v on top of HashModel.
* **C20** Sequence (vector) primitives compute linear combinations — SeqModel.v.
* **C21** Hermite normal form — MatModel.v.
* **C22** Matrix inverse, product and transpose are correct — MatModel.v.
* **C23** Gaussian elimination preserves the set of integer points — BasicMap*.v: rows over Z, semantics = integer points with existential divs.
* **C24** Constraint normalization preserves the integer points — same.
* **C25** Removal of duplicate and opposite constraints preserves the set — same.
* **C26** Fourier-Motzkin elimination projects — same, rational semantics over Q.
* **C27** Set operations denote the set-theoretic operations — SetModel.v: basic maps and lists of basic maps; `relates` and `relates_any` in SetSpec.v. Subtraction and complement are part of C28.
* **C28** Subtraction is exact set difference — SubModel.v: the depth-first search over negated constraints with its stack of levels; invariant `inv` in SubLoop.v; `relates_any` of SetSpec.v as the meaning. The answers of the tableau are parameters with the contracts of SubSpec.v.
* **C29** Subset, equality, disjointness and emptiness tests are decisions — on top of C28, relative to an exact test for integer points of a basic map (`sound_sample`, `complete_sample` of SubSpec.v).
* **C30** Simplification in a context (gist) is sound — GistModel.v: uset_gist with all its steps (dropping unrelated constraints by union-find groups, marking shifted constraints, compression by the common equalities, tests against the tableau, reduction by the equalities of the context). then isl_basic_map_gist (alignment of the integer divisions, projection, the separate treatment of the equalities) and isl_map_gist (with the models of compute_divs, plain_is_equal and is_subset from SetModel.v and SubModel.v). The theorems are stated at each point of the context. The tableau, the emptiness test, the detection of implicit equalities, gist_strides, isl_basic_map_drop_redundant_divs and the two hulls are parameters with the contracts of GistSpec.v. Finding (`C30_basic_map_gist_marked_refuted`): the gist in a context that turns out to be empty can be marked empty without having any constraints.
* **C31** Pivoting a simplex tableau preserves its meaning — TabModel.v, TabEqModel.v (equalities on tableaus with inequalities; to_col terminates in a column because the new constraint wins all ties of the ratio test and some point lies on the hyperplane). TabRelaxModel.v: isl_tab_relax; without undo information it may access row -1 (C31_relax_undo_refuted), and redundancy marks are kept even if they are no longer implied (C31_relax_marks_refuted).
* **C32** Tableau rollback restores the represented constraint system — TabModel.v and LpModel.v (undo stack). UndoSpec.v describes the operations between snapshot and rollback as sequences of primitive steps (pivots, marks, killed columns, added rows, flags, nested rollbacks); isl_tab_add_ineq is shown to be such a sequence, the detections and isl_tab_add_eq are not (partial). C32_restore_basis: undoing a record of isl_tab_push_basis never fails and restores the variables of the columns, if no columns were removed in between and no variable of the saved basis is marked redundant.
* **C33** LP and ILP optimisation returns the true optimum — LpModel.v (complete down to the pivots of TabModel.v) and IlpModel.v (relative to contracts for the sampling of integer points and the removal of equalities, IlpSpec.v). Two refutations: objectives that involve local variables are applied to reordered divs, and isl_map_solve_lp returns no solution when the first basic map attains the optimum.
* **C35** Quasi-polynomial arithmetic is pointwise — PolyModel.v, LocalModel.v, QpModel.v.
* **C36** Affine expression arithmetic is pointwise — AffModel.v.
* **C34** Enumeration visits every integer point exactly once — ScanModel.v, relative to contracts for the tableau operations (record `tableau` of ScanSpec.v), for the basis reduction and for isl_set_make_disjoint/isl_set_compute_divs. Two refutations: a 0-dimensional basic set is always counted as one point by isl_basic_set_scan, and isl_set_count_val returns 0 instead of an error for an unbounded set.
* **C37** Piecewise expression operations are pointwise — PwModel.v, relative to contracts for the operations on sets. The strict comparisons (gt_set, lt_set, ne_set) are refuted for values that are not integers, isl_pw_aff_cond is refuted for conditions with NaN pieces.
* **C38** Parameter alignment and reordering preserve meaning — ReorderModel.v.
* **C39** Space transformations invert each other — SpaceModel.v.
* **C40** Printed AST expressions parse back to the same tree — AstPrintModel.v with an independent C grammar.
* **C41** Schedule tree transformations preserve the instance order — SchedModel.v: the trees, the bands, positions in the tree and the transformations of isl_schedule_node.c that split, tile, scale, sink, insert (band, filter, context, guard, mark, sequence, set), splice, delete and cut. The specification (SchedSpec.v) gives each executed instance the trace of its way from the root to a leaf; the order is the lexicographic one on the traces, where the positions in a set are not ordered. Each theorem states the documented order of the transformed subtree, and that the rest of the tree is unchanged; `C41_outside` carries the former over to the whole tree. `C41_map`: the vectors of isl_schedule_get_map have the same length and are ordered as the tree orders the instances (exactly so if there are no sets). `C41_invariant`: the shape of the trees and the field anchored are maintained by every sequence of the transformations that do not remove subtrees. Finding (`C41_anchored_refuted`, `C41_tile_after_cut_refuted`): isl_schedule_tree_reset_children does not update anchored, so that after isl_schedule_node_cut a band may be refused for tiling although nothing depends on it. Missing: expansion and extension nodes, grouping, grafting, order_before/order_after; isl_schedule_node_gist is a parameter with a contract.
* **C42** Dependence analysis finds the last write — FlowModel.v: isl_access_info_compute_flow with must- and may-sources, value based and memory based. The specification (FlowSpec.v) interleaves the position of a statement in the program text with its loop iterators and compares these moments lexicographically; the callback has to return the level that the documentation describes. Assumptions: the must-sources are different statements, and each element is written by instances among which a lexicographically last one exists. Missing: the interface on unions, restrict_fn, coscheduled.
* **C43** The operation limit stops a computation cleanly — CtxModel.v.
* **C44** Variable and parameter compression are bijections on integer points — EqModel.v.
* **C45** Simplification and finalization keep the points of a basic map — SimpModel.v: one invariant (`good`, `pres` in SimpSpec.v) kept by each step.
* **C46** Removing redundant integer divisions keeps the points of a basic map — RdivModel.v: each of the steps (unbounded variables, a pair of opposite bounds, a fixed value, a definition from bounds, coalescing two variables, a change of variables, exact elimination) keeps `good` and the order of the variables; induction on the recursion.
* **C47** The tableau finds every implicit equality and every redundant constraint — TabModel.v, TabComplete.v, TabComplete2.v: invariant of the two loops: the count is at least the number of marked constraints that are still present, and every open constraint is marked or has a point as evidence; the evidence survives pivots and further marks because these only remove constraints.

## Trusted base

* The kernel of Coq 8.16.1 (`coqc`; the compiled files are also accepted by `coqchk`).
* `Print Assumptions` is run after every theorem of `theories/Props*.v`. It prints "Closed under the global context" for each of them, except for the two theorems `C42_flow_partial` and `C42_complete` of PropsFlow.v, which use the standard library axiom `Classical_Prop.classic` (excluded middle): sets of integer vectors are arbitrary predicates there, and the proofs distinguish whether a source exists. Three examples, `exact_sample_exists` of PropsSub.v, `ex_contains` of PropsPw.v and `ex_tableaus` of PropsScan.v (which are not claims, they only show that the hypotheses of C29, C37 and C34 can be met), use `classic` and `constructive_indefinite_description` of the standard library (`ClassicalEpsilon`).  There are no `Variable`/`Hypothesis` outside sections, no functors, no plugins.
* That the definitions in `theories/*Model.v` say what the C code does.  Each definition carries the file and lines it was read from.  The C code was read, not run.
* That the definitions in `theories/*Spec.v` (and the statements in `theories/Props*.v`) say what a user expects.

## What is modelled, and how

| files | C code | simplifications |
|---|---|---|
| IntModel | isl_int_sioimath.{h,c}, the parts of imath it calls (mp_int_* results by their documented value, digits explicit where they are observable) | 32/64-bit wraps explicit; memory allocation does not fail; imath's internal algorithms are their mathematical result |
| ValModel, ValPrint*, StreamModel | isl_val.c, the value parts of isl_stream.c, isl_printer.c | isl_int is Z; streams are character lists; only the token kinds needed for values |
| HashModel, IdModel | isl_hash.c, isl_id.c | hash function and malloc results are arguments |
| SortModel, TarjanModel | isl_sort.c, isl_tarjan.c | the comparison / the edge callback are arguments (the latter may fail) |
| ListModel, HeapModel | isl_list_templ.c, reference counting | heap of reference-counted objects; malloc results are arguments |
| SeqModel, MatModel, EqModel | isl_seq.c, isl_mat.c, isl_equalities.c | isl_int is Z, memory allocation does not fail; `res` distinguishes NULL, undefined behaviour and divergence |
| BMapModel, BDupModel, BElimModel | isl_map_simplify.c (gauss, normalize, remove_duplicate_constraints, elimination), parts of isl_map.c | constraint rows are lists of Z; hash function an argument; the tableau test used to remove redundant constraints is an argument (instantiated by TabModel's `tab_of`, proved sound), the flags an argument |
| SimpModel | isl_map_simplify.c (isl_basic_map_simplify with all its steps, isl_basic_map_finalize), the helpers of isl_map.c they call | as for BMapModel; the flag FINAL and the extra space of the row arrays are not modelled; the outer loop takes fuel |
| SetModel | isl_map.c (intersection, inverse, composition, products, sum, negation, projection, domain, range of basic maps and maps; union, normal forms, removal of duplicates) | as for BMapModel; integer (not rational) basic maps; samples and identifiers are not modelled; isl_basic_map_drop_redundant_divs, isl_basic_map_is_empty and qsort are parameters with the stated contract; RdivSet.v puts the model of isl_basic_map_drop_redundant_divs and of the tableau in place of the first one for composition, projection, domain and range (PropsSetDrop.v) |
| SubModel | isl_map_subtract.c, disjointness tests of isl_map_simplify.c, emptiness, inclusion and equality of isl_map.c | as for SetModel; the tableau (emptiness, redundancy and classification of constraints), isl_basic_map_sample, isl_map_compute_divs and qsort are parameters with the contracts of SubSpec.v; the two maps have the same space; isl_map_make_disjoint is not modelled; the search takes fuel |
| GistModel | isl_map_simplify.c (isl_basic_map_gist, uset_gist with its steps, isl_map_gist), align_divs, underlying_set, overlying_set of isl_map.c | as for SetModel; the tableau with frozen constraints, isl_basic_map_is_empty, isl_basic_map_detect_equalities, gist_strides and, for maps, the subset test and the hulls are parameters; the flags NO_IMPLICIT and NO_REDUNDANT are not modelled; alignment of parameters is in ReorderModel.v |
| RdivModel | isl_map_simplify.c (isl_basic_map_drop_redundant_divs with all its steps), isl_basic_map_fix and the removal of a single integer division of isl_map.c | as for SimpModel; the tableau is a pair of parameters (emptiness, rounded minimum) with the contracts of RdivSpec.v, which RdivTab.v proves for the model of isl_tab.c; the tableau is rebuilt for each query instead of being rolled back; the recursion takes fuel |
| TabModel | isl_tab.c (pivoting, adding constraints, detection of implicit equalities and redundant constraints, restoring redundant constraints) | isl_int is Z; rows are lists, the M column (`tab->M`) and the associated basic map (`tab->bmap`) are not modelled; loops without an obvious bound take fuel; the undo records are a log |
| TabEqModel | isl_tab.c (isl_tab_add_eq) | as for TabModel and LpModel |
| TabRelaxModel | isl_tab.c (isl_tab_relax) | as for TabModel |
| LpModel | isl_tab.c (isl_tab_snap, isl_tab_rollback with the undo records of the model, isl_tab_min, isl_tab_get_sample_value) and isl_lp.c (isl_tab_solve_lp, isl_map_solve_lp) | a snapshot is the number of undo records; no dual vector, no records for inserted variables, bmap, samples and callbacks; "opt" and "sol" are not NULL |
| IlpModel | isl_ilp.c (unit_box, initial_solution, add_bounds, solve_ilp, basic_set_solve_ilp) | isl_basic_set_sample_vec and isl_basic_set_remove_equalities are parameters with the contracts of IlpSpec.v; isl_basic_set_opt and isl_set_opt are not modelled |
| SchedModel | isl_schedule_tree.c (anchored, children, replace_child, insert, sequence_splice, band_tile, band_split, band_scale, append_to_leaves, subtree_schedule_extend), isl_schedule_band.c (from_multi_union_pw_aff, tile, point, drop, scale, shift), isl_schedule_node.c (positions, graft_tree, band_split, band_tile, band_scale, band_sink, insert_*, cut, delete, sequence_splice_child(ren)), isl_schedule.c (get_map) | instances are an arbitrary type, union sets are membership tests, union piecewise affine expressions are partial functions; no spaces, parameters or identifiers; no expansion or extension nodes; of the AST build options only whether they anchor the band; isl_schedule_node_gist, isl_union_set_is_subset and isl_union_map_is_empty are parameters with contracts |
| FlowModel | isl_flow.c (isl_access_info_alloc, add_source, sort_sources, compute_flow, isl_flow_get_no_source) | a set is a predicate on integer vectors and a relation one on pairs; isl_map_partial_lexmax is modelled by its result; the emptiness tests are sound parameters; restrict_fn and coscheduled NULL; an error of the callback on any pair of must-sources makes the sort fail |
| LocalModel | isl_local.c (known divs, extension of points), isl_merge_divs and its helpers | as for matrices; the division matrix is a list of rows of Z |
| PolyModel | isl_poly_* of isl_polynomial.c | a polynomial is an inductive tree; isl_int is Z; reference counts and copy-on-write not modelled; callbacks of foreach_term succeed |
| QpModel | isl_qpolynomial_* of isl_polynomial.c: arithmetic, evaluation, comparison, the simplification of integer divisions (sort_divs, reduce_divs, remove_redundant_divs), from_aff, insert_dims, move_dims | a quasi-polynomial is a record of a set space, a matrix and a polynomial; qsort is an argument; the space changes of insert_dims and move_dims are not modelled |
| AffModel | isl_aff_* of isl_aff.c: construction, coefficients, normalization (plug_in_integral_divs, plug_in_unit_divs, sort_divs, remove_unused_divs), neg, add, sub, scale, floor, ceil, mod, mul, div, eval, plain equality; isl_multi_aff_align_divs, isl_seq_preimage, isl_local_space_preimage_multi_aff, isl_aff_pullback_multi_aff; isl_local_space_substitute_seq, isl_vec_expand | an expression is a record of a set space, a matrix and a list of coefficients; copy-on-write is not modelled, except that the arguments of isl_aff_div may share coefficients (an argument tells whether they do); the new elements of isl_vec_extend are arbitrary (an argument); aligning parameters is not modelled |
| PwModel | isl_pw_templ.c, isl_pw_eval.c, isl_pw_un_op_templ.c, isl_pw_neg/sub_templ.c, isl_pw_union_opt.c as instantiated for isl_pw_aff, and isl_pw_aff_* of isl_aff.c (arithmetic, rounding, mod, tdiv_q, tdiv_r, min, max, union_add, union_max, union_min, sets of points where a relation holds, select, cond, indicator function) | a piecewise expression is a list of (set, expression) pairs in one common space; operations on sets, the simplification of basic sets, isl_aff_gist, the substitution of the equalities of the affine hull, comparison and sorting are parameters with the contracts of PwSpec.v, and `C37_set_operations` proves that the models of SetModel.v, SubModel.v and SimpModel.v meet those on sets (isl_set_coalesce, isl_set_normalize, isl_set_contains_point, gist and affine hull are only assumed to meet theirs); alignment of parameters, capacity of the arrays (a flag `full`) and reference counts not modelled |
| ScanModel | isl_scan.c (isl_basic_set_scan with its level loop, scan_0D, isl_set_scan, increment_counter, increment_range, isl_set_count_upto, isl_basic_set_count_upto, isl_set_count_val) and isl_set_foreach_point of isl_point.c | the arrays of min, max and snapshots are a list of frames (one per level entered); the tableau, the basis reduction and make_disjoint/compute_divs are parameters with the contracts of ScanSpec.v; the transformation by the basis matrix is explicit |
| CtxModel | isl_ctx.c (operation counter, error handling, allocation accounting) | error messages and longjmp-style abort not modelled |
| AstModel | isl_ast.c (printing of expressions in C format), isl_printer.c | printing to a string; identifier names an argument |
| SpaceModel | isl_space.c | value semantics (no reference counts), no allocation failure, no overflow of dimension counts |
| ReorderModel | isl_reordering.c, isl_dim_map.c, alignment in isl_space.c, isl_map.c, isl_aff.c, isl_vec.c, isl_local.c | value semantics, no allocation failure; unbind_params_insert_domain not modelled; alignment of piecewise, multi and polynomial objects not modelled |

Not modelled (so far): everything not cited in a model file, in particular piecewise objects other than isl_pw_aff, the parts of schedule trees listed under C41, code generation, dependence analysis on unions, file input and the Python/C++ interfaces.
